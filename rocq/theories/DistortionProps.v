(** Property C47: the lens distortion models. *)
From Coq Require Import Reals Lra Psatz.
From Coquelicot Require Import Coquelicot.
From Verif Require Import CalculusSpec CalculusFacts DistortionModel DistortionSpec DistortionProofs.
Local Open Scope R_scope.

Lemma five_pos : 0 < / 10 ^ 5 < / 4.
Proof. split; [apply Rinv_0_lt_compat; lra|]. apply Rinv_lt_contravar; lra. Qed.
Lemma w_valid w : / 2 <= w <= 3 / 2 -> 0 < w < PI /\ / 10 ^ 5 < w * w /\ cos (w / 2) <> 0.
Proof.
  intros H. pose proof PI2_3_2. pose proof five_pos. split; [lra|]. split; [nra|]. apply Rgt_not_eq, cos_gt_0; lra.
Qed.
Lemma radius_x r : 0 <= r -> radius (r, 0) = r.
Proof. intros H. unfold radius. cbn [fst snd]. replace (r * r + 0 * 0) with (r * r) by ring. apply sqrt_square. exact H. Qed.
Lemma radius_0 : radius (0, 0) = 0.
Proof. apply radius_x. lra. Qed.
Lemma angle_bound : 0 < max_valid_angle < PI / 2.
Proof. unfold max_valid_angle. pose proof PI_RGT_0. lra. Qed.

(** ** No distortion *)
Theorem lx_null p : null_undistort (null_distort p) = p /\ is_jacobian null_distort p (null_jacobian p).
Proof.
  split; [reflexivity|]. destruct p as [x y]. split; cbn; intros X Y t dX dY HX HY EX EY; (auto_derive; [curve_conds|]; use_der HX; use_der HY; ring).
Qed.
Print Assumptions lx_null.

(** ** Radial-tangential: both Jacobians are the derivatives, for all parameters and points. *)
Theorem lx_radtan_jacobians k1 k2 p1 p2 p :
  is_jacobian (radtan_distort k1 k2 p1 p2) p (radtan_jacobian k1 k2 p1 p2 p) /\
  is_jacobian4 (fun k1 k2 p1 p2 => radtan_distort k1 k2 p1 p2 p) k1 k2 p1 p2 (radtan_param_jacobian p).
Proof. split; [apply radtan_jacobian_ok|apply radtan_param_ok]. Qed.
Print Assumptions lx_radtan_jacobians.
(** A Jacobian in this sense is unique, so the statement pins the four entries. *)
Theorem lx_jacobian_unique f p J J' : is_jacobian f p J -> is_jacobian f p J' -> J = J'.
Proof.
  destruct J as [[a b] [c d]], J' as [[a' b'] [c' d']]. intros [A B] [A' B'].
  destruct (jac2_unique _ _ _ _ _ _ _ A A') as [E1 E2], (jac2_unique _ _ _ _ _ _ _ B B') as [E3 E4]. cbn in *. congruence.
Qed.
Print Assumptions lx_jacobian_unique.
Example lx_radtan_value : radtan_distort 1 0 0 0 (1, 2) = (6, 12) /\ radtan_jacobian 1 0 0 0 (1, 2) = ((8, 4), (4, 14)).
Proof. unfold radtan_distort, radtan_jacobian. split; f_equal; try f_equal; ring. Qed.

(** The iterative inverse: a Newton step solves the linearised equation, and it is refused exactly for singular Jacobians. *)
Theorem lx_newton_step F e :
  (newton_step F e = None <-> fst (fst F) * snd (snd F) - snd (fst F) * fst (snd F) = 0) /\
  (forall u, newton_step F e = Some u ->
     fst (fst F) * fst u + snd (fst F) * snd u = fst e /\ fst (snd F) * fst u + snd (snd F) * snd u = snd e).
Proof.
  split; [apply newton_step_none|]. intros u Hu. destruct F as [[a b] [c d]], e as [e0 e1]. cbn [fst snd].
  assert (N : a * d - b * c <> 0).
  { intros Z. rewrite (proj2 (newton_step_none ((a, b), (c, d)) (e0, e1)) Z) in Hu. discriminate. }
  destruct (newton_step_solves a b c d e0 e1 N) as (u0 & v0 & E & E1 & E2). rewrite E in Hu. injection Hu as <-. split; assumption.
Qed.
Print Assumptions lx_newton_step.
Example lx_newton_step_case : newton_step ((2, 0), (0, 4)) (2, 8) = Some (1, 2).
Proof. unfold newton_step. destruct (Req_EM_T _ 0) as [A|A]; [exfalso; lra|]. f_equal. f_equal; field. Qed.
(** A result reported as converged is one Newton step away from a point whose distorted image is within the tolerance of the
    input; a point that distorts exactly to the input is kept. (Convergence is in RadTanInvProps.v: `_partial`.) *)
Theorem lx_radtan_undistort_partial k1 k2 p1 p2 tol y p : radtan_undistort k1 k2 p1 p2 tol y = Some (p, true) ->
  exists q du, dist2 y (radtan_distort k1 k2 p1 p2 q) <= tol /\
    newton_step (radtan_jacobian k1 k2 p1 p2 q)
      (fst y - fst (radtan_distort k1 k2 p1 p2 q), snd y - snd (radtan_distort k1 k2 p1 p2 q)) = Some du /\
    p = (fst q + fst du, snd q + snd du).
Proof. apply newton_loop_spec. Qed.
Print Assumptions lx_radtan_undistort_partial.
Theorem lx_radtan_zero tol p : 0 <= tol -> radtan_undistort 0 0 0 0 tol (radtan_distort 0 0 0 0 p) = Some (p, true).
Proof.
  intros Ht. assert (E : forall q, radtan_distort 0 0 0 0 q = q). { intros [x y]. unfold radtan_distort. f_equal; ring. }
  rewrite E. apply newton_loop_fix; [exact Ht|repeat constructor|apply E|]. destruct p as [x y]. cbn [radtan_jacobian fst snd]. lra.
Qed.
Print Assumptions lx_radtan_zero.
Theorem lx_radtan_centre k1 k2 p1 p2 tol : 0 <= tol -> radtan_undistort k1 k2 p1 p2 tol (radtan_distort k1 k2 p1 p2 (0, 0)) = Some ((0, 0), true).
Proof.
  intros Ht. assert (E : radtan_distort k1 k2 p1 p2 (0, 0) = (0, 0)). { unfold radtan_distort. f_equal; ring. }
  rewrite E. apply newton_loop_fix; [exact Ht|repeat constructor|exact E|]. cbn [radtan_jacobian fst snd]. lra.
Qed.
Print Assumptions lx_radtan_centre.

(** ** Equidistant: both Jacobians are the derivatives for points further than 1e-8 from the centre. *)
Theorem lx_equi_jacobians_partial k1 k2 k3 k4 p : / 10 ^ 8 < radius p ->
  is_jacobian (equi_distort k1 k2 k3 k4) p (equi_jacobian k1 k2 k3 k4 p) /\
  is_jacobian4 (fun k1 k2 k3 k4 => equi_distort k1 k2 k3 k4 p) k1 k2 k3 k4 (equi_param_jacobian p).
Proof. intros H. split; [apply equi_jacobian_ok|apply equi_param_ok]; exact H. Qed.
Print Assumptions lx_equi_jacobians_partial.
Example lx_equi_jacobians_case : / 10 ^ 8 < radius (3, 4).
Proof.
  unfold radius. cbn [fst snd]. replace (3 * 3 + 4 * 4) with (5 * 5) by ring. rewrite sqrt_square by lra.
  assert (/ 10 ^ 8 < / 1) by (apply Rinv_lt_contravar; lra). lra.
Qed.
(** At the centre the reported Jacobian is zero although the function is the identity there. *)
Theorem lx_equi_jacobian_refuted : exists k1 k2 k3 k4 p, ~ is_jacobian (equi_distort k1 k2 k3 k4) p (equi_jacobian k1 k2 k3 k4 p).
Proof.
  exists 0, 0, 0, 0, (0, 0). intros H. assert (R0 : radius (0, 0) < / 10 ^ 10). { rewrite radius_0. apply Rinv_0_lt_compat. lra. }
  pose proof (lx_jacobian_unique _ _ _ _ H (equi_centre_identity 0 0 0 0 _ R0)) as E.
  unfold equi_jacobian in E. unfold radius in R0. cbn [fst snd] in R0. destruct (Rlt_dec _ _) as [_|A]; [|contradiction]. injection E. lra.
Qed.
Print Assumptions lx_equi_jacobian_refuted.
(** There the derivative with respect to the coefficients is zero, as reported. *)
Theorem lx_equi_param_centre k1 k2 k3 k4 p : radius p < / 10 ^ 10 -> is_jacobian4 (fun k1 k2 k3 k4 => equi_distort k1 k2 k3 k4 p) k1 k2 k3 k4 (equi_param_jacobian p).
Proof.
  destruct p as [x y]. unfold radius. cbn [fst snd]. intros H. unfold equi_param_jacobian, equi_distort. destruct (Rlt_dec _ _) as [_|N]; [|contradiction].
  split; intros X Y Z W t dX dY dZ dW _ _ _ _ _ _ _ _; cbn [fst snd]; replace (0 * dX + 0 * dY + 0 * dZ + 0 * dW) with 0 by ring; apply is_derive_Reals; apply derivable_pt_lim_const.
Qed.
Print Assumptions lx_equi_param_centre.
(** For all parameters, whenever the point is closer than 1e-10 to the centre. *)
Theorem lx_equi_jacobian_centre k1 k2 k3 k4 p : radius p < / 10 ^ 10 ->
  is_jacobian (equi_distort k1 k2 k3 k4) p ((1, 0), (0, 1)) /\ equi_jacobian k1 k2 k3 k4 p = ((0, 0), (0, 0)).
Proof.
  intros H. split; [apply equi_centre_identity; exact H|]. destruct p as [x y]. unfold radius in H. cbn [fst snd] in H.
  unfold equi_jacobian. destruct (Rlt_dec _ _) as [_|A]; [reflexivity|contradiction].
Qed.
Print Assumptions lx_equi_jacobian_centre.

(** ** Fisheye *)
(** The Jacobian is the derivative away from the circle on which the code switches formulas. *)
Theorem lx_fisheye_jacobian_partial w p : radius p * radius p <> / 10 ^ 5 ->
  is_jacobian (fisheye_distort w) p (fisheye_jacobian w p).
Proof.
  intros Hr. destruct (Rlt_le_dec (w * w) (/ 10 ^ 5)) as [Hw|Hw]; [apply fisheye_jacobian_small; exact Hw|].
  destruct (Rtotal_order (radius p * radius p) (/ 10 ^ 5)) as [L|[E|L]]; [apply fisheye_jacobian_near|contradiction|apply fisheye_jacobian_far]; assumption.
Qed.
Print Assumptions lx_fisheye_jacobian_partial.
Example lx_fisheye_jacobian_case : fisheye_valid 1 /\ radius (2, 0) * radius (2, 0) <> / 10 ^ 5.
Proof. rewrite radius_x by lra. pose proof five_pos. split; [right; lra|lra]. Qed.
(** The derivative with respect to w, for points outside the inner disc. *)
Theorem lx_fisheye_params_partial w p : / 2 <= w <= 3 / 2 -> / 10 ^ 5 <= radius p * radius p ->
  jac1 (fun w => fst (fisheye_distort w p)) w (fst (fisheye_param_jacobian w p)) /\
  jac1 (fun w => snd (fisheye_distort w p)) w (snd (fisheye_param_jacobian w p)).
Proof. intros H Hr. destruct (w_valid w H) as (_ & Hw & Hc). apply fisheye_param_far; assumption. Qed.
Print Assumptions lx_fisheye_params_partial.
Example lx_fisheye_params_case : / 2 <= 1 <= 3 / 2 /\ / 10 ^ 5 <= radius (2, 0) * radius (2, 0).
Proof. rewrite radius_x by lra. pose proof five_pos. lra. Qed.
(** Inside the disc the code omits the coordinates of the point as factors: at the centre the derivative is zero,
    the reported value is not, for every admissible w. *)
Theorem lx_fisheye_params_refuted w : / 2 <= w <= 3 / 2 ->
  exists p, ~ jac1 (fun w => fst (fisheye_distort w p)) w (fst (fisheye_param_jacobian w p)).
Proof.
  intros H. destruct (w_valid w H) as (Hw & Hw2 & Hc). pose proof five_pos as F5. exists (0, 0). intros J.
  assert (Hr : radius (0, 0) * radius (0, 0) < / 10 ^ 5) by (rewrite radius_0; lra).
  destruct (fisheye_param_near_true w (0, 0) Hw2 Hc Hr) as [T _].
  pose proof (jac1_unique _ _ _ _ J T) as E. unfold fisheye_param_jacobian in E.
  destruct (Rlt_dec (w * w) _) as [A|_]; [lra|]. unfold radius in Hr. cbn [fst snd] in Hr, E.
  destruct (Rlt_dec (sqrt _ * sqrt _) _) as [_|A]; [|contradiction]. cbn [fst snd] in E.
  assert (0 < (w - sin w) / (w * w * cos (w / 2) * cos (w / 2))).
  { pose proof (sin_lt_x w ltac:(lra)). apply Rdiv_lt_0_compat; [lra|]. assert (0 < cos (w / 2) * cos (w / 2)) by nra. nra. }
  lra.
Qed.
Print Assumptions lx_fisheye_params_refuted.
(** With the missing factors the values inside the disc would be right. *)
Theorem lx_fisheye_params_inner w p : / 2 <= w <= 3 / 2 -> radius p * radius p < / 10 ^ 5 ->
  jac1 (fun w => fst (fisheye_distort w p)) w (fst p * fst (fisheye_param_jacobian w p)) /\
  jac1 (fun w => snd (fisheye_distort w p)) w (snd p * snd (fisheye_param_jacobian w p)).
Proof.
  intros H Hr. destruct (w_valid w H) as (_ & Hw2 & Hc). destruct (fisheye_param_near_true w p Hw2 Hc Hr) as [T1 T2]. unfold fisheye_param_jacobian. destruct p as [u v].
  destruct (Rlt_dec (w * w) _) as [A|_]; [lra|]. unfold radius in Hr. cbn [fst snd] in *. destruct (Rlt_dec (sqrt _ * sqrt _) _) as [_|A]; [|contradiction]. cbn [fst snd].
  rewrite !Rmult_1_l. split; [exact T1|exact T2].
Qed.
Print Assumptions lx_fisheye_params_inner.
Example lx_fisheye_params_inner_case : / 2 <= 1 <= 3 / 2 /\ radius (0, 0) * radius (0, 0) < / 10 ^ 5.
Proof. rewrite radius_0. pose proof five_pos. lra. Qed.
(** The closed-form inverse is exact for every point outside the inner disc up to a viewing angle of 89 degrees. *)
Theorem lx_fisheye_inverse_partial w p : / 2 <= w <= 3 / 2 -> / 10 ^ 5 <= radius p * radius p ->
  2 * tan (w / 2) * radius p <= tan max_valid_angle -> fisheye_undistort w (fisheye_distort w p) = p.
Proof.
  intros H Hr Ha. destruct (w_valid w H) as (Hw & Hw2 & _). apply fisheye_inverse; [exact Hw|lra|exact Hr|].
  pose proof angle_bound. rewrite <- (atan_tan max_valid_angle) by lra.
  destruct Ha as [Ha|Ha]; [left; apply atan_increasing; exact Ha|right; rewrite Ha; reflexivity].
Qed.
Print Assumptions lx_fisheye_inverse_partial.
(** And for the other way round. *)
Theorem lx_fisheye_inverse_back_partial w q : / 2 <= w <= 3 / 2 -> radius q * w <= max_valid_angle ->
  / 10 ^ 5 <= radius (fisheye_undistort w q) * radius (fisheye_undistort w q) ->
  fisheye_distort w (fisheye_undistort w q) = q.
Proof.
  intros H Ha Hr. destruct (w_valid w H) as (Hw & Hw2 & _). pose proof (tan_half_pos w Hw) as HT. pose proof five_pos. pose proof angle_bound.
  destruct q as [x y]. unfold fisheye_undistort in *. unfold radius in Ha. cbn [fst snd] in Ha.
  destruct (Req_EM_T (tan (w / 2) * 2) 0) as [A|_]; [lra|].
  pose proof (sqrt_pos (x * x + y * y)) as P0.
  destruct (Req_EM_T (sqrt (x * x + y * y)) 0) as [Z|Z].
  { exfalso. unfold radius in Hr. cbn [fst snd] in Hr. rewrite Z in Hr. lra. }
  assert (P : 0 < sqrt (x * x + y * y)) by lra. assert (Pw : 0 < sqrt (x * x + y * y) * w) by nra.
  rewrite (Rabs_right (sqrt _ * w)) in * by lra. destruct (Rle_dec _ max_valid_angle) as [_|A]; [|contradiction].
  assert (PT : 0 < tan (sqrt (x * x + y * y) * w)) by (apply tan_gt_0; lra).
  revert Hr. set (s := tan (sqrt _ * w) / _). assert (Ps : 0 < s). { unfold s. apply Rdiv_lt_0_compat; nra. }
  unfold radius. cbn [fst snd]. rewrite scaled_radius by lra. intros Hr. unfold fisheye_distort.
  destruct (Rlt_dec (w * w) _) as [A|_]; [lra|]. rewrite scaled_radius by lra. destruct (Rlt_dec (s * _ * _) _) as [A|_]; [lra|].
  assert (Es : 2 * tan (w / 2) * (s * sqrt (x * x + y * y)) = tan (sqrt (x * x + y * y) * w)). { unfold s. field. lra. }
  rewrite Es, atan_tan by lra. f_equal; field; lra.
Qed.
Print Assumptions lx_fisheye_inverse_back_partial.
Theorem lx_fisheye_inverse_zero p : fisheye_undistort 0 (fisheye_distort 0 p) = p.
Proof.
  destruct p as [x y]. pose proof five_pos. unfold fisheye_distort. destruct (Rlt_dec (0 * 0) _) as [_|A]; [|exfalso; lra].
  unfold fisheye_undistort. replace (0 / 2) with 0 by field. rewrite tan_0. destruct (Req_EM_T _ 0) as [_|A]; [f_equal; ring|exfalso; apply A; ring].
Qed.
Print Assumptions lx_fisheye_inverse_zero.
Lemma tan_89_big : 1 < tan max_valid_angle.
Proof. rewrite <- tan_PI4. pose proof PI_RGT_0. unfold max_valid_angle. apply tan_increasing; lra. Qed.
Lemma tan_half_1 : 2 * tan (1 / 2) < 2.
Proof. pose proof PI2_3_2. assert (tan (1 / 2) < tan (PI / 4)) by (apply tan_increasing; lra). rewrite tan_PI4 in *. lra. Qed.
Example lx_fisheye_inverse_case : / 10 ^ 5 <= radius (/ 2, 0) * radius (/ 2, 0) /\ 2 * tan (1 / 2) * radius (/ 2, 0) <= tan max_valid_angle.
Proof. rewrite radius_x by lra. pose proof five_pos. pose proof tan_89_big. pose proof tan_half_1. lra. Qed.
(** Beyond 89 degrees the "undistorted" point is still the distorted one; the function gives no sign of it. *)
Theorem lx_fisheye_inverse_refuted w : / 2 <= w <= 3 / 2 -> exists p, fisheye_undistort w (fisheye_distort w p) <> p.
Proof.
  intros H. destruct (w_valid w H) as (Hw & Hw2 & _). pose proof (tan_half_pos w Hw) as HT. pose proof five_pos. pose proof angle_bound.
  pose proof tan_89_big as HB. set (r := 10 + tan max_valid_angle / (2 * tan (w / 2))).
  assert (Pr : 10 < r). { unfold r. assert (0 < tan max_valid_angle / (2 * tan (w / 2))) by (apply Rdiv_lt_0_compat; lra). lra. }
  exists (r, 0). assert (E : radius (r, 0) = r) by (apply radius_x; lra).
  assert (B : max_valid_angle < atan (2 * tan (w / 2) * radius (r, 0))).
  { rewrite E. rewrite <- (atan_tan max_valid_angle) at 1 by lra. apply atan_increasing. unfold r.
    replace (2 * tan (w / 2) * (10 + tan max_valid_angle / (2 * tan (w / 2)))) with (20 * tan (w / 2) + tan max_valid_angle) by (field; lra). lra. }
  rewrite fisheye_beyond; [|exact Hw|lra|rewrite E; nra|exact B].
  intros Q. apply (f_equal radius) in Q. rewrite E in Q. unfold fisheye_distort in Q.
  destruct (Rlt_dec (w * w) _) as [A|_]; [lra|]. unfold radius in E. cbn [fst snd] in E. rewrite E in Q.
  destruct (Rlt_dec (r * r) _) as [A|_]; [nra|]. set (s := atan _ / _) in Q.
  assert (Ps : 0 < s). { unfold s. apply Rdiv_lt_0_compat; [apply atan_pos; nra|nra]. }
  unfold radius in Q. cbn [fst snd] in Q. rewrite scaled_radius in Q by lra. rewrite E in Q.
  assert (Bd : s * r * w < PI / 2). { unfold s. replace (atan (2 * tan (w / 2) * r) / (r * w) * r * w) with (atan (2 * tan (w / 2) * r)) by (field; lra). apply atan_bound. }
  rewrite Q in Bd. pose proof PI_4. nra.
Qed.
Print Assumptions lx_fisheye_inverse_refuted.
(** Inside the inner disc distort is linear but undistort is not: the two do not cancel for any point but the centre. *)
Theorem lx_fisheye_inverse_near_fails w x : / 2 <= w <= 3 / 2 -> 0 < x -> x * x < / 10 ^ 5 -> fisheye_undistort w (fisheye_distort w (x, 0)) <> (x, 0).
Proof.
  intros H Hx Hr. destruct (w_valid w H) as (Hw & Hw2 & _). pose proof (tan_half_pos w Hw) as HT. pose proof five_pos. pose proof angle_bound.
  assert (T1 : tan (w / 2) < 1). { pose proof PI2_3_2. rewrite <- tan_PI4. apply tan_increasing; lra. }
  assert (E : sqrt (x * x + 0 * 0) = x). { replace (x * x + 0 * 0) with (x * x) by ring. apply sqrt_square. lra. }
  unfold fisheye_distort. destruct (Rlt_dec (w * w) _) as [A|_]; [lra|]. rewrite E. destruct (Rlt_dec (x * x) _) as [_|A]; [|contradiction].
  set (s := 2 * tan (w / 2) / w). assert (Ps : 0 < s) by (unfold s; apply Rdiv_lt_0_compat; lra).
  unfold fisheye_undistort. destruct (Req_EM_T (tan (w / 2) * 2) 0) as [A|_]; [lra|].
  rewrite scaled_radius by lra. rewrite E. destruct (Req_EM_T (s * x) 0) as [A|_]; [nra|].
  assert (Ew : s * x * w = 2 * tan (w / 2) * x) by (unfold s; field; lra). rewrite Ew.
  assert (X1 : x < / 10). { assert (L5 : / 10 ^ 5 < / 10 ^ 2) by (apply Rinv_lt_contravar; lra). replace (/ 10 ^ 2) with (/ 10 * / 10) in L5 by field. nra. }
  assert (P2 : 0 < 2 * tan (w / 2) * x) by nra. assert (L2 : 2 * tan (w / 2) * x < / 5) by nra.
  assert (PB : 3 / 4 < max_valid_angle). { unfold max_valid_angle. pose proof PI2_3_2. lra. }
  rewrite Rabs_right by lra. destruct (Rle_dec _ max_valid_angle) as [_|A]; [|exfalso; lra].
  pose proof (tan_gt (2 * tan (w / 2) * x) ltac:(lra)) as G. intros Q. apply (f_equal fst) in Q. cbn [fst] in Q.
  assert (Z : tan (2 * tan (w / 2) * x) = 2 * tan (w / 2) * x).
  { apply (Rmult_eq_reg_r (/ (2 * tan (w / 2)))); [|apply Rinv_neq_0_compat; lra].
    transitivity x; [|field; lra]. rewrite <- Q at 2. field. lra. }
  lra.
Qed.
Print Assumptions lx_fisheye_inverse_near_fails.
Example lx_fisheye_inverse_near_case : 0 < / 1000 /\ / 1000 * / 1000 < / 10 ^ 5.
Proof. split; [lra|]. rewrite <- Rinv_mult. apply Rinv_lt_contravar; lra. Qed.
