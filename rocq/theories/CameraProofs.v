(** Lemmas about the camera models. *)
From Coq Require Import Reals Lra Psatz ZArith Bool.
From Coquelicot Require Import Coquelicot.
From Verif Require Import CalculusSpec CalculusFacts DistortionModel DistortionSpec DistortionProofs CameraModel CameraSpec.
Local Open Scope R_scope.

(** ** Visibility *)
Lemma keypoint_visible_spec s kp : keypoint_visible s kp = true <-> in_image (width s) (height s) kp.
Proof.
  destruct kp as [u v]. unfold keypoint_visible, in_image. cbn [fst snd].
  repeat match goal with |- context [if ?x then _ else _] => destruct x end; split; intros H; try reflexivity; try discriminate; try tauto; lra.
Qed.
Lemma visible_margin_spec s kp m : keypoint_visible_with_margin s kp m = true <->
  m <= fst kp < IZR (width s) - m /\ m <= snd kp < IZR (height s) - m.
Proof.
  destruct kp as [u v]. unfold keypoint_visible_with_margin. cbn [fst snd].
  repeat match goal with |- context [if ?x then _ else _] => destruct x end; split; intros H; try reflexivity; try discriminate; try tauto; lra.
Qed.
(** ** Pinhole *)
Lemma scale_scale a b p : scale a (scale b p) = scale (a * b) p.
Proof. destruct p as [[x y] z]. unfold scale. f_equal; [f_equal|]; ring. Qed.
Lemma pinhole_keypoint_scale D c p s : s <> 0 -> snd p <> 0 -> pinhole_keypoint D c (scale s p) = pinhole_keypoint D c p.
Proof.
  destruct p as [[x y] z]. cbn [snd]. intros Hs Hz. unfold scale, pinhole_keypoint.
  replace (s * x * (1 / (s * z))) with (x * (1 / z)) by (field; split; assumption).
  replace (s * y * (1 / (s * z))) with (y * (1 / z)) by (field; split; assumption). reflexivity.
Qed.
Lemma pinhole_roundtrip D c kp : p_fu c <> 0 -> p_fv c <> 0 ->
  (let q := ((fst kp - p_cu c) / p_fu c, (snd kp - p_cv c) / p_fv c) in distort D (undistort D q) = q) ->
  pinhole_keypoint D c (fst (pinhole_back_project D c kp)) = kp.
Proof.
  intros Hu Hv. cbv zeta. unfold pinhole_back_project. cbn [fst]. destruct (undistort D _) as [a b] eqn:E.
  cbn [fst snd]. intros HD. unfold pinhole_keypoint. replace (a * (1 / 1)) with a by field. replace (b * (1 / 1)) with b by field.
  rewrite HD. cbn [fst snd]. destruct kp as [u v]. cbn [fst snd]. f_equal; field; assumption.
Qed.
Lemma pinhole_back D c p : p_fu c <> 0 -> p_fv c <> 0 -> snd p <> 0 ->
  (let q := (fst (fst p) / snd p, snd (fst p) / snd p) in undistort D (distort D q) = q) ->
  scale (snd p) (fst (pinhole_back_project D c (pinhole_keypoint D c p))) = p.
Proof.
  destruct p as [[x y] z]. cbn [fst snd]. intros Hu Hv Hz HD. unfold pinhole_back_project, pinhole_keypoint. cbn [fst snd].
  replace (x * (1 / z)) with (x / z) by (field; exact Hz). replace (y * (1 / z)) with (y / z) by (field; exact Hz).
  destruct (distort D (x / z, y / z)) as [a b] eqn:E. cbn [fst snd].
  replace ((p_fu c * a + p_cu c - p_cu c) / p_fu c) with a by (field; exact Hu).
  replace ((p_fv c * b + p_cv c - p_cv c) / p_fv c) with b by (field; exact Hv).
  rewrite HD. cbn [fst snd]. unfold scale. f_equal; [f_equal|]; field; exact Hz.
Qed.
Lemma pinhole_jacobian_ok D c p : snd p <> 0 ->
  (let q := (fst (fst p) / snd p, snd (fst p) / snd p) in is_jacobian (distort D) q (distort_jacobian D q)) ->
  is_jacobian3 (pinhole_keypoint D c) p (pinhole_jacobian D c p).
Proof.
  destruct p as [[x y] z]. cbn [fst snd]. intros Hz. unfold is_jacobian3, pinhole_jacobian.
  replace (x * (1 / z)) with (x / z) by (field; exact Hz). replace (y * (1 / z)) with (y / z) by (field; exact Hz).
  destruct (distort_jacobian D (x / z, y / z)) as [[j00 j01] [j10 j11]]. intros [J0 J1]. cbn [fst snd] in J0, J1.
  assert (HX : forall (X Z : R -> R) t dX dZ, is_derive X t dX -> is_derive Z t dZ -> Z t <> 0 ->
    is_derive (fun s => X s * (1 / Z s)) t (dX * (1 / Z t) - X t * dZ * (1 / Z t) * (1 / Z t))).
  { intros X Z t dX dZ DX DZ NZ. eapply der_eq; [apply (der_mult X (fun s => 1 / Z s)); [exact DX|]|].
    - apply (der_div (fun _ => 1) Z); [apply der_const|exact DZ|exact NZ].
    - cbv beta. field. exact NZ. }
  split; intros X Y Z t dX dY dZ DX DY DZ EX EY EZ; cbn [pinhole_keypoint fst snd].
  - assert (NZ : Z t <> 0) by (rewrite EZ; exact Hz).
    eapply der_eq.
    + apply (der_plus (fun s => p_fu c * fst (distort D (X s * (1 / Z s), Y s * (1 / Z s)))) (fun _ => p_cu c)); [|apply der_const].
      apply (der_mult (fun _ => p_fu c)); [apply der_const|].
      apply (J0 (fun s => X s * (1 / Z s)) (fun s => Y s * (1 / Z s))); [exact (HX X Z t dX dZ DX DZ NZ)|exact (HX Y Z t dY dZ DY DZ NZ)|cbv beta|cbv beta]; rewrite ?EX, ?EY, ?EZ; field; exact Hz.
    + cbv beta. rewrite EX, EY, EZ. field. exact Hz.
  - assert (NZ : Z t <> 0) by (rewrite EZ; exact Hz).
    eapply der_eq.
    + apply (der_plus (fun s => p_fv c * snd (distort D (X s * (1 / Z s), Y s * (1 / Z s)))) (fun _ => p_cv c)); [|apply der_const].
      apply (der_mult (fun _ => p_fv c)); [apply der_const|].
      apply (J1 (fun s => X s * (1 / Z s)) (fun s => Y s * (1 / Z s))); [exact (HX X Z t dX dZ DX DZ NZ)|exact (HX Y Z t dY dZ DY DZ NZ)|cbv beta|cbv beta]; rewrite ?EX, ?EY, ?EZ; field; exact Hz.
    + cbv beta. rewrite EX, EY, EZ. field. exact Hz.
Qed.
Lemma pinhole_intrinsics_ok D c p : is_jacobian4
  (fun fu fv cu cv => pinhole_keypoint D {| p_fu := fu; p_fv := fv; p_cu := cu; p_cv := cv |} p)
  (p_fu c) (p_fv c) (p_cu c) (p_cv c) (pinhole_intrinsics_jacobian D p).
Proof.
  destruct p as [[x y] z]. unfold is_jacobian4, pinhole_intrinsics_jacobian, pinhole_keypoint. cbn [p_fu p_fv p_cu p_cv fst snd].
  destruct (distort D _) as [a b]. cbn [fst snd].
  split; intros X Y Z W t dX dY dZ dW HX HY HZ HW _ _ _ _; (auto_derive; [curve_conds|]; use_der HX; use_der HY; use_der HZ; use_der HW; ring).
Qed.
Lemma pinhole_distortion_ok (dist : R -> R -> R -> R -> vec2 -> vec2) pj jac und c p k1 k2 k3 k4 :
  (forall q, q = (fst (fst p) * (1 / snd p), snd (fst p) * (1 / snd p)) -> is_jacobian4 (fun k1 k2 k3 k4 => dist k1 k2 k3 k4 q) k1 k2 k3 k4 (pj q)) ->
  is_jacobian4 (fun k1 k2 k3 k4 => pinhole_keypoint {| distort := dist k1 k2 k3 k4; distort_jacobian := jac; undistort := und |} c p) k1 k2 k3 k4
    (pinhole_distortion_jacobian pj c p).
Proof.
  destruct p as [[x y] z]. cbn [fst snd]. intros H. specialize (H _ eq_refl). unfold pinhole_distortion_jacobian, scale_rows.
  destruct (pj _) as [[[[a b] cc] d] [[[a' b'] cc'] d']]. destruct H as [H0 H1]. unfold is_jacobian4, pinhole_keypoint. cbn [fst snd distort].
  split; intros X Y Z W t dX dY dZ dW HX HY HZ HW EX EY EZ EW.
  - eapply der_eq.
    + apply (der_plus _ (fun _ => p_cu c)); [|apply der_const]. apply (der_mult (fun _ => p_fu c)); [apply der_const|].
      exact (H0 X Y Z W t dX dY dZ dW HX HY HZ HW EX EY EZ EW).
    + cbv beta. ring.
  - eapply der_eq.
    + apply (der_plus _ (fun _ => p_cv c)); [|apply der_const]. apply (der_mult (fun _ => p_fv c)); [apply der_const|].
      exact (H1 X Y Z W t dX dY dZ dW HX HY HZ HW EX EY EZ EW).
    + cbv beta. ring.
Qed.
Lemma pinhole_status_spec s kp p :
  (pinhole_status s kp p = KeypointVisible <-> in_image (width s) (height s) kp /\ minimum_depth < snd p) /\
  (pinhole_status s kp p = KeypointOutsideImageBox <-> ~ in_image (width s) (height s) kp /\ minimum_depth < snd p) /\
  (pinhole_status s kp p = PointBehindCamera <-> snd p < 0) /\
  (pinhole_status s kp p = ProjectionInvalid <-> 0 <= snd p <= minimum_depth).
Proof.
  assert (M : 0 < minimum_depth) by (apply Rinv_0_lt_compat; lra).
  rewrite <- keypoint_visible_spec. unfold pinhole_status.
  destruct (Rlt_dec minimum_depth (snd p)) as [A|A], (keypoint_visible s kp), (Rlt_dec (snd p) 0) as [B|B];
    (split; [|split; [|split]]); (split; [intros E; try discriminate E; (lra || (split; (lra || (intros F; discriminate F) || reflexivity)))|intros E; try reflexivity; exfalso; (lra || (destruct E as [E1 E2]; (lra || (apply E1; reflexivity) || discriminate E1)))]).
Qed.
(** ** Unified projection: geometry of the lifting *)
Section Lift.
  Variables xi a b : R.
  Hypothesis Hxi : 0 <= xi.
  Let rho2 := a * a + b * b.
  Let D := 1 + (1 - xi * xi) * rho2.
  Hypothesis HD : 0 <= D.
  Let eta := (xi + sqrt D) / (rho2 + 1).
  Let z := 1 - xi * (rho2 + 1) / (xi + sqrt D).
  Lemma lift_rho : 0 <= rho2.
  Proof. unfold rho2. nra. Qed.
  Lemma lift_den : 0 < xi + sqrt D.
  Proof.
    pose proof lift_rho. pose proof (sqrt_pos D). destruct Hxi as [P|E]; [lra|]. unfold D in *. subst xi.
    assert (0 < sqrt (1 + (1 - 0 * 0) * rho2)) by (apply sqrt_lt_R0; nra). lra.
  Qed.
  Lemma lift_eta : 0 < eta.
  Proof. apply Rdiv_lt_0_compat; [apply lift_den|]. pose proof lift_rho. lra. Qed.
  Lemma lift_z : z = 1 - xi / eta.
  Proof. pose proof lift_den. pose proof lift_rho. unfold z, eta. field. lra. Qed.
  Lemma lift_norm : norm3 (a, b, z) = / eta.
  Proof.
    pose proof lift_eta as P. pose proof lift_den as Q. pose proof lift_rho as Rr. unfold norm3.
    replace (a * a + b * b + z * z) with (/ eta * / eta).
    - apply sqrt_square. left. apply Rinv_0_lt_compat. exact P.
    - fold rho2. pose proof (sqrt_sqrt D HD) as S. unfold z, eta. fold D.
      assert (E : (rho2 + 1) * (rho2 + 1) = rho2 * ((xi + sqrt D) * (xi + sqrt D)) + (xi + sqrt D - xi * (rho2 + 1)) * (xi + sqrt D - xi * (rho2 + 1))).
      { replace (rho2 * ((xi + sqrt D) * (xi + sqrt D)) + (xi + sqrt D - xi * (rho2 + 1)) * (xi + sqrt D - xi * (rho2 + 1)))
          with ((rho2 + 1) * (sqrt D * sqrt D + xi * xi * rho2)) by ring.
        rewrite S. unfold D. ring. }
      set (e := xi + sqrt D) in *. replace (/ (e / (rho2 + 1)) * / (e / (rho2 + 1))) with ((rho2 + 1) * (rho2 + 1) / (e * e)) by (field; lra).
      rewrite E. field. lra.
  Qed.
  Lemma lift_sum : z + xi * norm3 (a, b, z) = 1.
  Proof. pose proof lift_eta. rewrite lift_norm, lift_z. field. lra. Qed.
  Lemma lift_valid_small : xi <= 1 -> - (fov_parameter xi * norm3 (a, b, z)) < z.
  Proof.
    intros H. pose proof lift_eta as P. rewrite lift_norm, lift_z. unfold fov_parameter. destruct (Rle_dec xi 1) as [_|A]; [|contradiction].
    unfold Rdiv. lra.
  Qed.
  Lemma lift_valid_large : 1 < xi -> rho2 < 1 / (xi * xi - 1) -> - (fov_parameter xi * norm3 (a, b, z)) < z.
  Proof.
    intros H Hr. pose proof lift_eta as P. pose proof lift_rho as Rr. pose proof (sqrt_pos D) as SD. rewrite lift_norm, lift_z. unfold fov_parameter.
    destruct (Rle_dec xi 1) as [A|_]; [lra|].
    assert (X : 0 < xi * xi - 1) by nra.
    assert (E : rho2 * (xi * xi - 1) < 1). { apply (Rmult_lt_compat_r (xi * xi - 1)) in Hr; [|exact X]. replace (1 / (xi * xi - 1) * (xi * xi - 1)) with 1 in Hr by (field; lra). exact Hr. }
    assert (F : xi - 1 / xi < eta).
    { unfold eta. apply (Rmult_lt_reg_r (rho2 + 1)); [lra|].
      replace ((xi + sqrt D) / (rho2 + 1) * (rho2 + 1)) with (xi + sqrt D) by (field; lra).
      replace ((xi - 1 / xi) * (rho2 + 1)) with ((xi * xi - 1) * (rho2 + 1) / xi) by (field; lra).
      apply Rlt_le_trans with xi; [|lra]. apply (Rmult_lt_reg_r xi); [lra|].
      replace ((xi * xi - 1) * (rho2 + 1) / xi * xi) with ((xi * xi - 1) * (rho2 + 1)) by (field; lra). lra. }
    assert (G : (xi - 1 / xi) * / eta < 1). { apply (Rmult_lt_reg_r eta); [exact P|]. replace ((xi - 1 / xi) * / eta * eta) with (xi - 1 / xi) by (field; lra). lra. }
    unfold Rdiv in *. lra.
  Qed.
  Lemma lift_edge : 1 < xi -> rho2 = 1 / (xi * xi - 1) -> z = - (fov_parameter xi * norm3 (a, b, z)).
  Proof.
    intros H Hr. assert (X : 0 < xi * xi - 1) by nra. pose proof lift_eta as P. rewrite lift_norm, lift_z. unfold fov_parameter.
    destruct (Rle_dec xi 1) as [A|_]; [lra|].
    assert (D0 : D = 0). { unfold D. rewrite Hr. field. lra. }
    assert (E : eta = xi - 1 / xi). { unfold eta. rewrite D0, sqrt_0, Hr. field. split; [|nra]. lra. }
    rewrite E in *. assert (0 < xi * (xi - 1 / xi)) by nra. field. split; [lra|]. replace (xi * xi - 1) with (xi * (xi - 1 / xi)) by (field; lra). lra.
  Qed.
End Lift.
Lemma norm3_pos p : 0 <= norm3 p.
Proof. destruct p as [[x y] z]. apply sqrt_pos. Qed.
Lemma norm3_scale s p : 0 <= s -> norm3 (scale s p) = s * norm3 p.
Proof.
  intros Hs. destruct p as [[x y] z]. unfold norm3, scale.
  replace (s * x * (s * x) + s * y * (s * y) + s * z * (s * z)) with (s * s * (x * x + y * y + z * z)) by ring.
  rewrite sqrt_mult by nra. rewrite sqrt_square by exact Hs. reflexivity.
Qed.
Lemma valid_proj_spec xi p : unified_valid_proj xi p = true <-> - (fov_parameter xi * norm3 p) < snd p.
Proof. unfold unified_valid_proj. destruct (Rlt_dec _ _); split; intros H; (reflexivity || discriminate || assumption || contradiction). Qed.
Lemma valid_proj_scale xi p s : 0 < s -> unified_valid_proj xi (scale s p) = unified_valid_proj xi p.
Proof.
  intros Hs. apply eq_true_iff_eq. rewrite !valid_proj_spec, norm3_scale by lra. destruct p as [[x y] z]. unfold scale. cbn [snd].
  split; intros H; nra.
Qed.
(** The two positive quantities behind a valid projection. *)
Lemma valid_proj_pos xi p : 0 <= xi -> unified_valid_proj xi p = true -> 0 < norm3 p /\ 0 < snd p + xi * norm3 p /\ 0 < xi * snd p + norm3 p.
Proof.
  intros Hx H. apply valid_proj_spec in H. pose proof (norm3_pos p) as N. unfold fov_parameter in H.
  assert (L : snd p <= norm3 p). { destruct p as [[x y] z]. unfold norm3. cbn [snd]. destruct (Rle_dec z 0) as [A|A]; [pose proof (sqrt_pos (x * x + y * y + z * z)); lra|]. rewrite <- (sqrt_square z) at 1 by lra. apply sqrt_le_1_alt. nra. }
  assert (P : 0 < norm3 p). { destruct N as [N|N]; [exact N|]. rewrite <- N in *. destruct (Rle_dec xi 1); lra. }
  split; [exact P|]. destruct (Rle_dec xi 1) as [A|A].
  - split; [lra|]. nra.
  - assert (E : 1 / xi * xi = 1) by (field; lra). set (n := norm3 p) in *. set (r := 1 / xi) in *. assert (0 < r) by (unfold r; apply Rdiv_lt_0_compat; lra). split.
    + assert (r < 1). { unfold r. apply (Rmult_lt_reg_r xi); [lra|]. fold r. lra. } nra.
    + assert (0 < xi * (snd p + r * n)) by (apply Rmult_lt_0_compat; lra). nra.
Qed.
Lemma unified_keypoint_scale D c p s : 0 < s -> 0 <= u_xi c -> unified_keypoint D c (scale s p) = unified_keypoint D c p.
Proof.
  intros Hs Hx. pose proof (valid_proj_scale (u_xi c) p s Hs) as E. pose proof (norm3_scale s p ltac:(lra)) as N.
  pose proof (valid_proj_pos (u_xi c) p Hx) as P. destruct p as [[x y] z]. unfold unified_keypoint, scale in *. rewrite E.
  destruct (unified_valid_proj (u_xi c) (x, y, z)); [|reflexivity]. destruct (P eq_refl) as (_ & P1 & _). cbn [snd] in P1. rewrite N.
  replace (s * x * (1 / (s * z + u_xi c * (s * norm3 (x, y, z))))) with (x * (1 / (z + u_xi c * norm3 (x, y, z)))) by (field; nra).
  replace (s * y * (1 / (s * z + u_xi c * (s * norm3 (x, y, z))))) with (y * (1 / (z + u_xi c * norm3 (x, y, z)))) by (field; nra). reflexivity.
Qed.
Lemma liftable_disc xi rho2 : 0 <= xi -> 0 <= rho2 -> liftable rho2 xi = true -> 0 <= 1 + (1 - xi * xi) * rho2.
Proof.
  intros Hx Hr. unfold liftable. destruct (Rle_dec xi 1) as [A|A]; [intros _; assert (0 <= (1 - xi * xi) * rho2) by (apply Rmult_le_pos; nra); lra|]. destruct (Rle_dec rho2 _) as [B|B]; [|discriminate].
  intros _. assert (X : 0 < xi * xi - 1) by nra. apply (Rmult_le_compat_r (xi * xi - 1)) in B; [|lra].
  replace (1 / (xi * xi - 1) * (xi * xi - 1)) with 1 in B by (field; lra). nra.
Qed.
(** Lifting and projecting again, for a keypoint strictly inside the liftable region. *)
Lemma unified_roundtrip D c kp : 0 <= u_xi c -> u_fu c <> 0 -> u_fv c <> 0 ->
  (let q := ((fst kp - u_cu c) / u_fu c, (snd kp - u_cv c) / u_fv c) in distort D (undistort D q) = q) ->
  (let q := undistort D ((fst kp - u_cu c) / u_fu c, (snd kp - u_cv c) / u_fv c) in
     u_xi c <= 1 \/ fst q * fst q + snd q * snd q < 1 / (u_xi c * u_xi c - 1)) ->
  unified_valid_proj (u_xi c) (fst (unified_back_project D c kp)) = true /\
  unified_keypoint D c (fst (unified_back_project D c kp)) = kp.
Proof.
  intros Hx Hu Hv. cbv zeta. unfold unified_back_project. cbn [fst]. destruct (undistort D _) as [a b] eqn:E. cbn [fst snd].
  intros HD Hr. set (xi := u_xi c) in *. set (r2 := a * a + b * b) in *.
  assert (R0 : 0 <= r2) by (unfold r2; nra).
  assert (DD : 0 <= 1 + (1 - xi * xi) * r2).
  { apply liftable_disc; [exact Hx|exact R0|]. unfold liftable. destruct (Rle_dec xi 1) as [A|A]; [reflexivity|].
    destruct (Rle_dec r2 _) as [B|B]; [reflexivity|]. exfalso. destruct Hr as [Hr|Hr]; [contradiction|]. apply B. lra. }
  rewrite Rmax_left by lra.
  assert (V : unified_valid_proj xi (a, b, 1 - xi * (r2 + 1) / (xi + sqrt (1 + (1 - xi * xi) * r2))) = true).
  { apply valid_proj_spec. cbn [snd]. destruct (Rle_dec xi 1) as [A|A]; [apply lift_valid_small; assumption|].
    destruct Hr as [Hr|Hr]; [contradiction|]. apply lift_valid_large; [exact Hx|exact DD|lra|exact Hr]. }
  split; [exact V|]. unfold unified_keypoint. fold xi. rewrite V.
  pose proof (lift_sum xi a b Hx DD) as S. fold r2 in S. rewrite S.
  replace (a * (1 / 1)) with a by field. replace (b * (1 / 1)) with b by field. rewrite HD. cbn [fst snd].
  destruct kp as [u v]. cbn [fst snd]. f_equal; field; assumption.
Qed.
(** On the edge of the liftable region the lifted ray is refused by the projection. *)
Lemma unified_edge D c kp : 1 < u_xi c ->
  (let q := undistort D ((fst kp - u_cu c) / u_fu c, (snd kp - u_cv c) / u_fv c) in
     fst q * fst q + snd q * snd q = 1 / (u_xi c * u_xi c - 1)) ->
  snd (unified_back_project D c kp) = true /\ unified_valid_proj (u_xi c) (fst (unified_back_project D c kp)) = false.
Proof.
  intros Hx. cbv zeta. unfold unified_back_project. cbn [fst snd]. destruct (undistort D _) as [a b] eqn:E. cbn [fst snd].
  intros Hr. set (xi := u_xi c) in *. assert (X : 0 < xi * xi - 1) by nra.
  assert (DD : 0 = 1 + (1 - xi * xi) * (a * a + b * b)). { rewrite Hr. field. lra. }
  rewrite Rmax_left by lra. split.
  - unfold liftable. destruct (Rle_dec xi 1) as [A|A]; [reflexivity|]. destruct (Rle_dec _ _) as [B|B]; [reflexivity|]. exfalso. lra.
  - assert (V := lift_edge xi a b ltac:(lra) ltac:(lra) Hx Hr). unfold unified_valid_proj. cbn [snd]. rewrite <- V. destruct (Rlt_dec _ _) as [B|B]; [lra|reflexivity].
Qed.
(** Projecting and lifting again. *)
Lemma unified_back D c p : 0 <= u_xi c -> u_fu c <> 0 -> u_fv c <> 0 -> unified_valid_proj (u_xi c) p = true ->
  (let k := snd p + u_xi c * norm3 p in let q := (fst (fst p) / k, snd (fst p) / k) in undistort D (distort D q) = q) ->
  scale (snd p + u_xi c * norm3 p) (fst (unified_back_project D c (unified_keypoint D c p))) = p /\
  snd (unified_back_project D c (unified_keypoint D c p)) = true.
Proof.
  intros Hx Hu Hv V. destruct (valid_proj_pos _ _ Hx V) as (Pn & Pk & Pm). revert V Pn Pk Pm. destruct p as [[x y] z]. cbn [fst snd].
  intros V Pn Pk Pm HD. unfold unified_keypoint. rewrite V. set (n := norm3 (x, y, z)) in *. set (xi := u_xi c) in *.
  assert (N2 : n * n = x * x + y * y + z * z). { unfold n, norm3. apply sqrt_sqrt. nra. }
  replace (x * (1 / (z + xi * n))) with (x / (z + xi * n)) by (field; lra). replace (y * (1 / (z + xi * n))) with (y / (z + xi * n)) by (field; lra).
  cbv zeta in HD. destruct (distort D _) as [a b] eqn:E. unfold unified_back_project. cbn [fst snd].
  replace ((u_fu c * a + u_cu c - u_cu c) / u_fu c) with a by (field; exact Hu).
  replace ((u_fv c * b + u_cv c - u_cv c) / u_fv c) with b by (field; exact Hv).
  rewrite HD. cbn [fst snd]. fold xi. set (k := z + xi * n) in *.
  assert (R2 : x / k * (x / k) + y / k * (y / k) = (n * n - z * z) / (k * k)). { rewrite N2. field. lra. }
  rewrite R2.
  assert (DE : 1 + (1 - xi * xi) * ((n * n - z * z) / (k * k)) = (xi * z + n) / k * ((xi * z + n) / k)).
  { unfold k in *. field. lra. }
  rewrite DE. assert (Q : 0 < (xi * z + n) / k) by (apply Rdiv_lt_0_compat; assumption).
  rewrite Rmax_left by nra. rewrite sqrt_square by lra. split.
  - unfold scale. f_equal; [f_equal; field; lra|].
    assert (F : xi + (xi * z + n) / k = (2 * xi * z + xi * xi * n + n) / k) by (unfold k; field; fold k; lra).
    rewrite F. assert (G : (n * n - z * z) / (k * k) + 1 = n * (2 * xi * z + xi * xi * n + n) / (k * k)) by (unfold k; field; fold k; lra).
    rewrite G. assert (H : 0 < 2 * xi * z + xi * xi * n + n). { replace (2 * xi * z + xi * xi * n + n) with (xi * k + (xi * z + n)) by (unfold k; ring). nra. }
    transitivity (k - xi * n); [field; lra|unfold k; ring].
  - unfold liftable. destruct (Rle_dec xi 1) as [A|A]; [reflexivity|]. destruct (Rle_dec _ _) as [B|B]; [reflexivity|]. exfalso. apply B.
    assert (X : 0 < xi * xi - 1) by nra. apply (Rmult_le_reg_r (xi * xi - 1)); [exact X|]. replace (1 / (xi * xi - 1) * (xi * xi - 1)) with 1 by (field; lra). nra.
Qed.
(** ** Unified projection: derivatives *)
Lemma norm3_der (X Y Z : R -> R) t dX dY dZ : is_derive X t dX -> is_derive Y t dY -> is_derive Z t dZ -> 0 < norm3 (X t, Y t, Z t) ->
  is_derive (fun s => norm3 (X s, Y s, Z s)) t ((X t * dX + Y t * dY + Z t * dZ) / norm3 (X t, Y t, Z t)).
Proof.
  intros HX HY HZ P. unfold norm3 in *.
  assert (Q : 0 < X t * X t + Y t * Y t + Z t * Z t).
  { destruct (Rle_lt_dec (X t * X t + Y t * Y t + Z t * Z t) 0) as [A|A]; [|exact A]. rewrite (sqrt_neg_0 _ A) in P. lra. }
  eapply der_eq.
  - apply (der_sqrt (fun s => X s * X s + Y s * Y s + Z s * Z s)); [|exact Q].
    apply (der_plus (fun s => X s * X s + Y s * Y s) (fun s => Z s * Z s)); [apply (der_plus (fun s => X s * X s) (fun s => Y s * Y s)); [apply (der_mult X X)|apply (der_mult Y Y)]|apply (der_mult Z Z)]; eassumption.
  - cbv beta. field. lra.
Qed.
Lemma unified_jacobian_ok D c p : 0 <= u_xi c -> unified_valid_proj (u_xi c) p = true ->
  (let k := snd p + u_xi c * norm3 p in let q := (fst (fst p) / k, snd (fst p) / k) in is_jacobian (distort D) q (distort_jacobian D q)) ->
  is_jacobian3 (unified_keypoint D c) p (unified_jacobian D c p).
Proof.
  intros Hx V. destruct (valid_proj_pos _ _ Hx V) as (Pn & Pk & _). apply valid_proj_spec in V. revert V Pn Pk. destruct p as [[x y] z].
  cbn [fst snd]. intros V Pn Pk HD. unfold is_jacobian3, unified_jacobian. set (xi := u_xi c) in *.
  replace (x * (1 / (z + xi * norm3 (x, y, z)))) with (x / (z + xi * norm3 (x, y, z))) by (field; lra).
  replace (y * (1 / (z + xi * norm3 (x, y, z)))) with (y / (z + xi * norm3 (x, y, z))) by (field; lra).
  cbv zeta in HD. destruct (distort_jacobian D _) as [[e00 e01] [e10 e11]]. destruct HD as [J0 J1]. cbn [fst snd] in J0, J1.
  assert (Loc : forall (X Y Z : R -> R) t dX dY dZ, is_derive X t dX -> is_derive Y t dY -> is_derive Z t dZ -> X t = x -> Y t = y -> Z t = z ->
    locally t (fun s => unified_keypoint D c (X s, Y s, Z s) =
      (let q := distort D (X s * (1 / (Z s + xi * norm3 (X s, Y s, Z s))), Y s * (1 / (Z s + xi * norm3 (X s, Y s, Z s)))) in
       (u_fu c * fst q + u_cu c, u_fv c * snd q + u_cv c)))).
  { intros X Y Z t dX dY dZ HX HY HZ EX EY EZ.
    eapply filter_imp; [|eapply (near_gt (fun s => Z s + fov_parameter xi * norm3 (X s, Y s, Z s)) t _ 0)].
    - intros s Hs. cbv beta in Hs. unfold unified_keypoint. fold xi. rewrite (proj2 (valid_proj_spec xi (X s, Y s, Z s))); [reflexivity|]. cbn [snd]. lra.
    - apply (der_plus Z); [exact HZ|]. apply (der_mult (fun _ => fov_parameter xi)); [apply der_const|].
      apply norm3_der; [exact HX|exact HY|exact HZ|]. rewrite EX, EY, EZ. exact Pn.
    - cbv beta. rewrite EX, EY, EZ. lra. }
  assert (HQ : forall (X Y Z W : R -> R) t dX dY dZ dW, is_derive X t dX -> is_derive Y t dY -> is_derive Z t dZ -> is_derive W t dW ->
    X t = x -> Y t = y -> Z t = z ->
    is_derive (fun s => W s * (1 / (Z s + xi * norm3 (X s, Y s, Z s)))) t
      (dW / (z + xi * norm3 (x, y, z)) - W t * (dZ + xi * ((x * dX + y * dY + z * dZ) / norm3 (x, y, z))) / ((z + xi * norm3 (x, y, z)) * (z + xi * norm3 (x, y, z))))).
  { intros X Y Z W t dX dY dZ dW HX HY HZ HW EX EY EZ. eapply der_eq.
    - apply (der_mult W); [exact HW|]. apply (der_div (fun _ => 1) (fun s => Z s + xi * norm3 (X s, Y s, Z s))); [apply der_const| |].
      + apply (der_plus Z); [exact HZ|]. apply (der_mult (fun _ => xi)); [apply der_const|].
        apply norm3_der; [exact HX|exact HY|exact HZ|]. rewrite EX, EY, EZ. exact Pn.
      + cbv beta. rewrite EX, EY, EZ. lra.
    - cbv beta. rewrite EX, EY, EZ. field. lra. }
  assert (N2 : norm3 (x, y, z) * norm3 (x, y, z) = x * x + y * y + z * z) by (unfold norm3; apply sqrt_sqrt; nra).
  split; intros X Y Z t dX dY dZ HX HY HZ EX EY EZ.
  - eapply der_near; [exact (Loc X Y Z t dX dY dZ HX HY HZ EX EY EZ)|intros s E; cbv beta in E; rewrite E; cbv zeta; cbn [fst]; reflexivity|].
    eapply der_eq.
    + apply (der_plus _ (fun _ => u_cu c)); [|apply der_const]. apply (der_mult (fun _ => u_fu c)); [apply der_const|].
      apply (J0 (fun s => X s * (1 / (Z s + xi * norm3 (X s, Y s, Z s)))) (fun s => Y s * (1 / (Z s + xi * norm3 (X s, Y s, Z s)))));
        [exact (HQ X Y Z X t dX dY dZ dX HX HY HZ HX EX EY EZ)|exact (HQ X Y Z Y t dX dY dZ dY HX HY HZ HY EX EY EZ)|cbv beta|cbv beta]; rewrite EX, EY, EZ; field; lra.
    + cbv beta. rewrite EX, EY. set (n := norm3 (x, y, z)) in *. clearbody n.
      replace (y * y + z * z) with (n * n - x * x) by lra. replace (x * x + z * z) with (n * n - y * y) by lra. field. lra.
  - eapply der_near; [exact (Loc X Y Z t dX dY dZ HX HY HZ EX EY EZ)|intros s E; cbv beta in E; rewrite E; cbv zeta; cbn [snd]; reflexivity|].
    eapply der_eq.
    + apply (der_plus _ (fun _ => u_cv c)); [|apply der_const]. apply (der_mult (fun _ => u_fv c)); [apply der_const|].
      apply (J1 (fun s => X s * (1 / (Z s + xi * norm3 (X s, Y s, Z s)))) (fun s => Y s * (1 / (Z s + xi * norm3 (X s, Y s, Z s)))));
        [exact (HQ X Y Z X t dX dY dZ dX HX HY HZ HX EX EY EZ)|exact (HQ X Y Z Y t dX dY dZ dY HX HY HZ HY EX EY EZ)|cbv beta|cbv beta]; rewrite EX, EY, EZ; field; lra.
    + cbv beta. rewrite EX, EY. set (n := norm3 (x, y, z)) in *. clearbody n.
      replace (y * y + z * z) with (n * n - x * x) by lra. replace (x * x + z * z) with (n * n - y * y) by lra. field. lra.
Qed.
(** A valid projection stays valid under small changes of xi. *)
Lemma valid_proj_xi (X : R -> R) t dX p : is_derive X t dX -> unified_valid_proj (X t) p = true -> locally t (fun s => unified_valid_proj (X s) p = true).
Proof.
  intros HX V. apply valid_proj_spec in V. pose proof (norm3_pos p) as N. set (n := norm3 p) in *. set (z := snd p) in *.
  destruct (Rlt_le_dec 0 (X t)) as [P|P].
  - assert (V1 : 0 < z + X t * n /\ 0 < z + / X t * n).
    { assert (I : X t * / X t = 1) by (field; lra). assert (0 < / X t) by (apply Rinv_0_lt_compat; lra).
      unfold fov_parameter in V. destruct (Rle_dec (X t) 1) as [A|A].
      - assert (1 <= / X t) by (rewrite <- Rinv_1; apply Rinv_le_contravar; lra). split; nra.
      - assert (/ X t < 1) by (rewrite <- Rinv_1; apply Rinv_lt_contravar; lra). unfold Rdiv in V. split; nra. }
    destruct V1 as [V1 V2].
    assert (L1 : locally t (fun s => 0 < X s)) by exact (near_gt X t dX 0 HX P).
    assert (L2 : locally t (fun s => 0 < z + X s * n)).
    { eapply (near_gt (fun s => z + X s * n)); [|exact V1]. apply (der_plus (fun _ => z)); [apply der_const|]. apply (der_mult X (fun _ => n)); [exact HX|apply der_const]. }
    assert (L3 : locally t (fun s => 0 < z + / X s * n)).
    { eapply (near_gt (fun s => z + / X s * n)); [|exact V2]. apply (der_plus (fun _ => z)); [apply der_const|]. apply (der_mult (fun s => / X s) (fun _ => n)); [apply der_inv; [exact HX|lra]|apply der_const]. }
    eapply filter_imp; [|exact (filter_and _ _ L1 (filter_and _ _ L2 L3))]. intros s (H1 & H2 & H3). apply valid_proj_spec. fold n z.
    unfold fov_parameter. destruct (Rle_dec (X s) 1); unfold Rdiv; lra.
  - assert (L1 : locally t (fun s => X s < 1)). { eapply (near_lt X); [exact HX|lra]. }
    assert (L2 : locally t (fun s => 0 < z + X s * n)).
    { eapply (near_gt (fun s => z + X s * n)).
      - apply (der_plus (fun _ => z)); [apply der_const|]. apply (der_mult X (fun _ => n)); [exact HX|apply der_const].
      - cbv beta. unfold fov_parameter in V. destruct (Rle_dec (X t) 1); lra. }
    eapply filter_imp; [|exact (filter_and _ _ L1 L2)]. intros s (H1 & H2). apply valid_proj_spec. fold n z.
    unfold fov_parameter. destruct (Rle_dec (X s) 1); lra.
Qed.
Lemma unified_intrinsics_ok D c p : 0 <= u_xi c -> unified_valid_proj (u_xi c) p = true ->
  (let k := snd p + u_xi c * norm3 p in let q := (fst (fst p) / k, snd (fst p) / k) in is_jacobian (distort D) q (distort_jacobian D q)) ->
  is_jacobian5 (fun xi fu fv cu cv => unified_keypoint D {| u_xi := xi; u_fu := fu; u_fv := fv; u_cu := cu; u_cv := cv |} p)
    (u_xi c) (u_fu c) (u_fv c) (u_cu c) (u_cv c) (unified_intrinsics_jacobian D c p).
Proof.
  intros Hx V. destruct (valid_proj_pos _ _ Hx V) as (Pn & Pk & _). revert V Pn Pk. destruct p as [[x y] z].
  cbn [fst snd]. intros V Pn Pk HD. unfold is_jacobian5, unified_intrinsics_jacobian. set (n := norm3 (x, y, z)) in *. set (xi := u_xi c) in *.
  replace (x * (1 / (z + xi * n))) with (x / (z + xi * n)) by (field; lra).
  replace (y * (1 / (z + xi * n))) with (y / (z + xi * n)) by (field; lra).
  cbv zeta in HD. destruct (distort_jacobian D _) as [[e00 e01] [e10 e11]]. destruct HD as [J0 J1]. cbn [fst snd] in J0, J1.
  assert (HQ : forall a (X : R -> R) t dX, is_derive X t dX -> X t = xi ->
    is_derive (fun s => a * (1 / (z + X s * n))) t (- a * n * dX / ((z + xi * n) * (z + xi * n)))).
  { intros a X t dX HX EX. eapply der_eq.
    - apply (der_mult (fun _ => a)); [apply der_const|]. apply (der_div (fun _ => 1) (fun s => z + X s * n)); [apply der_const| |].
      + apply (der_plus (fun _ => z)); [apply der_const|]. apply (der_mult X (fun _ => n)); [exact HX|apply der_const].
      + cbv beta. rewrite EX. lra.
    - cbv beta. rewrite EX. field. lra. }
  split; intros X Y Z W U t dX dY dZ dW dU HX HY HZ HW HU EX EY EZ EW EU.
  - eapply der_near; [rewrite <- EX in V; exact (valid_proj_xi X t dX (x, y, z) HX V)|intros s E; cbv beta in E; unfold unified_keypoint; cbn [u_xi u_fu u_fv u_cu u_cv]; rewrite E; cbv zeta; cbn [fst]; reflexivity|].
    fold n. eapply der_eq.
    + apply (der_plus _ W); [|exact HW]. apply (der_mult Y); [exact HY|].
      apply (J0 (fun s => x * (1 / (z + X s * n))) (fun s => y * (1 / (z + X s * n)))); [exact (HQ x X t dX HX EX)|exact (HQ y X t dX HX EX)|cbv beta|cbv beta]; rewrite EX; field; lra.
    + cbv beta. rewrite EX, EY. replace (x * (1 / (z + xi * n))) with (x / (z + xi * n)) by (field; lra).
      replace (y * (1 / (z + xi * n))) with (y / (z + xi * n)) by (field; lra). field. lra.
  - eapply der_near; [rewrite <- EX in V; exact (valid_proj_xi X t dX (x, y, z) HX V)|intros s E; cbv beta in E; unfold unified_keypoint; cbn [u_xi u_fu u_fv u_cu u_cv]; rewrite E; cbv zeta; cbn [snd]; reflexivity|].
    fold n. eapply der_eq.
    + apply (der_plus _ U); [|exact HU]. apply (der_mult Z); [exact HZ|].
      apply (J1 (fun s => x * (1 / (z + X s * n))) (fun s => y * (1 / (z + X s * n)))); [exact (HQ x X t dX HX EX)|exact (HQ y X t dX HX EX)|cbv beta|cbv beta]; rewrite EX; field; lra.
    + cbv beta. rewrite EX, EZ. replace (x * (1 / (z + xi * n))) with (x / (z + xi * n)) by (field; lra).
      replace (y * (1 / (z + xi * n))) with (y / (z + xi * n)) by (field; lra). field. lra.
Qed.
Lemma unified_distortion_ok (dist : R -> R -> R -> R -> vec2 -> vec2) pj jac und c p k1 k2 k3 k4 : unified_valid_proj (u_xi c) p = true ->
  (forall q, q = (let k := snd p + u_xi c * norm3 p in (fst (fst p) * (1 / k), snd (fst p) * (1 / k))) ->
     is_jacobian4 (fun k1 k2 k3 k4 => dist k1 k2 k3 k4 q) k1 k2 k3 k4 (pj q)) ->
  is_jacobian4 (fun k1 k2 k3 k4 => unified_keypoint {| distort := dist k1 k2 k3 k4; distort_jacobian := jac; undistort := und |} c p) k1 k2 k3 k4
    (unified_distortion_jacobian pj c p).
Proof.
  destruct p as [[x y] z]. cbn [fst snd]. intros V H. specialize (H _ eq_refl). cbv zeta in H. unfold unified_distortion_jacobian, scale_rows.
  destruct (pj _) as [[[[a b] cc] d] [[[a' b'] cc'] d']]. destruct H as [H0 H1]. unfold is_jacobian4, unified_keypoint. rewrite V. cbn [fst snd distort].
  split; intros X Y Z W t dX dY dZ dW HX HY HZ HW EX EY EZ EW.
  - eapply der_eq.
    + apply (der_plus _ (fun _ => u_cu c)); [|apply der_const]. apply (der_mult (fun _ => u_fu c)); [apply der_const|].
      exact (H0 X Y Z W t dX dY dZ dW HX HY HZ HW EX EY EZ EW).
    + cbv beta. ring.
  - eapply der_eq.
    + apply (der_plus _ (fun _ => u_cv c)); [|apply der_const]. apply (der_mult (fun _ => u_fv c)); [apply der_const|].
      exact (H1 X Y Z W t dX dY dZ dW HX HY HZ HW EX EY EZ EW).
    + cbv beta. ring.
Qed.
Lemma unified_status_spec s kp p :
  (unified_status s kp p = KeypointVisible <-> in_image (width s) (height s) kp /\ minimum_depth * minimum_depth < sqnorm p) /\
  (unified_status s kp p = KeypointOutsideImageBox <-> ~ in_image (width s) (height s) kp /\ minimum_depth * minimum_depth < sqnorm p) /\
  (unified_status s kp p = ProjectionInvalid <-> sqnorm p <= minimum_depth * minimum_depth) /\
  unified_status s kp p <> PointBehindCamera.
Proof.
  rewrite <- keypoint_visible_spec. destruct p as [[x y] z]. unfold unified_status, sqnorm.
  destruct (Rlt_dec _ _) as [A|A], (keypoint_visible s kp); repeat split; intros; try discriminate; try lra; try tauto; try (intros Q; discriminate Q).
Qed.
