(** Lemmas about the distortion models. *)
From Coq Require Import Reals Lra Psatz.
From Coquelicot Require Import Coquelicot.
From Verif Require Import CalculusSpec CalculusFacts DistortionModel DistortionSpec.
Local Open Scope R_scope.

Ltac use_der H := match type of H with is_derive ?X ?t ?d => rewrite ?(is_derive_unique (fun x : R => X x) t d H) end.
Ltac curve_conds := repeat split; try (eexists; eassumption).
(** ** Radial-tangential *)
Lemma radtan_jacobian_ok k1 k2 p1 p2 p : is_jacobian (radtan_distort k1 k2 p1 p2) p (radtan_jacobian k1 k2 p1 p2 p).
Proof.
  destruct p as [x y]. split; cbn; intros X Y t dX dY HX HY <- <-.
  - auto_derive; [curve_conds|]. use_der HX; use_der HY. ring.
  - auto_derive; [curve_conds|]. use_der HX; use_der HY. ring.
Qed.
Lemma radtan_param_ok k1 k2 p1 p2 p :
  is_jacobian4 (fun k1 k2 p1 p2 => radtan_distort k1 k2 p1 p2 p) k1 k2 p1 p2 (radtan_param_jacobian p).
Proof.
  destruct p as [x y]. split; cbn; intros X Y Z W t dX dY dZ dW HX HY HZ HW _ _ _ _.
  - auto_derive; [curve_conds|]. use_der HX; use_der HY; use_der HZ; use_der HW. ring.
  - auto_derive; [curve_conds|]. use_der HX; use_der HY; use_der HZ; use_der HW. ring.
Qed.
(** ** Newton *)
Lemma newton_step_solves a b c d e0 e1 : a * d - b * c <> 0 -> exists u v, newton_step ((a, b), (c, d)) (e0, e1) = Some (u, v) /\
  a * u + b * v = e0 /\ c * u + d * v = e1.
Proof.
  intros N. unfold newton_step. set (det := _ - _).
  assert (E : det = (a * d - b * c) * (a * d - b * c)) by (unfold det; ring).
  assert (N' : det <> 0). { rewrite E. intros X. apply Rmult_integral in X. tauto. }
  destruct (Req_EM_T det 0) as [X|_]; [contradiction|]. eexists _, _. split; [reflexivity|].
  rewrite E in *. split; field; exact N.
Qed.
Lemma newton_step_none F e : newton_step F e = None <-> fst (fst F) * snd (snd F) - snd (fst F) * fst (snd F) = 0.
Proof.
  destruct F as [[a b] [c d]], e as [e0 e1]. unfold newton_step. cbn [fst snd]. set (det := _ * _ - _ * _).
  assert (E : det = (a * d - b * c) * (a * d - b * c)) by (unfold det; ring).
  destruct (Req_EM_T det 0) as [X|X].
  - split; [intros _|reflexivity]. rewrite E in X. apply Rmult_integral in X. tauto.
  - split; [discriminate|]. intros Y. exfalso. apply X. rewrite E, Y. ring.
Qed.
(** What the loop delivers: with the flag, a Newton step from a point whose image is within the tolerance. *)
Lemma newton_loop_spec dist jac tol y : forall n ybar p, newton_loop dist jac tol n y ybar = Some (p, true) ->
  exists q du, dist2 y (dist q) <= tol /\ newton_step (jac q) (fst y - fst (dist q), snd y - snd (dist q)) = Some du /\
    p = (fst q + fst du, snd q + snd du).
Proof.
  induction n as [|n IH]; intros ybar p; cbn [newton_loop]; [discriminate|].
  destruct (newton_step (jac ybar) _) as [du|] eqn:E; [|discriminate]. cbn [fst snd].
  destruct (Rle_dec _ tol) as [L|L].
  - intros H. injection H as <-. exists ybar, du. split; [exact L|]. split; [exact E|reflexivity].
  - intros H. apply (IH _ _ H).
Qed.
(** A point that is mapped onto y exactly is kept. *)
Lemma newton_loop_fix dist jac tol y n ybar : 0 <= tol -> (0 < n)%nat -> dist ybar = y ->
  fst (fst (jac ybar)) * snd (snd (jac ybar)) - snd (fst (jac ybar)) * fst (snd (jac ybar)) <> 0 ->
  newton_loop dist jac tol n y ybar = Some (ybar, true).
Proof.
  intros Ht Hn E N. destruct n as [|n]; [lia|]. cbn [newton_loop]. rewrite E.
  replace (fst y - fst y) with 0 by ring. replace (snd y - snd y) with 0 by ring.
  destruct (jac ybar) as [[a b] [c d]] eqn:J. cbn [fst snd] in N.
  destruct (newton_step_solves a b c d 0 0 N) as (u & v & -> & E1 & E2). cbn [fst snd].
  assert (u = 0). { apply (Rmult_eq_reg_l (a * d - b * c)); [|exact N]. replace ((a * d - b * c) * u) with (d * (a * u + b * v) - b * (c * u + d * v)) by ring. rewrite E1, E2. ring. }
  assert (v = 0). { apply (Rmult_eq_reg_l (a * d - b * c)); [|exact N]. replace ((a * d - b * c) * v) with (a * (c * u + d * v) - c * (a * u + b * v)) by ring. rewrite E1, E2. ring. }
  subst. destruct (Rle_dec _ tol) as [L|L]; [|exfalso; apply L; lra]. destruct ybar as [p q]. cbn. rewrite !Rplus_0_r. reflexivity.
Qed.
(** ** Equidistant *)
Lemma sum_sq_pos x y : 0 < sqrt (x * x + y * y) -> 0 < x * x + y * y.
Proof. intros H. destruct (Rle_lt_dec (x * x + y * y) 0) as [L|L]; [|exact L]. rewrite sqrt_neg_0 in H by exact L. lra. Qed.
Lemma sqrt_sq x y : sqrt (x * x + y * y) * sqrt (x * x + y * y) = x * x + y * y.
Proof. apply sqrt_sqrt. nra. Qed.
Lemma radius_der (X Y : R -> R) t dX dY : is_derive X t dX -> is_derive Y t dY -> 0 < sqrt (X t * X t + Y t * Y t) ->
  is_derive (fun s => sqrt (X s * X s + Y s * Y s)) t ((X t * dX + Y t * dY) / sqrt (X t * X t + Y t * Y t)).
Proof.
  intros HX HY P. eapply der_eq.
  - apply (der_sqrt (fun s => X s * X s + Y s * Y s)); [apply der_plus; apply der_mult; eassumption|]. apply sum_sq_pos. exact P.
  - field. lra.
Qed.
Lemma Rpower_three_half r : 0 < r -> Rpower (r * r) (3 / 2) = r * r * r.
Proof.
  intros P. replace (r * r) with (Rpower r 2).
  - rewrite Rpower_mult. replace (2 * (3 / 2)) with (INR 3) by (cbn; lra). rewrite Rpower_pow by exact P.
    replace (Rpower r 2) with (r * r). { cbn. ring. }
    replace 2 with (INR 2) by (cbn; lra). rewrite Rpower_pow by exact P. cbn. ring.
  - replace 2 with (INR 2) by (cbn; lra). rewrite Rpower_pow by exact P. cbn. ring.
Qed.
(** The map (x, y) |-> x * S(r). *)
Lemma equi_radial (k1 k2 k3 k4 : R) (X Ra : R -> R) t dX dR : is_derive X t dX -> is_derive Ra t dR -> 0 < Ra t ->
  is_derive (fun s => X s * (atan (Ra s) * (1 + k1 * (atan (Ra s) * atan (Ra s)) + k2 * (atan (Ra s) * atan (Ra s) * (atan (Ra s) * atan (Ra s)))
      + k3 * (atan (Ra s) * atan (Ra s) * (atan (Ra s) * atan (Ra s) * (atan (Ra s) * atan (Ra s))))
      + k4 * (atan (Ra s) * atan (Ra s) * (atan (Ra s) * atan (Ra s)) * (atan (Ra s) * atan (Ra s) * (atan (Ra s) * atan (Ra s))))) / Ra s)) t
    (let th := atan (Ra t) in let r := Ra t in
     let P := 1 + k1 * th ^ 2 + k2 * th ^ 4 + k3 * th ^ 6 + k4 * th ^ 8 in
     let P' := 2 * k1 * th + 4 * k2 * th ^ 3 + 6 * k3 * th ^ 5 + 8 * k4 * th ^ 7 in
     th * P / r * dX + X t * (((P + th * P') / (1 + r * r) * r - th * P) / (r * r)) * dR).
Proof.
  intros HX HR Hr. pose proof (der_atan Ra t dR HR) as HT. cbv zeta.
  assert (exists TH : R -> R, forall s, atan (Ra s) = TH s) as [TH ET] by (exists (fun s => atan (Ra s)); reflexivity).
  apply (is_derive_ext _ TH _ _ ET) in HT.
  eapply is_derive_ext. { intros s. rewrite (ET s). reflexivity. }
  rewrite (ET t). clear ET.
  auto_derive. { repeat split; try (eexists; eassumption). lra. }
  use_der HX; use_der HR; use_der HT. field. split; [nra|lra].
Qed.
Lemma equi_jacobian_ok k1 k2 k3 k4 p : / 10 ^ 8 < radius p -> is_jacobian (equi_distort k1 k2 k3 k4) p (equi_jacobian k1 k2 k3 k4 p).
Proof.
  destruct p as [x y]. unfold radius. cbn [fst snd]. intros Hr.
  assert (H8 : / 10 ^ 10 < / 10 ^ 8) by (apply Rinv_lt_contravar; lra).
  assert (H0 : 0 < / 10 ^ 8) by (apply Rinv_0_lt_compat; lra).
  assert (Gen : forall (sel : bool) (X Y : R -> R) t dX dY, is_derive X t dX -> is_derive Y t dY -> X t = x -> Y t = y ->
    is_derive (fun s => (if sel then fst else snd) (equi_distort k1 k2 k3 k4 (X s, Y s))) t
      (let th := atan (sqrt (x * x + y * y)) in let r := sqrt (x * x + y * y) in
       let P := 1 + k1 * th ^ 2 + k2 * th ^ 4 + k3 * th ^ 6 + k4 * th ^ 8 in
       let P' := 2 * k1 * th + 4 * k2 * th ^ 3 + 6 * k3 * th ^ 5 + 8 * k4 * th ^ 7 in
       th * P / r * (if sel then dX else dY) + (if sel then x else y) * (((P + th * P') / (1 + r * r) * r - th * P) / (r * r)) * ((x * dX + y * dY) / r))).
  { intros sel X Y t dX dY HX HY EX EY. pose proof Hr as Hr'. rewrite <- EX, <- EY in Hr'.
    pose proof (radius_der X Y t dX dY HX HY ltac:(lra)) as HR.
    pose proof (near_gt _ _ _ (/ 10 ^ 8) HR Hr') as L.
    destruct sel.
    - eapply der_near; [exact L| |rewrite <- EX, <- EY; apply (equi_radial k1 k2 k3 k4 X _ t dX _ HX HR); cbv beta; lra].
      intros s Hs. cbv beta in Hs |- *. unfold equi_distort.
      destruct (Rlt_dec _ (/ 10 ^ 10)) as [A|_]; [lra|]. destruct (Rlt_dec (/ 10 ^ 8) _) as [_|A]; [|lra]. reflexivity.
    - eapply der_near; [exact L| |rewrite <- EX, <- EY; apply (equi_radial k1 k2 k3 k4 Y _ t dY _ HY HR); cbv beta; lra].
      intros s Hs. cbv beta in Hs |- *. unfold equi_distort.
      destruct (Rlt_dec _ (/ 10 ^ 10)) as [A|_]; [lra|]. destruct (Rlt_dec (/ 10 ^ 8) _) as [_|A]; [|lra]. reflexivity. }
  unfold equi_jacobian. destruct (Rlt_dec (sqrt (x * x + y * y)) (/ 10 ^ 10)) as [A|A]; [lra|].
  assert (Q : x * x + y * y = sqrt (x * x + y * y) * sqrt (x * x + y * y)) by (symmetry; apply sqrt_sq).
  assert (P3 : Rpower (x * x + y * y) (3 / 2) = sqrt (x * x + y * y) * sqrt (x * x + y * y) * sqrt (x * x + y * y)).
  { rewrite Q at 1. apply Rpower_three_half. lra. }
  clear A. assert (Rpos : 0 < sqrt (x * x + y * y)) by lra. clear Hr.
  cbv zeta in *. split; cbn [fst snd]; intros X Y t dX dY HX HY EX EY.
  - eapply der_eq; [exact (Gen true X Y t dX dY HX HY EX EY)|]. rewrite P3. clear Gen P3. cbv iota.
    generalize dependent (sqrt (x * x + y * y)). intros r Q Rpos. generalize (atan r) as th. intros th. rewrite !Q. field. repeat split; (lra || nra).
  - eapply der_eq; [exact (Gen false X Y t dX dY HX HY EX EY)|]. rewrite P3. clear Gen P3. cbv iota.
    generalize dependent (sqrt (x * x + y * y)). intros r Q Rpos. generalize (atan r) as th. intros th. rewrite !Q. field. repeat split; (lra || nra).
Qed.
Lemma equi_param_ok k1 k2 k3 k4 p : / 10 ^ 8 < radius p ->
  is_jacobian4 (fun k1 k2 k3 k4 => equi_distort k1 k2 k3 k4 p) k1 k2 k3 k4 (equi_param_jacobian p).
Proof.
  destruct p as [x y]. unfold radius. cbn [fst snd]. intros Hr.
  assert (H8 : / 10 ^ 10 < / 10 ^ 8) by (apply Rinv_lt_contravar; lra).
  assert (H0 : 0 < / 10 ^ 8) by (apply Rinv_0_lt_compat; lra).
  unfold equi_param_jacobian, equi_distort. destruct (Rlt_dec (sqrt (x * x + y * y)) (/ 10 ^ 10)) as [A|_]; [lra|].
  destruct (Rlt_dec (/ 10 ^ 8) (sqrt (x * x + y * y))) as [_|A]; [|lra].
  assert (Rpos : 0 < sqrt (x * x + y * y)) by lra. revert Rpos. generalize (sqrt (x * x + y * y)) as r. intros r Rpos. generalize (atan r) as th. intros th.
  split; cbn [fst snd]; intros X Y Z W t dX dY dZ dW HX HY HZ HW _ _ _ _.
  - auto_derive; [repeat split; try (eexists; eassumption); try lra|]. use_der HX; use_der HY; use_der HZ; use_der HW. field. lra.
  - auto_derive; [repeat split; try (eexists; eassumption); try lra|]. use_der HX; use_der HY; use_der HZ; use_der HW. field. lra.
Qed.
(** Near the centre the points are not moved, so the derivative is the identity. *)
Lemma sq_radius_near (X Y : R -> R) t dX dY c : is_derive X t dX -> is_derive Y t dY -> X t * X t + Y t * Y t < c ->
  locally t (fun s => X s * X s + Y s * Y s < c).
Proof. intros HX HY L. eapply (near_lt (fun s => X s * X s + Y s * Y s)); [|exact L]. apply der_plus; apply der_mult; eassumption. Qed.
Lemma sq_radius_far (X Y : R -> R) t dX dY c : is_derive X t dX -> is_derive Y t dY -> c < X t * X t + Y t * Y t ->
  locally t (fun s => c < X s * X s + Y s * Y s).
Proof. intros HX HY L. eapply (near_gt (fun s => X s * X s + Y s * Y s)); [|exact L]. apply der_plus; apply der_mult; eassumption. Qed.
Lemma sqrt_lt_sq a c : 0 <= c -> 0 <= a -> sqrt a < c <-> a < c * c.
Proof.
  intros Hc Ha. split; intros H.
  - rewrite <- (sqrt_sqrt a) by exact Ha. pose proof (sqrt_pos a). nra.
  - destruct (Rlt_le_dec (sqrt a) c) as [|L]; [assumption|]. exfalso. rewrite <- (sqrt_sqrt a) in H by exact Ha. nra.
Qed.
Lemma equi_centre_identity k1 k2 k3 k4 p : radius p < / 10 ^ 10 -> is_jacobian (equi_distort k1 k2 k3 k4) p ((1, 0), (0, 1)).
Proof.
  destruct p as [x y]. unfold radius. cbn [fst snd]. intros Hr.
  assert (H0 : 0 < / 10 ^ 10) by (apply Rinv_0_lt_compat; lra).
  apply sqrt_lt_sq in Hr; [|lra|nra].
  assert (Loc : forall (X Y : R -> R) t dX dY, is_derive X t dX -> is_derive Y t dY -> X t = x -> Y t = y ->
    locally t (fun s => equi_distort k1 k2 k3 k4 (X s, Y s) = (X s, Y s))).
  { intros X Y t dX dY HX HY EX EY. rewrite <- EX, <- EY in Hr. eapply filter_imp; [|exact (sq_radius_near X Y t dX dY _ HX HY Hr)].
    intros s Hs. cbv beta in Hs. unfold equi_distort. destruct (Rlt_dec _ (/ 10 ^ 10)) as [_|A]; [reflexivity|].
    exfalso. apply A. apply sqrt_lt_sq; [lra|nra|exact Hs]. }
  split; cbn [fst snd]; intros X Y t dX dY HX HY EX EY.
  - eapply der_eq; [|instantiate (1 := dX); ring]. eapply der_near; [exact (Loc X Y t dX dY HX HY EX EY)| |exact HX].
    intros s E. cbv beta in E. rewrite E. reflexivity.
  - eapply der_eq; [|instantiate (1 := dY); ring]. eapply der_near; [exact (Loc X Y t dX dY HX HY EX EY)| |exact HY].
    intros s E. cbv beta in E. rewrite E. reflexivity.
Qed.
(** ** Fisheye *)
Lemma fisheye_radial (w T : R) (X Ra : R -> R) t dX dR : is_derive X t dX -> is_derive Ra t dR -> 0 < Ra t -> w <> 0 ->
  is_derive (fun s => X s * (atan (2 * T * Ra s) / (Ra s * w))) t
    (atan (2 * T * Ra t) / (Ra t * w) * dX + X t * ((2 * T / (1 + 4 * (T * T) * (Ra t * Ra t)) * Ra t - atan (2 * T * Ra t)) / (Ra t * Ra t * w)) * dR).
Proof.
  intros HX HR Hr Hw.
  assert (HT : is_derive (fun s => atan (2 * T * Ra s)) t (2 * T * dR / (1 + 4 * (T * T) * (Ra t * Ra t)))).
  { eapply der_eq; [apply der_atan; apply (der_mult (fun _ => 2 * T) Ra); [apply der_const|exact HR]|]. cbv beta. field. repeat split; nra. }
  assert (exists TH : R -> R, forall s, atan (2 * T * Ra s) = TH s) as [TH ET] by (exists (fun s => atan (2 * T * Ra s)); reflexivity).
  apply (is_derive_ext _ TH _ _ ET) in HT.
  eapply is_derive_ext. { intros s. rewrite (ET s). reflexivity. }
  rewrite (ET t). clear ET.
  auto_derive. { repeat split; try (eexists; eassumption). apply Rmult_integral_contrapositive. split; [lra|exact Hw]. }
  use_der HX; use_der HR; use_der HT. field. repeat split; (lra || nra).
Qed.
Lemma fisheye_jacobian_far w p : / 10 ^ 5 <= w * w -> / 10 ^ 5 < radius p * radius p -> is_jacobian (fisheye_distort w) p (fisheye_jacobian w p).
Proof.
  destruct p as [x y]. unfold radius. cbn [fst snd]. intros Hw Hr. rewrite sqrt_sq in Hr.
  assert (H0 : 0 < / 10 ^ 5) by (apply Rinv_0_lt_compat; lra).
  assert (Nw : w <> 0) by nra.
  assert (Loc : forall (X Y : R -> R) t dX dY, is_derive X t dX -> is_derive Y t dY -> X t = x -> Y t = y ->
    locally t (fun s => fisheye_distort w (X s, Y s) =
      (X s * (atan (2 * tan (w / 2) * sqrt (X s * X s + Y s * Y s)) / (sqrt (X s * X s + Y s * Y s) * w)),
       Y s * (atan (2 * tan (w / 2) * sqrt (X s * X s + Y s * Y s)) / (sqrt (X s * X s + Y s * Y s) * w))))).
  { intros X Y t dX dY HX HY EX EY. rewrite <- EX, <- EY in Hr. eapply filter_imp; [|exact (sq_radius_far X Y t dX dY _ HX HY Hr)].
    intros s Hs. cbv beta in Hs. unfold fisheye_distort. destruct (Rlt_dec (w * w) _) as [A|_]; [lra|].
    destruct (Rlt_dec (sqrt _ * sqrt _) _) as [A|_]; [rewrite sqrt_sq in A; lra|]. reflexivity. }
  assert (P : 0 < sqrt (x * x + y * y)) by (apply sqrt_lt_R0; lra).
  unfold fisheye_jacobian. destruct (Rlt_dec (w * w) _) as [A|_]; [lra|].
  destruct (Rlt_dec (sqrt _ * sqrt _) _) as [A|_]; [rewrite sqrt_sq in A; lra|].
  assert (Q : x * x + y * y = sqrt (x * x + y * y) * sqrt (x * x + y * y)) by (symmetry; apply sqrt_sq).
  split; cbn [fst snd]; intros X Y t dX dY HX HY EX EY.
  - assert (HR : is_derive (fun s => sqrt (X s * X s + Y s * Y s)) t ((x * dX + y * dY) / sqrt (x * x + y * y))).
    { rewrite <- EX, <- EY. apply radius_der; [exact HX|exact HY|]. rewrite EX, EY. exact P. }
    eapply der_eq.
    + eapply der_near; [exact (Loc X Y t dX dY HX HY EX EY)|intros s E; cbv beta in E; rewrite E; reflexivity|].
      apply (fisheye_radial w (tan (w / 2)) X _ t dX _ HX HR); [cbv beta; rewrite EX, EY; exact P|exact Nw].
    + cbv beta. rewrite EX, EY. clear Loc HX HY HR EX EY Hr.
      generalize dependent (sqrt (x * x + y * y)). intros r Pr Q. generalize (atan (2 * tan (w / 2) * r)) as at_. generalize (tan (w / 2)) as T. intros T at_.
      rewrite !Q. field. repeat split; (lra || nra).
  - assert (HR : is_derive (fun s => sqrt (X s * X s + Y s * Y s)) t ((x * dX + y * dY) / sqrt (x * x + y * y))).
    { rewrite <- EX, <- EY. apply radius_der; [exact HX|exact HY|]. rewrite EX, EY. exact P. }
    eapply der_eq.
    + eapply der_near; [exact (Loc X Y t dX dY HX HY EX EY)|intros s E; cbv beta in E; rewrite E; reflexivity|].
      apply (fisheye_radial w (tan (w / 2)) Y _ t dY _ HY HR); [cbv beta; rewrite EX, EY; exact P|exact Nw].
    + cbv beta. rewrite EX, EY. clear Loc HX HY HR EX EY Hr.
      generalize dependent (sqrt (x * x + y * y)). intros r Pr Q. generalize (atan (2 * tan (w / 2) * r)) as at_. generalize (tan (w / 2)) as T. intros T at_.
      rewrite !Q. field. repeat split; (lra || nra).
Qed.
Lemma fisheye_jacobian_near w p : / 10 ^ 5 <= w * w -> radius p * radius p < / 10 ^ 5 -> is_jacobian (fisheye_distort w) p (fisheye_jacobian w p).
Proof.
  destruct p as [x y]. unfold radius. cbn [fst snd]. intros Hw Hr. rewrite sqrt_sq in Hr.
  assert (Loc : forall (X Y : R -> R) t dX dY, is_derive X t dX -> is_derive Y t dY -> X t = x -> Y t = y ->
    locally t (fun s => fisheye_distort w (X s, Y s) = (X s * (2 * tan (w / 2) / w), Y s * (2 * tan (w / 2) / w)))).
  { intros X Y t dX dY HX HY EX EY. rewrite <- EX, <- EY in Hr. eapply filter_imp; [|exact (sq_radius_near X Y t dX dY _ HX HY Hr)].
    intros s Hs. cbv beta in Hs. unfold fisheye_distort. destruct (Rlt_dec (w * w) _) as [A|_]; [lra|].
    destruct (Rlt_dec (sqrt _ * sqrt _) _) as [_|A]; [reflexivity|rewrite sqrt_sq in A; lra]. }
  unfold fisheye_jacobian. destruct (Rlt_dec (w * w) _) as [A|_]; [lra|].
  destruct (Rlt_dec (sqrt _ * sqrt _) _) as [_|A]; [|rewrite sqrt_sq in A; lra].
  split; cbn [fst snd]; intros X Y t dX dY HX HY EX EY.
  - eapply der_eq.
    + eapply der_near; [exact (Loc X Y t dX dY HX HY EX EY)|intros s E; cbv beta in E; rewrite E; reflexivity|].
      apply (der_mult X (fun _ => 2 * tan (w / 2) / w)); [exact HX|apply der_const].
    + cbv beta. ring.
  - eapply der_eq.
    + eapply der_near; [exact (Loc X Y t dX dY HX HY EX EY)|intros s E; cbv beta in E; rewrite E; reflexivity|].
      apply (der_mult Y (fun _ => 2 * tan (w / 2) / w)); [exact HY|apply der_const].
    + cbv beta. ring.
Qed.
Lemma fisheye_jacobian_small w p : w * w < / 10 ^ 5 -> is_jacobian (fisheye_distort w) p (fisheye_jacobian w p).
Proof.
  destruct p as [x y]. intros Hw. unfold fisheye_jacobian, fisheye_distort. destruct (Rlt_dec (w * w) _) as [_|A]; [|lra].
  split; cbn [fst snd]; intros X Y t dX dY HX HY EX EY; (auto_derive; [curve_conds|]; use_der HX; use_der HY; ring).
Qed.
(** ** Fisheye: derivative with respect to w *)
Lemma fisheye_param_far w p : / 10 ^ 5 < w * w -> cos (w / 2) <> 0 -> / 10 ^ 5 <= radius p * radius p ->
  jac1 (fun w => fst (fisheye_distort w p)) w (fst (fisheye_param_jacobian w p)) /\
  jac1 (fun w => snd (fisheye_distort w p)) w (snd (fisheye_param_jacobian w p)).
Proof.
  destruct p as [x y]. unfold radius. cbn [fst snd]. intros Hw Hc Hr.
  assert (H0 : 0 < / 10 ^ 5) by (apply Rinv_0_lt_compat; lra).
  assert (Loc : forall (X : R -> R) t dX, is_derive X t dX -> X t = w ->
    locally t (fun s => fisheye_distort (X s) (x, y) =
      (x * (atan (2 * tan (X s / 2) * sqrt (x * x + y * y)) / (sqrt (x * x + y * y) * X s)),
       y * (atan (2 * tan (X s / 2) * sqrt (x * x + y * y)) / (sqrt (x * x + y * y) * X s))))).
  { intros X t dX HX EX. rewrite <- EX in Hw. eapply filter_imp; [|eapply (near_gt (fun s => X s * X s)); [apply der_mult; exact HX|exact Hw]].
    intros s Hs. cbv beta in Hs. unfold fisheye_distort. destruct (Rlt_dec (X s * X s) _) as [A|_]; [lra|].
    destruct (Rlt_dec (sqrt _ * sqrt _) _) as [A|_]; [lra|]. reflexivity. }
  unfold fisheye_param_jacobian. destruct (Rlt_dec (w * w) _) as [A|_]; [lra|].
  destruct (Rlt_dec (sqrt _ * sqrt _) _) as [A|_]; [lra|]. cbn [fst snd].
  assert (P : 0 < sqrt (x * x + y * y)). { pose proof (sqrt_pos (x * x + y * y)). nra. }
  assert (Nw : w <> 0) by nra.
  assert (Main : forall c (X : R -> R) t dX, is_derive X t dX -> X t = w ->
    is_derive (fun s => c * (atan (2 * tan (X s / 2) * sqrt (x * x + y * y)) / (sqrt (x * x + y * y) * X s))) t
      (((2 * c * (tan (w / 2) * tan (w / 2) / 2 + / 2)) / (w * (4 * (tan (w / 2) * tan (w / 2)) * sqrt (x * x + y * y) * sqrt (x * x + y * y) + 1))
        - (c * atan (2 * tan (w / 2) * sqrt (x * x + y * y))) / (w * w * sqrt (x * x + y * y))) * dX)).
  { intros c X t dX HX EX. clear Loc Hr. generalize dependent (sqrt (x * x + y * y)). intros r P.
    assert (HT : is_derive (fun s => tan (X s / 2)) t (dX / 2 * (tan (w / 2) ^ 2 + 1))).
    { apply (der_comp tan (fun s => X s / 2)); [rewrite EX; apply is_derive_tan; exact Hc|].
      eapply der_eq; [apply (der_mult X (fun _ => / 2)); [exact HX|apply der_const]|cbv beta; field]. }
    assert (HA : is_derive (fun s => atan (2 * tan (X s / 2) * r)) t
      (dX * (tan (w / 2) ^ 2 + 1) * r / (1 + 4 * (tan (w / 2) * tan (w / 2)) * (r * r)))).
    { eapply der_eq.
      - apply (der_atan (fun s => 2 * tan (X s / 2) * r)). apply (der_mult (fun s => 2 * tan (X s / 2)) (fun _ => r)); [|apply der_const].
        apply (der_mult (fun _ => 2) (fun s => tan (X s / 2))); [apply der_const|exact HT].
      - cbv beta. rewrite EX. generalize (tan (w / 2)) as T. intros T. field. repeat split; nra. }
    eapply der_eq.
    - apply (der_mult (fun _ => c) (fun s => atan (2 * tan (X s / 2) * r) / (r * X s))); [apply der_const|].
      apply (der_div (fun s => atan (2 * tan (X s / 2) * r)) (fun s => r * X s)); [exact HA| |].
      + apply (der_mult (fun _ => r) X); [apply der_const|exact HX].
      + cbv beta. rewrite EX. apply Rmult_integral_contrapositive. split; [lra|exact Nw].
    - cbv beta. rewrite EX. generalize (atan (2 * tan (w / 2) * r)) as A. generalize (tan (w / 2)) as T. intros T A. field.
      repeat split; (lra || nra). }
  split; intros X t dX HX EX.
  - eapply der_near; [exact (Loc X t dX HX EX)|intros s E; cbv beta in E; rewrite E; reflexivity|]. exact (Main x X t dX HX EX).
  - eapply der_near; [exact (Loc X t dX HX EX)|intros s E; cbv beta in E; rewrite E; reflexivity|]. exact (Main y X t dX HX EX).
Qed.
(** Near the centre the derivative carries the coordinates as factors. *)
Lemma fisheye_param_near_true w p : / 10 ^ 5 < w * w -> cos (w / 2) <> 0 -> radius p * radius p < / 10 ^ 5 ->
  jac1 (fun w => fst (fisheye_distort w p)) w (fst p * ((w - sin w) / (w * w * cos (w / 2) * cos (w / 2)))) /\
  jac1 (fun w => snd (fisheye_distort w p)) w (snd p * ((w - sin w) / (w * w * cos (w / 2) * cos (w / 2)))).
Proof.
  destruct p as [x y]. unfold radius. cbn [fst snd]. intros Hw Hc Hr.
  assert (H0 : 0 < / 10 ^ 5) by (apply Rinv_0_lt_compat; lra).
  assert (Nw : w <> 0) by nra.
  assert (Loc : forall (X : R -> R) t dX, is_derive X t dX -> X t = w ->
    locally t (fun s => fisheye_distort (X s) (x, y) = (x * (2 * tan (X s / 2) / X s), y * (2 * tan (X s / 2) / X s)))).
  { intros X t dX HX EX. rewrite <- EX in Hw. eapply filter_imp; [|eapply (near_gt (fun s => X s * X s)); [apply der_mult; exact HX|exact Hw]].
    intros s Hs. cbv beta in Hs. unfold fisheye_distort. destruct (Rlt_dec (X s * X s) _) as [A|_]; [lra|].
    destruct (Rlt_dec (sqrt _ * sqrt _) _) as [_|A]; [reflexivity|lra]. }
  assert (Hs : sin w = 2 * sin (w / 2) * cos (w / 2)). { rewrite <- sin_2a. f_equal. field. }
  assert (Main : forall c (X : R -> R) t dX, is_derive X t dX -> X t = w ->
    is_derive (fun s => c * (2 * tan (X s / 2) / X s)) t (c * ((w - sin w) / (w * w * cos (w / 2) * cos (w / 2))) * dX)).
  { intros c X t dX HX EX.
    assert (HT : is_derive (fun s => tan (X s / 2)) t (dX / 2 * (tan (w / 2) ^ 2 + 1))).
    { apply (der_comp tan (fun s => X s / 2)); [rewrite EX; apply is_derive_tan; exact Hc|].
      eapply der_eq; [apply (der_mult X (fun _ => / 2)); [exact HX|apply der_const]|cbv beta; field]. }
    eapply der_eq.
    - apply (der_mult (fun _ => c) (fun s => 2 * tan (X s / 2) / X s)); [apply der_const|].
      apply (der_div (fun s => 2 * tan (X s / 2)) X); [|exact HX|rewrite EX; exact Nw].
      apply (der_mult (fun _ => 2) (fun s => tan (X s / 2))); [apply der_const|exact HT].
    - cbv beta. rewrite EX, Hs. unfold tan.
      assert (S2 : sin (w / 2) * sin (w / 2) = 1 - cos (w / 2) * cos (w / 2)). { pose proof (sin2_cos2 (w / 2)) as S. unfold Rsqr in S. lra. }
      assert (T1 : (sin (w / 2) / cos (w / 2)) ^ 2 + 1 = / (cos (w / 2) * cos (w / 2))).
      { replace ((sin (w / 2) / cos (w / 2)) ^ 2) with (sin (w / 2) * sin (w / 2) / (cos (w / 2) * cos (w / 2))) by (field; exact Hc).
        rewrite S2. field. exact Hc. }
      rewrite T1. field. split; [exact Hc|exact Nw]. }
  split; intros X t dX HX EX.
  - eapply der_near; [exact (Loc X t dX HX EX)|intros s E; cbv beta in E; rewrite E; reflexivity|]. exact (Main x X t dX HX EX).
  - eapply der_near; [exact (Loc X t dX HX EX)|intros s E; cbv beta in E; rewrite E; reflexivity|]. exact (Main y X t dX HX EX).
Qed.
(** ** Fisheye: inverse *)
Lemma atan_lt z : 0 < z -> atan z < z.
Proof.
  intros Hz. destruct (MVT_cor2 atan (fun c => / (1 + c ^ 2)) 0 z Hz) as (c & E & Hc).
  { intros c _. apply derivable_pt_lim_atan. }
  rewrite atan_0 in E. assert (0 < c ^ 2) by nra. assert (/ (1 + c ^ 2) < 1).
  { rewrite <- Rinv_1. apply Rinv_lt_contravar; lra. }
  nra.
Qed.
Lemma tan_gt y : 0 < y < PI / 2 -> y < tan y.
Proof. intros H. rewrite <- (atan_tan y) at 1 by lra. apply atan_lt. apply tan_gt_0; lra. Qed.
Lemma tan_half_pos w : 0 < w < PI -> 0 < tan (w / 2).
Proof. intros H. apply tan_gt_0; lra. Qed.
Lemma scaled_radius x y s : 0 <= s -> sqrt (x * s * (x * s) + y * s * (y * s)) = s * sqrt (x * x + y * y).
Proof.
  intros Hs. replace (x * s * (x * s) + y * s * (y * s)) with ((s * s) * (x * x + y * y)) by ring.
  rewrite sqrt_mult by nra. rewrite sqrt_square by exact Hs. reflexivity.
Qed.
Lemma atan_pos z : 0 < z -> 0 < atan z.
Proof. intros H. rewrite <- atan_0. apply atan_increasing. exact H. Qed.
Lemma fisheye_inverse w p : 0 < w < PI -> / 10 ^ 5 <= w * w -> / 10 ^ 5 <= radius p * radius p ->
  atan (2 * tan (w / 2) * radius p) <= max_valid_angle -> fisheye_undistort w (fisheye_distort w p) = p.
Proof.
  destruct p as [x y]. unfold radius. cbn [fst snd]. intros Hw Hw2 Hr Ha.
  assert (H0 : 0 < / 10 ^ 5) by (apply Rinv_0_lt_compat; lra).
  pose proof (tan_half_pos w Hw) as HT.
  assert (P : 0 < sqrt (x * x + y * y)). { pose proof (sqrt_pos (x * x + y * y)). nra. }
  unfold fisheye_distort. destruct (Rlt_dec (w * w) _) as [A|_]; [lra|]. destruct (Rlt_dec (sqrt _ * sqrt _) _) as [A|_]; [lra|].
  assert (PA : 0 < atan (2 * tan (w / 2) * sqrt (x * x + y * y))) by (apply atan_pos; nra).
  set (s := atan _ / _). assert (Ps : 0 < s). { unfold s. apply Rdiv_lt_0_compat; nra. }
  assert (Es : s * sqrt (x * x + y * y) * w = atan (2 * tan (w / 2) * sqrt (x * x + y * y))). { unfold s. field. lra. }
  unfold fisheye_undistort. destruct (Req_EM_T (tan (w / 2) * 2) 0) as [A|_]; [lra|].
  rewrite scaled_radius by lra.
  destruct (Req_EM_T (s * sqrt (x * x + y * y)) 0) as [A|_]; [nra|].
  rewrite Es. rewrite Rabs_right by lra. destruct (Rle_dec _ max_valid_angle) as [_|A]; [|contradiction].
  rewrite tan_atan. f_equal; field; lra.
Qed.
Lemma fisheye_beyond w p : 0 < w < PI -> / 10 ^ 5 <= w * w -> / 10 ^ 5 <= radius p * radius p ->
  max_valid_angle < atan (2 * tan (w / 2) * radius p) -> fisheye_undistort w (fisheye_distort w p) = fisheye_distort w p.
Proof.
  destruct p as [x y]. unfold radius. cbn [fst snd]. intros Hw Hw2 Hr Ha.
  assert (H0 : 0 < / 10 ^ 5) by (apply Rinv_0_lt_compat; lra).
  pose proof (tan_half_pos w Hw) as HT.
  assert (P : 0 < sqrt (x * x + y * y)). { pose proof (sqrt_pos (x * x + y * y)). nra. }
  unfold fisheye_distort. destruct (Rlt_dec (w * w) _) as [A|_]; [lra|]. destruct (Rlt_dec (sqrt _ * sqrt _) _) as [A|_]; [lra|].
  assert (PA : 0 < atan (2 * tan (w / 2) * sqrt (x * x + y * y))) by (apply atan_pos; nra).
  set (s := atan _ / _). assert (Ps : 0 < s). { unfold s. apply Rdiv_lt_0_compat; nra. }
  assert (Es : s * sqrt (x * x + y * y) * w = atan (2 * tan (w / 2) * sqrt (x * x + y * y))). { unfold s. field. lra. }
  unfold fisheye_undistort. destruct (Req_EM_T (tan (w / 2) * 2) 0) as [A|_]; [reflexivity|].
  rewrite scaled_radius by lra.
  destruct (Req_EM_T (s * sqrt (x * x + y * y)) 0) as [A|_]; [reflexivity|].
  rewrite Es. rewrite Rabs_right by lra. destruct (Rle_dec _ max_valid_angle) as [A|_]; [lra|]. reflexivity.
Qed.
