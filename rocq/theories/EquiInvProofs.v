(** Newton's iteration for the equidistant distortion: it moves along the ray, outwards, and never too far. *)
From Coq Require Import Reals Lra Psatz.
From Coquelicot Require Import Coquelicot.
From Verif Require Import CalculusSpec CalculusFacts DistortionModel DistortionSpec DistortionProofs RadTanInvSpec EquiInvSpec.
Local Open Scope R_scope.

Lemma der_id (s : R) : is_derive (fun x : R => x) s 1.
Proof. exact (is_derive_id s). Qed.
Section Lens.
Variables (k1 k2 k3 k4 : R).
Notation outward := (outward k1 k2 k3 k4).
Notation slope := (slope k1 k2 k3 k4).
Notation dist := (equi_distort k1 k2 k3 k4).
Notation jac := (equi_jacobian k1 k2 k3 k4).

Lemma outward_der s : is_derive outward s (slope s).
Proof.
  unfold EquiInvSpec.outward, EquiInvSpec.slope, bent, bent'. assert (is_derive (fun x : R => atan x) s (/ (1 + s * s))) as A. { eapply der_eq; [apply (der_atan (fun x => x) s 1); apply der_id|]. field. nra. }
  assert (forall c n, is_derive (fun x => c * atan x ^ n) s (c * (INR n * / (1 + s * s) * atan s ^ pred n))) as P. { intros c n. apply (is_derive_scal (fun x => atan x ^ n) s c). apply (is_derive_pow atan n s _ A). }
  eapply der_eq. { apply der_plus; [apply der_plus; [apply der_plus; [apply der_plus; [exact A|apply P]|apply P]|apply P]|apply P]. }
  cbn [pred]. rewrite !INR_IZR_INZ. cbn [Z.of_nat Pos.of_succ_nat Pos.succ]. field. nra.
Qed.
Lemma slope_der s : is_derive slope s ((bent'' k1 k2 k3 k4 (atan s) - 2 * s * bent' k1 k2 k3 k4 (atan s)) / ((1 + s * s) * (1 + s * s))).
Proof.
  unfold EquiInvSpec.slope, bent', bent''. assert (is_derive (fun x : R => atan x) s (/ (1 + s * s))) as A. { eapply der_eq; [apply (der_atan (fun x => x) s 1); apply der_id|]. field. nra. }
  assert (forall c n, is_derive (fun x => c * atan x ^ n) s (c * (INR n * / (1 + s * s) * atan s ^ pred n))) as P. { intros c n. apply (is_derive_scal (fun x => atan x ^ n) s c). apply (is_derive_pow atan n s _ A). }
  eapply der_eq. { apply der_div; [apply der_plus; [apply der_plus; [apply der_plus; [apply der_plus; [apply der_const|apply P]|apply P]|apply P]|apply P]| |nra]. apply der_plus; [apply der_const|]. apply der_mult; apply der_id. }
  cbn [pred]. rewrite !INR_IZR_INZ. cbn [Z.of_nat Pos.of_succ_nat Pos.succ]. field. nra.
Qed.
Lemma eight_pos : 0 < / 10 ^ 10 < / 10 ^ 8 /\ / 10 ^ 8 < / 1000.
Proof. split; [split|]; [apply Rinv_0_lt_compat; lra|apply Rinv_lt_contravar; lra|apply Rinv_lt_contravar; lra]. Qed.
Lemma distort_far p : / 10 ^ 8 < radius p -> dist p = scaled (outward (radius p) / radius p) p.
Proof.
  intros H. pose proof eight_pos. destruct p as [x y]. unfold equi_distort, radius, scaled, EquiInvSpec.outward, bent in *. cbn [fst snd] in *. destruct (Rlt_dec _ (/ 10 ^ 10)); [lra|]. destruct (Rlt_dec (/ 10 ^ 8) _); [|contradiction].
  set (ra := sqrt (x * x + y * y)) in *. f_equal; field; lra.
Qed.

Variables (ux uy : R).
Hypothesis unit : ux * ux + uy * uy = 1.
Definition on_ray (s : R) : vec2 := (s * ux, s * uy).
Lemma radius_ray s : 0 <= s -> radius (on_ray s) = s.
Proof. intros H. unfold radius, on_ray. cbn [fst snd]. replace (s * ux * (s * ux) + s * uy * (s * uy)) with (s * s * (ux * ux + uy * uy)) by ring. rewrite unit, Rmult_1_r. apply sqrt_square. exact H. Qed.
Lemma distort_ray s : / 10 ^ 8 < s -> dist (on_ray s) = on_ray (outward s).
Proof. intros H. pose proof eight_pos. rewrite distort_far by (rewrite radius_ray; lra). rewrite radius_ray by lra. unfold scaled, on_ray. cbn [fst snd]. f_equal; field; lra. Qed.

Lemma jac_ray s : / 10 ^ 8 < s -> exists a b c d, jac (on_ray s) = ((a, b), (c, d)) /\ a * ux + b * uy = slope s * ux /\ c * ux + d * uy = slope s * uy /\
  - a * uy + b * ux = - (outward s / s) * uy /\ - c * uy + d * ux = outward s / s * ux.
Proof.
  intros H. pose proof eight_pos. destruct (jac (on_ray s)) as [[a b] [c d]] eqn:E. exists a, b, c, d. split; [reflexivity|].
  destruct (equi_jacobian_ok k1 k2 k3 k4 (on_ray s)) as (J1 & J2); [rewrite radius_ray; lra|]. rewrite E in J1, J2. cbn [fst snd] in J1, J2.
  assert (forall k, is_derive (fun t => t * k) s k) as Lin. { intros k. eapply der_eq; [apply der_mult; [apply der_id|apply der_const]|]. cbv beta. ring. }
  assert (forall k, is_derive (fun t => outward t * k) s (slope s * k)) as Out. { intros k. eapply der_eq; [apply der_mult; [apply outward_der|apply der_const]|]. cbv beta. ring. }
  assert (locally s (fun t => / 10 ^ 8 < t)) as L. { apply (near_gt (fun t => t) s 1); [apply der_id|exact H]. }
  pose proof (J1 (fun t => t * ux) (fun t => t * uy) s ux uy (Lin ux) (Lin uy) eq_refl eq_refl) as R1. pose proof (J2 (fun t => t * ux) (fun t => t * uy) s ux uy (Lin ux) (Lin uy) eq_refl eq_refl) as R2.
  assert (is_derive (fun t => fst (dist (t * ux, t * uy))) s (slope s * ux)) as Q1. { apply (der_near (fun t => outward t * ux) _ s _ _ L); [|apply Out]. intros t Ht. change (t * ux, t * uy) with (on_ray t). rewrite distort_ray by exact Ht. reflexivity. }
  assert (is_derive (fun t => snd (dist (t * ux, t * uy))) s (slope s * uy)) as Q2. { apply (der_near (fun t => outward t * uy) _ s _ _ L); [|apply Out]. intros t Ht. change (t * ux, t * uy) with (on_ray t). rewrite distort_ray by exact Ht. reflexivity. }
  apply is_derive_unique in R1, R2, Q1, Q2. split; [congruence|]. split; [congruence|].
  set (X := fun t => s * (ux * cos t - uy * sin t)). set (Y := fun t => s * (uy * cos t + ux * sin t)).
  assert (is_derive X 0 (- s * uy)) as DX. { unfold X. auto_derive; [exact I|]. rewrite sin_0, cos_0. ring. }
  assert (is_derive Y 0 (s * ux)) as DY. { unfold Y. auto_derive; [exact I|]. rewrite sin_0, cos_0. ring. }
  assert (X 0 = s * ux) as X0 by (unfold X; rewrite sin_0, cos_0; ring). assert (Y 0 = s * uy) as Y0 by (unfold Y; rewrite sin_0, cos_0; ring).
  pose proof (J1 X Y 0 _ _ DX DY X0 Y0) as T1. pose proof (J2 X Y 0 _ _ DX DY X0 Y0) as T2.
  assert (forall t, radius (X t, Y t) = s) as Rt.
  { intros t. unfold radius, X, Y. cbn [fst snd]. replace (_ + _) with (s * s * ((ux * ux + uy * uy) * (Rsqr (sin t) + Rsqr (cos t)))) by (unfold Rsqr; ring). rewrite unit, sin2_cos2, !Rmult_1_r. apply sqrt_square. lra. }
  assert (forall t, dist (X t, Y t) = (outward s / s * X t, outward s / s * Y t)) as Dt. { intros t. rewrite distort_far by (rewrite Rt; exact H). rewrite Rt. reflexivity. }
  assert (is_derive (fun t => fst (dist (X t, Y t))) 0 (outward s / s * (- s * uy))) as S1. { apply (is_derive_ext (fun t => outward s / s * X t)); [intros t; rewrite Dt; reflexivity|]. apply is_derive_scal. exact DX. }
  assert (is_derive (fun t => snd (dist (X t, Y t))) 0 (outward s / s * (s * ux))) as S2. { apply (is_derive_ext (fun t => outward s / s * Y t)); [intros t; rewrite Dt; reflexivity|]. apply is_derive_scal. exact DY. }
  apply is_derive_unique in T1, T2, S1, S2. rewrite S1 in T1. rewrite S2 in T2.
  split; apply (Rmult_eq_reg_l s); try lra.
Qed.
Lemma step_ray s r : / 10 ^ 8 < s -> slope s <> 0 -> outward s <> 0 ->
  newton_step (jac (on_ray s)) (fst (on_ray (outward r)) - fst (dist (on_ray s)), snd (on_ray (outward r)) - snd (dist (on_ray s))) = Some (on_ray ((outward r - outward s) / slope s)).
Proof.
  intros H N O. pose proof eight_pos. destruct (jac_ray s H) as (a & b & c & d & E & E1 & E2 & E3 & E4). rewrite E, (distort_ray s H). cbn [on_ray fst snd]. set (si := slope s) in *. set (ta := outward s / s) in *.
  assert (ta <> 0) as Nt by (unfold ta; apply Rmult_integral_contrapositive_currified; [exact O|apply Rinv_neq_0_compat; lra]).
  assert (a = si * (ux * ux) + ta * (uy * uy)) as Ea. { replace a with (a * (ux * ux + uy * uy)) by (rewrite unit; ring). replace (a * (ux * ux + uy * uy)) with (ux * (a * ux + b * uy) - uy * (- a * uy + b * ux)) by ring. rewrite E1, E3. ring. }
  assert (b = (si - ta) * (ux * uy)) as Eb. { replace b with (b * (ux * ux + uy * uy)) by (rewrite unit; ring). replace (b * (ux * ux + uy * uy)) with (uy * (a * ux + b * uy) + ux * (- a * uy + b * ux)) by ring. rewrite E1, E3. ring. }
  assert (c = (si - ta) * (ux * uy)) as Ec. { replace c with (c * (ux * ux + uy * uy)) by (rewrite unit; ring). replace (c * (ux * ux + uy * uy)) with (ux * (c * ux + d * uy) - uy * (- c * uy + d * ux)) by ring. rewrite E2, E4. ring. }
  assert (d = si * (uy * uy) + ta * (ux * ux)) as Ed. { replace d with (d * (ux * ux + uy * uy)) by (rewrite unit; ring). replace (d * (ux * ux + uy * uy)) with (uy * (c * ux + d * uy) + ux * (- c * uy + d * ux)) by ring. rewrite E2, E4. ring. }
  assert (a * d - b * c = si * ta) as Det. { rewrite Ea, Eb, Ec, Ed. replace (_ - _) with (si * ta * ((ux * ux + uy * uy) * (ux * ux + uy * uy))) by ring. rewrite unit. ring. }
  assert (a * d - b * c <> 0) as Nd by (rewrite Det; apply Rmult_integral_contrapositive_currified; assumption).
  set (e0 := outward r * ux - outward s * ux). set (e1 := outward r * uy - outward s * uy). destruct (newton_step_solves a b c d e0 e1 Nd) as (u & v & Es & S1 & S2). rewrite Es. set (k := (outward r - outward s) / si).
  assert (a * (k * ux) + b * (k * uy) = e0) as F1. { replace (a * (k * ux) + b * (k * uy)) with (k * (a * ux + b * uy)) by ring. rewrite E1. unfold k, e0. field. exact N. }
  assert (c * (k * ux) + d * (k * uy) = e1) as F2. { replace (c * (k * ux) + d * (k * uy)) with (k * (c * ux + d * uy)) by ring. rewrite E2. unfold k, e1. field. exact N. }
  assert (u = k * ux) as Eu. { apply (Rmult_eq_reg_l (a * d - b * c)); [|exact Nd]. replace ((a * d - b * c) * u) with (d * (a * u + b * v) - b * (c * u + d * v)) by ring. replace ((a * d - b * c) * (k * ux)) with (d * (a * (k * ux) + b * (k * uy)) - b * (c * (k * ux) + d * (k * uy))) by ring. rewrite S1, S2, F1, F2. reflexivity. }
  assert (v = k * uy) as Ev. { apply (Rmult_eq_reg_l (a * d - b * c)); [|exact Nd]. replace ((a * d - b * c) * v) with (a * (c * u + d * v) - c * (a * u + b * v)) by ring. replace ((a * d - b * c) * (k * uy)) with (a * (c * (k * ux) + d * (k * uy)) - c * (a * (k * ux) + b * (k * uy))) by ring. rewrite S1, S2, F1, F2. reflexivity. }
  rewrite Eu, Ev. reflexivity.
Qed.

(** Mean values. *)
Variable r : R.
Hypothesis flat : flattening k1 k2 k3 k4 r.
Lemma mean s t : 0 <= s -> s <= t -> t <= r -> slope t * (t - s) <= outward t - outward s <= slope s * (t - s).
Proof.
  intros S T R. destruct (Req_dec s t) as [->|N]; [lra|]. destruct (MVT_gen outward s t slope) as (z & Z & E).
  - intros x _. apply outward_der.
  - intros x _. apply derivable_continuous_pt. exists (slope x). apply is_derive_Reals. apply outward_der.
  - rewrite Rmin_left, Rmax_right in Z by lra. rewrite E. destruct (flat s z), (flat z t); try lra. split; apply Rmult_le_compat_r; lra.
Qed.
Lemma outward_0 : outward 0 = 0.
Proof. unfold EquiInvSpec.outward, bent. rewrite atan_0. ring. Qed.
Lemma slope_0 : slope 0 = 1.
Proof. unfold EquiInvSpec.slope, bent'. rewrite atan_0. field. Qed.
Lemma outward_bounds t : 0 <= t -> t <= r -> slope r * t <= outward t <= t.
Proof. intros T R. pose proof (mean 0 t (Rle_refl 0) T R) as M. rewrite outward_0, slope_0 in M. destruct (flat t r) as (A & B); try lra. assert (slope r * t <= slope t * t) by (apply Rmult_le_compat_r; lra). lra. Qed.

(** The loop. *)
Variables (tol s0 : R).
Hypotheses (Z0 : / 10 ^ 8 < s0) (O0 : 0 < outward s0).
Let q := 1 - slope r / slope s0.
Lemma loop_ray n : forall s, s0 <= s -> s <= r -> exists s' ok, newton_loop dist jac tol n (on_ray (outward r)) (on_ray s) = Some (on_ray s', ok) /\ s <= s' <= r /\
  (ok = true -> exists z, s0 <= z <= s' /\ (outward r - outward z) * (outward r - outward z) <= tol /\ slope z * (r - s') <= (slope z - slope r) * (r - z)) /\
  (ok = false -> r - s' <= q ^ n * (r - s) /\ (n <> O -> tol < q ^ pred n * (r - s) * (q ^ pred n * (r - s)))).
Proof.
  pose proof eight_pos. induction n as [|n IH]; intros s S R.
  { exists s, false. split; [reflexivity|]. split; [lra|]. split; [discriminate|]. intros _. split; [cbn [pow]; lra|congruence]. }
  assert (0 < slope r) as Sr by (destruct (flat r r); lra). destruct (flat s r) as (_ & S1); try lra. destruct (flat s0 s) as (S2 & S3); try lra.
  assert (outward s0 <= outward s) as O1. { destruct (mean s0 s) as (M & _); try lra. assert (0 <= slope s * (s - s0)) by (apply Rmult_le_pos; lra). lra. }
  cbn [newton_loop]. rewrite (step_ray s r) by lra. rewrite (distort_ray s) by lra. set (k := (outward r - outward s) / slope s).
  destruct (mean s r) as (M1 & M2); try lra.
  assert (slope s * k = outward r - outward s) as Ek by (unfold k; field; lra).
  assert (0 <= slope r * (r - s)) as M0 by (apply Rmult_le_pos; lra).
  assert (0 <= k <= r - s) as Kb. { split; apply (Rmult_le_reg_l (slope s)); lra. }
  replace (fst (on_ray s) + fst (on_ray k), snd (on_ray s) + snd (on_ray k)) with (on_ray (s + k)) by (unfold on_ray; cbn [fst snd]; f_equal; ring).
  assert (slope s * (r - (s + k)) <= (slope s - slope r) * (r - s)) as Er by lra.
  assert (r - (s + k) <= q * (r - s)) as Eq.
  { apply (Rmult_le_reg_l (slope s)); [lra|]. eapply Rle_trans; [exact Er|]. rewrite <- Rmult_assoc. apply Rmult_le_compat_r; [lra|]. unfold q. assert (slope r <= slope s * (slope r / slope s0) \/ slope s * (slope r / slope s0) <= slope r) as [C|C] by lra.
    - assert (slope s0 * (slope r / slope s0) = slope r) as E0 by (field; lra). assert (0 < slope r / slope s0) by (apply Rdiv_lt_0_compat; lra). assert (slope s * (slope r / slope s0) <= slope s0 * (slope r / slope s0)) by (apply Rmult_le_compat_r; lra). lra.
    - lra. }
  assert (0 <= q) as Qp. { unfold q. assert (slope r / slope s0 <= 1); [|lra]. apply (Rmult_le_reg_r (slope s0)); [lra|]. unfold Rdiv. rewrite Rmult_assoc, Rinv_l by lra. lra. }
  destruct (Rle_dec _ tol) as [T|T].
  { exists (s + k), true. split; [reflexivity|]. split; [lra|]. split; [|discriminate]. intros _. exists s. split; [lra|]. split; [|exact Er].
    eapply Rle_trans; [|exact T]. apply Req_le. unfold on_ray. cbn [fst snd]. replace (_ + _) with ((outward r - outward s) * (outward r - outward s) * (ux * ux + uy * uy)) by ring. rewrite unit. ring. }
  destruct (IH (s + k)) as (s' & ok & E & B & G & F); [lra|lra|]. exists s', ok. split; [exact E|]. split; [lra|]. split; [exact G|]. intros Eok. destruct (F Eok) as (F1 & F2). pose proof (pow_le q n Qp) as Pn. split.
  - cbn [pow]. eapply Rle_trans; [exact F1|]. rewrite (Rmult_comm q), Rmult_assoc. apply Rmult_le_compat_l; assumption.
  - intros _. cbn [pred]. destruct n as [|n].
    + cbn [pow]. rewrite Rmult_1_l. apply Rnot_le_lt in T. eapply Rlt_le_trans; [exact T|]. unfold on_ray. cbn [fst snd]. replace (_ + _) with ((outward r - outward s) * (outward r - outward s) * (ux * ux + uy * uy)) by ring. rewrite unit, Rmult_1_r.
      assert (slope s <= 1). { destruct (flat 0 s) as (_ & W); try lra. rewrite slope_0 in W. exact W. } assert (slope s * (r - s) <= 1 * (r - s)) by (apply Rmult_le_compat_r; lra). apply Rmult_le_compat; lra.
    + eapply Rlt_le_trans; [apply F2; discriminate|]. cbn [pred pow]. pose proof (pow_le q n Qp) as Pn'. assert (q ^ n * (r - (s + k)) <= q * q ^ n * (r - s)) as W. { rewrite (Rmult_comm q), Rmult_assoc. apply Rmult_le_compat_l; assumption. }
      assert (0 <= q ^ n * (r - (s + k))) by (apply Rmult_le_pos; lra). apply Rmult_le_compat; assumption.
Qed.
End Lens.
