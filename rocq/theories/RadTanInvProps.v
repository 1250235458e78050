(** C130: undistorting points of a radial-tangential lens converges. *)
From Coq Require Import Reals Lra Psatz.
From Verif Require Import DistortionModel DistortionSpec DistortionProofs RadTanInvSpec RadTanInvProofs.
Local Open Scope R_scope.

(** What [bend] means: up to the distance r from the centre, the Jacobian minus the identity lengthens no vector by more than this factor, and distances of points change by no more than it. *)
Theorem rix_bend k1 k2 p1 p2 r x v : radius x <= r ->
  radius (diff (apply2 (radtan_jacobian k1 k2 p1 p2 x) v) v) <= bend k1 k2 p1 p2 r * radius v /\
  (radius v <= r -> (1 - bend k1 k2 p1 p2 r) * distance x v <= distance (radtan_distort k1 k2 p1 p2 x) (radtan_distort k1 k2 p1 p2 v) <= (1 + bend k1 k2 p1 p2 r) * distance x v).
Proof. intros X. split; [apply jac_near; exact X|]. intros V. apply between; assumption. Qed.
Print Assumptions rix_bend.
Lemma distance_zero a b : distance a b = 0 -> a = b.
Proof. intros H. assert (diff a b = (0, 0)) as E by (apply radius_zero; unfold distance in H; lra). destruct a as [x y], b as [u v]. unfold diff in E. cbn [fst snd] in E. assert (x - u = 0) by congruence. assert (y - v = 0) by congruence. f_equal; lra. Qed.
(** So different points stay different: distorted points have one undistorted point in the disc. *)
Theorem rix_injective k1 k2 p1 p2 r x y : radius x <= r -> radius y <= r -> bend k1 k2 p1 p2 r < 1 -> radtan_distort k1 k2 p1 p2 x = radtan_distort k1 k2 p1 p2 y -> x = y.
Proof.
  intros X Y B E. destruct (between k1 k2 p1 p2 x y r X Y) as (L & _). rewrite E in L. assert (forall z, distance z z = 0) as Z. { intros z. unfold distance, radius, diff. cbn [fst snd]. rewrite <- sqrt_0 at 1. f_equal. ring. }
  rewrite Z in L. apply distance_zero. assert (0 <= distance x y) by apply radius_pos. nra.
Qed.
Print Assumptions rix_injective.

Lemma start_eq k1 k2 p1 p2 p : diff (radtan_distort k1 k2 p1 p2 p) p = add (mul (k1 * dot p p) p) (add (mul (k2 * (dot p p * dot p p)) p) (add (mul (dot p p) (tang p1 p2)) (mul (2 * dot (tang p1 p2) p) p))).
Proof. destruct p as [x y]. unfold radtan_distort, diff, add, mul, dot, tang. cbn [fst snd]. f_equal; ring. Qed.
Section Disc.
Variables (k1 k2 p1 p2 : R) (p : vec2).
Let r := radius p.
Hypothesis (B : bend k1 k2 p1 p2 r <= 1 / 4).
Let a := Rabs k1 * r ^ 2. Let b := Rabs k2 * r ^ 4. Let t := radius (tang p1 p2) * r.
Lemma abt : 0 <= a /\ 0 <= b /\ 0 <= t /\ 3 * a + 5 * b + 6 * t <= 1 / 4.
Proof.
  assert (0 <= r) as R0 by apply radius_pos. rewrite bend_tang in B. pose proof (Rabs_pos k1). pose proof (Rabs_pos k2). pose proof (radius_pos (tang p1 p2)). pose proof (pow_le r 2 R0). pose proof (pow_le r 4 R0).
  unfold a, b, t. repeat split; try (apply Rmult_le_pos; assumption). lra.
Qed.
Lemma start : 8 * distance (radtan_distort k1 k2 p1 p2 p) p <= r.
Proof.
  destruct abt as (A0 & B0 & T0 & S). unfold distance.
  rewrite start_eq.
  assert (radius p <= r) as P by apply Rle_refl. pose proof (Rle_refl (radius (tang p1 p2))) as T. assert (0 <= r) as P0 by apply radius_pos.
  match goal with |- 8 * radius ?e <= _ => assert (radius e <= Rabs k1 * (r * r) * r + (Rabs k2 * (r * r * (r * r)) * r + (r * r * radius (tang p1 p2) + 2 * (radius (tang p1 p2) * r) * r))) as K end.
  { repeat (first [eassumption | apply add_le | apply mul_le | apply dot_le | apply abs_mul_le | apply abs_const; lra | apply Rle_refl]). }
  eapply Rle_trans; [apply Rmult_le_compat_l; [lra|exact K]|]. replace (8 * _) with (8 * (a + b + 3 * t) * r) by (unfold a, b, t; ring). nra.
Qed.
Let rho := 9 / 8 * r.
Lemma bend_rho : bend k1 k2 p1 p2 rho <= 401 / 1000.
Proof. destruct abt as (A0 & B0 & T0 & S). rewrite bend_tang. replace (_ + _ + _) with (3 * (81 / 64) * a + 5 * (6561 / 4096) * b + 6 * (9 / 8) * t) by (unfold a, b, t, rho; field). lra. Qed.
Lemma curve_rho : 4 * curve k1 k2 p1 p2 rho * (r / 8) <= 357 / 1000.
Proof. destruct abt as (A0 & B0 & T0 & S). unfold curve. replace (4 * _ * _) with (27 / 16 * a + 3645 / 512 * b + 3 / 2 * t) by (unfold a, b, t, rho; field). lra. Qed.

(** Where the distortion bends by at most 1/4, for every tolerance: a result is returned; if the tolerance is reported as reached, it is within a quarter of it and quadratically close to the point, and distorts back to the input within the tolerance; otherwise 30 iterations have
    reached one part in 2^63; and the tolerance is always reached unless it is absurdly small. *)
Theorem rix_inverse tol : 0 <= tol ->
  exists q ok, radtan_undistort k1 k2 p1 p2 tol (radtan_distort k1 k2 p1 p2 p) = Some (q, ok) /\
    (ok = true -> distance q p <= sqrt tol / 4 /\ distance q p * radius p <= 4 * tol /\ dist2 (radtan_distort k1 k2 p1 p2 q) (radtan_distort k1 k2 p1 p2 p) <= tol) /\
    (ok = false -> distance q p <= radius p / 2 ^ 63) /\
    (radius p * radius p <= 2 ^ 121 * tol -> ok = true).
Proof.
  intros Ht. assert (0 <= r) as R0 by apply radius_pos. pose proof bend_rho as Br. pose proof curve_rho as Cr. pose proof start as St.
  assert (0 <= bend k1 k2 p1 p2 rho) as Bp. { rewrite bend_tang. pose proof (Rabs_pos k1). pose proof (Rabs_pos k2). pose proof (radius_pos (tang p1 p2)). assert (0 <= rho) as Rh by (unfold rho; lra). pose proof (pow_le rho 2 Rh). pose proof (pow_le rho 4 Rh). nra. }
  destruct (loop_error k1 k2 p1 p2 tol rho (r / 8) p) with (n := 30%nat) (x := radtan_distort k1 k2 p1 p2 p) as (q & ok & E & G & H); [lra|lra|unfold rho, r; lra|lra|lra|].
  exists q, ok. split; [exact E|]. set (c := bend k1 k2 p1 p2 rho) in *. assert (0 <= rho) as Rh by (unfold rho; lra). pose proof (curve_pos k1 k2 p1 p2 rho Rh) as Kp. set (K := curve k1 k2 p1 p2 rho) in *.
  split; [|split].
  - intros Eok. destruct (G Eok) as (z & Z & Tz & Dq). assert (radius z <= rho /\ radius p <= rho) as (Zr & Pr). { split; [|unfold rho; fold r; lra]. pose proof (lower p z) as L. unfold distance in Z. unfold rho. fold r in L. lra. }
    destruct (between k1 k2 p1 p2 z p rho Zr Pr) as (L & _). fold c in L. set (f := radtan_distort k1 k2 p1 p2) in *. assert (distance (f p) (f z) = distance (f z) (f p)) as Sy. { unfold distance, radius, diff. cbn [fst snd]. f_equal. ring. } rewrite Sy in Tz.
    assert (0 <= distance z p) as Dz by apply radius_pos. assert (0 <= distance q p) as Dq0 by apply radius_pos. assert (0 <= distance (f z) (f p)) as De by apply radius_pos. set (e := distance (f z) (f p)) in *. set (dz := distance z p) in *. set (dq := distance q p) in *.
    assert (e <= sqrt tol) as Es. { apply le_of_squares; [apply sqrt_pos|]. rewrite sqrt_sqrt by exact Ht. exact Tz. }
    assert (599 / 1000 * dz <= e) as L1 by (apply (Rle_trans _ ((1 - c) * dz)); [apply Rmult_le_compat_r; lra|exact L]).
    assert (599 / 1000 * dq <= K * (dz * dz)) as Q3 by (apply (Rle_trans _ ((1 - c) * dq)); [apply Rmult_le_compat_r; lra|exact Dq]).
    assert (K * dz <= 8925 / 100000) as Kz. { assert (K * dz <= K * (r / 8)) by (apply Rmult_le_compat_l; assumption). lra. }
    assert (599 / 1000 * dq <= 8925 / 100000 * dz) as Q1. { assert (K * (dz * dz) <= 8925 / 100000 * dz) by (rewrite <- Rmult_assoc; apply Rmult_le_compat_r; assumption). lra. }
    assert (dq <= e / 4) as Q2 by lra. split; [lra|].
    assert (dz * dz <= e * e / (358801 / 1000000)) as L2. { assert ((599 / 1000 * dz) * (599 / 1000 * dz) <= e * e) by (apply Rmult_le_compat; lra). lra. }
    assert (K * r <= 714 / 1000) as Kr by lra.
    split.
    + fold r. assert (599 / 1000 * (dq * r) <= 714 / 1000 * (dz * dz)) as Q4.
      { replace (599 / 1000 * (dq * r)) with (599 / 1000 * dq * r) by ring. eapply Rle_trans; [apply Rmult_le_compat_r; [exact R0|exact Q3]|]. replace (K * (dz * dz) * r) with (K * r * (dz * dz)) by ring. apply Rmult_le_compat_r; [nra|exact Kr]. }
      lra.
    + assert (radius q <= rho) as Qr. { pose proof (lower p q) as Lq. fold (distance q p) in Lq. fold dq in Lq. fold r in Lq. unfold rho. lra. }
      destruct (between k1 k2 p1 p2 q p rho Qr Pr) as (_ & U). fold c f in U. replace (dist2 (f q) (f p)) with (distance (f q) (f p) * distance (f q) (f p)) by (unfold distance; rewrite radius_sq; reflexivity).
      assert (0 <= distance (f q) (f p)) as Df by apply radius_pos. fold dq in U. assert ((1 + c) * dq <= 1401 / 1000 * dq) by (apply Rmult_le_compat_r; lra). assert (distance (f q) (f p) <= e) by lra. apply (Rle_trans _ (e * e)); [apply Rmult_le_compat; assumption|exact Tz].
  - intros Eok. destruct (H Eok) as (H1 & _). fold r. assert (4 ^ 30 * 8 = 2 ^ 63) as N. { replace 4 with (2 ^ 2) by ring. rewrite <- pow_mult. replace 8 with (2 ^ 3) by ring. rewrite <- pow_add. reflexivity. }
    assert (0 < 2 ^ 63) by (apply pow_lt; lra). apply (Rmult_le_reg_l (2 ^ 63)); [assumption|]. replace (2 ^ 63 * (r / 2 ^ 63)) with r by (field; lra). rewrite <- N. lra.
  - intros T. destruct ok; [reflexivity|exfalso]. destruct (H eq_refl) as (_ & H2). specialize (H2 ltac:(discriminate)). fold r in T. set (d := distance (radtan_distort k1 k2 p1 p2 p) p) in *.
    assert (4 ^ 30 * 4 ^ 30 * 2 = 2 ^ 121) as N. { replace 4 with (2 ^ 2) by ring. rewrite <- pow_mult. rewrite <- pow_add. rewrite Rmult_comm. change (2 * 2 ^ (2 * 30 + 2 * 30)) with (2 ^ 121). reflexivity. }
    assert (0 <= d) as D0 by apply radius_pos. set (w := 4 ^ 30 * 4 ^ 30) in *. rewrite <- N in T. clearbody w.
    assert ((1 + c) * d <= 1401 / 1000 * (r / 8)) as M by nra. assert (0 <= (1 + c) * d) as M0 by nra. set (m := (1 + c) * d) in *. assert (m * m <= 1401 / 1000 * (r / 8) * (1401 / 1000 * (r / 8))) by nra. nra.
Qed.
End Disc.
Print Assumptions rix_inverse.

(** With the tolerance of the library. *)
Corollary rix_default k1 k2 p1 p2 p : bend k1 k2 p1 p2 (radius p) <= 1 / 4 -> radius p <= 2 ^ 30 ->
  exists q, radtan_undistort k1 k2 p1 p2 (/ 10 ^ 8) (radtan_distort k1 k2 p1 p2 p) = Some (q, true) /\ distance q p <= / 40000 /\ distance q p * radius p <= 4 / 10 ^ 8.
Proof.
  intros B R. assert (0 < / 10 ^ 8) as T by (apply Rinv_0_lt_compat, pow_lt; lra). destruct (rix_inverse k1 k2 p1 p2 p B (/ 10 ^ 8)) as (q & ok & E & G & _ & H); [lra|]. exists q.
  assert (ok = true) as -> . { apply H. pose proof (radius_pos p). replace (2 ^ 121) with (2 ^ 30 * 2 ^ 30 * 2 ^ 61) by (rewrite <- !pow_add; reflexivity). assert (1 <= 2 ^ 61 * / 10 ^ 8). { apply (Rmult_le_reg_r (10 ^ 8)); [apply pow_lt; lra|]. rewrite Rmult_assoc, Rinv_l by (apply pow_nonzero; lra). rewrite pow_IZR, !pow_IZR. rewrite <- !mult_IZR. apply IZR_le. vm_compute. discriminate. }
    assert (0 < 2 ^ 30) by (apply pow_lt; lra). assert (radius p * radius p <= 2 ^ 30 * 2 ^ 30) by nra. rewrite Rmult_assoc. assert (0 <= 2 ^ 30 * 2 ^ 30) by nra. nra. }
  destruct (G eq_refl) as (G1 & G2 & _). split; [exact E|]. split; [|unfold Rdiv in *; lra]. replace (sqrt (/ 10 ^ 8)) with (/ 10000) in G1; [lra|]. symmetry. replace (/ 10 ^ 8) with (/ 10000 * / 10000) by (field; lra). apply sqrt_square. lra.
Qed.
Print Assumptions rix_default.

Example rix_case : bend (-28 / 100) (7 / 100) 0 0 (radius (3 / 10, 4 / 10)) <= 1 / 4 /\ radius (3 / 10, 4 / 10) = 1 / 2.
Proof.
  assert (radius (3 / 10, 4 / 10) = 1 / 2) as E. { unfold radius. cbn [fst snd]. replace (3 / 10 * (3 / 10) + 4 / 10 * (4 / 10)) with (1 / 2 * (1 / 2)) by field. apply sqrt_square. lra. }
  rewrite E. split; [|reflexivity]. unfold bend. rewrite Rabs_left, Rabs_pos_eq by lra. replace (0 * 0 + 0 * 0) with 0 by ring. rewrite sqrt_0. lra.
Qed.

(** Where it bends more, a point can come back as another point, reported as converged. *)
Theorem rix_folded_refuted tol : 0 <= tol -> exists k1 k2 p1 p2 p q, radtan_undistort k1 k2 p1 p2 tol (radtan_distort k1 k2 p1 p2 p) = Some (q, true) /\ distance q p = 1.
Proof.
  intros T. exists (-1), 0, 0, 0, (1, 0), (0, 0). assert (radtan_distort (-1) 0 0 0 (1, 0) = (0, 0)) as E by (unfold radtan_distort; f_equal; ring). rewrite E. split.
  - apply newton_loop_fix; [exact T|repeat constructor|unfold radtan_distort; f_equal; ring|]. cbn [radtan_jacobian fst snd]. lra.
  - unfold distance, radius, diff. cbn [fst snd]. replace ((0 - 1) * (0 - 1) + (0 - 0) * (0 - 0)) with (1 * 1) by ring. apply sqrt_square. lra.
Qed.
Print Assumptions rix_folded_refuted.
Lemma loop_none f J tol n y x : newton_step (J x) (fst y - fst (f x), snd y - snd (f x)) = None -> newton_loop f J tol (S n) y x = None.
Proof. intros H. cbn [newton_loop]. rewrite H. reflexivity. Qed.
(** Or as no number at all: the Jacobian at the input is singular. *)
Theorem rix_singular_refuted tol : exists k1 k2 p1 p2 p, radtan_undistort k1 k2 p1 p2 tol (radtan_distort k1 k2 p1 p2 p) = None.
Proof.
  exists (-27 / 56), (5 / 56), 0, 0, (2, 0). assert (radtan_distort (-27 / 56) (5 / 56) 0 0 (2, 0) = (1, 0)) as E by (unfold radtan_distort; f_equal; field). rewrite E. unfold radtan_undistort. apply loop_none.
  rewrite (proj2 (newton_step_none _ _)); [reflexivity|]. cbn [radtan_jacobian fst snd]. field.
Qed.
Print Assumptions rix_singular_refuted.
