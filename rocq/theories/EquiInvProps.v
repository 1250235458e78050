(** C131: undistorting points of an equidistant lens. *)
From Coq Require Import Reals Lra Psatz.
From Coquelicot Require Import Coquelicot.
From Verif Require Import CalculusSpec CalculusFacts DistortionModel DistortionSpec DistortionProofs RadTanInvSpec EquiInvSpec EquiInvProofs.
Local Open Scope R_scope.

(** What [outward] and [slope] mean: the distance of the distorted point from the centre, and its derivative. *)
Theorem eix_slope k1 k2 k3 k4 p s : (is_derive (outward k1 k2 k3 k4) s (slope k1 k2 k3 k4 s)) /\
  (/ 10 ^ 8 < radius p -> equi_distort k1 k2 k3 k4 p = scaled (outward k1 k2 k3 k4 (radius p) / radius p) p).
Proof. split; [apply outward_der|apply distort_far]. Qed.
Print Assumptions eix_slope.

Lemma atan_lt_id x : 0 <= x -> 0 <= atan x <= x.
Proof.
  intros H. destruct (Req_dec x 0) as [->|N]; [rewrite atan_0; lra|]. assert (0 < atan x) by (rewrite <- atan_0; apply atan_increasing; lra). split; [lra|].
  destruct (MVT_gen atan 0 x (fun z => / (1 + z * z))) as (z & Z & E).
  - intros y _. eapply der_eq; [apply (der_atan (fun x => x) y 1); apply der_id|]. field. nra.
  - intros y _. apply derivable_continuous_pt, derivable_pt_atan.
  - rewrite atan_0 in E. assert (/ (1 + z * z) <= 1). { rewrite <- Rinv_1. apply Rinv_le_contravar; nra. } nra.
Qed.
(** Which lenses flatten: those whose second derivative over the angle is not too large. *)
Theorem eix_gentle k1 k2 k3 k4 r : (forall th, 0 <= th <= atan r -> 0 < bent' k1 k2 k3 k4 th /\ bent'' k1 k2 k3 k4 th <= 2 * th * bent' k1 k2 k3 k4 th) -> flattening k1 k2 k3 k4 r.
Proof.
  intros H s t S T R. assert (forall z, 0 <= z <= r -> 0 <= atan z <= atan r) as In. { intros z (Z1 & Z2). split; [apply atan_lt_id; exact Z1|]. destruct (Req_dec z r) as [->|]; [lra|]. left. apply atan_increasing. lra. }
  split. { destruct (H (atan t)) as (A & _); [apply In; lra|]. unfold slope. apply Rdiv_lt_0_compat; [exact A|nra]. }
  destruct (Req_dec s t) as [->|N]; [lra|]. destruct (MVT_gen (slope k1 k2 k3 k4) s t (fun s => (bent'' k1 k2 k3 k4 (atan s) - 2 * s * bent' k1 k2 k3 k4 (atan s)) / ((1 + s * s) * (1 + s * s)))) as (z & Z & E).
  - intros x _. apply slope_der.
  - intros x _. apply derivable_continuous_pt. eexists. apply is_derive_Reals. apply slope_der.
  - rewrite Rmin_left, Rmax_right in Z by lra. destruct (H (atan z)) as (A & B); [apply In; lra|]. destruct (atan_lt_id z) as (_ & C); [lra|].
    assert (bent'' k1 k2 k3 k4 (atan z) - 2 * z * bent' k1 k2 k3 k4 (atan z) <= 0) as D by nra. assert (0 < / ((1 + z * z) * (1 + z * z))) by (apply Rinv_0_lt_compat; nra). unfold Rdiv in E.
    set (N1 := bent'' k1 k2 k3 k4 (atan z) - 2 * z * bent' k1 k2 k3 k4 (atan z)) in *. set (D1 := / ((1 + z * z) * (1 + z * z))) in *. assert (N1 * D1 <= 0) by nra. assert (N1 * D1 * (t - s) <= 0) by nra. lra.
Qed.
Print Assumptions eix_gentle.
(** In particular the lens without coefficients, and every lens without positive coefficients before it folds. *)
Theorem eix_none r : flattening 0 0 0 0 r.
Proof. apply eix_gentle. intros th T. unfold bent', bent''. lra. Qed.
Print Assumptions eix_none.
Theorem eix_barrel k1 k2 k3 k4 r : k1 <= 0 -> k2 <= 0 -> k3 <= 0 -> k4 <= 0 -> 0 < bent' k1 k2 k3 k4 (atan r) -> flattening k1 k2 k3 k4 r.
Proof.
  intros K1 K2 K3 K4 B. apply eix_gentle. intros th T. set (a := atan r) in *. assert (forall n, 0 <= th ^ n <= a ^ n) as P. { intros n. split; [apply pow_le; lra|]. apply pow_incr. lra. }
  pose proof (P 1%nat) as P1. pose proof (P 2%nat) as P2. pose proof (P 3%nat) as P3. pose proof (P 4%nat) as P4. pose proof (P 5%nat) as P5. pose proof (P 6%nat) as P6. pose proof (P 7%nat) as P7. pose proof (P 8%nat) as P8. rewrite !pow_1 in P1.
  assert (0 < bent' k1 k2 k3 k4 th) as Q. { unfold bent' in *. revert B P2 P4 P6 P8. generalize (th ^ 2) (th ^ 4) (th ^ 6) (th ^ 8) (a ^ 2) (a ^ 4) (a ^ 6) (a ^ 8). clear - K1 K2 K3 K4. intros. assert (forall k x y, k <= 0 -> 0 <= x <= y -> k * y <= k * x) as M by (intros; nra). pose proof (M _ _ _ K1 P2). pose proof (M _ _ _ K2 P4). pose proof (M _ _ _ K3 P6). pose proof (M _ _ _ K4 P8). lra. }
  split; [exact Q|]. assert (bent'' k1 k2 k3 k4 th <= 0). { unfold bent''. assert (forall k x, k <= 0 -> 0 <= x -> k * x <= 0) as M by (intros; nra). pose proof (M _ _ K1 (proj1 P1)). pose proof (M _ _ K2 (proj1 P3)). pose proof (M _ _ K3 (proj1 P5)). pose proof (M _ _ K4 (proj1 P7)). lra. } nra.
Qed.
Print Assumptions eix_barrel.

Lemma distance_scaled m p : m <= 1 -> distance (scaled m p) p = (1 - m) * radius p.
Proof.
  intros M. unfold distance, diff, scaled, radius. cbn [fst snd]. replace (_ + _) with ((1 - m) * (1 - m) * (fst p * fst p + snd p * snd p)) by ring. rewrite sqrt_mult_alt by nra. rewrite sqrt_square by lra. reflexivity.
Qed.
Section Inverse.
Variables (k1 k2 k3 k4 : R) (p : vec2).
Let r := radius p.
Let s0 := outward k1 k2 k3 k4 r.
Hypothesis (flat : flattening k1 k2 k3 k4 r).
(** Outside of the centre: the iteration stays on the ray of the point, never leaves its inner side, and the angle of the result is right up to the tolerance. *)
Theorem eix_inverse tol : 0 <= tol -> / 1000 <= s0 ->
  let q := 1 - slope k1 k2 k3 k4 r / slope k1 k2 k3 k4 s0 in
  exists m ok, equi_undistort k1 k2 k3 k4 tol (equi_distort k1 k2 k3 k4 p) = Some (scaled m p, ok) /\ s0 <= m * radius p /\ m <= 1 /\
    (ok = true -> slope k1 k2 k3 k4 r * distance (scaled m p) p <= q * sqrt tol) /\
    (ok = false -> distance (scaled m p) p <= q ^ 30 * radius p) /\
    (q ^ 29 * radius p * (q ^ 29 * radius p) <= tol -> ok = true).
Proof.
  intros Ht S q. pose proof eight_pos as E8. assert (0 <= r) as R0 by apply sqrt_pos. destruct (outward_bounds k1 k2 k3 k4 r flat r R0 (Rle_refl r)) as (B1 & B2). fold s0 in B1, B2. assert (0 < r) as Rp by lra.
  set (ux := fst p / r). set (uy := snd p / r). assert (ux * ux + uy * uy = 1) as U. { unfold ux, uy. replace (_ + _) with ((fst p * fst p + snd p * snd p) / (r * r)) by (field; lra). replace (fst p * fst p + snd p * snd p) with (r * r); [field; lra|]. unfold r, radius. apply sqrt_sqrt. nra. }
  assert (forall s, on_ray ux uy s = scaled (s / r) p) as OR. { intros s. unfold on_ray, scaled, ux, uy. f_equal; field; lra. }
  assert (equi_distort k1 k2 k3 k4 p = on_ray ux uy s0) as Ed. { rewrite OR. apply distort_far. fold r. lra. }
  assert (0 < slope k1 k2 k3 k4 r) as Sr by (destruct (flat r r); lra).
  assert (0 < outward k1 k2 k3 k4 s0) as O0. { destruct (outward_bounds k1 k2 k3 k4 r flat s0) as (W & _); [lra|lra|]. assert (0 < slope k1 k2 k3 k4 r * s0) by (apply Rmult_lt_0_compat; lra). lra. }
  rewrite Ed. unfold equi_undistort. replace (fst (on_ray ux uy s0) * fst (on_ray ux uy s0) + snd (on_ray ux uy s0) * snd (on_ray ux uy s0)) with (s0 * s0). 2:{ unfold on_ray. cbn [fst snd]. replace (s0 * ux * (s0 * ux) + s0 * uy * (s0 * uy)) with (s0 * s0 * (ux * ux + uy * uy)) by ring. rewrite U. ring. }
  destruct (Rlt_dec _ _) as [C|_]. { exfalso. assert (/ 10 ^ 6 = / 1000 * / 1000) as N by field. rewrite N in C. assert (/ 1000 * / 1000 <= s0 * s0) by (apply Rmult_le_compat; lra). lra. }
  destruct (loop_ray k1 k2 k3 k4 ux uy U r flat tol s0) with (n := 30%nat) (s := s0) as (s' & ok & E & B & G & F); [lra|exact O0|lra|lra|]. fold s0 in E.
  exists (s' / r), ok. rewrite E, OR. split; [reflexivity|]. fold r. assert (s' / r * r = s') as Es by (field; lra). rewrite Es. split; [lra|]. split. { apply (Rmult_le_reg_r r); [exact Rp|]. rewrite Es. lra. }
  assert (distance (scaled (s' / r) p) p = r - s') as Ds. { rewrite distance_scaled; [fold r; rewrite Rmult_minus_distr_r, Es; ring|]. apply (Rmult_le_reg_r r); [exact Rp|]. rewrite Es. lra. } rewrite Ds.
  split; [|split].
  - intros Eok. destruct (G Eok) as (z & Z & T & D). destruct (mean k1 k2 k3 k4 r flat z r) as (M & _); try lra. fold s0 in T, M. set (sr := slope k1 k2 k3 k4 r) in *. set (sz := slope k1 k2 k3 k4 z) in *. set (ss := slope k1 k2 k3 k4 s0) in *.
    destruct (flat z r) as (_ & W1); try lra. destruct (flat s0 z) as (_ & W2); try lra. fold sr sz ss in W1, W2.
    set (e := s0 - outward k1 k2 k3 k4 z) in *. assert (0 <= sr * (r - z)) by (apply Rmult_le_pos; lra). assert (e <= sqrt tol) as He. { rewrite <- (sqrt_square e) by lra. apply sqrt_le_1_alt. exact T. }
    assert (r - s' <= q * (r - z)) as Q1. { apply (Rmult_le_reg_l sz); [lra|]. eapply Rle_trans; [exact D|]. rewrite <- Rmult_assoc. apply Rmult_le_compat_r; [lra|]. unfold q. assert (sz * (sr / ss) <= sr); [|lra]. replace sr with (ss * (sr / ss)) at 2 by (field; lra). apply Rmult_le_compat_r; [|exact W2]. apply Rlt_le, Rdiv_lt_0_compat; lra. }
    assert (0 <= q) as Qp. { unfold q. assert (sr / ss <= 1); [|lra]. apply (Rmult_le_reg_r ss); [lra|]. unfold Rdiv. rewrite Rmult_assoc, Rinv_l by lra. lra. }
    assert (sr * (r - s') <= q * (sr * (r - z))). { replace (q * (sr * (r - z))) with (sr * (q * (r - z))) by ring. apply Rmult_le_compat_l; lra. }
    assert (q * (sr * (r - z)) <= q * sqrt tol) by (apply Rmult_le_compat_l; lra). lra.
  - intros Eok. destruct (F Eok) as (F1 & _). eapply Rle_trans; [exact F1|]. fold q. apply Rmult_le_compat_l; [|lra]. apply pow_le. unfold q. destruct (flat s0 r) as (_ & W); try lra. assert (slope k1 k2 k3 k4 r / slope k1 k2 k3 k4 s0 <= 1); [|lra]. apply (Rmult_le_reg_r (slope k1 k2 k3 k4 s0)); [lra|]. unfold Rdiv. rewrite Rmult_assoc, Rinv_l by lra. lra.
  - intros T. destruct ok; [reflexivity|exfalso]. destruct (F eq_refl) as (_ & F2). specialize (F2 ltac:(discriminate)). cbn [pred] in F2. fold q in F2.
    assert (0 <= q) as Qp. { unfold q. destruct (flat s0 r) as (_ & W); try lra. assert (slope k1 k2 k3 k4 r / slope k1 k2 k3 k4 s0 <= 1); [|lra]. apply (Rmult_le_reg_r (slope k1 k2 k3 k4 s0)); [lra|]. unfold Rdiv. rewrite Rmult_assoc, Rinv_l by lra. lra. }
    pose proof (pow_le q 29 Qp) as P. assert (q ^ 29 * (r - s0) <= q ^ 29 * r) by (apply Rmult_le_compat_l; lra). assert (0 <= q ^ 29 * (r - s0)) by (apply Rmult_le_pos; lra). assert (q ^ 29 * (r - s0) * (q ^ 29 * (r - s0)) <= q ^ 29 * r * (q ^ 29 * r)) by (apply Rmult_le_compat; lra). lra.
Qed.
(** Near the centre the distorted point itself is returned. *)
Theorem eix_centre tol : / 10 ^ 8 < r -> s0 < / 1000 ->
  equi_undistort k1 k2 k3 k4 tol (equi_distort k1 k2 k3 k4 p) = Some (equi_distort k1 k2 k3 k4 p, true) /\ distance (equi_distort k1 k2 k3 k4 p) p <= (1 - slope k1 k2 k3 k4 r) * r.
Proof.
  intros R S. pose proof eight_pos as E8. assert (0 <= r) as R0 by apply sqrt_pos. destruct (outward_bounds k1 k2 k3 k4 r flat r R0 (Rle_refl r)) as (B1 & B2). fold s0 in B1, B2. assert (0 < slope k1 k2 k3 k4 r) as Sr by (destruct (flat r r); lra).
  assert (0 < slope k1 k2 k3 k4 r * r) by (apply Rmult_lt_0_compat; lra). rewrite distort_far by exact R. fold r s0. assert (s0 / r <= 1) as M. { apply (Rmult_le_reg_r r); [lra|]. unfold Rdiv. rewrite Rmult_assoc, Rinv_l by lra. lra. }
  split.
  - unfold equi_undistort, scaled. cbn [fst snd]. destruct (Rlt_dec _ _) as [_|C]; [reflexivity|exfalso; apply C]. replace (_ + _) with (s0 / r * (s0 / r) * (fst p * fst p + snd p * snd p)) by ring.
    replace (fst p * fst p + snd p * snd p) with (r * r) by (unfold r, radius; apply sqrt_sqrt; nra). replace (s0 / r * (s0 / r) * (r * r)) with (s0 * s0) by (field; lra). assert (/ 10 ^ 6 = / 1000 * / 1000) as N by field. rewrite N. apply Rmult_le_0_lt_compat; lra.
  - rewrite distance_scaled by exact M. fold r. replace ((1 - s0 / r) * r) with (r - s0) by (field; lra). lra.
Qed.
End Inverse.
Print Assumptions eix_inverse.
Print Assumptions eix_centre.

(** The lens without coefficients, up to 45 degrees from the axis, with the tolerance of the library. *)
Corollary eix_default p : / 1000 <= atan (radius p) -> radius p <= 1 ->
  exists q, equi_undistort 0 0 0 0 (/ 10 ^ 8) (equi_distort 0 0 0 0 p) = Some (q, true) /\ distance q p <= / 10 ^ 4.
Proof.
  intros A R. assert (0 <= radius p) as R0 by apply sqrt_pos. assert (0 < / 10 ^ 8) as T by (apply Rinv_0_lt_compat; lra). assert (outward 0 0 0 0 (radius p) = atan (radius p)) as O by (unfold outward, bent; ring).
  destruct (eix_inverse 0 0 0 0 p (eix_none _) (/ 10 ^ 8)) as (m & ok & E & B1 & B2 & G & _ & F); [lra|rewrite O; exact A|]. rewrite O in *. set (r := radius p) in *. set (a := atan r) in *. destruct (atan_lt_id r R0) as (A0 & A1). fold a in A0, A1.
  assert (forall s, slope 0 0 0 0 s = / (1 + s * s)) as Sl. { intros s. unfold slope, bent'. field. nra. } rewrite !Sl in *.
  assert (0 <= 1 - / (1 + r * r) / / (1 + a * a) <= 1 / 2) as Q. { replace (/ (1 + r * r) / / (1 + a * a)) with ((1 + a * a) * / (1 + r * r)) by (field; split; nra). assert (/ 2 <= / (1 + r * r)) by (apply Rinv_le_contravar; nra). assert ((1 + r * r) * / (1 + r * r) = 1) by (apply Rinv_r; nra). nra. }
  set (q := 1 - / (1 + r * r) / / (1 + a * a)) in *. assert (ok = true) as ->.
  { apply F. assert (0 <= q ^ 29 <= (1 / 2) ^ 29) as P by (split; [apply pow_le; lra|apply pow_incr; lra]). assert ((1 / 2) ^ 29 <= / 10 ^ 4) as H. { replace (1 / 2) with (/ 2) by field. rewrite pow_inv. apply Rinv_le_contravar; lra. } assert (0 <= q ^ 29 * r <= / 10 ^ 4) as H2. { split; [apply Rmult_le_pos; lra|]. apply Rle_trans with (/ 10 ^ 4 * 1); [apply Rmult_le_compat; lra|lra]. }
    replace (/ 10 ^ 8) with (/ 10 ^ 4 * / 10 ^ 4) by field. apply Rmult_le_compat; lra. }
  exists (scaled m p). split; [exact E|]. specialize (G eq_refl). replace (sqrt (/ 10 ^ 8)) with (/ 10 ^ 4) in G. 2:{ symmetry. replace (/ 10 ^ 8) with (/ 10 ^ 4 * / 10 ^ 4) by field. apply sqrt_square. lra. }
  assert (0 <= distance (scaled m p) p) by apply sqrt_pos. assert (/ 2 <= / (1 + r * r)) by (apply Rinv_le_contravar; nra). set (d := distance (scaled m p) p) in *. assert (/ 2 * d <= / (1 + r * r) * d) by (apply Rmult_le_compat_r; lra). assert (q * / 10 ^ 4 <= 1 / 2 * / 10 ^ 4) by (apply Rmult_le_compat_r; lra). lra.
Qed.
Print Assumptions eix_default.
Example eix_case : / 1000 <= atan (radius (1, 0)) /\ radius (1, 0) <= 1.
Proof.
  assert (radius (1, 0) = 1) as E. { unfold radius. cbn [fst snd]. replace (1 * 1 + 0 * 0) with (1 * 1) by ring. apply sqrt_square. lra. } rewrite E, atan_1. pose proof PI2_3_2. lra.
Qed.
Example eix_barrel_case : flattening (-1 / 10) 0 0 0 1.
Proof. apply eix_barrel; try lra. rewrite atan_1. unfold bent'. pose proof PI_4. pose proof PI_RGT_0. nra. Qed.

(** The result is not exact near the centre. *)
Theorem eix_centre_refuted tol : exists p, equi_undistort 0 0 0 0 tol (equi_distort 0 0 0 0 p) <> Some (p, true).
Proof.
  pose proof eight_pos as E8. exists (/ 2000, 0). assert (radius (/ 2000, 0) = / 2000) as R. { unfold radius. cbn [fst snd]. replace (/ 2000 * / 2000 + 0 * 0) with (/ 2000 * / 2000) by ring. apply sqrt_square. lra. }
  assert (outward 0 0 0 0 (/ 2000) = atan (/ 2000)) as O by (unfold outward, bent; ring). destruct (atan_lt_id (/ 2000)) as (A0 & A1); [lra|].
  destruct (eix_centre 0 0 0 0 (/ 2000, 0) (eix_none _) tol) as (-> & _); [rewrite R; lra|rewrite R, O; lra|]. rewrite distort_far by (rewrite R; lra). rewrite R, O. unfold scaled. cbn [fst snd]. intros H.
  assert (atan (/ 2000) / / 2000 * / 2000 = / 2000) as E by (apply (f_equal (fun o => match o with Some ((x, _), _) => x | None => 0 end)) in H; exact H).
  assert (atan (/ 2000) = / 2000) as E2 by lra. pose proof (tan_atan (/ 2000)) as T. rewrite E2 in T.
  destruct (MVT_gen atan 0 (/ 2000) (fun z => / (1 + z * z))) as (z & Z & Em).
  - intros y _. eapply der_eq; [apply (der_atan (fun x => x) y 1); apply der_id|]. field. nra.
  - intros y _. apply derivable_continuous_pt, derivable_pt_atan.
  - pose proof (outward_bounds 0 0 0 0 (/ 1000) (eix_none _)) as OB. assert (outward 0 0 0 0 (/ 1000) <= outward 0 0 0 0 (/ 2000) + slope 0 0 0 0 (/ 2000) * (/ 1000 - / 2000)) as M1. { destruct (mean 0 0 0 0 (/ 1000) (eix_none _) (/ 2000) (/ 1000)); lra. }
    destruct (mean 0 0 0 0 (/ 2000) (eix_none _) (/ 4000) (/ 2000)) as (_ & M2); try lra. destruct (OB (/ 4000)) as (_ & M3); try lra. assert (slope 0 0 0 0 (/ 4000) < 1). { unfold slope, bent'. replace (_ / _) with (/ (1 + / 4000 * / 4000)) by field. rewrite <- Rinv_1. apply Rinv_lt_contravar; lra. } rewrite O, E2 in M2. lra.
Qed.
Print Assumptions eix_centre_refuted.
(** A lens that folds: another point comes back. *)
Theorem eix_folded_refuted tol : exists k1 p q, equi_undistort k1 0 0 0 tol (equi_distort k1 0 0 0 p) = Some (q, true) /\ 1 < distance q p.
Proof.
  pose proof eight_pos as E8. pose proof PI_4. pose proof PI2_3_2 as P32. assert (1 < tan (5 / 4)) as T1. { rewrite <- tan_PI4 at 1. apply tan_increasing; lra. } exists (-16 / 25), (tan (5 / 4), 0), (0, 0).
  assert (radius (tan (5 / 4), 0) = tan (5 / 4)) as R. { unfold radius. cbn [fst snd]. replace (tan (5 / 4) * tan (5 / 4) + 0 * 0) with (tan (5 / 4) * tan (5 / 4)) by ring. apply sqrt_square. lra. }
  rewrite distort_far by (rewrite R; lra). rewrite R. assert (outward (-16 / 25) 0 0 0 (tan (5 / 4)) = 0) as O. { unfold outward, bent. rewrite atan_tan by lra. field. } rewrite O. unfold scaled. cbn [fst snd]. replace (0 / tan (5 / 4) * tan (5 / 4), 0 / tan (5 / 4) * 0) with (0, 0) by (f_equal; field; lra). split.
  - unfold equi_undistort. cbn [fst snd]. destruct (Rlt_dec _ _) as [_|C]; [reflexivity|exfalso; apply C]. rewrite Rmult_0_l, Rplus_0_l. apply Rinv_0_lt_compat. lra.
  - unfold distance, diff. cbn [fst snd]. unfold radius. cbn [fst snd]. replace (_ + _) with (tan (5 / 4) * tan (5 / 4)) by ring. rewrite sqrt_square; lra.
Qed.
Print Assumptions eix_folded_refuted.
