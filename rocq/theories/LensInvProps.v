(** C130, C131 at the level of the camera: a point that is projected and back-projected by a pinhole camera with an iterative lens inverse. *)
From Coq Require Import Reals Lra Psatz.
From Verif Require Import DistortionModel DistortionSpec CameraModel CameraSpec RadTanInvSpec RadTanInvProofs RadTanInvProps EquiInvSpec EquiInvProps.
Local Open Scope R_scope.

(** The lenses as the cameras use them; a singular Newton step ([None]) has no finite result, the theorems show that it is not met. *)
Definition radtan_lens (k1 k2 p1 p2 tol : R) : distortion :=
  {| distort := radtan_distort k1 k2 p1 p2; distort_jacobian := radtan_jacobian k1 k2 p1 p2; undistort := fun y => match radtan_undistort k1 k2 p1 p2 tol y with Some (q, _) => q | None => y end |}.
Definition equi_lens (k1 k2 k3 k4 tol : R) : distortion :=
  {| distort := equi_distort k1 k2 k3 k4; distort_jacobian := equi_jacobian k1 k2 k3 k4; undistort := fun y => match equi_undistort k1 k2 k3 k4 tol y with Some (q, _) => q | None => y end |}.

Lemma back_of_keypoint D c x y z : pinhole_valid c -> z <> 0 -> pinhole_back_project D c (pinhole_keypoint D c (x, y, z)) = let q := undistort D (distort D (x / z, y / z)) in ((fst q, snd q, 1), true).
Proof.
  intros (F1 & F2 & _) Z. unfold pinhole_back_project, pinhole_keypoint. replace (x * (1 / z), y * (1 / z)) with (x / z, y / z) by (f_equal; field; exact Z). cbn [fst snd].
  replace ((p_fu c * fst (distort D (x / z, y / z)) + p_cu c - p_cu c) / p_fu c, (p_fv c * snd (distort D (x / z, y / z)) + p_cv c - p_cv c) / p_fv c) with (distort D (x / z, y / z)). { reflexivity. }
  rewrite (surjective_pairing (distort D (x / z, y / z))) at 1. f_equal; field; lra.
Qed.
Lemma coordinate_le a b : Rabs (fst a - fst b) <= distance a b /\ Rabs (snd a - snd b) <= distance a b.
Proof.
  assert (0 <= distance a b) as D by apply radius_pos. pose proof (radius_sq (diff a b)) as S. fold (distance a b) in S. cbn [diff fst snd] in S.
  split; (apply le_of_squares; [exact D|]); rewrite <- Rabs_mult, Rabs_pos_eq by apply Rle_0_sqr; rewrite S; [pose proof (Rle_0_sqr (snd a - snd b)) as Q|pose proof (Rle_0_sqr (fst a - fst b)) as Q]; unfold Rsqr in Q; lra.
Qed.
(** Radial-tangential: the ray through the keypoint of a point hits the plane of depth 1 within a quarter of the tolerance of the point, and its keypoint is the same up to the focal lengths times the tolerance. *)
Theorem rix_pinhole k1 k2 p1 p2 tol c x y z : pinhole_valid c -> z <> 0 -> 0 <= tol -> bend k1 k2 p1 p2 (radius (x / z, y / z)) <= 1 / 4 -> radius (x / z, y / z) * radius (x / z, y / z) <= 2 ^ 121 * tol ->
  let D := radtan_lens k1 k2 p1 p2 tol in let kp := pinhole_keypoint D c (x, y, z) in
  exists u v, pinhole_back_project D c kp = ((u, v, 1), true) /\ distance (u, v) (x / z, y / z) <= sqrt tol / 4 /\
    Rabs (fst (pinhole_keypoint D c (u, v, 1)) - fst kp) <= p_fu c * sqrt tol /\ Rabs (snd (pinhole_keypoint D c (u, v, 1)) - snd kp) <= p_fv c * sqrt tol.
Proof.
  intros V Z T B R D kp. destruct (rix_inverse k1 k2 p1 p2 (x / z, y / z) B tol T) as ([u v] & ok & E & G & _ & F). specialize (F R). subst ok. destruct (G eq_refl) as (G1 & _ & G2). exists u, v.
  unfold kp. rewrite back_of_keypoint by assumption. unfold D at 1 2 3. cbn [undistort distort radtan_lens]. rewrite E. cbv zeta. split; [reflexivity|]. split; [exact G1|].
  assert (distance (radtan_distort k1 k2 p1 p2 (u, v)) (radtan_distort k1 k2 p1 p2 (x / z, y / z)) <= sqrt tol) as Dq. { unfold distance, radius. apply sqrt_le_1_alt. exact G2. }
  destruct (coordinate_le (radtan_distort k1 k2 p1 p2 (u, v)) (radtan_distort k1 k2 p1 p2 (x / z, y / z))) as (C1 & C2). destruct V as (F1 & F2 & _).
  unfold pinhole_keypoint. cbn [D distort radtan_lens fst snd]. replace (x * (1 / z), y * (1 / z)) with (x / z, y / z) by (f_equal; field; exact Z). replace (u * (1 / 1), v * (1 / 1)) with (u, v) by (f_equal; field).
  set (a := radtan_distort k1 k2 p1 p2 (u, v)) in *. set (b := radtan_distort k1 k2 p1 p2 (x / z, y / z)) in *.
  split; [match goal with |- Rabs ?e <= _ => replace e with (p_fu c * (fst a - fst b)) by ring end|match goal with |- Rabs ?e <= _ => replace e with (p_fv c * (snd a - snd b)) by ring end]; rewrite Rabs_mult, Rabs_pos_eq by lra; apply Rmult_le_compat_l; lra.
Qed.
Print Assumptions rix_pinhole.
(** Equidistant without coefficients, up to 45 degrees, with the tolerance of the library. *)
Theorem eix_pinhole c x y z : pinhole_valid c -> z <> 0 -> / 1000 <= atan (radius (x / z, y / z)) -> radius (x / z, y / z) <= 1 ->
  exists u v, pinhole_back_project (equi_lens 0 0 0 0 (/ 10 ^ 8)) c (pinhole_keypoint (equi_lens 0 0 0 0 (/ 10 ^ 8)) c (x, y, z)) = ((u, v, 1), true) /\ distance (u, v) (x / z, y / z) <= / 10 ^ 4.
Proof.
  intros V Z A R. destruct (eix_default (x / z, y / z) A R) as (q & E & G). exists (fst q), (snd q). rewrite back_of_keypoint by assumption. cbn [undistort distort equi_lens]. rewrite E. cbv zeta. split; [reflexivity|]. rewrite <- surjective_pairing. exact G.
Qed.
Print Assumptions eix_pinhole.
Example rix_pinhole_case : exists c, pinhole_valid c /\ bend (-28 / 100) (7 / 100) 0 0 (radius (6 / 20, 8 / 20)) <= 1 / 4.
Proof.
  exists {| p_fu := 450; p_fv := 460; p_cu := 320; p_cv := 240 |}. split; [unfold pinhole_valid; cbn; lra|]. replace (6 / 20, 8 / 20) with (3 / 10, 4 / 10) by (f_equal; field). apply rix_case.
Qed.
