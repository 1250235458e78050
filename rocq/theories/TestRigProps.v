(** C114: generated camera rigs. *)
From Coq Require Import Reals List Lia Lra Nsatz.
From Verif Require Import TestRigModel TestRigSpec.
Import ListNotations.
Local Open Scope R_scope.

Lemma trip (a b c d e f : R) : a = d -> b = e -> c = f -> (a, b, c) = (d, e, f).
Proof. congruence. Qed.
Lemma apply_plus m p q : apply m (plus p q) = plus (apply m p) (apply m q).
Proof. destruct m as [[[[? ?] ?] [[? ?] ?]] [[? ?] ?]], p as [[? ?] ?], q as [[? ?] ?]. cbn. apply trip; ring. Qed.
Lemma direction m t d e : (forall s, apply m (let '(a, b, c) := d in (s * a, s * b, s * c)) = (let '(a, b, c) := e in (s * a, s * b, s * c))) -> forall p s, centre (m, t) p -> transform (m, t) (plus p (let '(a, b, c) := d in (s * a, s * b, s * c))) = (let '(a, b, c) := e in (s * a, s * b, s * c)).
Proof.
  intros H p s C. unfold transform, centre in *. cbn [fst snd] in *. unfold transform in C. cbn [fst snd] in C. rewrite apply_plus, H. destruct (apply m p) as [[a b] c], t as [[u v] w], e as [[x y] z]. cbn in C |- *. injection C. intros. apply trip; lra.
Qed.
Lemma centre_inverse m t : rotation m -> centre (m, t) (opposite (apply (transpose m) t)).
Proof.
  destruct m as [[[[a b] c] [[d e] f]] [[g h] i]], t as [[x y] z]. unfold rotation, centre, transform. cbn. intros (R1 & R2 & R3 & R4). injection R4. intros Hi Hh Hg.
  assert (g * g + h * h + i * i = 1) as R5. { rewrite Hg, Hh, Hi. transitivity ((a * a + b * b + c * c) * (d * d + e * e + f * f) - (a * d + b * e + c * f) * (a * d + b * e + c * f)); [ring|]. rewrite R1, R2, R3. ring. }
  assert (a * g + b * h + c * i = 0) as R6 by (rewrite Hg, Hh, Hi; ring). assert (d * g + e * h + f * i = 0) as R7 by (rewrite Hg, Hh, Hi; ring). clear R4 Hg Hh Hi.
  apply trip.
  - transitivity (x - x * (a * a + b * b + c * c) - y * (a * d + b * e + c * f) - z * (a * g + b * h + c * i)); [ring|]. rewrite R1, R3, R6. ring.
  - transitivity (y - x * (a * d + b * e + c * f) - y * (d * d + e * e + f * f) - z * (d * g + e * h + f * i)); [ring|]. rewrite R2, R3, R7. ring.
  - transitivity (z - x * (a * g + b * h + c * i) - y * (d * g + e * h + f * i) - z * (g * g + h * h + i * i)); [ring|]. rewrite R5, R6, R7. ring.
Qed.
Lemma centre_unique m t p q : rotation (transpose m) -> centre (m, t) p -> centre (m, t) q -> p = q.
Proof.
  destruct m as [[[[a b] c] [[d e] f]] [[g h] i]], t as [[x y] z], p as [[p1 p2] p3], q as [[q1 q2] q3]. unfold rotation, centre, transform. cbn. intros (R1 & R2 & R3 & R4) P Q. injection R4. intros Hf He Hd. clear R4.
  assert (c * c + f * f + i * i = 1) as R5. { rewrite Hd, He, Hf. transitivity ((a * a + d * d + g * g) * (b * b + e * e + h * h) - (a * b + d * e + g * h) * (a * b + d * e + g * h)); [ring|]. rewrite R1, R2, R3. ring. }
  assert (a * c + d * f + g * i = 0) as R6 by (rewrite Hd, He, Hf; ring). assert (b * c + e * f + h * i = 0) as R7 by (rewrite Hd, He, Hf; ring). clear Hd He Hf. injection P. intros P3 P2 P1. injection Q. intros Q3 Q2 Q1. clear P Q.
  set (u := p1 - q1). set (v := p2 - q2). set (w := p3 - q3).
  assert (a * u + b * v + c * w = 0) as E1 by (unfold u, v, w; lra). assert (d * u + e * v + f * w = 0) as E2 by (unfold u, v, w; lra). assert (g * u + h * v + i * w = 0) as E3 by (unfold u, v, w; lra).
  assert (u = 0). { transitivity (a * (a * u + b * v + c * w) + d * (d * u + e * v + f * w) + g * (g * u + h * v + i * w)); [|rewrite E1, E2, E3; ring]. transitivity ((a * a + d * d + g * g) * u + (a * b + d * e + g * h) * v + (a * c + d * f + g * i) * w); [rewrite R1, R3, R6; ring|ring]. }
  assert (v = 0). { transitivity (b * (a * u + b * v + c * w) + e * (d * u + e * v + f * w) + h * (g * u + h * v + i * w)); [|rewrite E1, E2, E3; ring]. transitivity ((a * b + d * e + g * h) * u + (b * b + e * e + h * h) * v + (b * c + e * f + h * i) * w); [rewrite R2, R3, R7; ring|ring]. }
  assert (w = 0). { transitivity (c * (a * u + b * v + c * w) + f * (d * u + e * v + f * w) + i * (g * u + h * v + i * w)); [|rewrite E1, E2, E3; ring]. transitivity ((a * c + d * f + g * i) * u + (b * c + e * f + h * i) * v + (c * c + f * f + i * i) * w); [rewrite R5, R6, R7; ring|ring]. }
  unfold u, v, w in *. apply trip; lra.
Qed.

Lemma looks_of m t a b c : (forall s, apply m (s * a, s * b, s * c) = (0, 0, s)) -> looks (m, t) (a, b, c).
Proof. intros H p s C. rewrite (direction m t (a, b, c) (0, 0, 1)); [apply trip; ring| |exact C]. intros k. rewrite H. apply trip; ring. Qed.
Lemma downwards_of m t a b c : (forall s, apply m (s * a, s * b, s * c) = (0, s, 0)) -> downwards (m, t) (a, b, c).
Proof. intros H p s C. rewrite (direction m t (a, b, c) (0, 1, 0)); [apply trip; ring| |exact C]. intros k. rewrite H. apply trip; ring. Qed.

(** Every unit quaternion is a rotation about its vector part: by the angle whose half has the cosine [w], for all vectors. *)
Theorem trx_quaternion w x y z : w * w + x * x + y * y + z * z = 1 -> rotation (of_quaternion w x y z) /\ apply (of_quaternion w x y z) (x, y, z) = (x, y, z) /\
  (forall a b c, x * a + y * b + z * c = 0 -> apply (of_quaternion w x y z) (a, b, c) =
    plus ((2 * (w * w) - 1) * a, (2 * (w * w) - 1) * b, (2 * (w * w) - 1) * c) (2 * w * (y * c - z * b), 2 * w * (z * a - x * c), 2 * w * (x * b - y * a))).
Proof.
  intros U. assert (w * w = 1 - x * x - y * y - z * z) as W by lra. split; [|split].
  - unfold rotation, of_quaternion. cbn. repeat split; [nsatz|nsatz|nsatz|apply trip; nsatz].
  - cbn. apply trip; nsatz.
  - intros a b c P. cbn. apply trip; nsatz.
Qed.
Print Assumptions trx_quaternion.

(** ** The test rig *)
Lemma test_nth n i : (i < n)%nat -> nth_error (test_rig n) i = Some (of_quaternion (1 / 2) (1 / 2) (- (1 / 2)) (1 / 2), (1 / 10 * (INR i + 1), 0, 0)).
Proof. intros L. unfold test_rig. rewrite nth_error_map. rewrite (nth_error_nth' _ 0%nat) by (rewrite seq_length; exact L). rewrite seq_nth by exact L. reflexivity. Qed.
(** Each camera of the test rig looks forward along the x axis of the body, with its columns downwards; the cameras are in a row, each at its own place. *)
Theorem trx_test n i : (i < n)%nat -> length (test_rig n) = n /\ exists T, nth_error (test_rig n) i = Some T /\ rotation (fst T) /\ looks T (1, 0, 0) /\ downwards T (0, 0, -1) /\ forall p, centre T p <-> p = (0, 1 / 10 * (INR i + 1), 0).
Proof.
  intros L. split; [unfold test_rig; rewrite map_length, seq_length; reflexivity|]. eexists. split; [apply test_nth, L|]. cbn [fst]. split; [cbn; repeat split; try lra; apply trip; lra|]. split; [|split].
  - intros p s C. rewrite (direction _ _ (1, 0, 0) (0, 0, 1)); [apply trip; ring| |exact C]. intros k. cbn. apply trip; lra.
  - intros p s C. rewrite (direction _ _ (0, 0, -1) (0, 1, 0)); [apply trip; ring| |exact C]. intros k. cbn. apply trip; lra.
  - intros p. split.
    + intros C. apply (centre_unique _ _ p (0, 1 / 10 * (INR i + 1), 0)) in C; [exact C|cbn; repeat split; try lra; apply trip; lra|]. unfold centre, transform. cbn. apply trip; lra.
    + intros ->. unfold centre, transform. cbn. apply trip; lra.
Qed.
(** No camera is displaced along the x axis of the body. *)
Theorem trx_offset_refuted n i T x y z : nth_error (test_rig n) i = Some T -> centre T (x, y, z) -> x = 0.
Proof.
  intros E C. assert (i < n)%nat as L. { assert (i < length (test_rig n))%nat by (apply nth_error_Some; congruence). unfold test_rig in *. rewrite map_length, seq_length in *. assumption. } destruct (trx_test n i L) as (_ & T' & E' & _ & _ & _ & M). rewrite E in E'. injection E' as <-. apply M in C. congruence.
Qed.

(** ** The surround view rig *)
(** The cameras look to the front, left, back and right of the body, upright. *)
Theorem trx_surround : Forall2 (fun T d => rotation (fst T) /\ looks T d /\ downwards T (0, 0, -1)) surround_rig [(1, 0, 0); (0, 1, 0); (-1, 0, 0); (0, -1, 0)].
Proof.
  unfold surround_rig, surround_poses. cbn [map fst snd].
  repeat (apply Forall2_cons; [split; [cbn; repeat split; try lra; apply trip; lra|split; [apply looks_of|apply downwards_of]; intros k; cbn; apply trip; lra]|]). constructor.
Qed.
(** But none of them is at the position that is given for it (two metres to the front, one to the left, to the back and to
    the right): each is at the position rotated by the orientation of the camera. *)
Theorem trx_surround_refuted : Forall2 (fun T places => (forall p, centre T p <-> p = fst places) /\ fst places <> snd places) surround_rig
  [((0, -2, 0), (2, 0, 0)); ((0, 0, -1), (0, 1, 0)); ((0, -1, 0), (-1, 0, 0)); ((0, 0, 1), (0, -1, 0))].
Proof.
  assert (forall T p q, rotation (transpose (fst T)) -> centre T q -> centre T p <-> p = q) as G. { intros [m t] p q R Q. split; [intros P; exact (centre_unique m t p q R P Q)|intros ->; exact Q]. }
  unfold surround_rig, surround_poses. cbn [map fst snd]. repeat (apply Forall2_cons; [split; [intros p; apply G; [cbn; repeat split; try lra; apply trip; lra|unfold centre, transform; cbn; apply trip; lra]|cbn; intros [=]; lra]|]). constructor.
Qed.
(** The rig with the translations - R_C_B t_B_C has the cameras at their positions. *)
Theorem trx_intended : Forall2 (fun pose place => forall p, centre (transpose (fst pose), opposite (apply (transpose (fst pose)) (snd pose))) p <-> p = place) surround_poses
  [(2, 0, 0); (0, 1, 0); (-1, 0, 0); (0, -1, 0)].
Proof.
  assert (forall T p q, rotation (transpose (fst T)) -> centre T q -> centre T p <-> p = q) as G. { intros [m t] p q R Q. split; [intros P; exact (centre_unique m t p q R P Q)|intros ->; exact Q]. }
  unfold surround_poses. repeat (apply Forall2_cons; [intros p; apply G; [cbn; repeat split; try lra; apply trip; lra|unfold centre, transform; cbn; apply trip; lra]|]). constructor.
Qed.
Example trx_ex : (1 < 3)%nat /\ centre (of_quaternion (1 / 2) (1 / 2) (- (1 / 2)) (1 / 2), (1 / 10 * (INR 1 + 1), 0, 0)) (0, 2 / 10, 0).
Proof. split; [lia|]. unfold centre, transform. cbn. apply trip; lra. Qed.
Print Assumptions trx_test.
Print Assumptions trx_offset_refuted.
Print Assumptions trx_surround.
Print Assumptions trx_surround_refuted.
Print Assumptions trx_intended.
