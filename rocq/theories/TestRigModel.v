(** Model of the generators of camera rigs.

    Source: aslam_cv_cameras/src/random-camera-generator.cc ("gen") 16-37 and 43-83; createTestCamera of PinholeCamera, camera-pinhole.cc 276-282.

    Vectors are triples of real numbers, rotations are matrices (a quaternion w x y z stands for its matrix), a transformation (R, t) maps p to R p + t as in minkindr. Only the geometry is modelled; ids, distortions and covariances are not. *)
From Coq Require Import Reals List.
Import ListNotations.
Local Open Scope R_scope.

Definition vec : Type := (R * R * R)%type.
(** The three rows. *)
Definition mat : Type := (vec * vec * vec)%type.
Definition dot (a b : vec) : R := let '(a1, a2, a3) := a in let '(b1, b2, b3) := b in a1 * b1 + a2 * b2 + a3 * b3.
Definition apply (m : mat) (v : vec) : vec := let '(r1, r2, r3) := m in (dot r1 v, dot r2 v, dot r3 v).
Definition transpose (m : mat) : mat := let '((a, b, c), (d, e, f), (g, h, i)) := m in ((a, d, g), (b, e, h), (c, f, i)).
Definition opposite (v : vec) : vec := let '(a, b, c) := v in (- a, - b, - c).
Definition plus (a b : vec) : vec := let '(a1, a2, a3) := a in let '(b1, b2, b3) := b in (a1 + b1, a2 + b2, a3 + b3).
(** The rotation of a unit quaternion. *)
Definition of_quaternion (w x y z : R) : mat :=
  ((1 - 2 * (y * y + z * z), 2 * (x * y - w * z), 2 * (x * z + w * y)),
   (2 * (x * y + w * z), 1 - 2 * (x * x + z * z), 2 * (y * z - w * x)),
   (2 * (x * z - w * y), 2 * (y * z + w * x), 1 - 2 * (x * x + y * y))).
Definition transformation : Type := (mat * vec)%type.
Definition transform (T : transformation) (p : vec) : vec := plus (apply (fst T) p) (snd T).

(** The loop of createUniqueTestNCamera, gen 20-28: T_C_B of each camera. *)
Definition test_rig (num_cameras : nat) : list transformation :=
  map (fun i => (of_quaternion (1 / 2) (1 / 2) (- (1 / 2)) (1 / 2), (1 / 10 * (INR i + 1), 0, 0))) (seq 0 num_cameras).
(** createSurroundViewUniqueTestNCamera, gen 52-77: R_B_C and t_B_C of the four cameras, the coefficients that are not set are zero. *)
Definition surround_poses : list (mat * vec) :=
  [ (((0, 0, 1), (-1, 0, 0), (0, -1, 0)), (2, 0, 0));
    (((1, 0, 0), (0, 0, 1), (0, -1, 0)), (0, 1, 0));
    (((0, 0, -1), (1, 0, 0), (0, -1, 0)), (-1, 0, 0));
    (((-1, 0, 0), (0, 0, -1), (0, -1, 0)), (0, -1, 0)) ].
(** gen 78-82: the inverse of the rotation with the opposite of the position. *)
Definition surround_rig : list transformation := map (fun p => (transpose (fst p), opposite (snd p))) surround_poses.
