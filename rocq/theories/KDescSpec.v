(** What descriptors of a list of keypoints are. *)
From Coq Require Import ZArith Reals List Arith.
From Verif Require Import SurfModel SurfSpec KDescModel.
Import ListNotations.
Local Open Scope R_scope.

(** An execution of the loop: every iteration does its steps in order, steps of different iterations interleave. *)
Definition of_iteration (i : nat) (s : step) : bool := match s with Orient j => Nat.eqb i j | Describe j => Nat.eqb i j end.
Definition execution (t n : nat) (order : list step) : Prop :=
  forall i, filter (of_iteration i) order = if Nat.ltb i n then body t i else [].
(** The names of the types: three grids, each upright and rotated, of length 64 and 128. *)
Definition type_number (k : family) (up ext : bool) : nat :=
  (match k with Surf => 0 | Msurf => 4 | Gsurf => 8 end + (if ext then 2 else 0) + (if up then 0 else 1))%nat.
Definition row_length (ext : bool) : nat := if ext then 128%nat else 64%nat.
Definition good_row (n : nat) (r : row) : Prop := match r with Numbers l => unit_vector n l | NotNumbers m => m = n end.
(** Only the angle may differ. *)
Definition same_but_angle (a b : keypoint) : Prop := pt_x a = pt_x b /\ pt_y a = pt_y b /\ size a = size b /\ class_id a = class_id b.
Definition known_levels (n : nat) (kpts : list keypoint) : Prop := Forall (fun kp => (0 <= class_id kp < Z.of_nat n)%Z) kpts.
