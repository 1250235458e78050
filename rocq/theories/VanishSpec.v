(** Vocabulary for C115: views of a grid whose rows are arcs of circles. *)
From Coq Require Import Reals ZArith List.
From Verif Require Import CircleSpec VanishModel.
Local Open Scope R_scope.

(** [p] is the observed corner of row [r] and some column. *)
Definition row_corner (v : view) (r : nat) (p : R * R) : Prop :=
  exists c k, (c < cols v)%nat /\ nth_error (ids v) k = Some (r * cols v + c)%nat /\ nth_error (corners v) k = Some p.
(** A view with one corner for each id, and no id twice. *)
Definition proper (v : view) : Prop := NoDup (ids v) /\ length (ids v) = length (corners v).
(** All corners of the target are seen. *)
Definition whole (v : view) : Prop := length (ids v) = (rows v * cols v)%nat.
(** The corners of a row are on a straight line. *)
Definition straight_row (v : view) (r : nat) : Prop := exists a b c, (a <> 0 \/ b <> 0) /\ forall p, row_corner v r p -> a * fst p + b * snd p = c.
(** The row is a part of the circle, and of no line. *)
Definition arc (v : view) (r : nat) (cx cy rad : R) : Prop :=
  0 <= rad /\ (forall p, row_corner v r p -> on_circle cx cy rad p) /\ ~ straight_row v r.
(** Distance of two points. *)
Definition distance (p q : R * R) : R := sqrt ((fst p - fst q) * (fst p - fst q) + (snd p - snd q) * (snd p - snd q)).
(** All rows are arcs of different circles, and all these circles pass through p and q. *)
Definition arcs_through (v : view) (p q : R * R) : Prop :=
  exists cx cy rad : nat -> R,
    (forall r, (r < rows v)%nat -> arc v r (cx r) (cy r) (rad r) /\ on_circle (cx r) (cy r) (rad r) p /\ on_circle (cx r) (cy r) (rad r) q) /\
    (forall j k, (j < k < rows v)%nat -> (cx j, cy j) <> (cx k, cy k)).
