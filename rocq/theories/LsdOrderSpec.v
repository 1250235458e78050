(** Specification of level lines and of orders of pixels. *)
From Coq Require Import ZArith Reals List Permutation Sorted.
Import ListNotations.
Local Open Scope R_scope.

(** The pixels that have a right and a lower neighbour. *)
Definition inner (w h : Z) (p : Z * Z) : Prop := (0 <= fst p < w - 1 /\ 0 <= snd p < h - 1)%Z.
(** Row by row from the top, each row from the left. *)
Definition raster (p q : Z * Z) : Prop := (snd p < snd q \/ snd p = snd q /\ fst p < fst q)%Z.
(** A plane image. *)
Definition plane (w h : Z) (data : Z -> R) (a b c : R) : Prop := forall x y, (0 <= x < w)%Z -> (0 <= y < h)%Z -> data (x + y * w)%Z = a * IZR x + b * IZR y + c.
(** Strongest first. *)
Definition strongest_first {A} (strength : A -> R) (l : list A) : Prop := forall i j p q, (i < j)%nat -> nth_error l i = Some p -> nth_error l j = Some q -> strength q <= strength p.
