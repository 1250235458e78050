(** Vocabulary for C50: the geometry of the printed grid. *)
From Coq Require Import Reals ZArith List Arith.
Local Open Scope R_scope.

(** Corner [k] (counter-clockwise from the lower left) of the tag in the given row and column of tags, for tags of size [s]
    separated by [g]. *)
Definition tag_corner (s g : R) (row col k : nat) : R * R * R :=
  let x := INR col * (s + g) in
  let y := INR row * (s + g) in
  match k with 0%nat => (x, y, 0) | 1%nat => (x + s, y, 0) | 2%nat => (x + s, y + s, 0) | _ => (x, y + s, 0) end.
(** Square of the distance of two image points. *)
Definition distance_squared (p q : R * R) : R := Rsqr (fst p - fst q) + Rsqr (snd p - snd q).
