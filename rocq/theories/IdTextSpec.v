(** Texts of ids, independent of the code. *)
From Coq Require Import ZArith List Strings.Byte.
Import ListNotations.
Open Scope Z_scope.

(** The ends of an id: its first two and its last two bytes. *)
Definition ends (i : list byte) : list byte * list byte := (firstn 2 i, skipn 14 i).
(** A way to read words that have no spaces back. *)
Fixpoint words (t : list byte) (cur : list byte) : list (list byte) :=
  match t with
  | [] => []
  | x20 :: t => rev cur :: words t []
  | c :: t => words t (c :: cur)
  end.
Definition read_list (t : list byte) : list (list byte) := match t with x5b :: x20 :: t => words t [] | _ => [] end.
