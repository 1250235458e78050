(** What a caller expects of the erasure of columns or rows, and of the adapters. *)
From Coq Require Import List Arith Bool Sorted.
From Verif Require Import MatEraseModel.
Import ListNotations.

(** Ordered indices of lines that exist: at least one. *)
Definition proper (n : nat) (indices : list nat) : Prop := indices <> [] /\ StronglySorted lt indices /\ forall i, In i indices -> i < n.
(** The lines that stay, in their order. *)
Definition kept (n : nat) (indices : list nat) : list nat := filter (fun k => negb (existsb (Nat.eqb k) indices)) (seq 0 n).
Section Spec.
Context {A : Type}.
Implicit Types m : mat A.
(** Number of lines, length of a line, and element j of line k. *)
Definition lines (d : dim) m : nat := match d with Columns => ncols m | Rows => nrows m end.
Definition width (d : dim) m : nat := match d with Columns => nrows m | Rows => ncols m end.
Definition get (d : dim) m (k j : nat) : option A := match d with Columns => entry m j k | Rows => entry m k j end.
(** [m'] has exactly the lines of [m] whose indices are not listed. *)
Definition erased (d : dim) (indices : list nat) m m' : Prop :=
  lines d m' = length (kept (lines d m) indices) /\ width d m' = width d m /\
  forall k i, nth_error (kept (lines d m) indices) k = Some i -> forall j, get d m' k j = get d m i j.
(** Equal inside of the bounds. *)
Definition same m m' : Prop := nrows m = nrows m' /\ ncols m = ncols m' /\ forall r c, r < nrows m -> c < ncols m -> entry m r c = entry m' r c.
Definition transpose m : mat A := Mat (ncols m) (nrows m) (fun r c => entry m c r).
Definition transposed (o : outcome (mat A)) : outcome (mat A) := match o with Done m => Done (transpose m) | Abort => Abort | Undefined => Undefined end.
(** Memory that is in use. *)
Definition live (s : state A) (p : nat) : Prop := exists m, nth_error (heap s) p = Some (Some m).
Definition copies (c : command A) : Prop := match c with Copy _ => True | _ => False end.
Definition careful (c : command A) : Prop := match c with Erase _ indices n => proper n indices | _ => True end.
(** All adapters have been destroyed. *)
Definition finished (s : state A) : Prop := forall v a, nth_error (vars s) v <> Some (Some a).
End Spec.
