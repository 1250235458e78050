(** Specification of YAML matrices: what a document means, independent of how it is read. *)
From Coq Require Import ZArith List.
From Verif Require Import YamlMatrixModel.
Import ListNotations.
Local Open Scope Z_scope.

(** The coefficients of a matrix with the given sizes. *)
Definition shaped {S} (rows cols : Z) (d : list (list S)) : Prop := Z.of_nat (length d) = rows /\ Forall (fun r => Z.of_nat (length r) = cols) d.
(** The node is a number. *)
Definition number {T S} (c : codec T S) (n : node T) (x : S) : Prop := exists t, n = Scalar t /\ get c t = Some x.
(** The sequence of nodes lists the coefficients row by row, or consists of one sequence per row. *)
Definition linear_form {T S} (c : codec T S) (l : list (node T)) (d : list (list S)) : Prop := Forall2 (number c) l (concat d).
Definition row_form {T S} (c : codec T S) (l : list (node T)) (d : list (list S)) : Prop := Forall2 (fun n r => exists k, n = Sequence k /\ Forall2 (number c) k r) l d.
(** The document has these sizes and this data. *)
Definition document {T S} (c : codec T S) (n : node T) (rows cols : Z) (l : list (node T)) : Prop :=
  exists tr tc, n = Table (Some (Scalar tr)) (Some (Scalar tc)) (Some (Sequence l)) /\ get_index c tr = Some rows /\ get_index c tc = Some cols.
(** The sizes agree with those fixed in the type, and fit into an int. *)
Definition fits (want_rows want_cols : option Z) (rows cols : Z) : Prop :=
  match want_rows with Some a => rows = a | None => True end /\ match want_cols with Some b => cols = b | None => True end.
Definition in_range (rows cols : Z) : Prop := 0 < rows < 2 ^ 31 /\ 0 < cols < 2 ^ 31 /\ rows * cols < 2 ^ 31.
