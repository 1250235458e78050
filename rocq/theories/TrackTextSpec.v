(** How a reader takes the numbers from the table: columns of ten characters, lines of thirty-one. *)
From Coq Require Import NArith String Ascii Decimal DecimalString.
Local Open Scope string_scope.

Fixpoint strip (s : string) : string := match s with String c s' => if Ascii.eqb c " " then strip s' else s | "" => "" end.
Definition number (s : string) : option N := option_map N.of_uint (NilZero.uint_of_string (strip s)).
(** Column [k] of line [i]; line 0 is the header. *)
Definition entry (text : string) (i k : nat) : option N := number (substring (31 * i + 10 * k) 10 text).
(** At most ten decimal digits. *)
Definition short (n : N) : Prop := nb_digits (N.to_uint n) <= 10.
