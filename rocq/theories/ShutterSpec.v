(** Specification of rolling shutters: a line is a row or a column of pixels, and the lines are read one after the other. *)
From Coq Require Import Reals ZArith.
Local Open Scope R_scope.

(** The line n contains the coordinate v. *)
Definition in_line (v : R) (n : Z) : Prop := IZR n <= v < IZR n + 1.
(** A time in nanoseconds that an int64_t can hold. *)
Definition a_time (t : Z) : Prop := (- 2 ^ 63 <= t < 2 ^ 63)%Z.
