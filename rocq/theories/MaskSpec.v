(** Specification of masks. *)
From Coq Require Import Reals ZArith.
Local Open Scope R_scope.

Definition inside (w h : Z) (x y : R) : Prop := 0 <= x < IZR w /\ 0 <= y < IZR h.
(** The pixel n contains the coordinate v. *)
Definition pixel_of (v : R) (n : Z) : Prop := IZR n <= v < IZR n + 1.
(** The pixel of the mask under (x, y), given by rows and columns, is not zero. *)
Definition uncovered (data : Z -> Z -> Z) (x y : R) : Prop := forall r c, pixel_of y r -> pixel_of x c -> data r c <> 0%Z.
