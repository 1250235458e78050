(** Specification of equality: the distance of vectors and what the cameras show. *)
From Coq Require Import Reals List.
Local Open Scope R_scope.

Definition norm (v : list R) : R := sqrt (fold_right (fun x s => x ^ 2 + s) 0 v).
(** b is the vector a up to a relative error. *)
Definition relatively_close (a b : list R) (error : R) : Prop := exists d, length d = length a /\ b = map (fun p => fst p + snd p) (combine a d) /\ norm d <= error * norm a.
(** The pixel at which a pinhole camera without distortion with parameters fu fv cu cv sees (x, y, z). *)
Definition sees (p : list R) (x y z : R) (u v : R) : Prop := match p with fu :: fv :: cu :: cv :: nil => u = fu * (x / z) + cu /\ v = fv * (y / z) + cv | _ => False end.
