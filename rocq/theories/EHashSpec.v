(** Vocabulary for C121. *)
From Coq Require Import NArith List.
From Verif Require Import EHashModel.
Import ListNotations.
Local Open Scope N_scope.

(** Matrices of the same size with equal elements. *)
Definition equal_matrices {S} (scalar_eq : S -> S -> bool) (a b : matrix S) : Prop := rows a = rows b /\ cols a = cols b /\ Forall2 (fun x y => scalar_eq x y = true) (data a) (data b).
(** std::hash of the scalar respects equality of scalars, and fits into a word. *)
Definition good_hash {S} (std_hash : S -> N) (scalar_eq : S -> S -> bool) : Prop := (forall x y, scalar_eq x y = true -> std_hash x = std_hash y) /\ forall x, std_hash x < 2 ^ 64.
(** Every matrix of the list has this size, and elements that are equal to themselves. *)
Definition sized {S} (r c : nat) (m : matrix S) : Prop := rows m = r /\ cols m = c.
Definition proper {S} (scalar_eq : S -> S -> bool) (m : matrix S) : Prop := Forall (fun x => scalar_eq x x = true) (data m).
(** operator== is symmetric and transitive, as it is for floats and integers. *)
Definition partial_equivalence {S} (scalar_eq : S -> S -> bool) : Prop := (forall x y, scalar_eq x y = true -> scalar_eq y x = true) /\ (forall x y z, scalar_eq x y = true -> scalar_eq y z = true -> scalar_eq x z = true).
(** A table built by emplacing a list of entries, in order. *)
Fixpoint build {S V} std_hash scalar_eq (n : N) (l : list (matrix S * V)) : option (table S V) :=
  match l with [] => Some (fun _ => []) | (k, v) :: l' => match build std_hash scalar_eq n l' with None => None | Some t => emplace std_hash scalar_eq n t k v end end.
(** The value of the entry that was emplaced first among those with an equal key (the last in the list). *)
Inductive first_of {S V} (scalar_eq : S -> S -> bool) (k : matrix S) : list (matrix S * V) -> option V -> Prop :=
  | fo_nil : first_of scalar_eq k [] None
  | fo_old k' v l u : first_of scalar_eq k l (Some u) -> first_of scalar_eq k ((k', v) :: l) (Some u)
  | fo_new k' v l : first_of scalar_eq k l None -> equal_matrices scalar_eq k' k -> first_of scalar_eq k ((k', v) :: l) (Some v)
  | fo_other k' v l : first_of scalar_eq k l None -> ~ equal_matrices scalar_eq k' k -> first_of scalar_eq k ((k', v) :: l) None.
