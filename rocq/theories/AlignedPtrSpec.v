(** Vocabulary of the properties of aligned owners. *)
From Coq Require Import List Bool Arith.
From Verif Require Import AlignedPtrModel.
Import ListNotations.

(** A pointer to an object that is alive. *)
Definition alive (s : state) (p : pointer) : Prop := exists b, get (p_block p) (heap s) = Some b.
Definition holds (s : state) (v : nat) (p : pointer) : Prop := get v (vars s) = Some p.
(** Every object has an owner. *)
Definition nothing_leaked (s : state) : Prop := forall k b, get k (heap s) = Some b -> exists v p, holds s v p /\ p_block p = k.
(** Every owner has an object. *)
Definition nothing_dangles (s : state) : Prop := forall v p, holds s v p -> alive s p.
(** Two owners of the same object are both shared. *)
Definition unique_is_unique (s : state) : Prop := forall v w p q, holds s v p -> holds s w q -> v <> w -> p_block p = p_block q -> p_shared p = true /\ p_shared q = true.
(** What the classes and calls have to satisfy: objects made with new and put into a UniquePtr have the operator new of Eigen; base classes have a virtual destructor and are at the start of
    the object; constructors called by aligned_unique do not throw. *)
Definition legal (classes : nat -> class) (s : state) (o : op) : Prop :=
  match o with
  | Make _ _ throws => throws = false
  | Adopt _ c _ => aligned_new (classes c) = true
  | ToBase v w => forall p, holds s v p -> p_shared p = false /\ v <> w /\ exists b, base (classes (p_class p)) = Some (b, true) /\ virtual_destructor (classes b) = true
  | Share v w => forall p, holds s v p -> p_shared p = false /\ v <> w
  | Copy v w => forall p, v <> w -> holds s v p -> p_shared p = true
  | _ => True
  end.
Fixpoint legal_run (classes : nat -> class) (s : state) (l : list op) : Prop :=
  match l with
  | [] => True
  | o :: l => legal classes s o /\ forall s', step classes s o = Ok s' \/ step classes s o = Thrown s' -> legal_run classes s' l
  end.
