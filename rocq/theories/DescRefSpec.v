(** Specification for descriptor references: which uses are legal, ownership, and the object an operation is applied to. *)
From Coq Require Import NArith.
From stdpp Require Import gmap list.
From Verif Require Import StlHelpersModel DescRefModel.
Local Open Scope nat_scope.

Definition live (s : state) (i : nat) : Prop := exists r, objects s !! i = Some r.
Definition unused (s : state) (i : nat) : Prop := objects s !! i = None.
Definition owner (s : state) (i : nat) : Prop := exists r, objects s !! i = Some r /\ owned r = Some true.
(** [n] bytes of memory which is not managed by descriptors. *)
Definition external (s : state) (a n : nat) : Prop := exists bs, memory s !! a = Some (Block false bs) /\ n <= length bs.

(** Legal uses: objects are used between construction and destruction, views are made of external memory, element access is in range, an
    owned buffer is neither given away (Release) nor replaced (set_data). *)
Definition legal (s : state) (o : op) : Prop :=
  match o with
  | Default i | Heap i _ => unused s i
  | View i a n own => unused s i /\ own = false /\ external s a n
  | Copy i j => unused s i /\ live s j
  | Assign i j => live s i /\ live s j
  | Allocate i _ | Destroy i | SetZero i | SetRandom i _ => live s i
  | Release i => live s i /\ ~ owner s i
  | Write i k _ => exists r, objects s !! i = Some r /\ k < size r
  | SetData i a own => ~ owner s i /\ own = false /\ exists r, objects s !! i = Some r /\ external s a (size r)
  | External a _ => memory s !! a = None
  end.
Fixpoint legal_run (g : option bool) (s : state) (ops : list op) : Prop :=
  match ops with [] => True | o :: ops' => legal s o /\ forall s', apply_op g s o = Ok s' -> legal_run g s' ops' end.

(** The object an operation changes. *)
Definition target (o : op) : option nat :=
  match o with
  | Default i | View i _ _ _ | Heap i _ | Copy i _ | Assign i _ | Allocate i _ | Release i | Destroy i | SetZero i | SetRandom i _
  | Write i _ _ | SetData i _ _ => Some i
  | External _ _ => None
  end.
(** Operations that write through the pointer. *)
Definition writes (o : op) : bool := match o with SetZero _ | SetRandom _ _ | Write _ _ _ => true | _ => false end.

(** Every allocated block belongs to exactly one object, which has exactly its size. *)
Definition owns (s : state) (i a : nat) : Prop := exists r bs,
  objects s !! i = Some r /\ owned r = Some true /\ data r = Some a /\ memory s !! a = Some (Block true bs) /\ length bs = size r.
Definition exactly_owned (s : state) : Prop := forall a bs, memory s !! a = Some (Block true bs) -> exists i, owns s i a /\ forall j, owns s j a -> j = i.
(** Two objects refer to the same memory. *)
Definition shared (s : state) (i j : nat) : Prop := exists r t a, objects s !! i = Some r /\ objects s !! j = Some t /\ data r = Some a /\ data t = Some a.
