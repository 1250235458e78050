(** Vocabulary for C134. *)
From Coq Require Import Reals ZArith List.
From Verif Require Import HashIdModel RandPtModel RandPtSpec LensOwnModel.
Import ListNotations.
Local Open Scope nat_scope.

(** The states a program can reach. *)
Definition reachable (s : state) : Prop := exists l, run initial l = Ok s.
(** Every pointer leads to a lens that exists, no two pointers to the same one, and every lens has a pointer. *)
Record well_owned (s : state) : Prop := WellOwned {
  alive : forall o a, points s o = Some a -> heap s a <> None;
  single : forall o o' a, points s o = Some a -> points s o' = Some a -> o = o';
  no_leak : forall a, heap s a <> None -> exists o, points s o = Some a }.
(** The cameras an operation is about. *)
Definition about (o : op) (k : nat) : Prop :=
  match o with
  | MakeLens _ _ _ => False
  | Create j _ _ _ _ _ _ _ | Construct j _ _ _ _ _ _ | ConstructPlain j _ _ _ _ _ | Clone _ j | SetParameters j _ | WriteParameter j _ _
  | SetLensParameters j _ | SetDistortion j _ | RemoveDistortion j | SetId j _ | Drop j => k = j
  end.
(** The camera an operation needs. *)
Definition needs (o : op) (k : nat) : Prop :=
  match o with
  | Clone j _ | SetParameters j _ | WriteParameter j _ _ | SetLensParameters j _ | SetDistortion j _ | RemoveDistortion j | SetId j _ => k = j
  | _ => False
  end.
(** The operations that change intrinsics without a look at their values. *)
Definition unchecked (o : op) : Prop := match o with SetParameters _ _ | WriteParameter _ _ _ => True | _ => False end.
(** What the lens of the factory is. *)
Definition given (t : lens_type) (l : list R) : lens := match t with NoLens => Lens NoLens [] | _ => Lens t l end.
