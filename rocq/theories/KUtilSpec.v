(** Vocabulary for C118. *)
From Coq Require Import Reals ZArith List.
From Verif Require Import KUtilModel.
Import ListNotations.
Local Open Scope R_scope.

(** The smallest and the greatest value of a list. *)
Definition least (l : list R) (m : R) : Prop := In m l /\ forall v, In v l -> m <= v.
Definition greatest (l : list R) (m : R) : Prop := In m l /\ forall v, In v l -> v <= m.
(** The scaling to 0 .. 1: the image of the smallest value is 0, of the greatest 1, affine in between. *)
Definition scaled (lo hi : R) (l : list R) : list R := map (fun v => (v - lo) / (hi - lo)) l.
(** The homography maps the first point to within the error of the second. *)
Definition maps_near (H : homography) (e : R) (p q : R * R) : Prop :=
  exists s u v, s <> 0 /\ h11 H * fst p + h12 H * snd p + h13 H = s * u /\ h21 H * fst p + h22 H * snd p + h23 H = s * v /\ h31 H * fst p + h32 H * snd p + h33 H = s /\
    sqrt ((u - fst q) ^ 2 + (v - snd q) ^ 2) <= e.
(** A list of points as pairs. *)
Fixpoint flat (l : list ((R * R) * (R * R))) : list (R * R) := match l with [] => [] | (p, q) :: l' => p :: q :: flat l' end.
(** A sublist in the same order: exactly the elements with the property are kept. *)
Inductive selected {A} (P : A -> Prop) : list A -> list A -> Prop :=
  | sel_nil : selected P [] []
  | sel_yes x l m : P x -> selected P l m -> selected P (x :: l) (x :: m)
  | sel_no x l m : ~ P x -> selected P l m -> selected P (x :: l) m.
(** A match is clear: its distance is below the ratio times the distance of the second best. *)
Definition clear_match (nndr : R) (m : dmatch * dmatch) : Prop := dist (fst m) < nndr * dist (snd m).
(** Two matrices are the same homography. *)
Definition proportional (k : R) (H : homography) (a b c d e f g h i : R) : Prop :=
  a = k * h11 H /\ b = k * h12 H /\ c = k * h13 H /\ d = k * h21 H /\ e = k * h22 H /\ f = k * h23 H /\ g = k * h31 H /\ h = k * h32 H /\ i = k * h33 H.
