(** Vocabulary for C120. *)
From Coq Require Import ZArith NArith List.
From Verif Require Import LCompareModel.
Import ListNotations.

(** The pixel belongs to one of the segments. *)
Definition covered (line : size -> segment -> nat -> bool) (sz : size) (l : list segment) (px : nat) : Prop := exists s, In s l /\ line sz s px = true.
(** A number of pixels with a property: there is a list of exactly these, without repetition. *)
Definition number_of (sz : size) (P : nat -> Prop) (n : nat) : Prop := exists l, NoDup l /\ (forall px, In px l <-> px < area sz /\ P px) /\ length l = n.
(** Exactly one of two statements. *)
Definition one_of (P Q : Prop) : Prop := (P /\ ~ Q) \/ (Q /\ ~ P).
