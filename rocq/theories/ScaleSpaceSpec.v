(** What one expects of a scale space. *)
From Coq Require Import Reals List Arith Permutation.
From Verif Require Import DiffusionModel.
Import ListNotations.
Local Open Scope R_scope.

(** Images that agree in all pixels. *)
Definition same (rows cols : nat) (A B : image) : Prop :=
  forall y x, (y < rows)%nat -> (x < cols)%nat -> A y x = B y x.

(** The image with another contrast and brightness. *)
Definition relit (s b : R) (A : image) : image := fun y x => s * A y x + b.

(** A smoothing filter keeps constants and is linear; a derivative is linear and zero for constants.
    Both depend on the pixels only. *)
Record smoothing (rows cols : nat) (g : image -> image) : Prop := {
  smoothing_pixels : forall A B, same rows cols A B -> same rows cols (g A) (g B);
  smoothing_relit : forall A s b, same rows cols (g (relit s b A)) (relit s b (g A)) }.

Record derivative (rows cols : nat) (g : image -> image) : Prop := {
  derivative_pixels : forall A B, same rows cols A B -> same rows cols (g A) (g B);
  derivative_relit : forall A s b, same rows cols (g (relit s b A)) (relit s 0 (g A)) }.
