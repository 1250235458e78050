(** Specification of a step of nonlinear diffusion. *)
From Coq Require Import Reals List Bool Arith.
From Verif Require Import DiffusionModel.
Import ListNotations.
Local Open Scope R_scope.

(** Sum of f k for k < n, and the total brightness. *)
Fixpoint sum (n : nat) (f : nat -> R) : R := match n with O => 0 | S m => sum m f + f m end.
Definition total (rows cols : nat) (L : image) : R := sum rows (fun y => sum cols (fun x => L y x)).
(** The four neighbours of a pixel that are in the image. *)
Definition neighbours (rows cols y x : nat) : list (nat * nat) :=
  (if (x + 1 <? cols)%nat then [(y, (x + 1)%nat)] else []) ++ (if (0 <? x)%nat then [(y, (x - 1)%nat)] else []) ++
  (if (y + 1 <? rows)%nat then [((y + 1)%nat, x)] else []) ++ (if (0 <? y)%nat then [((y - 1)%nat, x)] else []).
(** What flows into a pixel: the conductivity between two pixels is the mean of theirs, and nothing flows through the border. *)
Definition inflow (rows cols : nat) (L c : image) (y x : nat) : R :=
  fold_right Rplus 0 (map (fun q => (c y x + c (fst q) (snd q)) / 2 * (L (fst q) (snd q) - L y x)) (neighbours rows cols y x)).
Definition within (rows cols : nat) (lo hi : R) (L : image) : Prop := forall y x, (y < rows)%nat -> (x < cols)%nat -> lo <= L y x <= hi.
