(** Vocabulary for C147; [least] and [greatest] are those of C118. *)
From Coq Require Import Reals ZArith List.
From Verif Require Import KUtilSpec.
Import ListNotations.
Local Open Scope R_scope.

(** An image with contrast, whose values the scaling can treat. *)
Definition contrasty (l : list R) (lo hi : R) : Prop := least l lo /\ greatest l hi /\ lo < hi /\ lo <= 1000.
(** The pixel [b] shows the value [v]: 0 for the smallest, 255 for the greatest, to the nearest grey value. *)
Definition shows (lo hi v : R) (b : Z) : Prop := (0 <= b <= 255)%Z /\ Rabs (IZR b - 255 * ((v - lo) / (hi - lo))) <= / 2.
Definition picture_of (l : list R) (lo hi : R) (p : list Z) : Prop := Forall2 (shows lo hi) l p.
