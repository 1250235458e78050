(** Specification of regions of pixels with similar directions. *)
From Coq Require Import ZArith Reals List.
Import ListNotations.
From Verif Require Import OrientSpec.
Local Open Scope R_scope.

(** Angles that differ by at most d, up to full turns. *)
Definition similar (a b d : R) : Prop := exists k : Z, Rabs (a - b + 2 * PI * IZR k) <= d.

Definition in_image (w h : Z) (p : Z * Z) : Prop := (0 <= fst p < w)%Z /\ (0 <= snd p < h)%Z.
(** The same pixel or one of its eight neighbours. *)
Definition near (p q : Z * Z) : Prop := (Z.abs (fst p - fst q) <= 1)%Z /\ (Z.abs (snd p - snd q) <= 1)%Z.

(** The direction of the sum of the unit vectors of some pixels. *)
Definition total (f : R -> R) (ang : Z * Z -> option R) (l : list (Z * Z)) : R := fold_right (fun p s => match ang p with Some a => f a + s | None => s end) 0 l.
Definition mean_direction (ang : Z * Z -> option R) (l : list (Z * Z)) (t : R) : Prop := direction (total cos ang l) (total sin ang l) t.

(** Regions that grow from [s] one pixel at a time: each is a free neighbour of a pixel of the region and fits the region so far. *)
Inductive grown (w h : Z) (free : Z * Z -> Prop) (fits : list (Z * Z) -> Z * Z -> Prop) (s : Z * Z) : list (Z * Z) -> Prop :=
| grown_seed : in_image w h s -> free s -> grown w h free fits s [s]
| grown_add l p q : grown w h free fits s l -> In p l -> near p q -> in_image w h q -> free q -> ~ In q l -> fits l q -> grown w h free fits s (l ++ [q]).
(** A pixel fits if its angle differs from the direction of the region by at most prec. *)
Definition fitting (ang : Z * Z -> option R) (prec : R) (l : list (Z * Z)) (q : Z * Z) : Prop := exists t a, mean_direction ang l t /\ ang q = Some a /\ similar t a prec.

(** Pixels joined to [s] by a path of free pixels, each near the next one. *)
Inductive joined (w h : Z) (free : Z * Z -> Prop) (s : Z * Z) : Z * Z -> Prop :=
| joined_seed : in_image w h s -> free s -> joined w h free s s
| joined_next p q : joined w h free s p -> near p q -> in_image w h q -> free q -> joined w h free s q.
