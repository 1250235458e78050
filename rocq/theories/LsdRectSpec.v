(** Specification of the rectangle around a region of weighted pixels. *)
From Coq Require Import ZArith Reals List.
Import ListNotations.
Local Open Scope R_scope.

(** Sum over the pixels of their weight times [f]. *)
Definition weighted (grad : Z * Z -> R) (f : Z * Z -> R) (l : list (Z * Z)) : R := fold_right (fun p s => grad p * f p + s) 0 l.
(** Offset of a pixel from (cx, cy) along a direction (dx, dy), and to its side. *)
Definition offset_along (cx cy dx dy : R) (p : Z * Z) : R := (IZR (fst p) - cx) * dx + (IZR (snd p) - cy) * dy.
Definition offset_aside (cx cy dx dy : R) (p : Z * Z) : R := (IZR (snd p) - cy) * dx - (IZR (fst p) - cx) * dy.
(** The centre of mass. *)
Definition centroid (grad : Z * Z -> R) (l : list (Z * Z)) (cx cy : R) : Prop := weighted grad (fun p => IZR (fst p) - cx) l = 0 /\ weighted grad (fun p => IZR (snd p) - cy) l = 0.
(** The line through (cx, cy) with the least sum of squared distances. *)
Definition best_axis (grad : Z * Z -> R) (l : list (Z * Z)) (cx cy dx dy : R) : Prop :=
  dx * dx + dy * dy = 1 /\ forall ux uy, ux * ux + uy * uy = 1 -> weighted grad (fun p => offset_aside cx cy dx dy p ^ 2) l <= weighted grad (fun p => offset_aside cx cy ux uy p ^ 2) l.
(** The segment between the outermost projections on the axis. *)
Definition spans (l : list (Z * Z)) (cx cy dx dy xa ya xb yb : R) : Prop :=
  exists p q, In p l /\ In q l /\ (forall r, In r l -> offset_along cx cy dx dy p <= offset_along cx cy dx dy r <= offset_along cx cy dx dy q) /\
  xa = cx + offset_along cx cy dx dy p * dx /\ ya = cy + offset_along cx cy dx dy p * dy /\ xb = cx + offset_along cx cy dx dy q * dx /\ yb = cy + offset_along cx cy dx dy q * dy.
(** The largest distance between two pixels across the axis. *)
Definition breadth (l : list (Z * Z)) (cx cy dx dy b : R) : Prop :=
  exists p q, In p l /\ In q l /\ (forall r, In r l -> offset_aside cx cy dx dy p <= offset_aside cx cy dx dy r <= offset_aside cx cy dx dy q) /\ b = offset_aside cx cy dx dy q - offset_aside cx cy dx dy p.
