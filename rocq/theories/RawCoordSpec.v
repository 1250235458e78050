(** What raw image coordinates and border rays are. *)
From Coq Require Import Reals ZArith List.
Import ListNotations.
Local Open Scope R_scope.

(** On the border of the image. *)
Definition on_border (w h : R) (kp : R * R) : Prop :=
  (fst kp = 0 \/ fst kp = w - 1 \/ snd kp = 0 \/ snd kp = h - 1) /\ 0 <= fst kp < w /\ 0 <= snd kp < h.
(** The corners of an image and the middles of its sides. *)
Definition is_corner (w h : R) (kp : R * R) : Prop := (fst kp = 0 \/ fst kp = w - 1) /\ (snd kp = 0 \/ snd kp = h - 1).
Definition is_middle (w h : R) (kp : R * R) : Prop := (fst kp = w / 2 /\ (snd kp = 0 \/ snd kp = h - 1)) \/ (snd kp = h / 2 /\ (fst kp = 0 \/ fst kp = w - 1)).
