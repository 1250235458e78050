(** Vocabulary for C119. *)
From Coq Require Import ZArith NArith List.
From Verif Require Import KTrackModel.
Import ListNotations.

(** There is a keypoint at these indices of the multi-frame: its coordinates, and the frame it is in. *)
Definition keypoint_in (w : world) (a i k : nat) (f : frame) (m : Z * Z) : Prop :=
  exists p, nth_error (frames (nframe_at w a)) i = Some (Some p) /\ f = frame_at w p /\ nth_error (keypoints f) k = Some m.
(** An operation leaves the frame at an index of a multi-frame in place, and keypoints of it where they are. *)
Definition leaves (w : world) (a i : nat) (o : op) : Prop :=
  match o with
  | SetKeypoints f _ => nth_error (frames (nframe_at w a)) i <> Some (Some f)
  | ExtendKeypoints _ _ => True
  | SetFrame n j _ => n <> a \/ j <> i
  end.
Fixpoint all_leave (w : world) (a i : nat) (os : list op) : Prop := match os with [] => True | o :: os' => leaves w a i o /\ all_leave (step w o) a i os' end.
(** A strict weak order: what std::sort and std::set need. *)
Definition strict_weak {A} (lt : A -> A -> bool) : Prop :=
  (forall x, lt x x = false) /\ (forall x y z, lt x y = true -> lt y z = true -> lt x z = true) /\
  (forall x y z, lt x y = false -> lt y x = false -> lt y z = false -> lt z y = false -> lt x z = false /\ lt z x = false).
