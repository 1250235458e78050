(** Vocabulary of the properties of multi-frames. *)
From Coq Require Import List Bool Arith ZArith.
From Verif Require Import NFrameModel.
Import ListNotations.

(** The slots of a multi-frame: [Some (Some f)] is slot with a frame, [Some None] an empty slot, [None] no slot. *)
Definition slot (s : state) (n i : nat) : option (option nat) := match nth_error (nframes s) n with Some x => nth_error (slots x) i | None => None end.
Definition size (s : state) (n : nat) : option nat := option_map (fun x => length (slots x)) (nth_error (nframes s) n).
Definition rig_of (s : state) (n : nat) : option nat := match nth_error (nframes s) n with Some x => rig x | None => None end.
Definition has_frame (s : state) (n f : nat) : Prop := exists i, slot s n i = Some (Some f).
(** What a reader of the multi-frame sees in a slot. *)
Definition seen (s : state) (n i : nat) : option (option frame) :=
  match slot s n i with Some (Some f) => Some (nth_error (frames s) f) | Some None => Some None | None => None end.
Definition same_view (s : state) (n : nat) (t : state) (m : nat) : Prop := size s n = size t m /\ rig_of s n = rig_of t m /\ forall i, seen s n i = seen t m i.
(** No pointer dangles. *)
Definition sound (s : state) : Prop :=
  (forall n f, has_frame s n f -> f < length (frames s)) /\ (forall n r, rig_of s n = Some r -> r < length (rigs s)).
(** Every frame has the camera of its slot. *)
Definition consistent (s : state) (n : nat) : Prop :=
  forall r, rig_of s n = Some r -> exists cams, nth_error (rigs s) r = Some cams /\ size s n = Some (length cams) /\
    forall i f, slot s n i = Some (Some f) -> exists x c, nth_error (frames s) f = Some x /\ geometry x = Some c /\ nth_error cams i = Some c.
(** A frame of [n] is in one slot only. *)
Definition exclusive (s : state) (n : nat) : Prop := forall i m j f, slot s n i = Some (Some f) -> slot s m j = Some (Some f) -> m = n /\ j = i.
(** What the users have to do: not change the cameras of frames and rigs that are in use, not assign a multi-frame to itself, and give a multi-frame another rig only if its frames are in no other slot. *)
Definition careful (s : state) (o : op) : Prop :=
  match o with
  | SetNCameras n _ => exclusive s n
  | Assign n m => n <> m
  | EditFrame f x => (exists n, has_frame s n f) -> option_map geometry (nth_error (frames s) f) = Some (geometry x)
  | EditRig r _ => forall n, rig_of s n <> Some r
  | _ => True
  end.
Fixpoint careful_run (s : state) (l : list op) : Prop := match l with [] => True | o :: l => careful s o /\ forall s', step s o = Some s' -> careful_run s' l end.
(** The operation is done through multi-frame [m] or one of its frames. *)
Definition through (s : state) (m : nat) (o : op) : Prop :=
  match o with
  | SetNCameras k _ | UnSetFrame k _ | ReleaseImages k | ClearKeypoints k => k = m
  | SetFrame k _ f => k = m
  | Assign k _ => k = m
  | EditFrame f _ => has_frame s m f
  | NewRig _ | NewFrame _ | NewEmpty _ | NewOfRig _ | CopyOf _ => True
  | EditRig _ _ => False
  end.
(** ... and puts no frame of [n] into [m]. *)
Definition apart (s : state) (n : nat) (o : op) : Prop := match o with SetFrame _ _ (Some f) => ~ has_frame s n f | _ => True end.
Fixpoint through_run (s : state) (n m : nat) (l : list op) : Prop :=
  match l with [] => True | o :: l => through s m o /\ apart s n o /\ forall s', step s o = Some s' -> through_run s' n m l end.
