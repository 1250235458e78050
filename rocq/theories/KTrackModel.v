(** Model of keypoint identifiers and feature tracks.

    Sources: aslam_cv_frames/include/aslam/frames/keypoint-identifier.h ("ki"), feature-track.h ("ft"), feature-track-inl.h
    ("fi"); accessors of aslam_cv_frames/src/visual-nframe.cc ("vn") and visual-frame.cc ("vf"); get_T_C_B and
    getCameraShared of a rig.

    Simplifications: multi-frames and frames live in a heap and are named by their address; shared pointers keep them alive, so an
    address stays valid. A frame has an id, keypoints and descriptors (one block); coordinates, descriptors, cameras and poses are
    opaque integers. The number of keypoints is below 2^31, so that the cast of the index to int (vf 175) does not wrap. [Abort]
    is a failed CHECK, [Undefined] undefined behaviour. Reserving memory is not modelled. *)
From Coq Require Import ZArith NArith List Bool Arith.
Import ListNotations.

Inductive result (A : Type) := Ok (a : A) | Abort | Undefined.
Arguments Ok {A}. Arguments Abort {A}. Arguments Undefined {A}.

Record frame := { fid : Z; keypoints : list (Z * Z); descriptors : list Z }.
(** A camera and its pose in the rig. *)
Record mounted := { camera : Z; T_C_B : Z }.
Record nframe := { nid : Z; rig : option (list mounted); frames : list (option nat) }.
Record world := { nframe_at : nat -> nframe; frame_at : nat -> frame }.

(** VisualNFrame::isFrameSet, vn 148-151. *)
Definition is_frame_set (n : nframe) (i : nat) : result bool :=
  match nth_error (frames n) i with None => Abort | Some (Some _) => Ok true | Some None => Ok false end.
(** VisualNFrame::getFrame, vn 85-88. *)
Definition get_frame (w : world) (n : nframe) (i : nat) : result frame :=
  match nth_error (frames n) i with Some (Some p) => Ok (frame_at w p) | _ => Abort end.

(** KeypointIdentifier, ki 74-80: the pointer may be null only before construction. *)
Record kid := { nframe_ : nat; frame_index : nat; keypoint_index : nat }.
(** KeypointIdentifier::create and the constructor, ki 28-42. *)
Definition create (w : world) (p : option nat) (frame_idx keypoint_idx : nat) : result kid :=
  match p with
  | None => Abort
  | Some a =>
      let n := nframe_at w a in
      if Nat.ltb frame_idx (length (frames n)) then
        match is_frame_set n frame_idx with
        | Ok true =>
            match get_frame w n frame_idx with
            | Ok f => if Nat.ltb keypoint_idx (length (keypoints f)) then Ok {| nframe_ := a; frame_index := frame_idx; keypoint_index := keypoint_idx |} else Abort
            | _ => Abort
            end
        | _ => Abort
        end
      else Abort
  end.
(** getNFrameId, ki 47. *)
Definition get_nframe_id (w : world) (k : kid) : Z := nid (nframe_at w (nframe_ k)).
(** getFrame, ki 51; getFrameId, ki 48-50. *)
Definition kid_frame (w : world) (k : kid) : result frame := get_frame w (nframe_at w (nframe_ k)) (frame_index k).
Definition get_frame_id (w : world) (k : kid) : result Z := match kid_frame w k with Ok f => Ok (fid f) | Abort => Abort | Undefined => Undefined end.
(** getKeypointMeasurement, ki 54-56, vf 172-177. *)
Definition get_measurement (w : world) (k : kid) : result (Z * Z) :=
  match kid_frame w k with
  | Ok f => match nth_error (keypoints f) (keypoint_index k) with Some m => Ok m | None => Abort end
  | Abort => Abort | Undefined => Undefined
  end.
(** getDescriptor, ki 58-60, vf 229-234: the block is looked up with a CHECK. *)
Definition get_descriptor (w : world) (k : kid) : result Z :=
  match kid_frame w k with
  | Ok f => match nth_error (descriptors f) (keypoint_index k) with Some m => Ok m | None => Abort end
  | Abort => Abort | Undefined => Undefined
  end.
(** getCamera, ki 62-64, and get_T_C_B, ki 70-72: getNCamera checks the pointer to the rig. *)
Definition get_mounted (w : world) (k : kid) : result mounted :=
  match rig (nframe_at w (nframe_ k)) with
  | None => Abort
  | Some cams => match nth_error cams (frame_index k) with Some c => Ok c | None => Abort end
  end.

(** What other owners of the multi-frames and frames can do. *)
Inductive op :=
  | SetKeypoints (f : nat) (ks : list (Z * Z))          (* VisualFrame::setKeypointMeasurements *)
  | ExtendKeypoints (f : nat) (ks : list (Z * Z))       (* VisualFrame::extendKeypointMeasurements *)
  | SetFrame (n i : nat) (f : option nat)               (* VisualNFrame::setFrame, unSetFrame, vn 134-146 *).
Definition upd {A} (h : nat -> A) (a : nat) (v : A) : nat -> A := fun x => if Nat.eqb x a then v else h x.
Fixpoint set_nth {A} (l : list A) (i : nat) (v : A) : list A := match l, i with [], _ => [] | _ :: l', 0 => v :: l' | x :: l', S j => x :: set_nth l' j v end.
Definition step (w : world) (o : op) : world :=
  match o with
  | SetKeypoints f ks => let x := frame_at w f in {| nframe_at := nframe_at w; frame_at := upd (frame_at w) f {| fid := fid x; keypoints := ks; descriptors := descriptors x |} |}
  | ExtendKeypoints f ks => let x := frame_at w f in {| nframe_at := nframe_at w; frame_at := upd (frame_at w) f {| fid := fid x; keypoints := keypoints x ++ ks; descriptors := descriptors x |} |}
  | SetFrame n i f => let x := nframe_at w n in {| nframe_at := upd (nframe_at w) n {| nid := nid x; rig := rig x; frames := set_nth (frames x) i f |}; frame_at := frame_at w |}
  end.
Definition run (w : world) (os : list op) : world := fold_left step os w.

(** FeatureTrack, ft 11-92. *)
Record track := { track_id : N; observations : list kid }.
(** The constructors, ft 18-24. *)
Definition new_track (id : N) : track := {| track_id := id; observations := [] |}.
(** getTrackLength, ft 52-54; hasObservations, ft 75-77. *)
Definition track_length (t : track) : nat := length (observations t).
Definition has_observations (t : track) : bool := match observations t with [] => false | _ => true end.
(** getFirstKeypointIdentifier, ft 56-59, and getLastKeypointIdentifier, ft 61-64. *)
Definition first_kid (t : track) : result kid := match observations t with [] => Abort | k :: _ => Ok k end.
Definition last_kid (t : track) : result kid := match observations t with [] => Abort | k :: l => Ok (last l k) end.
(** popLastKeypointIdentifier, ft 66-68: no check. *)
Definition pop_last (t : track) : result track := match observations t with [] => Undefined | _ => Ok {| track_id := track_id t; observations := removelast (observations t) |} end.
(** addKeypointObservationAtBack, ft 70-73. *)
Definition add_back (w : world) (t : track) (p : option nat) (i k : nat) : result track :=
  match create w p i k with Ok x => Ok {| track_id := track_id t; observations := observations t ++ [x] |} | Abort => Abort | Undefined => Undefined end.
(** operator<, ft 79-81, and operator>, ft 83-85. *)
Definition track_lt (a b : track) : bool := Nat.ltb (track_length a) (track_length b).
Definition track_gt (a b : track) : bool := Nat.ltb (track_length b) (track_length a).

(** The conversion of a size_t to int. *)
Definition to_int (n : N) : Z := let m := (Z.of_N n mod 2 ^ 32)%Z in if (m <? 2 ^ 31)%Z then m else (m - 2 ^ 32)%Z.
Record continued := { ctrack_id : Z; ckid : kid }.
(** ContinuedFeatureTrack, ft 96-101, constructed with the id of a track. *)
Definition continue_track (t : track) (k : kid) : result continued := if (to_int (track_id t) <? 0)%Z then Abort else Ok {| ctrack_id := to_int (track_id t); ckid := k |}.
(** operator<, ft 103-105. *)
Definition continued_lt (a b : continued) : bool := (ctrack_id a <? ctrack_id b)%Z.

(** operator<< for a list of tracks, fi 29-49: the rows of the table, without header. *)
Fixpoint print_tracks (ts : list track) : result (list (N * nat * nat)) :=
  match ts with
  | [] => Ok []
  | t :: ts' =>
      match first_kid t with
      | Ok k => match print_tracks ts' with Ok l => Ok ((track_id t, frame_index k, track_length t) :: l) | Abort => Abort | Undefined => Undefined end
      | Abort => Abort | Undefined => Undefined
      end
  end.
(** operator<< for a track, fi 7-27: multi-frame, camera index and coordinates of each observation. *)
Fixpoint print_observations (w : world) (ks : list kid) : result (list (Z * nat * (Z * Z))) :=
  match ks with
  | [] => Ok []
  | k :: ks' =>
      match get_measurement w k with
      | Ok m => match print_observations w ks' with Ok l => Ok ((get_nframe_id w k, frame_index k, m) :: l) | Abort => Abort | Undefined => Undefined end
      | Abort => Abort | Undefined => Undefined
      end
  end.
