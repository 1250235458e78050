(** Model of multi-frames as containers of shared frames.

    Source: aslam_cv_frames/src/visual-nframe.cc ("nf"), aslam_cv_frames/src/visual-frame.cc ("vf").

    Frames, camera rigs and cameras are objects that are shared through pointers; a pointer is the number of the object, cameras are only their pointers. Of a frame the model keeps the camera
    geometry, whether there is a raw image, the keypoints and, as a number, everything else that is copied (id, time, raw camera geometry, flags). A failed CHECK is [None]. The copy of a
    channel group is a copy of its values; that this is so is a property of the channels (C33). Reference counts and threads are not modelled. *)
From Coq Require Import List Bool Arith ZArith.
Import ListNotations.

Record frame := Frame { geometry : option nat; image : bool; keypoints : list Z; rest : Z }.
Record nframe := NFrame { rig : option nat; slots : list (option nat) }.
Record state := State { rigs : list (list nat); frames : list frame; nframes : list nframe }.
Definition start : state := State [] [] [].

Fixpoint update {A} (n : nat) (x : A) (l : list A) {struct l} : list A :=
  match l, n with [], _ => [] | _ :: l, 0 => x :: l | y :: l, S n => y :: update n x l end.
Definition set_frames (s : state) (l : list frame) : state := State (rigs s) l (nframes s).
Definition set_nframe (s : state) (n : nat) (f : nframe) : state := State (rigs s) (frames s) (update n f (nframes s)).

(** getCamera of a rig: CHECK_LT. *)
Definition camera (s : state) (r i : nat) : option nat := match nth_error (rigs s) r with Some cams => nth_error cams i | None => None end.

(** operator=, nf 41-54: frames that are set are copied (vf 13-26), also one frame that is in two slots twice. [copy_slots] gives the new objects and slots. *)
Fixpoint copy_slots (fs : list frame) (l : list (option nat)) : list frame * list (option nat) :=
  match l with
  | [] => (fs, [])
  | None :: l => let '(fs', l') := copy_slots fs l in (fs', None :: l')
  | Some f :: l =>
      match nth_error fs f with
      | Some x => let '(fs', l') := copy_slots (fs ++ [x]) l in (fs', Some (length fs) :: l')
      | None => let '(fs', l') := copy_slots fs l in (fs', None :: l')   (* pointers of slots are never dangling *)
      end
  end.
(** [self]: both are the same object; its frames are cleared before they are copied. *)
Definition assign (s : state) (other : nframe) (self : bool) : state * nframe :=
  let '(fs, l) := copy_slots (frames s) (if self then [] else slots other) in (set_frames s fs, NFrame (rig other) l).

(** The loop of setNCameras, nf 76-82. getCameraShared(i) has CHECK_LT; the frame and the rig have the same camera afterwards. *)
Fixpoint set_cameras (cams : list nat) (i : nat) (l : list (option nat)) (fs : list frame) : option (list frame) :=
  match l with
  | [] => Some fs
  | None :: l => set_cameras cams (S i) l fs
  | Some f :: l =>
      match nth_error cams i, nth_error fs f with
      | Some c, Some x => set_cameras cams (S i) l (update f (Frame (Some c) (image x) (keypoints x) (rest x)) fs)
      | _, _ => None
      end
  end.
(** releaseRawImagesOfAllFrames, nf 247-252, and clearKeypointChannelsOfAllFrames, nf 254-259: CHECK(frame), then [change]. *)
Fixpoint change_all (change : frame -> frame) (l : list (option nat)) (fs : list frame) : option (list frame) :=
  match l with
  | [] => Some fs
  | None :: _ => None
  | Some f :: l => match nth_error fs f with Some x => change_all change l (update f (change x) fs) | None => None end
  end.
Definition release_image (x : frame) : frame := Frame (geometry x) false (keypoints x) (rest x).     (* vf 115-117 *)
Definition clear_keypoints (x : frame) : frame := Frame (geometry x) (image x) [] (rest x).          (* vf 441-454 *)

Inductive op :=
| NewRig (cams : list nat)                   (* a rig of cameras *)
| NewFrame (x : frame)                       (* a frame, with whatever it holds *)
| NewEmpty (num_frames : nat)                (* VisualNFrame(id, num_frames), nf 18-21 *)
| NewOfRig (r : option nat)                  (* VisualNFrame(id, ncamera), nf 23-35 *)
| CopyOf (n : nat)                           (* VisualNFrame(other), nf 37-39 *)
| Assign (n m : nat)                         (* n = m *)
| SetNCameras (n : nat) (r : option nat)
| SetFrame (n i : nat) (f : option nat)
| UnSetFrame (n i : nat)
| ReleaseImages (n : nat)
| ClearKeypoints (n : nat)
| EditFrame (f : nat) (x : frame)            (* by whoever shares the frame: setters of VisualFrame, or operator= *)
| EditRig (r : nat) (cams : list nat).       (* setCamera on a rig by whoever shares it *)

Definition step (s : state) (o : op) : option state :=
  match o with
  | NewRig cams => Some (State (rigs s ++ [cams]) (frames s) (nframes s))
  | NewFrame x => Some (set_frames s (frames s ++ [x]))
  | NewEmpty k => Some (State (rigs s) (frames s) (nframes s ++ [NFrame None (repeat None k)]))
  | NewOfRig r =>
      match r with
      | Some r => match nth_error (rigs s) r with
                  | Some cams => Some (State (rigs s) (frames s) (nframes s ++ [NFrame (Some r) (repeat None (length cams))]))
                  | None => None
                  end
      | None => None                                                                      (* CHECK_NOTNULL *)
      end
  | CopyOf n =>
      match nth_error (nframes s) n with
      | Some x => let '(s', y) := assign s x false in Some (State (rigs s') (frames s') (nframes s' ++ [y]))
      | None => None
      end
  | Assign n m =>
      match nth_error (nframes s) n, nth_error (nframes s) m with
      | Some _, Some x => let '(s', y) := assign s x (n =? m) in Some (set_nframe s' n y)
      | _, _ => None
      end
  | SetNCameras n r =>                                                                     (* nf 69-83 *)
      match r, nth_error (nframes s) n with
      | Some r, Some x =>
          match nth_error (rigs s) r with
          | Some cams =>
              if length (slots x) =? length cams then
                match set_cameras cams 0 (slots x) (frames s) with
                | Some fs => Some (set_nframe (set_frames s fs) n (NFrame (Some r) (slots x)))
                | None => None
                end
              else None
          | None => None
          end
      | _, _ => None
      end
  | SetFrame n i f =>                                                                      (* nf 134-141 *)
      match f, nth_error (nframes s) n with
      | Some f, Some x =>
          match nth_error (frames s) f with
          | Some y =>
              if (i <? length (slots x)) &&
                 match rig x with
                 | Some r => match camera s r i, geometry y with Some c, Some g => c =? g | _, _ => false end
                 | None => true
                 end
              then Some (set_nframe s n (NFrame (rig x) (update i (Some f) (slots x)))) else None
          | None => None
          end
      | _, _ => None
      end
  | UnSetFrame n i =>                                                                      (* nf 143-146 *)
      match nth_error (nframes s) n with
      | Some x => if i <? length (slots x) then Some (set_nframe s n (NFrame (rig x) (update i None (slots x)))) else None
      | None => None
      end
  | ReleaseImages n =>
      match nth_error (nframes s) n with
      | Some x => match change_all release_image (slots x) (frames s) with Some fs => Some (set_frames s fs) | None => None end
      | None => None
      end
  | ClearKeypoints n =>
      match nth_error (nframes s) n with
      | Some x => match change_all clear_keypoints (slots x) (frames s) with Some fs => Some (set_frames s fs) | None => None end
      | None => None
      end
  | EditFrame f x => if f <? length (frames s) then Some (set_frames s (update f x (frames s))) else None
  | EditRig r cams => if r <? length (rigs s) then Some (State (update r cams (rigs s)) (frames s) (nframes s)) else None
  end.
Fixpoint run (s : state) (l : list op) : option state := match l with [] => Some s | o :: l => match step s o with Some s' => run s' l | None => None end end.

(** isFrameSet, nf 148-151. *)
Definition is_frame_set (s : state) (n i : nat) : option bool :=
  match nth_error (nframes s) n with
  | Some x => match nth_error (slots x) i with Some (Some _) => Some true | Some None => Some false | None => None end
  | None => None
  end.
(** getFrame, nf 85-88. *)
Definition get_frame (s : state) (n i : nat) : option frame :=
  match nth_error (nframes s) n with
  | Some x => match nth_error (slots x) i with Some (Some f) => nth_error (frames s) f | _ => None end
  | None => None
  end.
(** areAllFramesSet, nf 153-160. *)
Definition are_all_frames_set (s : state) (n : nat) : option bool :=
  match nth_error (nframes s) n with Some x => Some (forallb (fun f => match f with Some _ => true | None => false end) (slots x)) | None => None end.
(** hasRawImagesInAllFrames, nf 237-245. *)
Fixpoint images_loop (fs : list frame) (l : list (option nat)) : option bool :=
  match l with
  | [] => Some true
  | None :: _ => None
  | Some f :: l => match nth_error fs f with Some x => if image x then images_loop fs l else Some false | None => None end
  end.
Definition has_raw_images (s : state) (n : nat) : option bool :=
  match nth_error (nframes s) n with Some x => images_loop (frames s) (slots x) | None => None end.
(** getCamera, nf 114-117. *)
Definition get_camera (s : state) (n i : nat) : option nat :=
  match nth_error (nframes s) n with Some x => match rig x with Some r => camera s r i | None => None end | None => None end.
