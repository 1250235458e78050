(** Model of the functions that make empty frames and multi-frames.

    Sources: aslam_cv_frames/src/visual-frame.cc ("vf") 555-572; aslam_cv_frames/src/visual-nframe.cc ("nf") 221-235. They are programs over the objects of [FrameSwapModel] (channels of one frame) and of [NFrameModel] (rigs, frames and multi-frames shared through pointers).

    Ids from generateId are parameters; [other] packs the id and the time of a frame into the field [rest] of [NFrameModel.frame]. *)
From Coq Require Import List ZArith.
From Verif Require FrameSwapModel NFrameModel.
Import ListNotations.

(** The channels of createEmptyTestVisualFrame, vf 560-565: the three local variables are matrices without columns. swapDescriptors has the default arguments 0 and 0. *)
Definition locals (k : FrameSwapModel.kind) : list FrameSwapModel.value := [[]].
Definition empty_channels : FrameSwapModel.result FrameSwapModel.state :=
  FrameSwapModel.run (FrameSwapModel.start locals)
    [FrameSwapModel.Swap FrameSwapModel.Measurements (Some 0); FrameSwapModel.Swap FrameSwapModel.Uncertainties (Some 0); FrameSwapModel.SwapBlock (Some 0) 0 0%Z].

Section Make.
Variable other : Z -> Z -> Z.
(** createEmptyTestVisualFrame, as an object: camera, no raw image, no keypoints. *)
Definition empty_frame (camera : nat) (id time : Z) : NFrameModel.frame := NFrameModel.Frame (Some camera) false [] (other id time).
(** The loop of createEmptyTestVisualNFrame from frame i on, nf 228-233. *)
Fixpoint fill (s : NFrameModel.state) (r n : nat) (ids : nat -> Z) (time : Z) (i count : nat) : option NFrameModel.state :=
  match count with
  | 0 => Some s
  | S count =>
      match NFrameModel.camera s r i with
      | None => None
      | Some c =>
          match NFrameModel.step s (NFrameModel.NewFrame (empty_frame c (ids i) time)) with
          | None => None
          | Some s1 =>
              match NFrameModel.step s1 (NFrameModel.SetFrame n i (Some (length (NFrameModel.frames s)))) with
              | None => None
              | Some s2 => fill s2 r n ids time (S i) count
              end
          end
      end
  end.
(** createEmptyTestVisualNFrame, nf 221-235; the multi-frame is the last one of the new state. *)
Definition create (s : NFrameModel.state) (r : option nat) (ids : nat -> Z) (time : Z) : option NFrameModel.state :=
  match r with
  | None => None                                                             (* CHECK(ncamera) *)
  | Some r' =>
      match nth_error (NFrameModel.rigs s) r' with
      | None => None
      | Some cams =>
          match NFrameModel.step s (NFrameModel.NewOfRig r) with
          | None => None
          | Some s1 => fill s1 r' (length (NFrameModel.nframes s)) ids time 0 (length cams)
          end
      end
  end.
End Make.
