(** Model of the insertion of OpenCV keypoints and descriptors into a visual frame.

    Source: aslam_cv_tracker/src/tracking-helpers.cc ("th") 12-141; aslam_cv_frames/src/visual-frame.cc ("vf") 154-159, 306-328, 441-454.

    Values are only moved, so doubles and floats are integers; a cell [None] is memory that was never written. A channel is [None] if the frame does not have
    it. Descriptors are bytes. The OpenCV matrix is continuous and of type CV_8UC1 (th 26-27, 81-82). A failed CHECK is [Abort], an access outside of an Eigen object is [Ub]. *)
From Coq Require Import ZArith Bool Arith.
From stdpp Require Import list.
From Verif Require Import StlHelpersModel GyroTrackerModel.
Local Open Scope nat_scope.

(** cv::KeyPoint. *)
Record keypoint := Keypoint { pt : Z * Z; response : Z; size : Z; angle : Z }.
(** cv::Mat with the descriptors, one per row. *)
Record cv_descriptors := CvDescriptors { cv_cols : nat; cv_rows : list (list Z) }.
(** Eigen matrix of descriptors, one per column. *)
Record descriptors := Descriptors { d_rows : nat; d_cols : list (list (option Z)) }.
(** The channels of a frame concerned with keypoints; 3-D positions and time offsets are not touched by the code. *)
Record frame := Frame {
  measurements : option (list (option (Z * Z)));
  uncertainties : option (list (option Z));
  orientations : option (list (option Z));
  scales : option (list (option Z));
  scores : option (list (option Z));
  track_ids : option (list (option Z));
  blocks : option (list descriptors) }.

Definition absent_or_empty {A} (c : option (list A)) : bool := match c with None => true | Some l => (length l =? 0) end.
(** th 17: no descriptors, or the first block (getDescriptors(), CHECK_LT) has no columns. *)
Definition descriptors_empty (b : option (list descriptors)) : result bool :=
  match b with None => Ok true | Some [] => Abort | Some (d :: _) => Ok (length (d_cols d) =? 0) end.
(** Eigen::Map with rows and columns exchanged, th 62-65 and 137-140. *)
Definition mapped (m : cv_descriptors) : descriptors := Descriptors (cv_cols m) ((fun row : list Z => Some <$> row) <$> cv_rows m).
(** setDescriptors with index 0, vf 306-328 (types are not needed here). *)
Definition set_descriptors (b : option (list descriptors)) (d : descriptors) : list descriptors :=
  match b with None | Some [] => [d] | Some (_ :: bs) => d :: bs end.

(** insertCvKeypointsAndDescriptorsIntoEmptyVisualFrame, th 12-66. *)
Definition insert_into_empty (new : list keypoint) (m : cv_descriptors) (uncertainty : Z) (f : frame) : result frame :=
  let! d := descriptors_empty (blocks f) in
  if negb (absent_or_empty (measurements f) && d && absent_or_empty (uncertainties f) && absent_or_empty (orientations f) && absent_or_empty (scales f) &&
           absent_or_empty (scores f) && absent_or_empty (track_ids f)) then Abort
  else if negb (0 <? uncertainty)%Z then Abort
  else if negb (length new =? length (cv_rows m)) then Abort
  else
    Ok {| measurements := Some (Some ∘ pt <$> new);
          scores := Some (Some ∘ response <$> new);
          scales := Some (Some ∘ size <$> new);
          orientations := Some (Some ∘ angle <$> new);
          uncertainties := Some (replicate (length new) (Some uncertainty));
          track_ids := Some (replicate (length new) (Some (-1)%Z));
          blocks := Some (set_descriptors (blocks f) (mapped m)) |}.

(** Eigen: conservativeResize keeps a prefix, what is added is not initialised; a segment must be inside. *)
Definition conservative_resize {A} (x : A) (d : list A) (n : nat) : list A := take n d ++ replicate (n - length d) x.
Definition write_segment {A} (d : list A) (start : nat) (v : list A) : result (list A) :=
  if start + length v <=? length d then Ok (take start d ++ v ++ drop (start + length v) d) else Ub.
(** Resizing one channel to [n0 + length v] and writing [v] behind the first [n0] entries, th 102-109 and 124-134. *)
Definition extend_channel {A} (d : list (option A)) (n0 : nat) (v : list (option A)) : result (list (option A)) :=
  write_segment (conservative_resize None d (n0 + length v)) n0 v.
(** Writing the block of rows 0 .. cv_cols - 1 and columns n0 .., th 135-140. *)
Definition write_block (d : descriptors) (start : nat) (m : cv_descriptors) : result descriptors :=
  if (cv_cols m <=? d_rows d) && (start + length (cv_rows m) <=? length (d_cols d)) then
    let target := take (length (cv_rows m)) (drop start (d_cols d)) in
    Ok (Descriptors (d_rows d) (take start (d_cols d) ++ zip_with (fun old row => (Some <$> row) ++ drop (length row) old) target (cv_rows m) ++ drop (start + length (cv_rows m)) (d_cols d)))
  else Ub.
(** insertAdditionalCvKeypointsAndDescriptorsToVisualFrame, th 68-141. *)
Definition insert_additional (new : list keypoint) (m : cv_descriptors) (uncertainty : Z) (f : frame) : result frame :=
  match measurements f, blocks f, uncertainties f, orientations f, scales f, scores f, track_ids f with
  | Some kps, Some bs, Some unc, Some ori, Some sca, Some sco, Some ids =>
      if negb (0 <? uncertainty)%Z then Abort
      else if negb (length new =? length (cv_rows m)) then Abort
      else
        let n0 := length ids in
        let n := n0 + length new in
        match bs with
        | [] => Abort
        | d :: bs' =>
            let d := Descriptors (d_rows d) (conservative_resize (replicate (d_rows d) None) (d_cols d) n) in
            let! kps' := extend_channel kps n0 (Some ∘ pt <$> new) in
            let! ori' := extend_channel ori n0 (Some ∘ angle <$> new) in
            let! sca' := extend_channel sca n0 (Some ∘ size <$> new) in
            let! sco' := extend_channel sco n0 (Some ∘ response <$> new) in
            let! ids' := extend_channel ids n0 (replicate (length new) (Some (-1)%Z)) in
            let! unc' := extend_channel unc n0 (replicate (length new) (Some uncertainty)) in
            let! d' := write_block d n0 m in
            Ok {| measurements := Some kps'; uncertainties := Some unc'; orientations := Some ori'; scales := Some sca'; scores := Some sco'; track_ids := Some ids';
                  blocks := Some (d' :: bs') |}
        end
  | _, _, _, _, _, _, _ => Abort
  end.
(** clearKeypointChannels, vf 441-454, for a frame with at most one descriptor block. *)
Definition clear_channels (f : frame) : frame :=
  {| measurements := Some []; uncertainties := Some []; orientations := Some []; scales := Some []; scores := Some []; track_ids := Some [];
     blocks := Some (set_descriptors (blocks f) (Descriptors 0 [])) |}.
