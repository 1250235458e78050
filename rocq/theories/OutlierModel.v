(** Model of the outlier rejection for frame to frame matches.

    Source: aslam_cv_geometric_vision/src/match-outlier-rejection-twopt.cc ("rej").

    Simplifications: the two RANSAC runs of opengv are arbitrary functions of the bearing vectors that return a
    list of indices (any integers, any repetitions); bearing vectors and matches have any type; the parameter
    checks rej 57-58 are met. *)
From Coq Require Import ZArith Bool.
From stdpp Require Import list.
From Verif Require Import StlHelpersModel.
Local Open Scope Z_scope.

(** Insertion of a range into an unordered_set, rej 99-102. *)
Definition insert_index (s : list Z) (i : Z) : list Z := if decide (i ∈ s) then s else s ++ [i].
Definition insert_range (s l : list Z) : list Z := foldl insert_index s l.

Section reject.
Context {B M : Type} (rotation_ransac translation_ransac : list B -> list B -> list Z).

(** kMinKeypointCorrespondences, rej 63. *)
Definition min_correspondences : nat := 6.
(** rejectOutlierFeatureMatchesTranslationRotationSAC on bearing vectors, rej 51-111: the success flag and
    the set of inlier indices. *)
Definition inlier_indices (b1 b2 : list B) : bool * list Z :=
  if (length b1 <? min_correspondences)%nat then (false, [])
  else
    let s := insert_range (insert_range [] (rotation_ransac b1 b2)) (translation_ransac b1 b2) in
    if (length s <? min_correspondences)%nat then (false, []) else (true, s).
(** Loop rej 37-45; the output lists are appended to. *)
Fixpoint split_loop (inls : list Z) (i : Z) (ms ins outs : list M) : list M * list M :=
  match ms with
  | [] => (ins, outs)
  | m :: ms' => if decide (i ∈ inls) then split_loop inls (i + 1) ms' (ins ++ [m]) outs
                else split_loop inls (i + 1) ms' ins (outs ++ [m])
  end.
(** rejectOutlierFeatureMatchesTranslationRotationSAC on frames, rej 17-49. [bearing] gives the two bearing
    vectors of a match (getBearingVectorsFromMatches, match-helpers.cc 11-37, one vector for each match). *)
Definition reject (bearing1 bearing2 : M -> B) (ms ins outs : list M) : result (bool * list M * list M) :=
  let '(success, inls) := inlier_indices (bearing1 <$> ms) (bearing2 <$> ms) in
  let '(ins', outs') := split_loop inls 0 ms ins outs in
  if (length ins' + length outs' =? length ms)%nat then Ok (success, ins', outs') else Abort.
End reject.
