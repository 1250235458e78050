(** Specification of the insertion of keypoints: aligned frames and what is appended. *)
From Coq Require Import ZArith.
From stdpp Require Import list.
From Verif Require Import InsertModel.
Local Open Scope nat_scope.

(** A frame is aligned if all keypoint channels exist and have one entry per keypoint, and there is one block of descriptors of [w] bytes with one column per keypoint. *)
Record aligned (n w : nat) (f : frame) : Prop := Aligned {
  a_measurements : exists l, measurements f = Some l /\ length l = n;
  a_uncertainties : exists l, uncertainties f = Some l /\ length l = n;
  a_orientations : exists l, orientations f = Some l /\ length l = n;
  a_scales : exists l, scales f = Some l /\ length l = n;
  a_scores : exists l, scores f = Some l /\ length l = n;
  a_tracks : exists l, track_ids f = Some l /\ length l = n;
  a_blocks : exists c, blocks f = Some [Descriptors w c] /\ length c = n /\ Forall (fun x => length x = w) c }.
(** An OpenCV matrix has rows of equal length. *)
Definition proper (m : cv_descriptors) : Prop := Forall (fun row => length row = cv_cols m) (cv_rows m).
(** Channel [c'] is channel [c] with the values [v] appended. *)
Definition appended {A} (c c' : option (list (option A))) (v : list A) : Prop := exists l, c = Some l /\ c' = Some (l ++ map Some v).
(** A frame without keypoints: channels may be missing or empty. *)
Definition blank (f : frame) : Prop :=
  (measurements f = None \/ measurements f = Some []) /\ (uncertainties f = None \/ uncertainties f = Some []) /\ (orientations f = None \/ orientations f = Some []) /\
  (scales f = None \/ scales f = Some []) /\ (scores f = None \/ scores f = Some []) /\ (track_ids f = None \/ track_ids f = Some []) /\
  (blocks f = None \/ exists w, blocks f = Some [Descriptors w []]).
