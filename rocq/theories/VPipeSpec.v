(** Specification of visual pipelines. *)
From Coq Require Import Reals ZArith List.
From Verif Require Import VPipeModel.

(** What OpenCV promises of a descriptor extractor: the descriptors are bytes in one piece, one row per remaining keypoint. *)
Definition proper_result (r : list keypoint * mat) : Prop :=
  m_type (snd r) = 0%Z /\ m_continuous (snd r) = true /\ m_rows (snd r) = length (fst r) /\ length (m_bytes (snd r)) = m_rows (snd r) * m_cols (snd r).
(** The byte j of the descriptor i. *)
Definition byte (m : mat) (i j : nat) : Z := nth (i * m_cols m + j) (m_bytes m) 0%Z.
