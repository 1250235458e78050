(** The serialization format, independently of the code. *)
From Coq Require Import ZArith List Strings.Byte.
From Verif Require Import SerializationModel.
Import ListNotations.
Open Scope Z_scope.

(** [bs] is the little-endian representation of [n]. *)
Definition represents (bs : list byte) (n : Z) : Prop :=
  n = fold_right (fun b r => Z.of_N (Byte.to_N b) + 256 * r) 0 bs.

(** The bytes of a number, e.g. [CV_16S]. *)
Definition bytes_of (s : scalar) : Z :=
  match s with U8 => 1 | S8 => 1 | U16 => 2 | S16 => 2 | S32 => 4 | F32 => 4 | F64 => 8 end.

(** A matrix with as much data as its size demands. *)
Definition wf_matrix (s : scalar) (m : matrix) : Prop :=
  0 <= m_rows m /\ 0 <= m_cols m /\
  Z.of_nat (length (m_data m)) = bytes_of s * (m_rows m * m_cols m).

Definition wf_image (i : image) : Prop :=
  0 <= i_rows i /\ 0 <= i_cols i /\ 1 <= i_channels i <= 512 /\
  Z.of_nat (length (i_data i)) = bytes_of (i_scalar i) * (i_rows i * i_cols i * i_channels i).

(** The bytes [bs] are four 32-bit words followed by the data. *)
Definition is_block (bs : list byte) (rows cols depth channels : Z) (data : list byte) : Prop :=
  exists a b c d,
    bs = a ++ b ++ c ++ d ++ data /\
    length a = 4%nat /\ length b = 4%nat /\ length c = 4%nat /\ length d = 4%nat /\
    represents a rows /\ represents b cols /\ represents c depth /\ represents d channels.

Definition matrix_format (s : scalar) (m : matrix) (bs : list byte) : Prop :=
  is_block bs (m_rows m) (m_cols m) (depth_of s) 1 (m_data m).

Definition image_format (i : image) (bs : list byte) : Prop :=
  is_block bs (i_rows i) (i_cols i) (depth_of (i_scalar i)) (i_channels i) (i_data i).

(** A vector: a 64-bit count and the matrices one after the other. *)
Definition vector_format (s : scalar) (ms : list matrix) (bs : list byte) : Prop :=
  exists n blocks,
    bs = n ++ concat blocks /\ length n = 8%nat /\ represents n (Z.of_nat (length ms)) /\
    Forall2 (matrix_format s) ms blocks.

(** The matrix fits the template arguments. *)
Definition fits (R C : dim) (m : matrix) : Prop :=
  (forall r, R = Some r -> m_rows m = r) /\ (forall c, C = Some c -> m_cols m = c).
Definition dim_ok (d : dim) : Prop := forall k, d = Some k -> 0 <= k < 2^31.
