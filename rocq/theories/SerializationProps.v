(** Property theorems C17-C20, C59. *)
From Coq Require Import ZArith QArith Qabs Bool List Strings.Byte Strings.String Lia.
From Verif Require Import SerializationModel SerializationSpec SerializationProofs SerializationScalar.
Import ListNotations.
Local Open Scope Z_scope.

Definition ex_mat : matrix := Matrix 2 3 [x01; x02; x03; x04; x05; xff].
Example ex_mat_wf : wf_matrix U8 ex_mat /\ fits_int ex_mat /\ fits (Some 2) None ex_mat /\
                    dim_ok (Some 2) /\ dim_ok None /\ len (m_data ex_mat) + 16 <= 100.
Proof.
  unfold wf_matrix, fits_int, fits, dim_ok, ex_mat, len. simpl.
  repeat split; try lia; intros; try discriminate; match goal with H : Some _ = Some _ |- _ => injection H as H end; lia.
Qed.

(** ** C17: what is serialized (to a buffer or to a string) follows the format, has the announced
    size and is read back identically, for fixed and dynamic dimensions. *)
Theorem sr_matrix_roundtrip : forall lim s R C m,
  wf_matrix s m -> fits_int m -> dim_ok R -> dim_ok C -> fits R C m ->
  len (m_data m) + 16 <= lim -> lim < 2^63 ->
  exists bs, mat_to_buffer lim s m = Done bs /\ mat_to_string lim s m = Done bs /\
             matrix_format s m bs /\ len bs = 16 + m_rows m * m_cols m * bytes_of s /\
             mat_from_buffer lim s R C bs = Done m.
Proof.
  intros lim s R C m HW HI HR HC HF HL Hmax.
  destruct (mat_to_ok lim s m HW HI HL Hmax) as (bs & H1 & H2 & H3 & H4).
  exists bs. repeat split; auto; [change bytes_of with size_of; lia|]. apply mat_from_format; auto; lia.
Qed.
Print Assumptions sr_matrix_roundtrip.

Example sr_matrix_ex : exists bs,
  mat_to_buffer 100 U8 ex_mat = Done bs /\ mat_from_buffer 100 U8 (Some 2) None bs = Done ex_mat /\
  bs = [x02;x00;x00;x00; x03;x00;x00;x00; x00;x00;x00;x00; x01;x00;x00;x00;
        x01;x02;x03;x04;x05;xff].
Proof. eexists. repeat split. Qed.

(** A matrix with 2^32 + 1 rows (4 GB) is silently truncated to its first row. *)
Theorem sr_matrix_huge_refuted : exists lim s m bs m',
  wf_matrix s m /\ len (m_data m) + 16 <= lim /\ lim < 2^63 /\
  mat_to_buffer lim s m = Done bs /\ mat_to_string lim s m = Done bs /\
  mat_from_buffer lim s None None bs = Done m' /\ m' <> m.
Proof.
  destruct (Z_of_nat_complete (2^32) ltac:(lia)) as [n Hn]. symmetry in Hn.
  exists (2^33), U8, (Matrix (2^32 + 1) 1 (x07 :: repeat x07 n)).
  exists [x01;x00;x00;x00; x01;x00;x00;x00; x00;x00;x00;x00; x01;x00;x00;x00; x07], (Matrix 1 1 [x07]).
  assert (HL : List.length (x07 :: repeat x07 n) = S n) by (simpl; rewrite repeat_length; reflexivity).
  assert (Hlen : len (x07 :: repeat x07 n) = 2^32 + 1) by (unfold len; rewrite HL; lia).
  assert (Hread : read (x07 :: repeat x07 n) 0 1 = Done [x07]).
  { apply (read_app [] [x07] (repeat x07 n)); reflexivity. }
  split; [|split; [|split; [|split; [|split; [|split]]]]].
  - unfold wf_matrix. change bytes_of with size_of. cbn [m_rows m_cols m_data]. fold (len (x07 :: repeat x07 n)). rewrite Hlen.
    simpl size_of. lia.
  - cbn [m_data]. rewrite Hlen. lia.
  - lia.
  - unfold mat_to_buffer, raw_to_buffer. cbn [m_rows m_cols m_data].
    change (int32 (2^32 + 1)) with 1. change (int32 1) with 1.
    change (size_t (size_of U8 * 1 * 1 * 1)) with 1. cbv zeta. rewrite Hread. reflexivity.
  - unfold mat_to_string, raw_to_string. cbn [m_rows m_cols m_data].
    change (int32 (2^32 + 1)) with 1. change (int32 1) with 1.
    change (size_t (size_of U8 * 1 * 1 * 1)) with 1. cbv zeta. rewrite Hread. reflexivity.
  - reflexivity.
  - intros E. discriminate (f_equal m_rows E).
Qed.
Print Assumptions sr_matrix_huge_refuted.

(** ** C18: for every buffer the outcome is a CHECK failure, an exception, or a matrix of which the
    buffer is exactly the serialization; nothing is read outside of the buffer. *)
Theorem sr_matrix_malformed : forall lim s R C buf,
  dim_ok R -> dim_ok C -> lim < 2^63 ->
  mat_from_buffer lim s R C buf = Abort \/ mat_from_buffer lim s R C buf = Throw \/
  exists m, mat_from_buffer lim s R C buf = Done m /\ wf_matrix s m /\ fits R C m /\
            matrix_format s m buf.
Proof.
  intros lim s R C buf HR HC Hmax.
  pose proof (mat_from_no_ub lim s R C buf HR HC Hmax) as NU.
  pose proof (mat_from_not_uninit lim s R C buf) as NI.
  destruct (mat_from_buffer lim s R C buf) as [m| | | |] eqn:E; auto; try contradiction.
  right; right. exists m. apply mat_from_inv in E as (?&?&?&?&?); auto.
Qed.
Print Assumptions sr_matrix_malformed.

(** Both serializers reproduce the buffer (dimensions within int). *)
Theorem sr_matrix_reserialize_partial : forall lim s R C buf m,
  dim_ok R -> dim_ok C -> lim < 2^63 -> len buf <= lim ->
  mat_from_buffer lim s R C buf = Done m -> fits_int m ->
  mat_to_buffer lim s m = Done buf /\ mat_to_string lim s m = Done buf.
Proof.
  intros lim s R C buf m HR HC Hmax HL E HI.
  apply mat_from_inv in E as (HF & HW & _ & _ & _); auto.
  assert (Hl : len (m_data m) + 16 <= lim).
  { destruct HF as (a & b & c & d & -> & La & Lb & Lc & Ld & _).
    rewrite !len_app in HL. unfold len in *. lia. }
  destruct (mat_to_ok lim s m HW HI Hl Hmax) as (bs & H1 & H2 & H3 & _).
  rewrite (block_unique _ _ _ _ _ _ _ HF H3). auto.
Qed.
Print Assumptions sr_matrix_reserialize_partial.

(** Bad size, wrong type, wrong dimension, and a good buffer. *)
Example sr_malformed_ex :
  mat_from_buffer 100 U8 None None [x01;x00;x00] = Abort /\
  mat_from_buffer 100 U8 None None
    [x01;x00;x00;x00; x01;x00;x00;x00; x00;x00;x00;x00; x01;x00;x00;x00] = Abort /\
  mat_from_buffer 100 F32 None None
    [x01;x00;x00;x00; x01;x00;x00;x00; x00;x00;x00;x00; x01;x00;x00;x00; x09] = Abort /\
  mat_from_buffer 100 U8 (Some 2) None
    [x01;x00;x00;x00; x01;x00;x00;x00; x00;x00;x00;x00; x01;x00;x00;x00; x09] = Abort /\
  mat_from_buffer 100 U8 None None
    [xff;xff;xff;xff; xff;xff;xff;xff; x00;x00;x00;x00; x01;x00;x00;x00; x09] = Throw /\
  mat_from_buffer 100 U8 None None
    [x01;x00;x00;x00; x01;x00;x00;x00; x00;x00;x00;x00; x01;x00;x00;x00; x09]
  = Done (Matrix 1 1 [x09]).
Proof. repeat split. Qed.

(** A header with 2^32 - 1 rows and no columns is accepted, but the matrix it yields cannot be
    serialized to a string again (CHECK_GE(rows, 0) fails). *)
Theorem sr_matrix_reserialize_refuted : exists lim s buf m,
  lim < 2^63 /\ len buf <= lim /\ mat_from_buffer lim s None None buf = Done m /\
  mat_to_string lim s m = Abort.
Proof.
  exists 100, U8, [xff;xff;xff;xff; x00;x00;x00;x00; x00;x00;x00;x00; x01;x00;x00;x00],
         (Matrix (2^32 - 1) 0 []).
  split; [lia|]. split; [vm_compute; discriminate|]. split; reflexivity.
Qed.
Print Assumptions sr_matrix_reserialize_refuted.

(** ** C19: vectors of matrices *)
Theorem sr_vector_roundtrip : forall lim esz s R C ms,
  Forall (wf_matrix s) ms -> Forall fits_int ms -> dim_ok R -> dim_ok C -> Forall (fits R C) ms ->
  8 + fold_right (fun m r => 16 + m_rows m * m_cols m * bytes_of s + r) 0 ms <= lim ->
  esz * Z.of_nat (List.length ms) <= lim -> lim < 2^63 ->
  exists bs, vec_to_buffer lim s ms = Done bs /\ vector_format s ms bs /\
             len bs = 8 + fold_right (fun m r => 16 + m_rows m * m_cols m * bytes_of s + r) 0 ms /\
             vec_from_buffer lim esz s R C bs = Done ms.
Proof.
  intros lim esz s R C ms HW HI HR HC HF HL Hesz Hmax.
  assert (HB : blocks_len s ms = fold_right (fun m r => 16 + m_rows m * m_cols m * bytes_of s + r) 0 ms).
  { clear -HW. unfold blocks_len. induction HW as [|m ms (H1 & H2 & H3) HW IH]; [reflexivity|].
    cbn [map List.concat fold_right]. rewrite len_app, len_block, IH. unfold len at 1. lia. }
  rewrite <- HB in *.
  exists (le 8 (len ms) ++ List.concat (map (block_of s) ms)).
  pose proof (vec_format_ok s ms HW HI ltac:(lia)) as HFmt.
  repeat split.
  - apply vec_to_ok; auto.
  - exact HFmt.
  - rewrite len_app. unfold len at 1. rewrite length_le. reflexivity.
  - rewrite <- (app_nil_r (le 8 (len ms) ++ _)). apply vec_from_format; auto.
    apply Forall_forall. intros m Hin. clear -HL Hin. unfold blocks_len in HL.
    enough (len (m_data m) <= len (List.concat (map (block_of s) ms))) by lia. clear HL.
    induction ms as [|m' ms IH]; [destruct Hin|].
    cbn [map List.concat]. rewrite len_app, len_block.
    pose proof (len_nonneg (m_data m')). pose proof (len_nonneg (List.concat (map (block_of s) ms))).
    destruct Hin as [->|Hin]; [lia|]. specialize (IH Hin). lia.
Qed.
Print Assumptions sr_vector_roundtrip.

Example sr_vector_ex : exists bs,
  vec_to_buffer 200 U8 [ex_mat; Matrix 2 0 []; Matrix 2 1 [x08; x09]] = Done bs /\
  vec_from_buffer 200 16 U8 (Some 2) None bs = Done [ex_mat; Matrix 2 0 []; Matrix 2 1 [x08; x09]] /\
  len bs = 64.
Proof. eexists. repeat split. Qed.

(** Whatever is accepted starts with the serialization of the result. *)
Theorem sr_vector_accepted_partial : forall lim esz s R C buf ms,
  dim_ok R -> dim_ok C -> lim < 2^63 -> vec_from_buffer lim esz s R C buf = Done ms ->
  Forall (wf_matrix s) ms /\ Forall (fits R C) ms /\
  exists bs garbage, buf = bs ++ garbage /\ vector_format s ms bs.
Proof. exact vec_from_inv. Qed.
Print Assumptions sr_vector_accepted_partial.

(** Truncated buffers are read beyond their end. *)
Theorem sr_vector_truncated_refuted : exists lim esz s ms buf shorter,
  lim < 2^63 /\ vec_to_buffer lim s ms = Done buf /\ buf = shorter ++ [x05] /\
  vec_from_buffer lim esz s None None shorter = UB.
Proof.
  exists 100, 24, U8, [Matrix 1 1 [x05]].
  eexists. exists [x01;x00;x00;x00;x00;x00;x00;x00;
                   x01;x00;x00;x00; x01;x00;x00;x00; x00;x00;x00;x00; x01;x00;x00;x00].
  split; [lia|]. split; [reflexivity|]. split; reflexivity.
Qed.
Print Assumptions sr_vector_truncated_refuted.

(** Trailing garbage is accepted. *)
Theorem sr_vector_garbage_accepted : forall lim esz s R C ms bs garbage,
  Forall (wf_matrix s) ms -> dim_ok R -> dim_ok C -> Forall (fits R C) ms ->
  Forall (fun m => len (m_data m) <= lim) ms -> esz * len ms <= lim -> lim < 2^63 ->
  vector_format s ms bs -> vec_from_buffer lim esz s R C (bs ++ garbage) = Done ms.
Proof. intros. apply vec_from_format; auto. Qed.
Print Assumptions sr_vector_garbage_accepted.

(** ** C20: images *)
Theorem sr_image_roundtrip : forall lim string i,
  wf_image i -> i_rows i * i_cols i < 2^31 -> i_rows i < 2^31 -> i_cols i < 2^31 ->
  len (i_data i) + 16 <= lim -> lim < 2^63 ->
  exists bs, img_serialize string lim i = Done bs /\ image_format i bs /\
             img_from_buffer lim bs = Done i.
Proof.
  intros lim string i HW H1 H2 H3 H4 H5.
  destruct (img_to_ok string lim i HW H1 H2 H3 H4 H5) as (bs & Hs & Hf).
  exists bs. repeat split; auto. apply img_from_format; auto. lia.
Qed.
Print Assumptions sr_image_roundtrip.

(** Outside of this range: the number of pixels is computed as an int and overflows. *)
Theorem sr_image_pixels_refuted :
  (forall lim string i, 2^31 <= i_rows i * i_cols i -> img_serialize string lim i = UB) /\
  exists i, wf_image i /\ i_rows i = 2^16 /\ i_cols i = 2^15 /\ i_scalar i = U8 /\ i_channels i = 1.
Proof.
  split.
  - intros lim string i H. unfold img_serialize. apply Z.leb_le in H. rewrite H. reflexivity.
  - exists (Image (2^16) (2^15) U8 1 (repeat x00 (Z.to_nat (2^31)))). split; [|auto].
    unfold wf_image. change bytes_of with size_of. cbn [i_rows i_cols i_scalar i_channels i_data]. unfold len. rewrite repeat_length.
    rewrite Z2Nat.id by lia. cbn. lia.
Qed.
Print Assumptions sr_image_pixels_refuted.

Definition ex_img : image := Image 1 2 U16 3 [x01;x02;x03;x04;x05;x06;x07;x08;x09;x0a;x0b;x0c].
Example sr_image_ex : wf_image ex_img /\ exists bs,
  img_serialize true 100 ex_img = Done bs /\ img_from_buffer 100 bs = Done ex_img.
Proof. split; [unfold wf_image; simpl; lia|]. eexists. split; reflexivity. Qed.

(** Buffers announcing 1 to 512 channels: no memory error, and what is accepted is exact. *)
Theorem sr_image_malformed_partial : forall lim buf,
  lim < 2^63 -> (exists n, channels_announced buf n /\ 1 <= n <= 512) ->
  img_from_buffer lim buf <> UB /\ img_from_buffer lim buf <> Uninit /\
  forall i, img_from_buffer lim buf = Done i -> image_format i buf /\ wf_image i.
Proof. exact img_from_good. Qed.
Print Assumptions sr_image_malformed_partial.

Example sr_image_malformed_ex : channels_announced
  [x01;x00;x00;x00; x01;x00;x00;x00; x00;x00;x00;x00; x02;x00;x00;x00; x07] 2 /\
  img_from_buffer 100
  [x01;x00;x00;x00; x01;x00;x00;x00; x00;x00;x00;x00; x02;x00;x00;x00; x07] = Abort.
Proof.
  split; [|reflexivity]. exists [x01;x00;x00;x00; x01;x00;x00;x00; x00;x00;x00;x00],
    [x02;x00;x00;x00], [x07]. repeat split.
Qed.

(** A 1x1 image announcing 513 channels passes all checks; one byte is allocated, 513 are written.
    Announcing 0 channels yields an image with uninitialised pixels. *)
Theorem sr_image_overflow_refuted :
  (exists buf, img_from_buffer (2^62) buf = UB) /\
  (exists buf, img_from_buffer (2^62) buf = Uninit).
Proof.
  split.
  - exists ([x01;x00;x00;x00; x01;x00;x00;x00; x00;x00;x00;x00; x01;x02;x00;x00] ++ repeat x00 513).
    vm_compute. reflexivity.
  - exists [x01;x00;x00;x00; x01;x00;x00;x00; x00;x00;x00;x00; x00;x00;x00;x00].
    vm_compute. reflexivity.
Qed.
Print Assumptions sr_image_overflow_refuted.

(** ** C59: scalar channels *)
(** Integers through strings: exact if the value fits into a signed 64-bit integer. *)
Theorem sr_int_roundtrip_partial : forall t v,
  0 < width t -> in_type t v -> - 2^63 <= v < 2^63 ->
  int_from_string t (int_to_string v) = Done v.
Proof. exact int_roundtrip. Qed.
Print Assumptions sr_int_roundtrip_partial.

Example sr_int_ex : in_type (IntType 32 true) (-2147483648) /\
  int_to_string (-2147483648) = "-2147483648"%string /\ int_from_string (IntType 8 false) "200" = Done 200.
Proof. repeat split; simpl; lia. Qed.

(** Unsigned 64-bit values from 2^63 on cannot be read back. *)
Theorem sr_uint64_throws : forall v, 2^63 <= v < 2^64 ->
  in_type (IntType 64 false) v /\ int_from_string (IntType 64 false) (int_to_string v) = Throw.
Proof. intros v Hv. split; [unfold in_type; simpl; lia | apply int_too_large; lia]. Qed.
Print Assumptions sr_uint64_throws.
Theorem sr_uint64_refuted : exists v, in_type (IntType 64 false) v /\
  int_from_string (IntType 64 false) (int_to_string v) <> Done v.
Proof.
  exists (2^63). destruct (sr_uint64_throws (2^63) ltac:(lia)) as [H1 H2].
  split; [exact H1|]. rewrite H2. discriminate.
Qed.
Print Assumptions sr_uint64_refuted.

(** Floating-point values through strings: off by up to half a millionth, and no better. *)
Theorem sr_float_close_partial : forall v,
  (Qabs (of_millionths (millionths v) - v) <= 5 # 10000000)%Q.
Proof. exact millionths_close. Qed.
Print Assumptions sr_float_close_partial.

(** 2^-22 (exactly representable) is read back as 0. *)
Theorem sr_float_refuted : exists v, ~ (of_millionths (millionths v) == v)%Q.
Proof. exists (1 # 4194304)%Q. intros E. discriminate E. Qed.
Print Assumptions sr_float_refuted.

Theorem sr_scalar_buffer_roundtrip : forall rep buf,
  scalar_from_buffer (List.length rep) (scalar_to_buffer rep) = Done rep /\
  (forall size, scalar_from_buffer size buf = Done rep -> buf = rep /\ List.length buf = size).
Proof.
  intros rep buf. unfold scalar_from_buffer, scalar_to_buffer. rewrite Nat.eqb_refl.
  split; [reflexivity|]. intros size. destruct (Nat.eqb_spec (List.length buf) size); [|discriminate].
  intros [= ->]. auto.
Qed.
Print Assumptions sr_scalar_buffer_roundtrip.
