(** Proofs about the serialization. *)
From Coq Require Import ZArith Bool List Strings.Byte Lia.
From Verif Require Import SerializationModel SerializationSpec.
Import ListNotations.
Open Scope Z_scope.

(** ** Bytes *)
Lemma byte_val_bounds b : 0 <= byte_val b < 256.
Proof. unfold byte_val. pose proof (Byte.to_N_bounded b). lia. Qed.

Lemma byte_val_of n : byte_val (byte_of n) = n mod 256.
Proof.
  unfold byte_val, byte_of. pose proof (Z.mod_pos_bound n 256 ltac:(lia)) as H.
  destruct (Byte.of_N (Z.to_N (n mod 256))) eqn:E.
  - apply Byte.to_of_N in E. rewrite E, Z2N.id; lia.
  - apply Byte.of_N_None_iff in E. lia.
Qed.

Lemma byte_of_val b : byte_of (byte_val b) = b.
Proof.
  unfold byte_of, byte_val. pose proof (Byte.to_N_bounded b).
  rewrite Z.mod_small by lia. rewrite N2Z.id, Byte.of_to_N. reflexivity.
Qed.

Lemma length_le k n : length (le k n) = k.
Proof. revert n; induction k; simpl; intros; [|rewrite IHk]; reflexivity. Qed.

Lemma unle_bounds bs : 0 <= unle bs < 256 ^ len bs.
Proof.
  unfold len. induction bs as [|b bs IH]; simpl length; [simpl; lia|].
  rewrite Nat2Z.inj_succ, Z.pow_succ_r by lia. cbn [unle].
  pose proof (byte_val_bounds b). lia.
Qed.

Lemma unle_le k n : unle (le k n) = n mod 256 ^ Z.of_nat k.
Proof.
  revert n; induction k as [|k IH]; intros n; [simpl; rewrite Z.mod_1_r; reflexivity|].
  cbn [le unle]. rewrite IH, byte_val_of, Nat2Z.inj_succ, Z.pow_succ_r by lia.
  rewrite Z.rem_mul_r by (try apply Z.pow_pos_nonneg; lia). reflexivity.
Qed.

Lemma le_unle bs : le (length bs) (unle bs) = bs.
Proof.
  induction bs as [|b bs IH]; [reflexivity|]. cbn [length le unle].
  pose proof (byte_val_bounds b) as Hb.
  replace (byte_of (byte_val b + 256 * unle bs)) with b.
  2:{ rewrite <- (byte_of_val b) at 1. unfold byte_of. do 2 f_equal.
      replace (byte_val b + 256 * unle bs) with (byte_val b + unle bs * 256) by lia.
      rewrite Z_mod_plus_full. reflexivity. }
  f_equal. replace (byte_val b + 256 * unle bs) with (byte_val b + unle bs * 256) by lia.
  rewrite Z_div_plus_full by lia. rewrite (Z.div_small (byte_val b)) by lia. exact IH.
Qed.

Lemma represents_unle bs : represents bs (unle bs).
Proof. unfold represents. induction bs as [|b bs IH]; [reflexivity|]. cbn [unle fold_right]. rewrite <- IH. reflexivity. Qed.

Lemma represents_eq bs n : represents bs n -> n = unle bs.
Proof. intros H. rewrite H. symmetry. apply represents_unle. Qed.

Lemma represents_le k n : 0 <= n < 256 ^ Z.of_nat k -> represents (le k n) n.
Proof.
  intros H. pose proof (represents_unle (le k n)) as R. rewrite unle_le, Z.mod_small in R by lia.
  exact R.
Qed.

(** ** Reading *)
Lemma len_app {A} (a b : list A) : len (a ++ b) = len a + len b.
Proof. unfold len. rewrite app_length. lia. Qed.
Lemma len_nonneg {A} (a : list A) : 0 <= len a.
Proof. unfold len. lia. Qed.

Lemma read_app pre mid post off n :
  off = len pre -> n = len mid -> read (pre ++ mid ++ post) off n = Done mid.
Proof.
  intros -> ->. unfold read. rewrite !len_app.
  pose proof (len_nonneg pre); pose proof (len_nonneg mid); pose proof (len_nonneg post).
  replace ((0 <=? len pre) && (0 <=? len mid) && (len pre + len mid <=? len pre + (len mid + len post)))
    with true by (symmetry; rewrite !andb_true_iff, !Z.leb_le; lia).
  f_equal. unfold len. rewrite !Nat2Z.id.
  rewrite skipn_app, skipn_all, Nat.sub_diag. simpl.
  rewrite firstn_app, firstn_all, Nat.sub_diag. simpl. apply app_nil_r.
Qed.

Lemma read_app_end pre mid off n :
  off = len pre -> n = len mid -> read (pre ++ mid) off n = Done mid.
Proof. intros H1 H2. pose proof (read_app pre mid [] off n H1 H2) as H. rewrite app_nil_r in H. exact H. Qed.

Lemma read_inv buf off n d :
  read buf off n = Done d ->
  exists pre post, buf = pre ++ d ++ post /\ len pre = off /\ len d = n /\ 0 <= n /\
                   off + n <= len buf.
Proof.
  unfold read. destruct (_ && _ && _) eqn:E; [|discriminate].
  rewrite !andb_true_iff, !Z.leb_le in E. destruct E as [[E1 E2] E3]. intros [= <-].
  exists (firstn (Z.to_nat off) buf), (skipn (Z.to_nat n) (skipn (Z.to_nat off) buf)).
  rewrite firstn_skipn, firstn_skipn. unfold len in *.
  rewrite !firstn_length, skipn_length. repeat split; lia.
Qed.

Lemma read_ok buf off n :
  0 <= off -> 0 <= n -> off + n <= len buf -> exists d, read buf off n = Done d.
Proof.
  intros. unfold read.
  replace ((0 <=? off) && (0 <=? n) && (off + n <=? len buf)) with true
    by (symmetry; rewrite !andb_true_iff, !Z.leb_le; lia). eauto.
Qed.

Lemma read_cases buf off n : (exists d, read buf off n = Done d) \/ read buf off n = UB.
Proof. unfold read. destruct (_ && _ && _); eauto. Qed.

Lemma app_split {A} (a b c d : list A) : a ++ b = c ++ d -> length a = length c -> a = c /\ b = d.
Proof.
  revert c. induction a as [|x a IH]; intros [|y c]; simpl; intros E L; try discriminate; auto.
  injection E as -> E. apply IH in E as [-> ->]; auto.
Qed.

Lemma read_join buf off n m d1 d2 :
  read buf off n = Done d1 -> read buf (off + n) m = Done d2 -> read buf off (n + m) = Done (d1 ++ d2).
Proof.
  intros Ha Hb. apply read_inv in Ha as (p1 & q1 & E1 & L1 & L2 & P1 & _).
  apply read_inv in Hb as (p2 & q2 & E2 & L3 & L4 & P2 & _).
  assert (p2 = p1 ++ d1 /\ q1 = d2 ++ q2) as [-> ->].
  { rewrite E1, app_assoc in E2. unfold len in *.
    assert (length (p1 ++ d1) = length p2) as L by (rewrite app_length; lia).
    apply app_split in E2 as [-> ->]; auto. }
  rewrite E1. replace (p1 ++ d1 ++ d2 ++ q2) with (p1 ++ (d1 ++ d2) ++ q2) by (rewrite <- !app_assoc; reflexivity).
  apply read_app; rewrite ?len_app; lia.
Qed.

(** ** Header *)
Definition header_of (a b c d : list byte) : header := Header (unle a) (unle b) (unle c) (unle d).

Lemma get_header_inv buf off h :
  get_header buf off = Done h ->
  exists pre a b c d post,
    buf = pre ++ (a ++ b ++ c ++ d) ++ post /\ len pre = off /\
    length a = 4%nat /\ length b = 4%nat /\ length c = 4%nat /\ length d = 4%nat /\
    h = header_of a b c d.
Proof.
  unfold get_header.
  destruct (read buf off 4) as [a| | | |] eqn:Ea; try discriminate. simpl.
  destruct (read buf (off + 4) 4) as [b| | | |] eqn:Eb; try discriminate. simpl.
  destruct (read buf (off + 8) 4) as [c| | | |] eqn:Ec; try discriminate. simpl.
  destruct (read buf (off + 12) 4) as [d| | | |] eqn:Ed; try discriminate. simpl.
  intros [= <-].
  assert (La : len a = 4) by (apply read_inv in Ea; destruct Ea as (?&?&?&?&?&?); lia).
  assert (Lb : len b = 4) by (apply read_inv in Eb; destruct Eb as (?&?&?&?&?&?); lia).
  assert (Lc : len c = 4) by (apply read_inv in Ec; destruct Ec as (?&?&?&?&?&?); lia).
  assert (Ld : len d = 4) by (apply read_inv in Ed; destruct Ed as (?&?&?&?&?&?); lia).
  pose proof (read_join _ _ _ _ _ _ Ea Eb) as J.
  replace (off + 8) with (off + (4 + 4)) in Ec by lia.
  pose proof (read_join _ _ _ _ _ _ J Ec) as J2.
  replace (off + 12) with (off + (4 + 4 + 4)) in Ed by lia.
  pose proof (read_join _ _ _ _ _ _ J2 Ed) as J3.
  apply read_inv in J3 as (pre & post & E & L & _).
  exists pre, a, b, c, d, post. unfold len in *.
  rewrite <- !app_assoc in E. rewrite <- !app_assoc. repeat split; auto; lia.
Qed.

Lemma get_header_app pre a b c d post off :
  off = len pre ->
  length a = 4%nat -> length b = 4%nat -> length c = 4%nat -> length d = 4%nat ->
  get_header (pre ++ (a ++ b ++ c ++ d) ++ post) off = Done (header_of a b c d).
Proof.
  intros Ho La Lb Lc Ld. unfold get_header.
  rewrite <- !app_assoc.
  rewrite (read_app pre a) by (unfold len in *; lia). simpl.
  replace (pre ++ a ++ b ++ c ++ d ++ post) with ((pre ++ a) ++ b ++ c ++ d ++ post)
    by (rewrite <- !app_assoc; reflexivity).
  rewrite (read_app (pre ++ a) b) by (rewrite ?len_app; unfold len in *; lia). simpl.
  replace ((pre ++ a) ++ b ++ c ++ d ++ post) with ((pre ++ a ++ b) ++ c ++ d ++ post)
    by (rewrite <- !app_assoc; reflexivity).
  rewrite (read_app (pre ++ a ++ b) c) by (rewrite ?len_app; unfold len in *; lia). simpl.
  replace ((pre ++ a ++ b) ++ c ++ d ++ post) with ((pre ++ a ++ b ++ c) ++ d ++ post)
    by (rewrite <- !app_assoc; reflexivity).
  rewrite (read_app (pre ++ a ++ b ++ c) d) by (rewrite ?len_app; unfold len in *; lia). simpl.
  reflexivity.
Qed.

Lemma get_header_ok buf off :
  0 <= off -> off + 16 <= len buf -> exists h, get_header buf off = Done h.
Proof.
  intros H1 H2. unfold get_header.
  destruct (read_ok buf off 4) as [a ->]; try lia.
  destruct (read_ok buf (off + 4) 4) as [b ->]; try lia.
  destruct (read_ok buf (off + 8) 4) as [c ->]; try lia.
  destruct (read_ok buf (off + 12) 4) as [d ->]; try lia.
  simpl. eauto.
Qed.

Lemma get_header_cases buf off : (exists h, get_header buf off = Done h) \/ get_header buf off = UB.
Proof.
  unfold get_header.
  destruct (read_cases buf off 4) as [[a ->]| ->]; [|auto].
  destruct (read_cases buf (off + 4) 4) as [[b ->]| ->]; [|auto].
  destruct (read_cases buf (off + 8) 4) as [[c ->]| ->]; [|auto].
  destruct (read_cases buf (off + 12) 4) as [[d ->]| ->]; [|auto].
  simpl. eauto.
Qed.

Lemma len_put_header h : len (put_header h) = 16.
Proof. unfold put_header. rewrite !len_app. unfold len. rewrite !length_le. reflexivity. Qed.

(** The block produced by the serializers. *)
Lemma put_block s rows cols ch d rest :
  0 <= rows < 2^32 -> 0 <= cols < 2^32 -> 0 <= ch < 2^32 ->
  is_block (put_header (make_header s rows cols ch) ++ d) rows cols (depth_of s) ch d /\
  put_header (make_header s rows cols ch) ++ d ++ rest =
  (put_header (make_header s rows cols ch) ++ d) ++ rest.
Proof.
  intros Hr Hc Hch. split; [|rewrite <- app_assoc; reflexivity].
  unfold put_header, make_header, uint32. cbn [h_rows h_cols h_depth h_channels].
  rewrite !Z.mod_small by lia.
  exists (le 4 rows), (le 4 cols), (le 4 (depth_of s)), (le 4 ch).
  rewrite <- !app_assoc. rewrite !length_le.
  repeat split; try reflexivity; apply represents_le; simpl Z.of_nat; try lia.
  destruct s; simpl; lia.
Qed.

Lemma size_of_pos s : 1 <= size_of s <= 8.
Proof. destruct s; simpl; lia. Qed.

Lemma int32_small n : 0 <= n < 2^31 -> int32 n = n.
Proof.
  intros H. unfold int32. rewrite Z.mod_small by lia.
  destruct (n <? 2^31) eqn:E; [reflexivity|]. apply Z.ltb_ge in E. lia.
Qed.

Lemma alloc_ok lim n : n <= lim -> alloc lim n = Done tt.
Proof. intros H. unfold alloc. rewrite (proj2 (Z.leb_le _ _) H). reflexivity. Qed.

Lemma alloc_inv lim n u : alloc lim n = Done u -> n <= lim.
Proof. unfold alloc. destruct (n <=? lim) eqn:E; [|discriminate]. intros _. apply Z.leb_le; auto. Qed.

(** ** Serializing raw data *)
Lemma read_all data n : n = len data -> read data 0 n = Done data.
Proof.
  intros ->. pose proof (read_app [] data [] 0 (len data)) as H. simpl in H.
  rewrite app_nil_r in H. apply H; reflexivity.
Qed.

Lemma raw_to_buffer_ok lim s data rows cols ch :
  0 <= rows -> 0 <= cols -> 0 <= ch ->
  len data = size_of s * (rows * cols * ch) -> len data + 16 <= lim -> lim < 2^63 ->
  raw_to_buffer lim s data rows cols ch = Done (put_header (make_header s rows cols ch) ++ data).
Proof.
  intros Hr Hc Hch HL Hlim Hmax. unfold raw_to_buffer, size_t, header_size.
  pose proof (len_nonneg data).
  replace (size_of s * rows * cols * ch) with (len data) by lia.
  rewrite (Z.mod_small (len data)) by lia. rewrite Z.mod_small by lia.
  rewrite alloc_ok by lia. cbn [bind]. rewrite read_all by reflexivity. cbn [bind].
  replace (len data + 16 <? 16 + len data) with false by (symmetry; apply Z.ltb_ge; lia). reflexivity.
Qed.

Lemma raw_to_string_ok lim s data rows cols ch :
  0 <= rows -> 0 <= cols -> 0 <= ch ->
  len data = size_of s * (rows * cols * ch) -> len data + 16 <= lim -> lim < 2^63 ->
  raw_to_string lim s data rows cols ch = Done (put_header (make_header s rows cols ch) ++ data).
Proof.
  intros Hr Hc Hch HL Hlim Hmax. unfold raw_to_string, size_t, header_size.
  pose proof (len_nonneg data).
  replace (size_of s * rows * cols * ch) with (len data) by lia.
  rewrite (Z.mod_small (len data)) by lia. rewrite Z.mod_small by lia.
  replace ((rows <? 0) || (cols <? 0)) with false
    by (symmetry; rewrite orb_false_iff, !Z.ltb_ge; lia).
  destruct (_ <=? 0) eqn:E; [apply Z.leb_le in E; lia|].
  rewrite alloc_ok by lia. cbn [bind]. rewrite read_all by reflexivity. cbn [bind].
  replace (len data + 16 <? 16 + len data) with false by (symmetry; apply Z.ltb_ge; lia). reflexivity.
Qed.

(** ** C17 *)
Definition fits_int (m : matrix) : Prop := m_rows m < 2^31 /\ m_cols m < 2^31.

Lemma mat_to_ok lim s m :
  wf_matrix s m -> fits_int m -> len (m_data m) + 16 <= lim -> lim < 2^63 ->
  exists bs, mat_to_buffer lim s m = Done bs /\ mat_to_string lim s m = Done bs /\
             matrix_format s m bs /\ len bs = 16 + size_of s * (m_rows m * m_cols m).
Proof.
  intros (Hr & Hc & HL) [Hr' Hc'] Hlim Hmax.
  change (len (m_data m) = size_of s * (m_rows m * m_cols m)) in HL.
  exists (put_header (make_header s (m_rows m) (m_cols m) 1) ++ m_data m).
  unfold mat_to_buffer, mat_to_string. rewrite !int32_small by lia.
  rewrite raw_to_buffer_ok, raw_to_string_ok by lia.
  repeat split.
  - apply put_block; try exact []; lia.
  - rewrite len_app, len_put_header. lia.
Qed.

Lemma dim_check_fits d n : dim_ok d -> (forall k, d = Some k -> n = k) ->
  dim_check d n = true /\ dim_after d n = n.
Proof.
  intros Hok Hf. destruct d as [k|]; simpl; [|auto].
  rewrite (Hf k eq_refl). pose proof (Hok k eq_refl). unfold uint32.
  rewrite Z.mod_small by lia. rewrite Z.eqb_refl. auto.
Qed.

Lemma dim_check_inv d n : dim_ok d -> dim_check d n = true ->
  dim_after d n = n /\ (forall k, d = Some k -> n = k).
Proof.
  intros Hok. destruct d as [k|]; simpl; [|split; [auto|discriminate]].
  pose proof (Hok k eq_refl). unfold uint32. rewrite Z.mod_small by lia.
  intros ->%Z.eqb_eq. split; [reflexivity|]. intros ? [=]; auto.
Qed.

Lemma depth_of_inj s s' : depth_of s = depth_of s' -> s = s'.
Proof. destruct s, s'; simpl; (reflexivity || discriminate). Qed.

Lemma mat_from_format lim s R C m bs :
  wf_matrix s m -> dim_ok R -> dim_ok C -> fits R C m ->
  len (m_data m) <= lim -> lim < 2^63 ->
  matrix_format s m bs -> mat_from_buffer lim s R C bs = Done m.
Proof.
  intros (Hr & Hc & HL) HR HC [HfR HfC] Hlim Hmax (a & b & c & d & E & La & Lb & Lc & Ld & Ra & Rb & Rc & Rd).
  change (len (m_data m) = size_of s * (m_rows m * m_cols m)) in HL.
  apply represents_eq in Ra, Rb, Rc, Rd.
  pose proof (len_nonneg (m_data m)).
  assert (Lbs : len bs = 16 + len (m_data m)).
  { rewrite E, !len_app. unfold len. lia. }
  unfold mat_from_buffer, header_size.
  destruct (len bs <? 16) eqn:E1; [apply Z.ltb_lt in E1; lia|].
  rewrite E. replace (a ++ b ++ c ++ d ++ m_data m) with ([] ++ (a ++ b ++ c ++ d) ++ m_data m)
    by (simpl; rewrite <- !app_assoc; reflexivity).
  rewrite get_header_app by auto. cbn [bind header_of h_rows h_cols h_depth h_channels].
  rewrite <- Ra, <- Rb, <- Rc, <- Rd.
  destruct (dim_check_fits R (m_rows m) HR HfR) as [-> ->].
  destruct (dim_check_fits C (m_cols m) HC HfC) as [-> ->].
  rewrite !Z.eqb_refl. simpl negb. cbv iota.
  rewrite alloc_ok by lia. cbn [bind].
  unfold size_t. replace (size_of s * m_rows m * m_cols m) with (len (m_data m)) by lia.
  rewrite (Z.mod_small (len (m_data m))) by lia. rewrite Z.mod_small by lia.
  simpl app.
  replace (len ((a ++ b ++ c ++ d) ++ m_data m) =? len (m_data m) + 16) with true
    by (symmetry; apply Z.eqb_eq; rewrite !len_app; unfold len; lia).
  simpl negb. cbv iota.
  simpl app. rewrite (read_app_end (a ++ b ++ c ++ d) (m_data m)) by (rewrite ?len_app; unfold len; lia).
  cbn [bind]. destruct m; reflexivity.
Qed.

(** ** C18 *)
Lemma mat_from_no_ub lim s R C buf :
  dim_ok R -> dim_ok C -> lim < 2^63 -> mat_from_buffer lim s R C buf <> UB.
Proof.
  intros HR HC Hmax. unfold mat_from_buffer, header_size.
  destruct (len buf <? 16) eqn:E1; [discriminate|]. apply Z.ltb_ge in E1.
  destruct (get_header_ok buf 0) as [h Hh]; try lia. rewrite Hh. cbn [bind].
  apply get_header_inv in Hh as (pre & a & b & c & d & post & E & Lp & La & Lb & Lc & Ld & Eh).
  assert (0 <= h_rows h /\ 0 <= h_cols h) as [Hr Hc].
  { rewrite Eh. cbn [header_of h_rows h_cols]. pose proof (unle_bounds a). pose proof (unle_bounds b). lia. }
  destruct (dim_check R (h_rows h)) eqn:ER; [|discriminate].
  destruct (dim_check C (h_cols h)) eqn:EC; [|discriminate].
  apply dim_check_inv in ER as [-> _]; [|auto]. apply dim_check_inv in EC as [-> _]; [|auto].
  destruct (h_depth h =? _); [|discriminate]. destruct (h_channels h =? 1); [|discriminate].
  simpl negb. cbv iota.
  unfold alloc. destruct (_ <=? lim) eqn:EA; [|discriminate]. apply Z.leb_le in EA. cbn [bind].
  pose proof (size_of_pos s).
  assert (0 <= size_of s * h_rows h * h_cols h) by (repeat apply Z.mul_nonneg_nonneg; lia).
  unfold size_t. rewrite (Z.mod_small (size_of s * h_rows h * h_cols h)) by lia.
  rewrite Z.mod_small by lia.
  destruct (len buf =? _) eqn:ET; [|discriminate]. apply Z.eqb_eq in ET. simpl negb. cbv iota.
  destruct (read_ok buf 16 (size_of s * h_rows h * h_cols h)) as [x ->]; try lia.
  discriminate.
Qed.

Lemma mat_from_inv lim s R C buf m :
  dim_ok R -> dim_ok C -> lim < 2^63 -> mat_from_buffer lim s R C buf = Done m ->
  matrix_format s m buf /\ wf_matrix s m /\ fits R C m /\ m_rows m < 2^32 /\ m_cols m < 2^32.
Proof.
  intros HR HC Hmax. unfold mat_from_buffer, header_size.
  destruct (len buf <? 16) eqn:E1; [discriminate|]. apply Z.ltb_ge in E1.
  destruct (get_header_ok buf 0) as [h Hh]; try lia. rewrite Hh. cbn [bind].
  apply get_header_inv in Hh as (pre & a & b & c & d & post & E & Lp & La & Lb & Lc & Ld & Eh).
  assert (pre = []) as -> by (destruct pre; [reflexivity|unfold len in Lp; simpl in Lp; lia]).
  assert (0 <= h_rows h < 2^32 /\ 0 <= h_cols h < 2^32) as [Hr Hc].
  { rewrite Eh. cbn [header_of h_rows h_cols]. pose proof (unle_bounds a) as Ba.
    pose proof (unle_bounds b) as Bb. unfold len in Ba, Bb. rewrite La in Ba. rewrite Lb in Bb.
    simpl Z.of_nat in *. lia. }
  destruct (dim_check R (h_rows h)) eqn:ER; [|discriminate].
  destruct (dim_check C (h_cols h)) eqn:EC; [|discriminate].
  apply dim_check_inv in ER as [-> HfR]; [|auto]. apply dim_check_inv in EC as [-> HfC]; [|auto].
  destruct (h_depth h =? _) eqn:ED; [|discriminate]. apply Z.eqb_eq in ED.
  destruct (h_channels h =? 1) eqn:EN; [|discriminate]. apply Z.eqb_eq in EN.
  simpl negb. cbv iota.
  unfold alloc. destruct (_ <=? lim) eqn:EA; [|discriminate]. apply Z.leb_le in EA. cbn [bind].
  pose proof (size_of_pos s).
  assert (0 <= size_of s * h_rows h * h_cols h) by (repeat apply Z.mul_nonneg_nonneg; lia).
  unfold size_t. rewrite (Z.mod_small (size_of s * h_rows h * h_cols h)) by lia.
  rewrite Z.mod_small by lia.
  destruct (len buf =? _) eqn:ET; [|discriminate]. apply Z.eqb_eq in ET. simpl negb. cbv iota.
  assert (Lh : len (a ++ b ++ c ++ d) = 16) by (rewrite !len_app; unfold len; lia).
  assert (len buf = 16 + len post) by (rewrite E, len_app, len_app, Lh; reflexivity).
  assert (read buf 16 (size_of s * h_rows h * h_cols h) = Done post) as ->.
  { rewrite E. simpl app. apply read_app_end; lia. }
  cbn [bind]. intros [= <-]. unfold matrix_format, wf_matrix, fits. change bytes_of with size_of. cbn [m_rows m_cols m_data].
  split; [|split; [|split]].
  - exists a, b, c, d. rewrite Eh in *. unfold header_of in *. cbn [h_rows h_cols h_depth h_channels] in *.
    rewrite <- ED, <- EN. rewrite E. simpl app. rewrite <- !app_assoc.
    repeat split; auto using represents_unle.
  - unfold len in *. lia.
  - split; auto.
  - lia.
Qed.

(** ** Vectors *)
Definition block_of (s : scalar) (m : matrix) : list byte :=
  put_header (make_header s (m_rows m) (m_cols m) 1) ++ m_data m.

Lemma block_format s m :
  wf_matrix s m -> m_rows m < 2^32 -> m_cols m < 2^32 -> matrix_format s m (block_of s m).
Proof. intros (H1 & H2 & _) H3 H4. apply put_block; try exact []; lia. Qed.

Lemma len_block s m : len (block_of s m) = 16 + len (m_data m).
Proof. unfold block_of. rewrite len_app, len_put_header. lia. Qed.

Definition blocks_len (s : scalar) (ms : list matrix) : Z :=
  len (concat (map (block_of s) ms)).

Lemma put_all_ok s ms :
  Forall (wf_matrix s) ms -> Forall fits_int ms ->
  blocks_len s ms < 2^63 ->
  put_all s ms = Done (concat (map (block_of s) ms)).
Proof.
  unfold blocks_len.
  induction ms as [|m ms IH]; intros HW HF HL; [reflexivity|].
  inversion HW as [|? ? (Hr & Hc & Hd) HW']; subst. inversion HF as [|? ? [Hr' Hc'] HF']; subst.
  change (len (m_data m) = size_of s * (m_rows m * m_cols m)) in Hd.
  cbn [map concat] in HL. rewrite len_app, len_block in HL.
  pose proof (len_nonneg (m_data m)). pose proof (len_nonneg (concat (map (block_of s) ms))).
  cbn [put_all]. cbv zeta. rewrite !int32_small by lia.
  unfold size_t. rewrite Z.mod_small by lia. rewrite read_all by lia. cbn [bind].
  rewrite IH by (auto; lia). cbn [bind map concat]. unfold block_of at 2.
  rewrite <- app_assoc. reflexivity.
Qed.

Lemma vec_size_ok s ms acc :
  Forall (wf_matrix s) ms -> Forall fits_int ms ->
  0 <= acc -> acc + blocks_len s ms < 2^63 ->
  vec_size s ms acc = acc + blocks_len s ms.
Proof.
  unfold blocks_len. revert acc.
  induction ms as [|m ms IH]; intros acc HW HF Ha HL; [simpl; unfold len; simpl; lia|].
  inversion HW as [|? ? (Hr & Hc & Hd) HW']; subst. inversion HF as [|? ? [Hr' Hc'] HF']; subst.
  change (len (m_data m) = size_of s * (m_rows m * m_cols m)) in Hd.
  cbn [map concat] in *. rewrite len_app, len_block in *.
  pose proof (len_nonneg (m_data m)). pose proof (len_nonneg (concat (map (block_of s) ms))).
  cbn [vec_size]. rewrite !int32_small by lia. unfold header_size, size_t.
  rewrite (Z.mod_small (size_of s * _ * _ * _)) by lia. rewrite Z.mod_small by lia.
  rewrite IH by (auto; lia). lia.
Qed.

Lemma vec_to_ok lim s ms :
  Forall (wf_matrix s) ms -> Forall fits_int ms ->
  8 + blocks_len s ms <= lim -> lim < 2^63 ->
  vec_to_buffer lim s ms = Done (le 8 (len ms) ++ concat (map (block_of s) ms)).
Proof.
  intros HW HF HL Hmax. unfold vec_to_buffer. cbv zeta.
  rewrite vec_size_ok by (auto; lia). rewrite alloc_ok by lia. cbn [bind].
  rewrite put_all_ok by (auto; lia). cbn [bind].
  destruct (_ <? _) eqn:E; [apply Z.ltb_lt in E; unfold blocks_len in E; lia|]. reflexivity.
Qed.

Lemma len_ms_blocks s ms : 16 * len ms <= blocks_len s ms.
Proof.
  unfold blocks_len. induction ms as [|m ms IH]; [unfold len; simpl; lia|].
  cbn [map concat]. rewrite len_app, len_block. pose proof (len_nonneg (m_data m)).
  unfold len in *. simpl length. lia.
Qed.

Lemma vec_format_ok s ms :
  Forall (wf_matrix s) ms -> Forall fits_int ms -> blocks_len s ms < 2^63 ->
  vector_format s ms (le 8 (len ms) ++ concat (map (block_of s) ms)).
Proof.
  intros HW HF HL. pose proof (len_ms_blocks s ms) as Hn. pose proof (len_nonneg ms) as Hp.
  exists (le 8 (len ms)), (map (block_of s) ms). rewrite length_le.
  repeat split.
  - apply represents_le. fold (len ms). change (256 ^ Z.of_nat 8) with (2^64). lia.
  - clear Hn Hp HL. induction ms as [|m ms IH]; simpl; [constructor|].
    inversion HW as [|? ? HW1 HW2]; subst. inversion HF as [|? ? [HF1 HF1'] HF2]; subst.
    constructor; [apply block_format; auto; lia | auto].
Qed.

Lemma get_all_ok lim s R C ms blocks pre post :
  dim_ok R -> dim_ok C -> lim < 2^63 ->
  Forall (wf_matrix s) ms -> Forall (fits R C) ms -> Forall (fun m => len (m_data m) <= lim) ms ->
  Forall2 (matrix_format s) ms blocks ->
  get_all lim s R C (pre ++ concat blocks ++ post) (len pre) (length ms) = Done ms.
Proof.
  intros HR HC Hmax HW HF HL H2. revert pre HW HF HL.
  induction H2 as [|m bl ms blocks Hb H2 IH]; intros pre HW HF HL; [reflexivity|].
  inversion HW as [|? ? (Hr & Hc & Hd) HW']; subst. inversion HF as [|? ? [HfR HfC] HF']; subst.
  inversion HL as [|? ? Hl HL']; subst.
  change (len (m_data m) = size_of s * (m_rows m * m_cols m)) in Hd.
  destruct Hb as (a & b & c & d & E & La & Lb & Lc & Ld & Ra & Rb & Rc & Rd).
  apply represents_eq in Ra, Rb, Rc, Rd. subst bl.
  pose proof (len_nonneg (m_data m)).
  assert (Lh : len (a ++ b ++ c ++ d) = 16) by (rewrite !len_app; unfold len; lia).
  cbn [length get_all concat].
  replace (pre ++ ((a ++ b ++ c ++ d ++ m_data m) ++ concat blocks) ++ post)
    with (pre ++ (a ++ b ++ c ++ d) ++ m_data m ++ concat blocks ++ post)
    by (rewrite <- !app_assoc; reflexivity).
  rewrite get_header_app by auto. cbn [bind header_of h_rows h_cols h_depth h_channels].
  rewrite <- Ra, <- Rb, <- Rc, <- Rd.
  destruct (dim_check_fits R (m_rows m) HR HfR) as [-> ->].
  destruct (dim_check_fits C (m_cols m) HC HfC) as [-> ->].
  rewrite !Z.eqb_refl. simpl negb. cbv iota zeta.
  rewrite alloc_ok by lia. cbn [bind]. unfold size_t, header_size.
  replace (size_of s * m_rows m * m_cols m) with (len (m_data m)) by lia.
  rewrite (Z.mod_small (len (m_data m))) by lia.
  replace (pre ++ (a ++ b ++ c ++ d) ++ m_data m ++ concat blocks ++ post)
    with ((pre ++ a ++ b ++ c ++ d) ++ m_data m ++ concat blocks ++ post)
    by (rewrite <- !app_assoc; reflexivity).
  rewrite (read_app (pre ++ a ++ b ++ c ++ d) (m_data m)) by (rewrite ?(len_app pre); lia).
  cbn [bind].
  replace ((pre ++ a ++ b ++ c ++ d) ++ m_data m ++ concat blocks ++ post)
    with ((pre ++ a ++ b ++ c ++ d ++ m_data m) ++ concat blocks ++ post)
    by (rewrite <- !app_assoc; reflexivity).
  replace (len pre + 16 + len (m_data m)) with (len (pre ++ a ++ b ++ c ++ d ++ m_data m))
    by (rewrite !len_app in *; lia).
  rewrite IH by auto. cbn [bind]. destruct m; reflexivity.
Qed.

Lemma vec_from_format lim esz s R C ms bs post :
  dim_ok R -> dim_ok C -> lim < 2^63 ->
  Forall (wf_matrix s) ms -> Forall (fits R C) ms -> Forall (fun m => len (m_data m) <= lim) ms ->
  esz * len ms <= lim ->
  vector_format s ms bs -> vec_from_buffer lim esz s R C (bs ++ post) = Done ms.
Proof.
  intros HR HC Hmax HW HF HL Hesz (n & blocks & -> & Ln & Rn & H2).
  apply represents_eq in Rn. unfold vec_from_buffer. rewrite <- app_assoc.
  pose proof (read_app [] n (concat blocks ++ post) 0 8) as Hread. simpl app in Hread.
  rewrite Hread by (unfold len; simpl; lia). cbn [bind]. rewrite <- Rn.
  rewrite alloc_ok by (unfold len in Hesz; lia). cbn [bind]. rewrite Nat2Z.id.
  replace 8 with (len n) by (unfold len; lia). apply get_all_ok; auto.
Qed.

Lemma get_all_inv lim s R C buf off n ms :
  dim_ok R -> dim_ok C -> lim < 2^63 -> 0 <= off ->
  get_all lim s R C buf off n = Done ms ->
  length ms = n /\ Forall (wf_matrix s) ms /\ Forall (fits R C) ms /\
  exists pre blocks post, buf = pre ++ concat blocks ++ post /\ (n <> O -> len pre = off) /\
    Forall2 (matrix_format s) ms blocks /\
    (forall p q, buf = p ++ q -> len p = off -> exists q', q = concat blocks ++ q').
Proof.
  intros HR HC Hmax. revert off ms. induction n as [|n IH]; intros off ms Ho; cbn [get_all].
  { intros [= <-]. repeat split; auto. exists buf, [], []. simpl. rewrite app_nil_r.
    repeat split; auto; [congruence|]. intros p q _ _. exists q. reflexivity. }
  destruct (get_header buf off) as [h| | | |] eqn:Hh; cbn [bind]; try discriminate.
  apply get_header_inv in Hh as (pre & a & b & c & d & rest & E & Lp & La & Lb & Lc & Ld & Eh).
  assert (0 <= h_rows h /\ 0 <= h_cols h) as [Hr Hc].
  { rewrite Eh. cbn [header_of h_rows h_cols]. pose proof (unle_bounds a). pose proof (unle_bounds b). lia. }
  destruct (dim_check R (h_rows h)) eqn:ER; [|discriminate].
  destruct (dim_check C (h_cols h)) eqn:EC; [|discriminate].
  apply dim_check_inv in ER as [-> HfR]; [|auto]. apply dim_check_inv in EC as [-> HfC]; [|auto].
  destruct (h_depth h =? _) eqn:ED; [|discriminate]. apply Z.eqb_eq in ED.
  destruct (h_channels h =? 1) eqn:EN; [|discriminate]. apply Z.eqb_eq in EN.
  simpl negb. cbv iota zeta.
  unfold alloc at 1. destruct (_ <=? lim) eqn:EA; [|discriminate]. apply Z.leb_le in EA. cbn [bind].
  pose proof (size_of_pos s).
  assert (0 <= size_of s * h_rows h * h_cols h) by (repeat apply Z.mul_nonneg_nonneg; lia).
  unfold size_t, header_size. rewrite (Z.mod_small (size_of s * h_rows h * h_cols h)) by lia.
  set (msz := size_of s * h_rows h * h_cols h) in *.
  destruct (read buf (off + 16) msz) as [x| | | |] eqn:Ex; try discriminate. cbn [bind].
  destruct (get_all lim s R C buf (off + 16 + msz) n) as [ms'| | | |] eqn:Eg; try discriminate.
  cbn [bind]. intros [= <-].
  apply IH in Eg as (Ln & HW & HF & pre' & blocks & post & E' & Lp' & H2 & Hsplit); [|lia].
  assert (Lh : len (a ++ b ++ c ++ d) = 16) by (rewrite !len_app; unfold len; lia).
  apply read_inv in Ex as (p & q & Ep & Lpp & Lx & _ & _).
  (* rest = x ++ q *)
  assert (Hpq : p = pre ++ a ++ b ++ c ++ d /\ x ++ q = rest).
  { rewrite Ep in E. clear -E Lp Lpp Lh.
    assert (length p = length (pre ++ a ++ b ++ c ++ d)) as L.
    { unfold len in *. rewrite (app_length pre). lia. }
    rewrite (app_assoc pre) in E.
    apply app_split in E as [-> ->]; auto. }
  destruct Hpq as [-> <-].
  assert (Lxx : len ((pre ++ a ++ b ++ c ++ d) ++ x) = off + 16 + msz)
    by (rewrite (len_app (pre ++ _)); lia).
  destruct (Hsplit ((pre ++ a ++ b ++ c ++ d) ++ x) q) as [q' ->];
    [rewrite Ep, <- !app_assoc; reflexivity | exact Lxx |].
  repeat split.
  - simpl. lia.
  - constructor; [|auto]. unfold wf_matrix. change bytes_of with size_of. cbn [m_rows m_cols m_data]. unfold len in Lx.
    repeat split; lia.
  - constructor; [|auto]. split; cbn [m_rows m_cols]; auto.
  - exists pre, ((a ++ b ++ c ++ d ++ x) :: blocks), q'. repeat split.
    + rewrite E. simpl concat. rewrite <- !app_assoc. reflexivity.
    + intros _. exact Lp.
    + constructor; [|exact H2]. unfold matrix_format. cbn [m_rows m_cols m_data].
      exists a, b, c, d. rewrite Eh in *. unfold header_of in *.
      cbn [h_rows h_cols h_depth h_channels] in *. rewrite <- ED, <- EN.
      repeat split; auto using represents_unle.
    + intros p1 q1 Hpq L1. exists q'.
      assert (length p1 = length pre) as L by (unfold len in *; lia).
      rewrite E in Hpq.
      apply app_split in Hpq as [_ <-]; [|congruence].
      simpl concat. rewrite <- !app_assoc. reflexivity.
Qed.

Lemma vec_from_inv lim esz s R C buf ms :
  dim_ok R -> dim_ok C -> lim < 2^63 ->
  vec_from_buffer lim esz s R C buf = Done ms ->
  Forall (wf_matrix s) ms /\ Forall (fits R C) ms /\
  exists bs post, buf = bs ++ post /\ vector_format s ms bs.
Proof.
  intros HR HC Hmax. unfold vec_from_buffer.
  destruct (read buf 0 8) as [n| | | |] eqn:En; try discriminate. cbn [bind].
  unfold alloc. destruct (_ <=? lim); [|discriminate]. cbn [bind].
  intros (Ln & HW & HF & pre & blocks & post & E & _ & H2 & Hsplit)%get_all_inv; auto; [|lia].
  split; [exact HW|]. split; [exact HF|].
  apply read_inv in En as (p & q & Ep & Lp & Lnn & _ & _).
  assert (p = []) as -> by (destruct p; [reflexivity|unfold len in Lp; simpl in Lp; lia]).
  destruct (Hsplit n q Ep ltac:(lia)) as [q' ->].
  exists (n ++ concat blocks), q'. split; [rewrite Ep; simpl; rewrite <- app_assoc; reflexivity|].
  exists n, blocks. repeat split; auto.
  - unfold len in Lnn. lia.
  - rewrite Ln. rewrite Z2Nat.id by apply unle_bounds. apply represents_unle.
Qed.

(** ** Images *)
Lemma created_channels_spec s cn : 0 <= cn < 2^32 -> created_channels s cn = (cn - 1) mod 512 + 1.
Proof.
  intros H. unfold created_channels, uint32. cbv zeta. f_equal.
  change 4095 with (Z.ones 12). rewrite Z.land_ones by lia. rewrite Z.shiftr_div_pow2 by lia.
  change (2^32) with (2^12 * 2^20).
  assert (Hd : 0 <= depth_of s < 8) by (destruct s; simpl; lia).
  assert (E : ((depth_of s + ((cn - 1) * 8) mod (2 ^ 12 * 2 ^ 20)) mod (2 ^ 12 * 2 ^ 20)) mod 2 ^ 12
          = depth_of s + 8 * ((cn - 1) mod 512)).
  { rewrite Zplus_mod_idemp_r. change (2^12) with 4096. change (2^20) with 1048576.
    pose proof (Z.mod_pos_bound (cn - 1) 512 ltac:(lia)) as B.
    pose proof (Z.div_mod (cn - 1) 512 ltac:(lia)) as D.
    set (q := (cn - 1) / 512) in *. set (r := (cn - 1) mod 512) in *.
    replace (depth_of s + (cn - 1) * 8) with (depth_of s + 8 * r + q * 4096) by lia.
    rewrite <- Znumtheory.Zmod_div_mod; [|lia|lia|exists 1048576; lia].
    rewrite Z_mod_plus_full. apply Z.mod_small. lia. }
  rewrite E. change (2^3) with 8.
  replace (depth_of s + 8 * ((cn - 1) mod 512)) with (depth_of s + (cn - 1) mod 512 * 8) by lia.
  rewrite Z_div_plus_full, (Z.div_small (depth_of s)) by lia. lia.
Qed.

Lemma scalar_of_depth_of s : scalar_of_depth (depth_of s) = Some s.
Proof. destruct s; reflexivity. Qed.

Lemma scalar_of_depth_inv d s : scalar_of_depth d = Some s -> d = depth_of s.
Proof.
  unfold scalar_of_depth.
  repeat (match goal with |- context [d =? ?k] => destruct (Z.eqb_spec d k) end;
          [intros [= <-]; assumption|]). discriminate.
Qed.

Lemma img_to_ok b lim i :
  wf_image i -> i_rows i * i_cols i < 2^31 -> i_rows i < 2^31 -> i_cols i < 2^31 ->
  len (i_data i) + 16 <= lim -> lim < 2^63 ->
  exists bs, img_serialize b lim i = Done bs /\ image_format i bs.
Proof.
  intros (Hr & Hc & Hch & Hd) Hrc Hr' Hc' Hlim Hmax.
  change (len (i_data i) = size_of (i_scalar i) * (i_rows i * i_cols i * i_channels i)) in Hd.
  exists (put_header (make_header (i_scalar i) (i_rows i) (i_cols i) (i_channels i)) ++ i_data i).
  split; [|apply put_block; try exact []; lia].
  unfold img_serialize. destruct (_ <=? _) eqn:E; [apply Z.leb_le in E; lia|].
  destruct b; [apply raw_to_string_ok | apply raw_to_buffer_ok]; lia.
Qed.

Lemma img_from_format lim i bs :
  wf_image i -> i_rows i < 2^31 -> i_cols i < 2^31 ->
  len (i_data i) <= lim -> lim < 2^63 ->
  image_format i bs -> img_from_buffer lim bs = Done i.
Proof.
  intros (Hr & Hc & Hch & Hd) Hr' Hc' Hlim Hmax (a & b & c & d & E & La & Lb & Lc & Ld & Ra & Rb & Rc & Rd).
  change (len (i_data i) = size_of (i_scalar i) * (i_rows i * i_cols i * i_channels i)) in Hd.
  apply represents_eq in Ra, Rb, Rc, Rd.
  pose proof (len_nonneg (i_data i)).
  assert (Lbs : len bs = 16 + len (i_data i)).
  { rewrite E, !len_app. unfold len. lia. }
  unfold img_from_buffer, header_size.
  destruct (len bs <? 16) eqn:E1; [apply Z.ltb_lt in E1; lia|].
  assert (E' : bs = [] ++ (a ++ b ++ c ++ d) ++ i_data i)
    by (rewrite E; simpl; rewrite <- !app_assoc; reflexivity).
  rewrite E' at 1.
  rewrite get_header_app by auto. cbn [bind header_of h_rows h_cols h_depth h_channels].
  rewrite <- Ra, <- Rb, <- Rc, <- Rd. rewrite scalar_of_depth_of. cbv zeta.
  unfold size_t.
  replace (size_of (i_scalar i) * i_rows i * i_cols i * i_channels i) with (len (i_data i)) by lia.
  rewrite (Z.mod_small (len (i_data i))) by lia. rewrite Z.mod_small by lia.
  replace (len bs =? len (i_data i) + 16) with true by (symmetry; apply Z.eqb_eq; lia).
  simpl negb. cbv iota. rewrite !int32_small by lia.
  replace ((i_rows i <? 0) || (i_cols i <? 0)) with false
    by (symmetry; rewrite orb_false_iff, !Z.ltb_ge; lia).
  rewrite created_channels_spec by lia. rewrite (Z.mod_small (i_channels i - 1)) by lia.
  replace (i_channels i - 1 + 1) with (i_channels i) by lia.
  replace (size_of (i_scalar i) * i_channels i * i_rows i * i_cols i) with (len (i_data i)) by lia.
  rewrite alloc_ok by lia. cbn [bind].
  rewrite E'. simpl app. rewrite (read_app_end (a ++ b ++ c ++ d) (i_data i)) by (rewrite ?len_app; unfold len; lia).
  cbn [bind]. rewrite Z.ltb_irrefl. destruct i; reflexivity.
Qed.

(** The header announces a number of channels that OpenCV can represent. *)
Definition channels_announced (buf : list byte) (n : Z) : Prop :=
  exists pre d post, buf = pre ++ d ++ post /\ length pre = 12%nat /\ length d = 4%nat /\ represents d n.

Lemma img_from_good lim buf :
  lim < 2^63 -> (exists n, channels_announced buf n /\ 1 <= n <= 512) ->
  img_from_buffer lim buf <> UB /\ img_from_buffer lim buf <> Uninit /\
  forall i, img_from_buffer lim buf = Done i -> image_format i buf /\ wf_image i.
Proof.
  intros Hmax (n & (pre0 & d0 & post0 & E0 & L0 & L0' & R0) & Hn).
  apply represents_eq in R0.
  unfold img_from_buffer, header_size.
  destruct (len buf <? 16) eqn:E1; [repeat split; discriminate|]. apply Z.ltb_ge in E1.
  destruct (get_header_ok buf 0) as [h Hh]; try lia. rewrite Hh. cbn [bind].
  apply get_header_inv in Hh as (pre & a & b & c & d & post & E & Lp & La & Lb & Lc & Ld & Eh).
  assert (pre = []) as -> by (destruct pre; [reflexivity|unfold len in Lp; simpl in Lp; lia]).
  simpl in E.
  assert (d = d0) as ->.
  { rewrite E in E0.
    replace ((a ++ b ++ c ++ d) ++ post) with ((a ++ b ++ c) ++ d ++ post) in E0
      by (rewrite <- !app_assoc; reflexivity).
    assert (L : length (a ++ b ++ c) = length pre0) by (rewrite !app_length; lia).
    apply app_split in E0 as [_ E0]; auto. apply app_split in E0 as [E0 _]; [auto|congruence]. }
  assert (0 <= h_rows h < 2^32 /\ 0 <= h_cols h < 2^32) as [Hr Hc].
  { rewrite Eh. cbn [header_of h_rows h_cols]. pose proof (unle_bounds a) as Ba.
    pose proof (unle_bounds b) as Bb. unfold len in Ba, Bb. rewrite La in Ba. rewrite Lb in Bb.
    simpl Z.of_nat in *. lia. }
  assert (Hch : h_channels h = n) by (rewrite Eh, R0; reflexivity).
  destruct (scalar_of_depth (h_depth h)) as [s|] eqn:ED; [|repeat split; discriminate].
  apply scalar_of_depth_inv in ED. cbv zeta. rewrite Hch.
  destruct (len buf =? _) eqn:ET; simpl negb; cbv iota; [|repeat split; discriminate].
  apply Z.eqb_eq in ET.
  destruct (int32 (h_rows h) <? 0) eqn:Er; [repeat split; discriminate|].
  destruct (int32 (h_cols h) <? 0) eqn:Ec; [repeat split; discriminate|].
  simpl orb. cbv iota. apply Z.ltb_ge in Er, Ec.
  assert (int32 (h_rows h) = h_rows h /\ int32 (h_cols h) = h_cols h) as [Ir Ic].
  { revert Er Ec. unfold int32. rewrite !Z.mod_small by lia.
    destruct (h_rows h <? 2^31), (h_cols h <? 2^31); lia. }
  rewrite Ir, Ic in *.
  rewrite created_channels_spec by lia. rewrite (Z.mod_small (n - 1)) by lia.
  replace (n - 1 + 1) with n by lia.
  unfold alloc. destruct (_ <=? lim) eqn:EA; cbn [bind]; [|repeat split; discriminate].
  apply Z.leb_le in EA. pose proof (size_of_pos s).
  assert (0 <= size_of s * n * h_rows h * h_cols h) by (repeat apply Z.mul_nonneg_nonneg; lia).
  unfold size_t in *.
  replace (size_of s * h_rows h * h_cols h * n) with (size_of s * n * h_rows h * h_cols h) in * by lia.
  rewrite (Z.mod_small (size_of s * n * h_rows h * h_cols h)) in * by lia.
  rewrite Z.mod_small in ET by lia.
  assert (Lh : len (a ++ b ++ c ++ d0) = 16) by (rewrite !len_app; unfold len; lia).
  assert (len buf = 16 + len post) by (rewrite E; rewrite len_app; lia).
  assert (read buf 16 (size_of s * n * h_rows h * h_cols h) = Done post) as ->.
  { rewrite E. apply read_app_end; lia. }
  cbn [bind]. rewrite Z.ltb_irrefl.
  split; [discriminate|]. split; [discriminate|]. intros i [= <-].
  unfold image_format, wf_image. change bytes_of with size_of. cbn [i_rows i_cols i_scalar i_channels i_data]. split.
  - exists a, b, c, d0. rewrite Eh in *. unfold header_of in *.
    cbn [h_rows h_cols h_depth h_channels] in *. rewrite <- ED, <- Hch.
    rewrite E, <- !app_assoc. repeat split; auto using represents_unle.
  - unfold len in *. repeat split; try lia.
Qed.

Lemma represents_inj a b n : length a = length b -> represents a n -> represents b n -> a = b.
Proof.
  intros L Ra Rb. apply represents_eq in Ra, Rb.
  rewrite <- (le_unle a), <- (le_unle b). congruence.
Qed.

Lemma block_unique bs bs' r c d n data :
  is_block bs r c d n data -> is_block bs' r c d n data -> bs = bs'.
Proof.
  intros (a1 & a2 & a3 & a4 & -> & L1 & L2 & L3 & L4 & R1 & R2 & R3 & R4)
         (b1 & b2 & b3 & b4 & -> & M1 & M2 & M3 & M4 & S1 & S2 & S3 & S4).
  rewrite (represents_inj a1 b1 r), (represents_inj a2 b2 c), (represents_inj a3 b3 d),
          (represents_inj a4 b4 n) by (auto; congruence). reflexivity.
Qed.

Lemma read_not_uninit buf off n : read buf off n <> Uninit.
Proof. unfold read. destruct (_ && _ && _); discriminate. Qed.

Lemma mat_from_not_uninit lim s R C buf : mat_from_buffer lim s R C buf <> Uninit.
Proof.
  unfold mat_from_buffer. destruct (_ <? _); [discriminate|].
  destruct (get_header_cases buf 0) as [[h ->]| ->]; [|discriminate]. cbn [bind].
  destruct (dim_check R (h_rows h)); [|discriminate].
  destruct (dim_check C (h_cols h)); [|discriminate].
  destruct (h_depth h =? _); [|discriminate]. destruct (h_channels h =? 1); [|discriminate].
  simpl negb. cbv iota zeta. unfold alloc. destruct (_ <=? lim); [|discriminate]. cbn [bind].
  destruct (len buf =? _); [|discriminate]. simpl negb. cbv iota.
  match goal with |- context [read ?a ?b ?c] => destruct (read_cases a b c) as [[x ->]| ->] end;
    discriminate.
Qed.
