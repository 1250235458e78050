(** C127: descriptors stored as text, and queries by descriptor type. *)
From Coq Require Import ZArith Reals List Bool Lia Strings.Byte.
From Verif Require Import SerializationModel SerializationSpec SerializationProofs SerializationProps DescTextModel DescTextSpec.
Import ListNotations.
Open Scope Z_scope.

Lemma find_none bs t k : lacks t bs -> find_type (map snd bs) k t = None /\ existsb (fun t' => t' =? t) (map snd bs) = false.
Proof.
  revert k. induction bs as [|[m u] bs IH]; intros k L; [auto|]. cbn [map snd find_type existsb]. destruct (Z.eqb_spec u t) as [->|N]; [exfalso; apply (L m); left; reflexivity|].
  destruct (IH (S k)) as (A & B). { intros m' I. apply (L m'). right. exact I. } rewrite A, B. auto.
Qed.
Lemma find_some pre m t post k : lacks t pre ->
  find_type (map snd (pre ++ (m, t) :: post)) k t = Some (k + length pre)%nat /\ existsb (fun t' => t' =? t) (map snd (pre ++ (m, t) :: post)) = true.
Proof.
  revert k. induction pre as [|[m' u] pre IH]; intros k L; cbn [app map snd find_type existsb length].
  - rewrite Z.eqb_refl. split; [f_equal; lia|reflexivity].
  - destruct (Z.eqb_spec u t) as [->|N]; [exfalso; apply (L m'); left; reflexivity|]. destruct (IH (S k)) as (A & B). { intros m'' I. apply (L m''). right. exact I. }
    rewrite A, B. split; [f_equal; lia|reflexivity].
Qed.
Lemma nth_pre (pre : list (matrix * Z)) m t post : nth_error (map fst (pre ++ (m, t) :: post)) (length pre) = Some m.
Proof. rewrite map_app. cbn. rewrite nth_error_app2 by (rewrite map_length; lia). rewrite map_length, Nat.sub_diag. reflexivity. Qed.
Lemma start_pre (pre : list (matrix * Z)) m t post : start_of (map fst (pre ++ (m, t) :: post)) (length pre) = Some (columns pre).
Proof. induction pre as [|[m' u] pre IH]; [reflexivity|]. cbn [app map fst length start_of columns fold_right]. rewrite IH. reflexivity. Qed.

(** Queries of a type find its first block; the keypoints are those after the keypoints of the earlier blocks. *)
Theorem dsx_queries f pre m t post kps :
  has_blocks f (pre ++ (m, t) :: post) -> lacks t pre -> measurements f = Some kps ->
  has_type f t = Done true /\ num_of_type f t = Done (m_cols m) /\ start_and_size f t = Done (columns pre, m_cols m) /\
  descriptors_of_type f t = Done m /\ type_size_bytes f t = Done (m_rows m) /\
  (forall a seg b, kps = a ++ seg ++ b -> len a = columns pre -> len seg = m_cols m -> keypoints_of_type f t = Done seg) /\
  (len kps < columns pre + m_cols m -> keypoints_of_type f t = Abort).
Proof.
  intros (D & T) L K. pose proof (find_some pre m t post 0 L) as (F & X). cbn [Nat.add] in F.
  assert (has_type f t = Done true) as H1. { unfold has_type. rewrite D, T. cbn. rewrite X. reflexivity. }
  assert (type_block f t = Done (length pre)) as H2. { unfold type_block. rewrite T. cbn. rewrite F. reflexivity. }
  assert (start_and_size f t = Done (columns pre, m_cols m)) as H3. { unfold start_and_size. rewrite D, H2. cbn. rewrite start_pre, nth_pre. reflexivity. }
  assert (descriptors_of_type f t = Done m) as H4. { unfold descriptors_of_type. rewrite D, H2. cbn. rewrite nth_pre. reflexivity. }
  split; [exact H1|]. split. { unfold num_of_type. rewrite K, D, H1. cbn. rewrite H2. cbn. rewrite nth_pre. reflexivity. }
  split; [exact H3|]. split; [exact H4|]. split. { unfold type_size_bytes. rewrite H4. reflexivity. }
  unfold keypoints_of_type. rewrite H3, K. cbn. split.
  - intros a seg b -> A S'. rewrite <- A, <- S'. unfold len. rewrite !app_length.
    destruct (Z.leb_spec (Z.of_nat (length a) + Z.of_nat (length seg)) (Z.of_nat (length a + (length seg + length b)))); [|lia].
    rewrite !Nat2Z.id. f_equal. rewrite skipn_app, skipn_all, Nat.sub_diag. cbn. rewrite firstn_app, firstn_all, Nat.sub_diag. cbn. apply app_nil_r.
  - intros H. destruct (Z.leb_spec (columns pre + m_cols m) (len kps)); [lia|reflexivity].
Qed.
Print Assumptions dsx_queries.

Theorem dsx_absent f bs t : has_blocks f bs -> lacks t bs ->
  has_type f t = Done false /\ num_of_type f t = Done 0 /\ start_and_size f t = Abort /\ keypoints_of_type f t = Abort /\ descriptors_of_type f t = Abort.
Proof.
  intros (D & T) L. destruct (find_none bs t 0 L) as (F & X).
  assert (has_type f t = Done false) as H1. { unfold has_type. rewrite D, T. cbn. rewrite X. reflexivity. }
  assert (type_block f t = Abort) as H2. { unfold type_block. rewrite T. cbn. rewrite F. reflexivity. }
  split; [exact H1|]. split. { unfold num_of_type. rewrite D, H1. destruct (measurements f); reflexivity. }
  assert (start_and_size f t = Abort) as H3. { unfold start_and_size. rewrite D, H2. reflexivity. }
  split; [exact H3|]. split. { unfold keypoints_of_type. rewrite H3. reflexivity. } unfold descriptors_of_type. rewrite H2. reflexivity.
Qed.
Print Assumptions dsx_absent.

(** Blocks are added at the end and replaced in their place, the first replaces nothing; keypoints stay. *)
Lemma both_blocks f bs : has_blocks f bs -> both_channels f = Done (map fst bs, map snd bs).
Proof. intros (D & T). unfold both_channels. rewrite D, T. cbn. rewrite !map_length, Nat.eqb_refl. reflexivity. Qed.
Lemma replace_app {A} (a : list A) x y b : replace (length a) y (a ++ x :: b) = a ++ y :: b.
Proof. induction a as [|z a IH]; [reflexivity|]. cbn. rewrite IH. reflexivity. Qed.
Theorem dsx_change m t :
  (forall f bs, has_blocks f bs -> exists g, extend_descriptors f m t = Done g /\ has_blocks g (bs ++ [(m, t)]) /\ measurements g = measurements f) /\
  (forall f a old b, has_blocks f (a ++ old :: b) -> exists g, set_descriptors f m (length a) t = Done g /\ has_blocks g (a ++ (m, t) :: b) /\ measurements g = measurements f) /\
  (forall f bs i, has_blocks f bs -> bs <> [] -> (length bs <= i)%nat -> set_descriptors f m i t = Abort) /\
  (forall f i, has_blocks f [] \/ (descriptors f = None /\ types f = None) ->
     exists g, set_descriptors f m i t = Done g /\ extend_descriptors f m t = Done g /\ has_blocks g [(m, t)] /\ measurements g = measurements f).
Proof.
  repeat split.
  - intros f bs B. unfold extend_descriptors. rewrite (both_blocks f bs B). cbn. eexists. split; [reflexivity|]. unfold has_blocks. cbn. rewrite !map_app. auto.
  - intros f a old b B. unfold set_descriptors. rewrite (both_blocks f _ B). cbn [bind]. rewrite !map_app. cbn [map]. destruct (map fst a ++ fst old :: map fst b) eqn:E; [destruct (map fst a); discriminate|]. rewrite <- E, app_length, map_length. cbn [length].
    destruct (Nat.ltb_spec (length a) (length a + S (length (map fst b)))); [|lia]. eexists. split; [reflexivity|]. split; [|reflexivity]. unfold has_blocks. cbn.
    assert (forall C (p : matrix * Z -> C) x, replace (length a) x (map p a ++ p old :: map p b) = map p a ++ x :: map p b) as Z. { intros C p x. rewrite <- (map_length p a). apply replace_app. }
    split; f_equal; rewrite map_app; cbn; apply Z.
  - intros f bs i B N L. unfold set_descriptors. rewrite (both_blocks f bs B). cbn [bind]. destruct bs as [|b bs]; [contradiction|]. cbn [map]. destruct (Nat.ltb_spec i (length (fst b :: map fst bs))) as [H|H]; [|reflexivity]. cbn in H. rewrite map_length in H. cbn in L. lia.
  - intros f i B. assert (both_channels f = Done ([], [])) as E. { destruct B as [B|(D & T)]; [apply (both_blocks f [] B)|]. unfold both_channels. rewrite D, T. reflexivity. }
    unfold set_descriptors, extend_descriptors. rewrite E. cbn. eexists. repeat split; reflexivity.
Qed.
Print Assumptions dsx_change.

(** Text restores the descriptors, whatever was in the frame, and changes nothing else; setting the types again makes all blocks as they were. *)
Theorem dsx_roundtrip lim esz f bs : has_blocks f bs -> storable lim esz (map fst bs) ->
  exists text, serialize_descriptors lim f = Done text /\
  forall g, exists g', deserialize_descriptors lim esz g text = Done g' /\ descriptors g' = descriptors f /\ types g' = types g /\ measurements g' = measurements g /\
  exists h, set_types g' (map snd bs) = Done h /\ has_blocks h bs /\ measurements h = measurements g.
Proof.
  intros (D & T) (L63 & E & Sz & W & I).
  destruct (sr_vector_roundtrip lim esz U8 None None (map fst bs) W I) as (text & St & _ & _ & Rd); try assumption; try (intros k [=]).
  { apply Forall_forall. intros m _. split; intros k [=]. }
  { cbn [bytes_of]. eapply Z.le_trans; [|exact Sz]. apply Z.eq_le_incl. f_equal. clear. induction (map fst bs) as [|m l IH]; [reflexivity|]. cbn [fold_right]. rewrite IH. lia. }
  exists text. split. { unfold serialize_descriptors. rewrite D. exact St. }
  intros g. unfold deserialize_descriptors. rewrite Rd. cbn. eexists. split; [reflexivity|]. cbn. rewrite D. repeat split.
  unfold set_types. cbn. rewrite !map_length, Nat.eqb_refl. eexists. split; [reflexivity|]. unfold has_blocks. cbn. auto.
Qed.
Print Assumptions dsx_roundtrip.

(** Unless descriptors were restored without setting the types, blocks and types belong together. *)
Theorem dsx_settled lim esz cs f : reaches lim esz new_frame cs f -> settled cs -> (descriptors f = None /\ types f = None) \/ exists bs, has_blocks f bs.
Proof.
  assert (forall (ms : list matrix) (ts : list Z), length ms = length ts -> exists bs, ms = map fst bs /\ ts = map snd bs) as Z.
  { induction ms as [|m ms IH]; intros [|t ts] E; try discriminate; [exists []; auto|]. injection E as E. destruct (IH ts E) as (bs & -> & ->). exists ((m, t) :: bs). auto. }
  intros R. induction R as [|cs c g h R IH C]; intros St; [left; auto|].
  assert (forall ts ms, set_types g ts = Done ms -> exists bs, has_blocks ms bs) as ST.
  { intros ts g' E. unfold set_types in E. destruct (descriptors g) as [ms|] eqn:D; [|discriminate]. cbn in E. destruct (Nat.eqb_spec (length ms) (length ts)) as [L|]; [|discriminate]. injection E as <-. destruct (Z ms ts L) as (bs & -> & ->). exists bs. split; reflexivity. }
  assert ((forall ts, c <> Set_types ts) -> settled cs) as K.
  { intros N b x a E. destruct (St b x (a ++ [c])) as (ts & I). { rewrite E, <- app_assoc. reflexivity. } exists ts. apply in_app_or in I as [I|[I|[]]]; [exact I|]. exfalso. apply (N ts). exact I. }
  destruct c as [m i t|m t|text|ts|kps]; cbn [change_frame] in C.
  - right. destruct (dsx_change m t) as (_ & S1 & S2 & S3). destruct (IH (K ltac:(discriminate))) as [B|(bs & B)].
    + destruct (S3 g i (or_intror B)) as (h' & E & _ & HB & _). rewrite C in E. injection E as <-. eauto.
    + destruct bs as [|b0 bs0] eqn:Eb. { destruct (S3 g i (or_introl B)) as (h' & E & _ & HB & _). rewrite C in E. injection E as <-. eauto. }
      rewrite <- Eb in B. destruct (Nat.lt_ge_cases i (length bs)) as [Li|Li].
      * destruct (nth_split bs (b0) Li) as (a & d & E & La). rewrite E in B. destruct (S1 g a _ d B) as (h' & E' & HB & _). rewrite La, C in E'. injection E' as <-. eauto.
      * rewrite (S2 g bs i B) in C; [discriminate| |exact Li]. rewrite Eb. discriminate.
  - right. destruct (dsx_change m t) as (X & _ & _ & S3). destruct (IH (K ltac:(discriminate))) as [B|(bs & B)].
    + destruct (S3 g 0%nat (or_intror B)) as (h' & _ & E & HB & _). rewrite C in E. injection E as <-. eauto.
    + destruct (X g bs B) as (h' & E & HB & _). rewrite C in E. injection E as <-. eauto.
  - destruct (St cs text [] eq_refl) as (ts & []).
  - right. eapply ST. exact C.
  - injection C as <-. cbn. destruct (IH (K ltac:(discriminate))) as [(D & T)|(bs & D & T)]; [left; auto|right; exists bs; split; assumption].
Qed.
Print Assumptions dsx_settled.

(** Restored into a new frame, every query of a type and every later change aborts; the types cannot be set before. *)
Theorem dsx_types_refuted lim esz f bs text g : has_blocks f bs -> storable lim esz (map fst bs) -> serialize_descriptors lim f = Done text -> types g = None ->
  exists g', deserialize_descriptors lim esz g text = Done g' /\
  (forall t, has_type g' t = Abort /\ start_and_size g' t = Abort /\ descriptors_of_type g' t = Abort /\ (measurements g <> None -> num_of_type g' t = Abort)) /\
  (forall m i t, set_descriptors g' m i t = Abort /\ extend_descriptors g' m t = Abort) /\ (descriptors g = None -> forall ts, set_types g ts = Abort).
Proof.
  intros B S' E T. destruct (dsx_roundtrip lim esz f bs B S') as (text' & E' & R). rewrite E in E'. injection E' as <-. destruct (R g) as (g' & Dg & D & Tg & M & _). exists g'. split; [exact Dg|].
  destruct B as (D' & _). rewrite D' in D. rewrite T in Tg. split; [|split].
  - intros t. unfold has_type, start_and_size, descriptors_of_type, type_block, num_of_type, has_type. rewrite D, Tg, M. cbn. repeat split. intros N. destruct (measurements g); [reflexivity|contradiction].
  - intros m i t. unfold set_descriptors, extend_descriptors, both_channels. rewrite D, Tg. split; reflexivity.
  - intros N ts. unfold set_types. rewrite N. reflexivity.
Qed.
Print Assumptions dsx_types_refuted.

(** Restored into a frame in use, the old types stay: a type without a block is found, its keypoints are read outside of the vector, counting them aborts. *)
Theorem dsx_stale_refuted : exists lim esz f text g g' kps t,
  reaches lim esz new_frame [Extend (Matrix 1 1 [x07]) 0] f /\ reaches lim esz new_frame [Set_measurements kps; Extend (Matrix 1 1 [x08]) 0; Extend (Matrix 1 1 [x09]) t] g /\
  serialize_descriptors lim f = Done text /\ deserialize_descriptors lim esz g text = Done g' /\
  has_type g' t = Done true /\ keypoints_of_type g' t = UB /\ num_of_type g' t = Abort /\ descriptors_of_type g' t = Abort /\ (forall m u, extend_descriptors g' m u = Abort).
Proof.
  exists 1000, 24. do 4 eexists. exists [(1, 1); (2, 2)]%R, 1.
  split; [apply (reaches_step _ _ _ [] _ _ _ (reaches_start _ _ _)); reflexivity|].
  split; [eapply (reaches_step _ _ _ [Set_measurements _; Extend _ 0]); [eapply (reaches_step _ _ _ [Set_measurements _]); [apply (reaches_step _ _ _ [] _ _ _ (reaches_start _ _ _)); reflexivity|reflexivity]|reflexivity]|].
  split; [reflexivity|]. split; [reflexivity|]. repeat split.
Qed.
Print Assumptions dsx_stale_refuted.

(** Against its documentation, counting the keypoints of a type aborts if there are keypoints and no descriptors. *)
Theorem dsx_unset_refuted kps t : exists f, reaches 0 0 new_frame [Set_measurements kps] f /\ has_type f t = Done false /\ num_of_type f t = Abort.
Proof. eexists. split; [apply (reaches_step _ _ _ [] _ _ _ (reaches_start _ _ _)); reflexivity|]. split; reflexivity. Qed.
Print Assumptions dsx_unset_refuted.

Example dsx_ex : exists f, reaches 1000 24 new_frame [Extend (Matrix 1 2 [x07; x08]) 5; Extend (Matrix 1 1 [x09]) 3; Set_block (Matrix 2 1 [x01; x02]) 1 4; Set_measurements [(1, 1); (2, 2); (3, 3)]%R] f /\
  has_blocks f [(Matrix 1 2 [x07; x08], 5); (Matrix 2 1 [x01; x02], 4)] /\ storable 1000 24 [Matrix 1 2 [x07; x08]; Matrix 2 1 [x01; x02]] /\
  keypoints_of_type f 4 = Done [(3, 3)]%R /\ num_of_type f 3 = Done 0.
Proof.
  eexists. split.
  { eapply (reaches_step _ _ _ [Extend _ 5; Extend _ 3; Set_block _ 1 4]); [eapply (reaches_step _ _ _ [Extend _ 5; Extend _ 3]); [eapply (reaches_step _ _ _ [Extend _ 5]); [apply (reaches_step _ _ _ [] _ _ _ (reaches_start _ _ _)); reflexivity|reflexivity]|reflexivity]|reflexivity]. }
  split; [split; reflexivity|]. split; [|split; reflexivity]. repeat split; try lia; try (repeat constructor; cbn; lia).
Qed.
