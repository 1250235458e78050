(** C35-C37, C66, C67: keypoint channels of a visual frame. *)
From Coq Require Import ZArith Bool Lia.
From stdpp Require Import list gmap strings sorting.
From Verif Require Import StlHelpersModel FrameModel FrameSpec FrameProofs.
Local Open Scope nat_scope.

(** ** C35. One extension: exactly the old values, the default as often as needed, the new values; the
    channel is then as long as the keypoints; other channels and the descriptors are untouched. It
    aborts exactly if there are too few keypoints, and never writes outside the channel. *)
Theorem vx_extend : forall f name new d, name <> KP ->
  (length (col f name) + length new <= num_keypoints f ->
   exists f' pad, step f (ECol name new d) = Ok f' /\
     col f' name = col f name ++ replicate pad d ++ new /\
     length (col f' name) = num_keypoints f' /\ num_keypoints f' = num_keypoints f /\
     (forall n, n <> name -> cols f' !! n = cols f !! n) /\ blocks f' = blocks f /\ types f' = types f) /\
  (num_keypoints f < length (col f name) + length new -> step f (ECol name new d) = Abort).
Proof.
  intros f name new d Hn. rewrite step_col by done. split; intros H.
  - rewrite decide_True by done. set (pad := num_keypoints f - _).
    eexists _, pad. split; [done|]. rewrite col_set, decide_True by done.
    assert (Hk : num_keypoints (set_col f name (col f name ++ replicate pad d ++ new)) = num_keypoints f).
    { rewrite !num_col, col_set. by rewrite decide_False by done. }
    split; [done|]. split; [rewrite Hk, !app_length, replicate_length; lia|]. split; [done|].
    split; [|done]. intros n Hne. cbn. by rewrite lookup_insert_ne.
  - by rewrite decide_False by lia.
Qed.
Print Assumptions vx_extend.
Example vx_extend_ex :
  bind (run empty_frame [EKp [Some 1; Some 2]%Z; EKp [Some 3]%Z; ECol SCALE [Some 9]%Z (Some 0%Z)])
    (fun f => Ok (col f SCALE)) = Ok [Some 0; Some 0; Some 9]%Z.
Proof. vm_compute. reflexivity. Qed.

(** Extending the keypoints appends them and touches nothing else; extending the descriptors appends one
    block and its type. *)
Theorem vx_extend_keypoints : forall f new, exists f', step f (EKp new) = Ok f' /\
  col f' KP = col f KP ++ new /\ (forall n, n <> KP -> cols f' !! n = cols f !! n) /\
  blocks f' = blocks f /\ types f' = types f.
Proof.
  intros f new. exists (set_col f KP (col f KP ++ new)). cbn [step]. rewrite extend_keypoints_ok. split; [done|].
  split; [by rewrite col_set, decide_True|]. split; [|done]. intros n Hn. cbn. by rewrite lookup_insert_ne.
Qed.
Print Assumptions vx_extend_keypoints.
Theorem vx_extend_descriptors : forall f bs ts new t, blocks f = Some bs -> types f = Some ts ->
  length bs = length ts ->
  step f (EDesc new t) = Ok (Frame (cols f) (Some (bs ++ [new])) (Some (ts ++ [t]))).
Proof.
  intros f bs ts new t Hb Ht Hl. cbn [step]. unfold extend_descriptors. rewrite Hb, Ht.
  by rewrite (proj2 (Nat.eqb_eq _ _) Hl).
Qed.
Print Assumptions vx_extend_descriptors.
Example vx_extend_descriptors_ex : exists f, run empty_frame [EDesc [7; 8]%Z 1%Z; EDesc [9]%Z 2%Z] = Ok f /\
  blocks f = Some [[7; 8]; [9]]%Z /\ types f = Some [1; 2]%Z.
Proof. eexists. split_and!; reflexivity. Qed.

(** Over any history nothing that is stored ever changes or moves. *)
Theorem vx_history_prefix : forall acts f f', run f acts = Ok f' ->
  (forall n i v, col f n !! i = Some v -> col f' n !! i = Some v) /\
  default [] (blocks f) `prefix_of` default [] (blocks f').
Proof.
  intros acts f f' E. destruct (run_prefix acts f f' E) as [H1 H2]. split; [|done].
  intros n i v Hv. by eapply prefix_lookup.
Qed.
Print Assumptions vx_history_prefix.
(** One batch: new keypoints followed by extensions of any channels in any order. A channel that gets one
    value per new keypoint has these values at the indices of the new keypoints, and the default at all
    earlier indices where it had no value; it has as many columns as there are keypoints. *)
Theorem vx_batch_aligned : forall f kps pre name new d post f',
  name <> KP -> forallb (fun a => match a with EKp _ => false | _ => true end) (pre ++ post) = true ->
  length (col f name) <= num_keypoints f -> length new = length kps ->
  forallb (fun a => match a with ECol n _ _ => negb (bool_decide (n = name)) | _ => true end) pre = true ->
  run f (EKp kps :: pre ++ ECol name new d :: post) = Ok f' ->
  num_keypoints f' = num_keypoints f + length kps /\
  length (col f' name) = num_keypoints f' /\
  (forall i v, new !! i = Some v -> col f' name !! (num_keypoints f + i) = Some v) /\
  (forall i, length (col f name) <= i < num_keypoints f -> col f' name !! i = Some d) /\
  (forall i, i < length (col f name) -> col f' name !! i = col f name !! i).
Proof.
  intros f kps pre name new d post f' Hn Hk Hlen Hnew Hpre E.
  rewrite forallb_app in Hk. apply andb_prop in Hk as [Hk1 Hk2].
  assert (Hk1' : forallb (fun a => negb (is_kp a)) pre = true).
  { rewrite forallb_forall in Hk1 |- *. intros a Ha. specialize (Hk1 a Ha). by destruct a. }
  assert (Hk2' : forallb (fun a => negb (is_kp a)) post = true).
  { rewrite forallb_forall in Hk2 |- *. intros a Ha. specialize (Hk2 a Ha). by destruct a. }
  cbn [run step] in E. rewrite extend_keypoints_ok in E. cbn [bind] in E.
  set (f1 := set_col f KP (col f KP ++ kps)) in *.
  assert (N1 : num_keypoints f1 = num_keypoints f + length kps).
  { unfold f1. rewrite !num_col, col_set, decide_True by done. by rewrite app_length. }
  assert (C1 : col f1 name = col f name).
  { unfold f1. rewrite col_set, decide_False by done. done. }
  rewrite run_app in E. destruct (run f1 pre) as [f2| |] eqn:E2; try done. cbn [bind] in E.
  assert (N2 : num_keypoints f2 = num_keypoints f1) by (rewrite !num_col; by rewrite (run_num pre f1 f2 Hk1' E2)).
  assert (C2 : col f2 name = col f1 name).
  { exact (run_other pre name f1 f2 Hk1' Hpre E2). }
  cbn [run] in E. rewrite step_col in E by done. rewrite C2, C1, N2, N1 in E.
  destruct (decide _) as [Hle|]; [|done]. cbn [bind] in E.
  set (pad := _ - _) in E. set (f3 := set_col f2 name _) in E.
  assert (C3 : col f3 name = col f name ++ replicate pad d ++ new).
  { unfold f3. by rewrite col_set, decide_True. }
  assert (N3 : num_keypoints f3 = num_keypoints f + length kps).
  { rewrite <- N1, <- N2. rewrite !num_col. unfold f3. by rewrite col_set, decide_False. }
  assert (L3 : length (col f3 name) = num_keypoints f3).
  { rewrite N3, C3, !app_length, replicate_length. lia. }
  assert (C4 : col f' name = col f3 name) by exact (run_full post name f3 f' Hk2' E Hn L3).
  assert (N4 : num_keypoints f' = num_keypoints f3) by (rewrite !num_col; by rewrite (run_num post f3 f' Hk2' E)).
  split; [lia|]. split; [rewrite C4; lia|]. rewrite C4, C3. split; [|split].
  - intros i v Hv. rewrite lookup_app_r by lia. rewrite lookup_app_r by (rewrite replicate_length; lia).
    rewrite replicate_length. rewrite <- Hv. f_equal. lia.
  - intros i Hi. rewrite lookup_app_r by lia. rewrite lookup_app_l by (rewrite replicate_length; lia).
    apply lookup_replicate_2. lia.
  - intros i Hi. by rewrite lookup_app_l.
Qed.
Print Assumptions vx_batch_aligned.
Example vx_batch_aligned_ex : exists f f', run empty_frame [EKp [Some 1; Some 2]%Z; ECol TRACK [Some 4]%Z (Some (-1)%Z)] = Ok f /\
  run f (EKp [Some 3; Some 4]%Z :: [EDesc [1; 2]%Z 0%Z] ++ ECol SCALE [Some 7; Some 8]%Z (Some 0%Z) :: [ECol TRACK [] (Some (-1)%Z)]) = Ok f' /\
  col f' SCALE = [Some 0; Some 0; Some 7; Some 8]%Z /\ col f' TRACK = [Some (-1); Some 4; Some (-1); Some (-1)]%Z.
Proof. eexists _, _. split_and!; vm_compute; reflexivity. Qed.

(** ** C36. If every channel that the function handles has one column per track id and there is at most
    one descriptor block, exactly the columns with a non-negative track id remain, in order, in all of
    these channels, and the discarded indices are reported in increasing order. Missing: the 3D positions
    and time offsets, and several descriptor blocks (see the refutations). *)
Theorem vx_discard_partial : forall f ids,
  cols f !! TRACK = Some (Some <$> ids) ->
  (forall name d, name ∈ [KP; UNC; ORI; SCORE; SCALE; TRACK] -> cols f !! name = Some d -> length d = length ids) ->
  (blocks f = None \/ exists b, blocks f = Some [b] /\ length b = length ids) ->
  exists f' idx, discard_untracked f = Ok (f', idx) /\
    StronglySorted lt idx /\ (forall i, i ∈ idx <-> exists t, ids !! i = Some t /\ (t < 0)%Z) /\
    (forall name, name ∈ [KP; UNC; ORI; SCORE; SCALE; TRACK] -> cols f' !! name = keep ids <$> cols f !! name) /\
    (forall name, name ∉ [KP; UNC; ORI; SCORE; SCALE; TRACK] -> cols f' !! name = cols f !! name) /\
    blocks f' = (fun bs : list (list Z) => keep ids <$> bs) <$> blocks f /\ types f' = types f.
Proof.
  intros f ids Ht Hl Hb. destruct (discard_ok f ids Ht Hl Hb) as (f' & E & H1 & H2 & H3 & H4).
  exists f', (negs 0 ids). split; [done|]. split; [apply negs_sorted|]. split; [|done].
  intros i. rewrite negs_spec. split.
  - intros (j & t & -> & ? & ?). by exists t.
  - intros (t & ? & ?). by exists i, t.
Qed.
Print Assumptions vx_discard_partial.
Definition tracked : frame :=
  Frame {[ KP := [Some 10; Some 11; Some 12]%Z; TRACK := [Some (-1); Some 5; Some (-1)]%Z; SCALE := [Some 1; Some 2; Some 3]%Z ]}
    (Some [[7; 8; 9]%Z]) (Some [0]%Z).
Example vx_discard_partial_ex : exists f', discard_untracked tracked = Ok (f', [0; 2]) /\
  col f' KP = [Some 11]%Z /\ col f' TRACK = [Some 5]%Z /\ col f' SCALE = [Some 2]%Z /\ blocks f' = Some [[8]]%Z.
Proof. eexists. split_and!; vm_compute; reflexivity. Qed.
(** What [keep] retains. *)
Theorem vx_keep : forall {A} (ids : list Z) (l : list A), length l = length ids ->
  keep ids l `sublist_of` l /\
  (forall x, x ∈ keep ids l <-> exists i t, ids !! i = Some t /\ (0 <= t)%Z /\ l !! i = Some x).
Proof.
  intros A ids l Hl. split.
  - revert l Hl. induction ids as [|t ids IH]; intros [|x l] Hl; try done. rewrite keep_cons. cbn in Hl.
    destruct (t <? 0)%Z; cbn; [apply sublist_cons|apply sublist_skip]; apply IH; lia.
  - intros x. unfold keep. rewrite elem_of_list_fmap. split.
    + intros ([t y] & -> & [Ht Hin]%elem_of_list_filter). apply elem_of_list_lookup in Hin as [i Hi].
      apply lookup_zip_with_Some in Hi as (t' & y' & [= -> ->] & H1 & H2). by exists i, t'.
    + intros (i & t & H1 & H2 & H3). exists (t, x). split; [done|]. apply elem_of_list_filter. split; [done|].
      apply elem_of_list_lookup. exists i. apply lookup_zip_with_Some. by exists t, x.
Qed.
Print Assumptions vx_keep.
(** Violations: 3D positions (and time offsets) keep their old columns, so they no longer belong to the
    keypoints with the same index. *)
Theorem vx_discard_positions_refuted : exists f f' idx,
  (forall name d, cols f !! name = Some d -> length d = num_keypoints f) /\
  discard_untracked f = Ok (f', idx) /\ num_keypoints f' = 1 /\
  col f POS3 !! 1 = Some (Some 31%Z) /\ col f KP !! 1 = Some (Some 11%Z) /\
  col f' KP !! 0 = Some (Some 11%Z) /\ col f' POS3 !! 0 = Some (Some 30%Z) /\ length (col f' POS3) = 2.
Proof.
  exists (Frame {[ KP := [Some 10; Some 11]%Z; TRACK := [Some (-1); Some 5]%Z; POS3 := [Some 30; Some 31]%Z ]} None None).
  eexists _, _. split.
  - intros name d Hd. cbn in Hd. repeat (apply lookup_insert_Some in Hd as [[<- <-]|[_ Hd]]; [done|]).
    by rewrite lookup_empty in Hd.
  - split_and!; vm_compute; reflexivity.
Qed.
Print Assumptions vx_discard_positions_refuted.
(** A frame with two descriptor blocks aborts, although all channels are aligned. *)
Theorem vx_discard_blocks_refuted : exists f,
  (forall name d, cols f !! name = Some d -> length d = num_keypoints f) /\
  num_descriptors f = num_keypoints f /\ discard_untracked f = Abort.
Proof.
  exists (Frame {[ KP := [Some 10; Some 11]%Z; TRACK := [Some (-1); Some 5]%Z ]} (Some [[7]; [8]]%Z) (Some [0; 1]%Z)).
  split; [|split; vm_compute; reflexivity].
  intros name d Hd. cbn in Hd. repeat (apply lookup_insert_Some in Hd as [[<- <-]|[_ Hd]]; [done|]).
  by rewrite lookup_empty in Hd.
Qed.
Print Assumptions vx_discard_blocks_refuted.

(** ** C37. The block found is the one whose range contains the index, the remainder is the offset in it;
    an index beyond all blocks aborts, no other does. *)
Theorem vx_block_lookup : forall bs i,
  (forall b off, block_for_index bs 0 i = Some (b, off) <->
     exists blk, bs !! b = Some blk /\ off < length blk /\ i = before bs b + off) /\
  (block_for_index bs 0 i = None <-> length (concat bs) <= i).
Proof.
  intros bs i. split; [|apply block_for_index_None]. intros b off. rewrite block_for_index_spec. split.
  - intros (j & blk & -> & ? & ? & ?). by exists blk.
  - intros (blk & ? & ? & ?). by exists b, blk.
Qed.
Print Assumptions vx_block_lookup.
Example vx_block_lookup_ex : block_for_index [[1; 2]; []; [3; 4; 5]]%Z 0 3 = Some (2, 1).
Proof. reflexivity. Qed.
(** So descriptors are numbered consecutively through all blocks, and each has the type of its block. *)
Theorem vx_descriptors : forall f bs ts, blocks f = Some bs -> types f = Some ts -> length bs = length ts ->
  num_descriptors f = length (concat bs) /\
  (forall i, get_descriptor f i = concat bs !! i) /\
  (forall b blk off, bs !! b = Some blk -> off < length blk ->
     get_descriptor f (before bs b + off) = blk !! off /\ get_descriptor_type f (before bs b + off) = ts !! b).
Proof.
  intros f bs ts Hb Ht Hl.
  assert (G : forall b blk off, bs !! b = Some blk -> off < length blk ->
     block_for_index bs 0 (before bs b + off) = Some (b, off)).
  { intros b blk off H1 H2. apply block_for_index_spec. by exists b, blk. }
  split; [unfold num_descriptors; by rewrite Hb, foldl_length|]. split.
  - intros i. unfold get_descriptor. rewrite Hb. cbn [mbind option_bind].
    destruct (block_for_index bs 0 i) as [[b off]|] eqn:E; cbn [mbind option_bind].
    + apply block_for_index_spec in E as (j & blk & -> & Hj & Ho & ->). rewrite Nat.add_0_l, Hj. cbn.
      by rewrite (concat_lookup bs j blk off Hj Ho).
    + apply block_for_index_None in E. symmetry. by apply lookup_ge_None.
  - intros b blk off H1 H2. unfold get_descriptor, get_descriptor_type. rewrite Hb, Ht. cbn [mbind option_bind].
    rewrite (G b blk off H1 H2). cbn [mbind option_bind]. by rewrite H1.
Qed.
Print Assumptions vx_descriptors.
Example vx_descriptors_ex : let f := Frame ∅ (Some [[1; 2]; [3]]%Z) (Some [5; 6]%Z) in
  get_descriptor f 2 = Some 3%Z /\ get_descriptor_type f 2 = Some 6%Z /\ num_descriptors f = 3.
Proof. split_and!; reflexivity. Qed.
(** Without a descriptor channel there are no descriptors. *)
Theorem vx_num_descriptors : forall f, num_descriptors f = length (concat (default [] (blocks f))).
Proof. intros f. unfold num_descriptors. destruct (blocks f) as [bs|]; [by rewrite foldl_length|done]. Qed.
Print Assumptions vx_num_descriptors.
(** The range of a type is the range of the first block of this type, ... *)
Theorem vx_type_range : forall f bs ts t st sz, blocks f = Some bs -> types f = Some ts ->
  start_and_size f t = Some (st, sz) <->
  exists b blk, ts !! b = Some t /\ (forall b', b' < b -> ts !! b' <> Some t) /\ bs !! b = Some blk /\
    st = before bs b /\ sz = length blk.
Proof. exact start_and_size_spec. Qed.
Print Assumptions vx_type_range.
(** ... one value of a type is the element of its range, ... *)
Theorem vx_cell_of_type : forall f name t i r, col_of_type f name t = Some r ->
  cell_of_type f name t i = r !! i.
Proof.
  intros f name t i r. unfold col_of_type, cell_of_type.
  destruct (start_and_size f t) as [[st sz]|]; [|done]. cbn [mbind option_bind].
  destruct (cols f !! name) as [d|]; [|done]. cbn [mbind option_bind].
  destruct (Nat.leb_spec (st + sz) (length d)) as [H|H]; [|done]. intros [= <-].
  destruct (Nat.ltb_spec i sz) as [Hi|Hi].
  - by rewrite lookup_take, lookup_drop.
  - symmetry. apply lookup_ge_None. rewrite take_length. lia.
Qed.
Print Assumptions vx_cell_of_type.
(** ... and if the types are distinct, the ranges partition the keypoints: reading a channel type by type
    gives the whole channel, with pieces as long as the descriptor blocks. *)
Theorem vx_types_partition : forall f bs ts name d, blocks f = Some bs -> types f = Some ts ->
  NoDup ts -> length bs = length ts -> cols f !! name = Some d -> length d = length (concat bs) ->
  exists pieces, mapM (col_of_type f name) ts = Some pieces /\ concat pieces = d /\
    length <$> pieces = length <$> bs.
Proof.
  intros f bs ts name d Hb Ht Hnd Hl Hd Hlen.
  exists (imap (fun b blk => take (length blk) (drop (before bs b) d)) bs).
  split; [|split].
  - apply mapM_Some. apply Forall2_same_length_lookup. split; [by rewrite imap_length|].
    intros i t piece Hti Hpi. apply list_lookup_imap_Some in Hpi as (blk & Hbi & ->).
    unfold col_of_type.
    assert (S : start_and_size f t = Some (before bs i, length blk)).
    { apply (start_and_size_spec f bs ts t _ _ Hb Ht). exists i, blk. split_and!; try done.
      intros b' Hb' Ht'. pose proof (NoDup_lookup _ _ _ _ Hnd Hti Ht'). lia. }
    rewrite S. cbn [mbind option_bind]. rewrite Hd. cbn [mbind option_bind].
    rewrite (proj2 (Nat.leb_le _ _)); [done|]. rewrite Hlen. by apply before_bound.
  - by apply cut_concat.
  - apply list_eq. intros i. rewrite !list_lookup_fmap, list_lookup_imap.
    destruct (bs !! i) as [blk|] eqn:E; [|done]. cbn. f_equal. rewrite take_length, drop_length.
    pose proof (before_bound bs i blk E). lia.
Qed.
Print Assumptions vx_types_partition.
Example vx_types_partition_ex :
  mapM (col_of_type (Frame {[SCALE := [Some 1; Some 2; Some 3]%Z]} (Some [[1; 2]; [3]]%Z) (Some [5; 6]%Z)) SCALE) [5; 6]%Z
  = Some [[Some 1; Some 2]; [Some 3]]%Z.
Proof. vm_compute. reflexivity. Qed.
(** The number of keypoints of a type is the size of its block, and zero without keypoints or without the type. *)
Theorem vx_num_of_type : forall f t,
  (cols f !! KP = None -> num_of_type f t = Some 0) /\
  (forall ts bs, types f = Some ts -> blocks f = Some bs -> t ∉ ts -> num_of_type f t = Some 0) /\
  (forall d, cols f !! KP <> None -> descriptors_of_type f t = Some d -> num_of_type f t = Some (length d)).
Proof.
  intros f t. unfold num_of_type, descriptors_of_type. split_and!.
  - by intros ->.
  - intros ts bs -> -> H. apply (type_block_None t ts 0) in H. cbn. rewrite H. by destruct (cols f !! KP).
  - intros d H. destruct (cols f !! KP); [|done]. destruct (types f) as [ts|]; [|done]. destruct (blocks f) as [bs|]; cbn; [|by destruct (type_block ts 0 t)].
    destruct (type_block ts 0 t) as [b|]; cbn; [|done]. by intros ->.
Qed.
Print Assumptions vx_num_of_type.
(** With two blocks of the same type (which extendDescriptors accepts) the second one is out of reach. *)
Theorem vx_duplicate_type_refuted : exists f,
  run empty_frame [EKp [Some 1; Some 2]%Z; EDesc [7]%Z 0%Z; EDesc [8]%Z 0%Z] = Ok f /\
  get_descriptor_type f 1 = Some 0%Z /\ get_descriptor f 1 = Some 8%Z /\
  col_of_type f KP 0 = Some [Some 1%Z] /\ descriptors_of_type f 0 = Some [7%Z] /\ num_of_type f 0 = Some 1.
Proof. eexists. split_and!; vm_compute; reflexivity. Qed.
Print Assumptions vx_duplicate_type_refuted.

(** ** C66: clearing. With at most one descriptor block nothing remains ... *)
Theorem vx_clear_partial : forall f, (blocks f = None /\ types f = None) \/
  (exists b t, blocks f = Some [b] /\ types f = Some [t]) ->
  exists f', clear_keypoint_channels f = Ok f' /\ num_keypoints f' = 0 /\ num_descriptors f' = 0 /\
    (forall name, name ∈ [KP; TRACK; UNC; ORI; SCORE; SCALE] -> cols f' !! name = Some []) /\
    (forall name, name ∉ [KP; TRACK; UNC; ORI; SCORE; SCALE] -> cols f' !! name = cols f !! name).
Proof.
  intros f H. unfold clear_keypoint_channels, set_descriptors. cbn [set_col blocks types].
  assert (E : exists f', clear_keypoint_channels f = Ok f' /\ blocks f' = Some [[]] /\
     cols f' = <[SCALE:=[]]> (<[SCORE:=[]]> (<[ORI:=[]]> (<[UNC:=[]]> (<[TRACK:=[]]> (<[KP:=[]]> (cols f))))))).
  { unfold clear_keypoint_channels, set_descriptors. cbn [set_col blocks types].
    destruct H as [[-> ->]|(b & t & -> & ->)]; eexists; split_and!; reflexivity. }
  destruct E as (f' & E & Eb & Ec). exists f'. split; [exact E|].
  assert (A : forall name, name ∈ [KP; TRACK; UNC; ORI; SCORE; SCALE] -> cols f' !! name = Some []).
  { intros name Hin. rewrite Ec. rewrite !elem_of_cons in Hin.
    repeat match goal with |- <[?k:=_]> _ !! _ = _ =>
      destruct (decide (k = name)) as [<-|?]; [by rewrite lookup_insert|rewrite lookup_insert_ne by done] end.
    exfalso. destruct Hin as [?|[?|[?|[?|[?|[?|Hin]]]]]]; try congruence. by apply elem_of_nil in Hin. }
  split; [|split; [|split; [exact A|]]].
  - unfold num_keypoints. rewrite A; [done|]. by left.
  - unfold num_descriptors. by rewrite Eb.
  - intros name Hin. rewrite Ec. rewrite !lookup_insert_ne; [done|..]; intros <-; apply Hin; set_solver.
Qed.
Print Assumptions vx_clear_partial.
Example vx_clear_partial_ex : exists f', clear_keypoint_channels tracked = Ok f' /\ num_keypoints f' = 0.
Proof. eexists. split; vm_compute; reflexivity. Qed.
(** ... but with two blocks the second one survives without its keypoints. *)
Theorem vx_clear_refuted : exists f f', run empty_frame [EKp [Some 1; Some 2]%Z; EDesc [7]%Z 0%Z; EDesc [8]%Z 1%Z] = Ok f /\
  clear_keypoint_channels f = Ok f' /\ num_keypoints f' = 0 /\ num_descriptors f' = 1 /\
  num_of_type f' 1 = Some 1 /\ col_of_type f' KP 1 = None.
Proof. eexists _, _. split_and!; vm_compute; reflexivity. Qed.
Print Assumptions vx_clear_refuted.

(** ** C67: selecting keypoints for bearing vectors. *)
Theorem vx_select_partial : forall kps idx, Forall (fun i => i < length kps) idx ->
  exists r, select_keypoints kps (length kps) idx = Ok r /\ Forall2 (fun i x => kps !! i = Some x) idx r.
Proof.
  intros kps idx H. induction H as [|i idx Hi H (r & E & F)]; [by exists []|].
  cbn [select_keypoints]. rewrite (proj2 (Nat.leb_le _ _)) by lia. cbn [negb].
  destruct (lookup_lt_is_Some_2 kps i Hi) as [x Hx]. rewrite Hx, E. cbn [bind].
  exists (x :: r). split; [done|]. by constructor.
Qed.
Print Assumptions vx_select_partial.
Example vx_select_partial_ex : select_keypoints [Some 4; Some 5]%Z 2 [1; 0; 1] = Ok [Some 5; Some 4; Some 5]%Z.
Proof. reflexivity. Qed.
(** The range check accepts the index one past the last keypoint, which is then read. *)
Theorem vx_select_past_end : forall kps, select_keypoints kps (length kps) [length kps] = Ub.
Proof.
  intros kps. cbn [select_keypoints]. rewrite Nat.leb_refl. cbn [negb].
  by rewrite (proj2 (lookup_ge_None kps (length kps))).
Qed.
Print Assumptions vx_select_past_end.
Theorem vx_select_refuted : exists kps idx, kps <> [] /\ select_keypoints kps (length kps) idx = Ub.
Proof. exists [Some 4%Z], [1]. done. Qed.
Print Assumptions vx_select_refuted.
