(** Proofs about visual frames. *)
From Coq Require Import ZArith Bool Lia.
From stdpp Require Import list gmap strings sorting.
From Verif Require Import StlHelpersModel StlHelpersSpec StlHelpersProofs FrameModel FrameSpec.
Local Open Scope nat_scope.

(** ** Extending. *)
Lemma extend_data_ok d new n dflt : length d + length new <= n ->
  extend_data d new n dflt = Ok (d ++ replicate (n - (length d + length new)) dflt ++ new).
Proof.
  intros H. unfold extend_data. rewrite (proj2 (Nat.leb_le _ _) H). cbn [negb].
  set (p := n - (length d + length new)).
  assert (Hlen : length (conservative_resize d n) = n).
  { unfold conservative_resize. rewrite app_length, take_length, replicate_length. lia. }
  assert (Hres : conservative_resize d n = d ++ replicate (p + length new) None).
  { unfold conservative_resize. rewrite take_ge by lia. do 2 f_equal. lia. }
  assert (Hfinal : forall x : list cell, length x = p ->
    write_segment (d ++ x ++ replicate (length new) None) (length d + p) new = Ok (d ++ x ++ new)).
  { intros x Hx. unfold write_segment. rewrite !app_length, replicate_length.
    rewrite (proj2 (Nat.leb_le _ _)) by lia. f_equal.
    rewrite (drop_ge (d ++ x ++ _)) by (rewrite !app_length, replicate_length; lia). rewrite app_nil_r.
    rewrite app_assoc, take_app_alt by (rewrite app_length; lia). by rewrite app_assoc. }
  destruct (Nat.ltb_spec 0 p) as [Hp|Hp].
  - rewrite Hres. unfold write_segment at 1. rewrite app_length, !replicate_length.
    rewrite (proj2 (Nat.leb_le _ _)) by lia. cbn [bind].
    rewrite take_app, drop_app_ge by lia. replace (length d + p - length d) with p by lia.
    rewrite drop_replicate. replace (p + length new - p) with (length new) by lia.
    apply Hfinal. by rewrite replicate_length.
  - assert (p = 0) as Hp0 by lia. cbn [bind]. rewrite Hres, Hp0. exact (eq_trans (f_equal3 write_segment eq_refl (f_equal _ (eq_sym Hp0)) eq_refl) (Hfinal [] (eq_sym Hp0))).
Qed.
Lemma extend_data_abort d new n dflt : n < length d + length new -> extend_data d new n dflt = Abort.
Proof. intros H. unfold extend_data. by rewrite (proj2 (Nat.leb_gt _ _) H). Qed.
Lemma extend_keypoints_ok f new : extend_keypoints f new = Ok (set_col f KP (col f KP ++ new)).
Proof.
  unfold extend_keypoints, write_segment. set (k := col f KP).
  assert (E : conservative_resize k (length k + length new) = k ++ replicate (length new) None).
  { unfold conservative_resize. rewrite take_ge by lia. do 2 f_equal. lia. }
  rewrite E, app_length, replicate_length, Nat.leb_refl. cbn [bind]. do 2 f_equal.
  rewrite take_app, drop_ge by (rewrite app_length, replicate_length; lia). by rewrite app_nil_r.
Qed.

Lemma num_col f : num_keypoints f = length (col f KP).
Proof. unfold num_keypoints, col. by destruct (cols f !! KP). Qed.
Lemma col_set f n d m : col (set_col f n d) m = if decide (n = m) then d else col f m.
Proof.
  unfold col, set_col. cbn. destruct (decide (n = m)) as [->|Hne].
  - by rewrite lookup_insert.
  - by rewrite lookup_insert_ne.
Qed.

Lemma step_col f name new d : name <> KP ->
  step f (ECol name new d) =
  if decide (length (col f name) + length new <= num_keypoints f)
  then Ok (set_col f name (col f name ++ replicate (num_keypoints f - (length (col f name) + length new)) d ++ new))
  else Abort.
Proof.
  intros Hn. cbn [step]. rewrite bool_decide_eq_false_2 by done. unfold extend_col.
  destruct (decide _) as [H|H]; [by rewrite extend_data_ok|]. by rewrite extend_data_abort by lia.
Qed.

Lemma step_prefix f a f' : step f a = Ok f' ->
  (forall n, col f n `prefix_of` col f' n) /\
  (default [] (blocks f) `prefix_of` default [] (blocks f')).
Proof.
  destruct a as [new|name new d|new t]; intros E.
  - cbn [step] in E. rewrite extend_keypoints_ok in E. injection E as <-. split; [|done].
    intros n. rewrite col_set. destruct (decide (KP = n)) as [<-|]; [by eexists|done].
  - destruct (decide (name = KP)) as [->|Hn]; [cbn [step] in E; by rewrite bool_decide_eq_true_2 in E|].
    rewrite step_col in E by done. destruct (decide _); [|done]. injection E as <-. split; [|done].
    intros n. rewrite col_set. destruct (decide (name = n)) as [<-|]; [by eexists|done].
  - cbn [step] in E. unfold extend_descriptors in E.
    destruct (blocks f) as [b|] eqn:Eb; destruct (types f) as [ty|] eqn:Et; try done;
      destruct (length _ =? length _); try done; injection E as <-; split; try done; cbn; by eexists.
Qed.
Lemma run_prefix acts : forall f f', run f acts = Ok f' ->
  (forall n, col f n `prefix_of` col f' n) /\
  (default [] (blocks f) `prefix_of` default [] (blocks f')).
Proof.
  induction acts as [|a acts IH]; intros f f' E; cbn [run] in E; [by injection E as <-|].
  destruct (step f a) as [f1| |] eqn:E1; try done. cbn [bind] in E.
  destruct (step_prefix _ _ _ E1) as [H1 H2]. destruct (IH _ _ E) as [H3 H4].
  split; [intros n; transitivity (col f1 n); auto|transitivity (default [] (blocks f1)); auto].
Qed.
Lemma run_app acts1 acts2 f : run f (acts1 ++ acts2) = bind (run f acts1) (fun f' => run f' acts2).
Proof.
  revert f. induction acts1 as [|a acts1 IH]; intros f; [done|]. cbn [run app].
  destruct (step f a); cbn [bind]; [apply IH|done|done].
Qed.

Definition is_kp (a : act) : bool := match a with EKp _ => true | _ => false end.
Lemma run_num acts : forall f f', forallb (fun a => negb (is_kp a)) acts = true -> run f acts = Ok f' ->
  col f' KP = col f KP.
Proof.
  induction acts as [|a acts IH]; intros f f' Hk E; cbn [run] in E; [by injection E as <-|].
  cbn [forallb] in Hk. apply andb_prop in Hk as [Hk1 Hk].
  destruct (step f a) as [f1| |] eqn:E1; try done. cbn [bind] in E. rewrite (IH _ _ Hk E).
  destruct a as [new|name new d|new t]; [done| |].
  - destruct (decide (name = KP)) as [->|Hn]; [cbn [step] in E1; by rewrite bool_decide_eq_true_2 in E1|].
    rewrite step_col in E1 by done. destruct (decide _); [|done]. injection E1 as <-.
    rewrite col_set. by destruct (decide (name = KP)).
  - cbn [step] in E1. unfold extend_descriptors in E1.
    destruct (blocks f) as [b|]; destruct (types f) as [ty|]; try done;
      destruct (length _ =? length _); try done; by injection E1 as <-.
Qed.
(** A full channel stays as it is until the next keypoints. *)
Lemma run_full acts name : forall f f', forallb (fun a => negb (is_kp a)) acts = true -> run f acts = Ok f' ->
  name <> KP -> length (col f name) = num_keypoints f -> col f' name = col f name.
Proof.
  induction acts as [|a acts IH]; intros f f' Hk E Hn Hl; cbn [run] in E; [by injection E as <-|].
  cbn [forallb] in Hk. apply andb_prop in Hk as [Hk1 Hk].
  destruct (step f a) as [f1| |] eqn:E1; try done. cbn [bind] in E.
  assert (H1 : col f1 name = col f name).
  { destruct a as [new|name' new d|new t]; [done| |].
    - destruct (decide (name' = KP)) as [->|Hn']; [cbn [step] in E1; by rewrite bool_decide_eq_true_2 in E1|].
      rewrite step_col in E1 by done. destruct (decide _) as [Hle|]; [|done]. injection E1 as <-.
      rewrite col_set. destruct (decide (name' = name)) as [->|]; [|done].
      destruct new; [|cbn in Hle; lia]. rewrite app_nil_r. replace (_ - _) with 0 by (cbn; lia).
      by rewrite app_nil_r.
    - cbn [step] in E1. unfold extend_descriptors in E1.
      destruct (blocks f) as [b|]; destruct (types f) as [ty|]; try done;
        destruct (length _ =? length _); try done; by injection E1 as <-. }
  rewrite (IH _ _ Hk E Hn); [done|]. rewrite H1, Hl.
  assert (Ek : col f1 KP = col f KP).
  { apply (run_num [a]); [by cbn; rewrite Hk1|]. cbn [run]. by rewrite E1. }
  by rewrite !num_col, Ek.
Qed.

(** ** Discarding. *)
Fixpoint negs (i : nat) (ids : list Z) : list nat :=
  match ids with
  | [] => []
  | t :: ids' => if (t <? 0)%Z then i :: negs (S i) ids' else negs (S i) ids'
  end.
Lemma untracked_ok ids : forall i, untracked i (Some <$> ids) = Ok (negs i ids).
Proof.
  induction ids as [|t ids IH]; intros i; [done|].
  rewrite fmap_cons. cbn [untracked negs]. rewrite IH. cbn [bind]. by destruct (t <? 0)%Z.
Qed.
Lemma negs_spec ids : forall i k, k ∈ negs i ids <-> exists j t, k = i + j /\ ids !! j = Some t /\ (t < 0)%Z.
Proof.
  induction ids as [|t ids IH]; intros i k; cbn [negs].
  - split; [by intros ?%elem_of_nil|]. by intros (j & ? & _ & ? & _).
  - assert (E : k ∈ negs (S i) ids <-> exists j t', k = i + S j /\ ids !! j = Some t' /\ (t' < 0)%Z).
    { rewrite IH. split; intros (j & t' & -> & ? & ?); exists j, t'; (split; [lia|done]). }
    assert (F : (exists j t', k = i + j /\ (t :: ids) !! j = Some t' /\ (t' < 0)%Z) <->
       (k = i /\ (t < 0)%Z) \/ (exists j t', k = i + S j /\ ids !! j = Some t' /\ (t' < 0)%Z)).
    { split.
      - intros ([|j] & t' & -> & Hj & ?); cbn in Hj; [left; injection Hj as ->; split; [lia|done]|right; by exists j, t'].
      - intros [[-> ?]|(j & t' & -> & ? & ?)]; [exists 0, t; split; [lia|done]|by exists (S j), t']. }
    rewrite F. destruct (Z.ltb_spec t 0) as [Ht|Ht].
    + rewrite elem_of_cons, E. split; [intros [->|?]; [by left|by right]|intros [[-> _]|?]; [by left|by right]].
    + rewrite E. split; [by right|]. intros [[_ ?]|?]; [lia|done].
Qed.
Lemma negs_sorted ids : forall i, StronglySorted lt (negs i ids).
Proof.
  induction ids as [|t ids IH]; intros i; cbn [negs]; [constructor|].
  destruct (t <? 0)%Z; [|apply IH]. constructor; [apply IH|].
  apply Forall_forall. intros k (j & ? & -> & _ & _)%negs_spec. lia.
Qed.
Lemma keep_cons {A} t ids (x : A) l : keep (t :: ids) (x :: l) = (if (t <? 0)%Z then [] else [x]) ++ keep ids l.
Proof.
  unfold keep. cbn [zip zip_with]. rewrite filter_cons. cbn [fst].
  destruct (Z.ltb_spec t 0); destruct (decide (0 <= t)%Z); try lia; done.
Qed.
Lemma without_keep {A} ids : forall (l : list A) i, length l = length ids ->
  without_from i (negs i ids) l = keep ids l.
Proof.
  induction ids as [|t ids IH]; intros [|x l] i Hl; try done. cbn in Hl.
  rewrite without_from_cons, keep_cons.
  assert (Hx : i ∈ negs i (t :: ids) <-> (t < 0)%Z).
  { rewrite negs_spec. split.
    - intros (j & t' & ? & Hj & ?). assert (j = 0) as -> by lia. cbn in Hj. by injection Hj as ->.
    - intros ?. exists 0, t. split; [lia|done]. }
  assert (Ht : without_from (S i) (negs i (t :: ids)) l = keep ids l).
  { rewrite <- (IH l (S i)) by lia. apply without_from_ext. intros k Hk. cbn [negs].
    destruct (t <? 0)%Z; [|done]. rewrite elem_of_cons. split; [intros [->|?]; [lia|done]|by right]. }
  rewrite Ht. f_equal. destruct (Z.ltb_spec t 0); destruct (decide (i ∈ negs i (t :: ids))) as [Hd|Hd]; try done.
  - exfalso. apply Hd. by apply Hx.
  - apply Hx in Hd. lia.
Qed.
Lemma erase_negs {A} ids (l : list A) : negs 0 ids <> [] -> length l = length ids ->
  erase_container (negs 0 ids) (length ids) l = Ok (keep ids l).
Proof.
  intros Hne Hl. rewrite <- Hl, erase_container_ok; [|done|apply negs_sorted|].
  - by rewrite without_alt, without_keep.
  - apply Forall_forall. intros k (j & t & -> & Hj & _)%negs_spec.
    rewrite Hl. by apply lookup_lt_Some in Hj.
Qed.
Lemma keep_all {A} ids : forall (l : list A), negs 0 ids = [] -> length l = length ids -> keep ids l = l.
Proof.
  intros l Hn Hl. rewrite <- (without_keep ids l 0 Hl), Hn. apply without_from_all. intros i Hi. by apply elem_of_nil in Hi.
Qed.

Lemma erase_col_ok ids name f : negs 0 ids <> [] ->
  (forall d, cols f !! name = Some d -> length d = length ids) ->
  exists f', erase_col (negs 0 ids) (length ids) name f = Ok f' /\
    blocks f' = blocks f /\ types f' = types f /\
    forall m, cols f' !! m = if decide (name = m) then keep ids <$> cols f !! m else cols f !! m.
Proof.
  intros Hne Hl. unfold erase_col. destruct (cols f !! name) as [d|] eqn:E.
  - rewrite erase_negs by eauto. eexists. split; [done|]. split; [done|]. split; [done|].
    intros m. unfold set_col. cbn. destruct (decide (name = m)) as [->|].
    + by rewrite lookup_insert, E.
    + by rewrite lookup_insert_ne.
  - exists f. split_and!; [done..|]. intros m. destruct (decide (name = m)) as [->|]; [by rewrite E|done].
Qed.

Definition erased : list string := [KP; UNC; ORI; SCORE; SCALE; TRACK].
Lemma discard_ok f ids : cols f !! TRACK = Some (Some <$> ids) ->
  (forall name d, name ∈ erased -> cols f !! name = Some d -> length d = length ids) ->
  (blocks f = None \/ exists b, blocks f = Some [b] /\ length b = length ids) ->
  exists f', discard_untracked f = Ok (f', negs 0 ids) /\
    (forall name, name ∈ erased -> cols f' !! name = keep ids <$> cols f !! name) /\
    (forall name, name ∉ erased -> cols f' !! name = cols f !! name) /\
    blocks f' = (fun bs : list (list Z) => keep ids <$> bs) <$> blocks f /\ types f' = types f.
Proof.
  intros Ht Hl Hb. unfold discard_untracked. rewrite Ht, untracked_ok. cbn [bind].
  destruct (negs 0 ids) as [|i0 idx] eqn:En.
  - exists f. split; [done|]. split_and!; [|done| |done].
    + intros name Hin. destruct (cols f !! name) as [d|] eqn:E; [|done]. cbn. by rewrite keep_all by eauto.
    + destruct Hb as [->|(b & -> & Hbl)]; [done|]. cbn. by rewrite keep_all.
  - rewrite <- En. assert (Hne : negs 0 ids <> []) by (by rewrite En). clear En.
    rewrite fmap_length.
    assert (In : forall n, n ∈ erased <-> n = KP \/ n = UNC \/ n = ORI \/ n = SCORE \/ n = SCALE \/ n = TRACK).
    { intros n. unfold erased. rewrite !elem_of_cons, elem_of_nil. tauto. }
    destruct (erase_col_ok ids KP f Hne) as (f1 & -> & B1 & T1 & C1); [intros d; apply Hl, In; tauto|]. cbn [bind].
    destruct (erase_col_ok ids UNC f1 Hne) as (f2 & -> & B2 & T2 & C2).
    { intros d. rewrite C1. rewrite decide_False by done. apply Hl, In. tauto. } cbn [bind].
    destruct (erase_col_ok ids ORI f2 Hne) as (f3 & -> & B3 & T3 & C3).
    { intros d. rewrite C2, C1. rewrite !decide_False by done. apply Hl, In. tauto. } cbn [bind].
    destruct (erase_col_ok ids SCORE f3 Hne) as (f4 & -> & B4 & T4 & C4).
    { intros d. rewrite C3, C2, C1. rewrite !decide_False by done. apply Hl, In. tauto. } cbn [bind].
    destruct (erase_col_ok ids SCALE f4 Hne) as (f5 & -> & B5 & T5 & C5).
    { intros d. rewrite C4, C3, C2, C1. rewrite !decide_False by done. apply Hl, In. tauto. } cbn [bind].
    assert (D : exists f6, erase_descriptors (negs 0 ids) (length ids) f5 = Ok f6 /\
       blocks f6 = (fun bs : list (list Z) => keep ids <$> bs) <$> blocks f /\ types f6 = types f /\ cols f6 = cols f5).
    { unfold erase_descriptors. rewrite B5, B4, B3, B2, B1.
      destruct Hb as [Hb|(b & -> & Hbl)].
      - rewrite Hb. exists f5. split_and!; [done| |congruence|done]. cbn. congruence.
      - rewrite erase_negs by done. eexists. split_and!; [done|done|cbn; congruence|done]. }
    destruct D as (f6 & -> & B6 & T6 & C6). cbn [bind].
    destruct (erase_col_ok ids TRACK f6 Hne) as (f7 & -> & B7 & T7 & C7).
    { intros d. rewrite C6, C5, C4, C3, C2, C1. rewrite !decide_False by done. apply Hl, In. tauto. } cbn [bind].
    exists f7. split; [done|]. split_and!; [| |congruence|congruence].
    + intros name Hin. apply In in Hin. rewrite C7, C6, C5, C4, C3, C2, C1.
      destruct Hin as [->|[->|[->|[->|[->| ->]]]]]; reflexivity.
    + intros name Hin. rewrite In in Hin. rewrite C7, C6, C5, C4, C3, C2, C1.
      rewrite !decide_False; [done|..]; intros <-; tauto.
Qed.

(** ** Blocks. *)
Lemma foldl_length (bs : list (list Z)) : forall n, foldl (fun n b => n + length b) n bs = n + length (concat bs).
Proof.
  induction bs as [|b bs IH]; intros n; cbn; [lia|]. rewrite IH, app_length. lia.
Qed.
Lemma block_for_index_spec bs : forall k i b off, block_for_index bs k i = Some (b, off) <->
  exists j blk, b = k + j /\ bs !! j = Some blk /\ off < length blk /\ i = before bs j + off.
Proof.
  induction bs as [|x bs IH]; intros k i b off; cbn [block_for_index].
  - split; [done|]. by intros (j & ? & _ & ? & _).
  - destruct (Nat.ltb_spec i (length x)) as [Hi|Hi].
    + split.
      * intros [= <- <-]. exists 0, x. split_and!; [lia|done|done|]. done.
      * intros ([|j] & blk & -> & Hj & Hoff & ->).
        -- cbn in Hj. injection Hj as ->. unfold before. cbn. do 2 f_equal; lia.
        -- unfold before in Hi. cbn in Hi. rewrite app_length in Hi. lia.
    + rewrite IH. split.
      * intros (j & blk & -> & Hj & Hoff & E). exists (S j), blk. split_and!; [lia|done|done|].
        unfold before in *. cbn. rewrite app_length. lia.
      * intros ([|j] & blk & -> & Hj & Hoff & E).
        -- cbn in Hj. injection Hj as ->. unfold before in E. cbn in E. lia.
        -- exists j, blk. split_and!; [lia|done|done|]. unfold before in *. cbn in E. rewrite app_length in E. lia.
Qed.
Lemma block_for_index_None bs : forall k i, block_for_index bs k i = None <-> length (concat bs) <= i.
Proof.
  induction bs as [|x bs IH]; intros k i; cbn [block_for_index]; [cbn; split; [lia|done]|].
  cbn [concat]. rewrite app_length. destruct (Nat.ltb_spec i (length x)) as [Hi|Hi].
  - split; [done|lia].
  - rewrite IH. lia.
Qed.
Lemma concat_lookup {A} (bs : list (list A)) : forall b blk off, bs !! b = Some blk -> off < length blk ->
  concat bs !! (before bs b + off) = blk !! off.
Proof.
  induction bs as [|x bs IH]; intros [|b] blk off Hb Ho; try done.
  - cbn in Hb. injection Hb as ->. unfold before. cbn. by rewrite lookup_app_l.
  - unfold before. cbn. rewrite app_length, lookup_app_r by lia.
    rewrite <- (IH b blk off Hb Ho). f_equal. unfold before. lia.
Qed.
Lemma type_block_spec t ts : forall k b, type_block ts k t = Some b <->
  exists j, b = k + j /\ ts !! j = Some t /\ forall j', j' < j -> ts !! j' <> Some t.
Proof.
  induction ts as [|t' ts IH]; intros k b; cbn [type_block].
  - split; [done|]. by intros (j & _ & ? & _).
  - destruct (Z.eqb_spec t' t) as [->|Hne].
    + split.
      * intros [= <-]. exists 0. split_and!; [lia|done|lia].
      * intros ([|j] & -> & Hj & Hmin); [f_equal; lia|]. exfalso. apply (Hmin 0); [lia|done].
    + rewrite IH. split.
      * intros (j & -> & Hj & Hmin). exists (S j). split_and!; [lia|done|].
        intros [|j'] Hj'; [cbn; congruence|]. cbn. apply Hmin. lia.
      * intros ([|j] & -> & Hj & Hmin); [cbn in Hj; congruence|]. exists j. split_and!; [lia|done|].
        intros j' Hj'. apply (Hmin (S j')). lia.
Qed.
Lemma type_block_None t ts : forall k, type_block ts k t = None <-> t ∉ ts.
Proof.
  induction ts as [|t' ts IH]; intros k; cbn [type_block].
  - split; [intros _; apply not_elem_of_nil|done].
  - rewrite not_elem_of_cons. destruct (Z.eqb_spec t' t) as [->|Hne].
    + split; [done|]. by intros [].
    + rewrite IH. naive_solver.
Qed.
Lemma start_and_size_spec f bs ts t st sz : blocks f = Some bs -> types f = Some ts ->
  start_and_size f t = Some (st, sz) <->
  exists b blk, ts !! b = Some t /\ (forall b', b' < b -> ts !! b' <> Some t) /\ bs !! b = Some blk /\
    st = before bs b /\ sz = length blk.
Proof.
  intros Hb Ht. unfold start_and_size. rewrite Hb, Ht. cbn [mbind option_bind].
  destruct (type_block ts 0 t) as [b|] eqn:E; cbn [mbind option_bind].
  - apply type_block_spec in E as (j & -> & Hj & Hmin). rewrite Nat.add_0_l.
    assert (U : forall b', ts !! b' = Some t -> (forall b'', b'' < b' -> ts !! b'' <> Some t) -> b' = j).
    { intros b' H1 H2. destruct (lt_eq_lt_dec b' j) as [[H|H]|H]; [|done|]; exfalso.
      - by apply (Hmin b').
      - by apply (H2 j). }
    destruct (bs !! j) as [blk|] eqn:Ej; cbn [mbind option_bind].
    + rewrite foldl_length. split.
      * intros [= <- <-]. exists j, blk. done.
      * intros (b & blk' & H1 & H2 & H3 & -> & ->). rewrite (U b H1 H2) in *. rewrite Ej in H3. by injection H3 as ->.
    + split; [done|]. intros (b & blk' & H1 & H2 & H3 & _). rewrite (U b H1 H2) in H3. congruence.
  - apply type_block_None in E. split; [done|]. intros (b & blk & H1 & _).
    exfalso. by apply E, elem_of_list_lookup_2 with b.
Qed.

(** The ranges of distinct types cut a channel into pieces. *)
Lemma cut_concat {A} (bs : list (list Z)) : forall (d : list A), length d = length (concat bs) ->
  concat (imap (fun b blk => take (length blk) (drop (before bs b) d)) bs) = d.
Proof.
  induction bs as [|x bs IH]; intros d Hl.
  - cbn in *. by destruct d.
  - cbn [concat] in Hl. rewrite app_length in Hl. rewrite imap_cons. cbn [concat].
    change (before (x :: bs) 0) with 0. rewrite drop_0.
    transitivity (take (length x) d ++ drop (length x) d); [|apply take_drop]. f_equal.
    transitivity (concat (imap (fun b blk => take (length blk) (drop (before bs b) (drop (length x) d))) bs));
      [|apply IH; rewrite drop_length; lia].
    f_equal. apply imap_ext. intros i blk Hi. cbn. f_equal. rewrite drop_drop. f_equal.
    unfold before. cbn. by rewrite app_length.
Qed.
Lemma before_bound {A} (bs : list (list A)) b blk : bs !! b = Some blk -> before bs b + length blk <= length (concat bs).
Proof.
  revert b. induction bs as [|x bs IH]; intros [|b] Hb; try done.
  - cbn in Hb. injection Hb as ->. unfold before. cbn. rewrite app_length. lia.
  - specialize (IH _ Hb). unfold before in *. cbn. rewrite !app_length. lia.
Qed.
Lemma run_other acts name : forall f f', forallb (fun a => negb (is_kp a)) acts = true ->
  forallb (fun a => match a with ECol n _ _ => negb (bool_decide (n = name)) | _ => true end) acts = true ->
  run f acts = Ok f' -> col f' name = col f name.
Proof.
  induction acts as [|a acts IH]; intros f f' Hk Hp E; cbn [run] in E; [by injection E as <-|].
  cbn [forallb] in Hk, Hp. apply andb_prop in Hk as [Hk1 Hk]. apply andb_prop in Hp as [Hp1 Hp].
  destruct (step f a) as [f1| |] eqn:E1; try done. cbn [bind] in E. rewrite (IH _ _ Hk Hp E).
  destruct a as [new|name' new d|new t]; [done| |].
  - destruct (decide (name' = KP)) as [->|Hn']; [cbn [step] in E1; by rewrite bool_decide_eq_true_2 in E1|].
    rewrite step_col in E1 by done. destruct (decide _) as [Hle|]; [|done]. injection E1 as <-.
    rewrite col_set. apply negb_true_iff, bool_decide_eq_false in Hp1. by rewrite decide_False.
  - cbn [step] in E1. unfold extend_descriptors in E1.
    destruct (blocks f) as [b|]; destruct (types f) as [ty|]; try done;
      destruct (length _ =? length _); try done; by injection E1 as <-.
Qed.
