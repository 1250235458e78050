(** Proofs about the container helpers. *)
From Coq Require Import ZArith QArith Bool Lia Lqa.
From stdpp Require Import list list_numbers sorting.
From Verif Require Import StlHelpersModel StlHelpersSpec.
Open Scope nat_scope.

(** ** Sorting indices *)
Lemma insert_sorted_perm x l : insert_sorted x l ≡ₚ x :: l.
Proof.
  induction l as [|y l IH]; simpl; [done|]. destruct (x <=? y); [done|]. rewrite IH. constructor.
Qed.
Lemma sort_perm l : sort l ≡ₚ l.
Proof. induction l as [|x l IH]; simpl; [done|]. rewrite insert_sorted_perm. by f_equiv. Qed.
Lemma insert_sorted_sorted x l : StronglySorted le l -> StronglySorted le (insert_sorted x l).
Proof.
  induction l as [|y l IH]; intros H; simpl; [repeat constructor|].
  apply StronglySorted_inv in H as [H1 H2].
  destruct (Nat.leb_spec x y).
  - constructor; [by constructor|]. constructor; [done|]. eapply Forall_impl; [exact H2|]. simpl; lia.
  - constructor; [by apply IH|]. rewrite insert_sorted_perm. constructor; [lia|done].
Qed.
Lemma sort_sorted l : StronglySorted le (sort l).
Proof. induction l as [|x l IH]; simpl; [constructor|]. by apply insert_sorted_sorted. Qed.

Lemma sorted_nodup_strict l : StronglySorted le l -> NoDup l -> StronglySorted lt l.
Proof.
  induction 1 as [|x l Hs IH Hf]; intros HN; [constructor|].
  apply NoDup_cons in HN as [Hx HN]. constructor; [auto|].
  rewrite Forall_forall in *. intros y Hy. specialize (Hf y Hy).
  destruct (decide (x = y)) as [->|]; [done|lia].
Qed.

(** ** Erasing *)
Section erase.
Context {A : Type}.
Implicit Types (data l out : list A) (idx : list nat).

Definition without_from (k : nat) idx l : list A :=
  (filter (fun p : nat * A => p.1 ∉ idx) (zip (seq k (length l)) l)).*2.

Lemma without_from_cons k idx x l :
  without_from k idx (x :: l) =
  (if decide (k ∈ idx) then [] else [x]) ++ without_from (S k) idx l.
Proof.
  unfold without_from. simpl. rewrite filter_cons. simpl.
  destruct (decide (k ∈ idx)); destruct (decide (k ∉ idx)); done.
Qed.

Lemma without_from_app k idx l1 l2 :
  without_from k idx (l1 ++ l2) = without_from k idx l1 ++ without_from (k + length l1) idx l2.
Proof.
  revert k; induction l1 as [|x l1 IH]; intros k; simpl app.
  { simpl. by rewrite Nat.add_0_r. }
  rewrite !without_from_cons, IH, <- app_assoc. simpl. by rewrite Nat.add_succ_r.
Qed.

Lemma without_from_all k idx l :
  (forall i, i ∈ idx -> i < k \/ k + length l <= i) -> without_from k idx l = l.
Proof.
  revert k; induction l as [|x l IH]; intros k H; [done|].
  rewrite without_from_cons. destruct (decide (k ∈ idx)) as [Hk|Hk].
  - destruct (H k Hk); simpl in *; lia.
  - simpl. f_equal. apply IH. intros i Hi. destruct (H i Hi); simpl in *; lia.
Qed.

Lemma without_from_ext k idx idx' l :
  (forall i, k <= i -> i ∈ idx <-> i ∈ idx') -> without_from k idx l = without_from k idx' l.
Proof.
  revert k; induction l as [|x l IH]; intros k H; [done|].
  rewrite !without_from_cons, (IH (S k)) by (intros; apply H; lia).
  f_equal. destruct (decide (k ∈ idx)), (decide (k ∈ idx')); try done; exfalso; pose proof (H k); naive_solver.
Qed.

Lemma without_alt idx data : without idx data = without_from 0 idx data.
Proof. done. Qed.

Lemma without_perm idx idx' data : (forall i, i ∈ idx <-> i ∈ idx') -> without idx data = without idx' data.
Proof. intros H. rewrite !without_alt. apply without_from_ext. auto. Qed.

Lemma copy_block_ok data b e :
  b <= e -> e <= length data -> copy_block data b e = Ok (take (e - b) (drop b data)).
Proof.
  intros H1 H2. unfold copy_block.
  rewrite (proj2 (Nat.leb_le _ _) H1), (proj2 (Nat.leb_le _ _) H2). done.
Qed.

Lemma drop_split data b i : b <= i -> i < length data ->
  exists x, drop b data = take (i - b) (drop b data) ++ x :: drop (i + 1) data.
Proof.
  intros H1 H2. destruct (lookup_lt_is_Some_2 data i H2) as [x Hx]. exists x.
  rewrite <- (take_drop (i - b) (drop b data)) at 1. f_equal.
  rewrite drop_drop. replace (b + (i - b)) with i by lia.
  rewrite (drop_S _ _ _ Hx). by rewrite Nat.add_1_r.
Qed.

Lemma erase_step data b i idx :
  b <= i -> i < length data -> StronglySorted lt (i :: idx) ->
  without_from b (i :: idx) (drop b data) =
  take (i - b) (drop b data) ++ without_from (i + 1) idx (drop (i + 1) data).
Proof.
  intros H1 H2 Hs. apply StronglySorted_inv in Hs as [_ Hf]. rewrite Forall_forall in Hf.
  destruct (drop_split data b i H1 H2) as [x Hx]. rewrite Hx at 1.
  assert (Lt : length (take (i - b) (drop b data)) = i - b)
    by (rewrite take_length, drop_length; lia).
  rewrite without_from_app, Lt. f_equal.
  - apply without_from_all. rewrite Lt. intros j [->|Hj]%elem_of_cons; [lia|].
    specialize (Hf _ Hj). lia.
  - replace (b + (i - b)) with i by lia. rewrite without_from_cons.
    rewrite decide_True by (by left). simpl. rewrite Nat.add_1_r. apply without_from_ext.
    intros j Hj. rewrite elem_of_cons. split; [intros [->|]; [lia|done]|by right].
Qed.

Lemma erase_loop_ok data b idx out :
  StronglySorted lt idx -> Forall (fun i => b <= i < length data) idx -> b <= length data ->
  erase_loop data b idx out = Ok (out ++ without_from b idx (drop b data)).
Proof.
  revert b out. induction idx as [|i idx IH]; intros b out Hs Hf Hb; simpl.
  { rewrite without_from_all by (intros i Hi; by apply elem_of_nil in Hi).
    destruct (Nat.eqb_spec b (length data)) as [->|].
    - by rewrite drop_all, app_nil_r.
    - rewrite copy_block_ok by lia. do 2 f_equal. apply take_ge. rewrite drop_length. lia. }
  inversion Hf as [|? ? Hi Hf']; subst.
  assert (Hrest : Forall (fun j => i + 1 <= j < length data) idx).
  { apply StronglySorted_inv in Hs as [_ Hl]. rewrite Forall_forall in *. intros j Hj.
    specialize (Hl j Hj). specialize (Hf' j Hj). lia. }
  rewrite erase_step by (auto; lia).
  apply StronglySorted_inv in Hs as [Hs _].
  destruct (Nat.eqb_spec b i) as [->|].
  - rewrite IH by (auto; lia). by rewrite Nat.sub_diag.
  - rewrite copy_block_ok by lia. rewrite IH by (auto; lia). by rewrite <- app_assoc.
Qed.

Lemma sorted_last_max idx d : StronglySorted le idx -> Forall (fun i => i <= default d (last idx)) idx.
Proof.
  induction 1 as [|x l Hs IH Hf]; [constructor|]. destruct l as [|y l]; [simpl; constructor; [lia|constructor]|].
  rewrite last_cons_cons in *. constructor; [|done].
  inversion Hf; subst. inversion IH; subst. lia.
Qed.

Lemma last_In {B} (l : list B) x : last l = Some x -> x ∈ l.
Proof.
  intros H. destruct (last_Some l x) as [[l' ->] _]; [done|]. apply elem_of_app. right. by left.
Qed.

Lemma nodup_bounded_length (idx : list nat) n : NoDup idx -> Forall (fun i => i < n) idx -> length idx <= n.
Proof.
  intros HN HF. rewrite <- (seq_length n 0). apply submseteq_length. apply NoDup_submseteq; [done|].
  intros i Hi. rewrite Forall_forall in HF. apply elem_of_list_In, in_seq. specialize (HF i Hi). lia.
Qed.

Lemma erase_vector_ok data idx :
  NoDup idx -> Forall (fun i => i < length data) idx -> erase_vector data idx = Ok (without idx data).
Proof.
  intros HN HF. unfold erase_vector. destruct idx as [|i0 idx0]; [by rewrite without_alt, without_from_all by (intros i Hi; by apply elem_of_nil in Hi)|].
  set (idx := i0 :: idx0) in *. cbv zeta.
  pose proof (sort_perm idx) as P. pose proof (sort_sorted idx) as S.
  assert (Hmem : forall i, i ∈ sort idx <-> i ∈ idx) by (intros; by rewrite P).
  assert (HF' : Forall (fun i => i < length data) (sort idx)) by (by rewrite P).
  assert (Hl : default 0 (last (sort idx)) < length data).
  { destruct (last (sort idx)) as [z|] eqn:E; simpl.
    - apply last_In in E. rewrite Forall_forall in HF'. by apply HF'.
    - inversion HF; subst. lia. }
  rewrite (proj2 (Nat.ltb_lt _ _) Hl). cbn [negb].
  assert (HL : length (sort idx) <= length data).
  { rewrite P. by apply nodup_bounded_length. }
  rewrite (proj2 (Nat.leb_le _ _) HL). cbn [negb].
  rewrite erase_loop_ok.
  - simpl. rewrite drop_0. f_equal. rewrite without_alt. apply without_from_ext. intros; apply Hmem.
  - apply sorted_nodup_strict; [done|]. by rewrite P.
  - eapply Forall_impl; [exact HF'|]. simpl; lia.
  - lia.
Qed.

Lemma erase_vector_range data idx :
  Exists (fun i => length data <= i) idx -> erase_vector data idx = Abort.
Proof.
  intros HE. unfold erase_vector. destruct idx as [|i0 idx0]; [by inversion HE|].
  set (idx := i0 :: idx0) in *. cbv zeta.
  pose proof (sort_perm idx) as P. pose proof (sorted_last_max (sort idx) 0 (sort_sorted idx)) as M.
  rewrite Exists_exists in HE. destruct HE as (i & Hi & Hle).
  rewrite Forall_forall in M. assert (Hi' : i ∈ sort idx) by (by rewrite P). specialize (M i Hi').
  destruct (Nat.ltb_spec (default 0 (last (sort idx))) (length data)); [lia|]. done.
Qed.

(** Duplicates lead to a copy from behind to before. *)
Lemma erase_loop_dup data b idx out i :
  i < b -> i ∈ idx -> StronglySorted le idx -> erase_loop data b idx out = Ub.
Proof.
  intros Hib Hi Hs. destruct idx as [|j idx]; [by apply elem_of_nil in Hi|].
  assert (j < b).
  { apply elem_of_cons in Hi as [->|Hi]; [done|]. apply StronglySorted_inv in Hs as [_ Hf].
    rewrite Forall_forall in Hf. specialize (Hf _ Hi). lia. }
  simpl. destruct (Nat.eqb_spec b j); [lia|]. unfold copy_block.
  destruct (Nat.leb_spec b j); [lia|]. done.
Qed.
Lemma erase_loop_not_nodup data b idx out :
  StronglySorted le idx -> ~ NoDup idx -> Forall (fun i => i < length data) idx ->
  erase_loop data b idx out = Ub.
Proof.
  revert b out. induction idx as [|i idx IH]; intros b out Hs HN HF; [by destruct HN; constructor|].
  destruct (decide (i < b)) as [Hlt|Hge].
  { apply (erase_loop_dup _ _ _ _ i); auto. by left. }
  inversion HF; subst. apply StronglySorted_inv in Hs as [Hs Hf].
  assert (erase_next : forall out', erase_loop data (i + 1) idx out' = Ub).
  { intros out'. destruct (decide (i ∈ idx)) as [Hi|Hi].
    - apply (erase_loop_dup _ _ _ _ i); auto. lia.
    - apply IH; auto. intros HN'. apply HN. by constructor. }
  simpl. destruct (Nat.eqb_spec b i); [done|]. rewrite copy_block_ok by lia. done.
Qed.
Lemma erase_vector_dup data idx :
  Forall (fun i => i < length data) idx -> ~ NoDup idx ->
  erase_vector data idx = Ub \/ erase_vector data idx = Abort.
Proof.
  intros HF HN. unfold erase_vector. destruct idx as [|i0 idx0]; [by destruct HN; constructor|].
  set (idx := i0 :: idx0) in *. cbv zeta. pose proof (sort_perm idx) as P.
  destruct (negb _); [by right|]. destruct (negb _); [by right|]. left.
  apply erase_loop_not_nodup; [apply sort_sorted | by rewrite P | by rewrite P].
Qed.

(** Containers *)
Lemma container_loop_ok data b idx rem out :
  StronglySorted lt idx -> Forall (fun i => b <= i < length data) idx -> b <= length data ->
  length out + (length data - b) = rem + length idx ->
  container_loop data b idx rem out = Ok (out ++ without_from b idx (drop b data)).
Proof.
  revert b out. induction idx as [|i idx IH]; intros b out Hs Hf Hb HL; simpl.
  { rewrite without_from_all by (intros i Hi; by apply elem_of_nil in Hi).
    rewrite copy_block_ok by lia.
    rewrite (take_ge (drop b data)) by (rewrite drop_length; lia).
    rewrite drop_length. simpl in HL. rewrite (proj2 (Nat.eqb_eq _ _)) by lia. done. }
  inversion Hf as [|? ? Hi Hf']; subst.
  assert (Hrest : Forall (fun j => i + 1 <= j < length data) idx).
  { apply StronglySorted_inv in Hs as [_ Hl]. rewrite Forall_forall in *. intros j Hj.
    specialize (Hl j Hj). specialize (Hf' j Hj). lia. }
  rewrite erase_step by (auto; lia).
  apply StronglySorted_inv in Hs as [Hs Hlt].
  rewrite (proj2 (Nat.leb_le _ _)) by lia. cbn [negb].
  rewrite copy_block_ok by lia.
  assert (Lt : length (take (i - b) (drop b data)) = i - b)
    by (rewrite take_length, drop_length; lia).
  rewrite Lt. simpl in HL.
  assert (Hcount : length idx <= length data - (i + 1)).
  { assert (H : length ((fun j => j - (i + 1)) <$> idx) <= length data - (i + 1)).
    { apply nodup_bounded_length.
      - clear -Hs Hrest. induction Hs as [|x l Hs IH Hf]; [constructor|]. inversion Hrest; subst.
        simpl. constructor; [|auto]. rewrite elem_of_list_fmap. intros (y & E & Hy).
        rewrite Forall_forall in *. specialize (Hf y Hy).
        match goal with H : forall x, x ∈ l -> _ |- _ => specialize (H y Hy) end. lia.
      - rewrite Forall_fmap. eapply Forall_impl; [exact Hrest|]. simpl; lia. }
    by rewrite fmap_length in H. }
  rewrite (proj2 (Nat.leb_le _ _)) by lia.
  rewrite IH; [by rewrite <- app_assoc| auto | auto | lia |]. rewrite app_length, Lt. lia.
Qed.

Lemma strict_nodup (idx : list nat) : StronglySorted lt idx -> NoDup idx.
Proof.
  induction 1 as [|x l Hs IH Hf]; [constructor|]. constructor; [|done].
  intros Hx. rewrite Forall_forall in Hf. specialize (Hf x Hx). lia.
Qed.

Lemma erase_container_ok data idx :
  idx <> [] -> StronglySorted lt idx -> Forall (fun i => i < length data) idx ->
  erase_container idx (length data) data = Ok (without idx data).
Proof.
  intros Hne Hs HF. unfold erase_container. rewrite Nat.eqb_refl. cbn [negb].
  destruct (last idx) as [b|] eqn:E; [|by apply last_None in E].
  apply last_In in E.
  assert (b < length data) by (rewrite Forall_forall in HF; auto).
  rewrite (proj2 (Nat.ltb_lt _ _)) by done. cbn [negb].
  pose proof (nodup_bounded_length _ _ (strict_nodup _ Hs) HF).
  rewrite (proj2 (Nat.leb_le _ _)) by lia. cbn [negb].
  rewrite container_loop_ok; [by rewrite without_alt| done | | lia | simpl; lia].
  eapply Forall_impl; [exact HF|]. simpl; lia.
Qed.

Lemma container_loop_unsorted data b idx rem out :
  ~ StronglySorted lt idx \/ Exists (fun i => i < b) idx ->
  Forall (fun i => i < length data) idx ->
  container_loop data b idx rem out = Abort \/ container_loop data b idx rem out = Ub.
Proof.
  revert b out. induction idx as [|i idx IH]; intros b out HN HF.
  { exfalso. destruct HN as [HN|HN]; [by destruct HN; constructor | inversion HN]. }
  simpl. destruct (Nat.leb_spec b i); cbn [negb]; [|by left].
  inversion HF; subst. rewrite copy_block_ok by lia. destruct (_ <=? rem); [|by right].
  apply IH; [|done]. destruct (decide (Forall (fun j => i < j) idx)) as [Hf|Hf].
  - destruct HN as [HN|HN].
    + left. intros Hs. apply HN. by constructor.
    + apply Exists_cons in HN as [HN|HN]; [lia|]. exfalso. rewrite Exists_exists in HN. destruct HN as (j & Hj & ?).
      rewrite Forall_forall in Hf. specialize (Hf _ Hj). lia.
  - right. apply not_Forall_Exists in Hf; [|apply _]. eapply Exists_impl; [exact Hf|]. simpl; lia.
Qed.

Lemma erase_container_unsorted data idx n :
  idx <> [] -> ~ StronglySorted lt idx -> Forall (fun i => i < length data) idx ->
  erase_container idx n data = Abort \/ erase_container idx n data = Ub.
Proof.
  intros Hne HN HF. unfold erase_container. destruct (negb _); [by left|].
  destruct (last idx); [|by right]. destruct (negb _); [by left|]. destruct (negb _); [by left|].
  apply container_loop_unsorted; auto.
Qed.

Lemma count_nested_ok (ll : list (list A)) : count_nested ll = length (concat ll).
Proof.
  unfold count_nested. assert (H : forall n, foldl (fun n l => n + length l) n ll = n + length (concat ll)).
  { induction ll as [|l ll IH]; intros n; simpl; [lia|]. rewrite IH, app_length. lia. }
  apply H.
Qed.

Lemma keep_n_ok cmp n l r kept removed :
  keep_n cmp n l (r, kept, removed) ->
  kept ++ removed ≡ₚ l /\ r = length kept /\ length kept = Nat.min n (length l) /\
  (forall x y, x ∈ kept -> y ∈ removed -> cmp y x = false).
Proof.
  inversion 1 as [|? ? H1 H2|? ? l' H1 H2 (P & S1 & S2)]; subst.
  - repeat split; auto. intros x y Hx. by apply elem_of_nil in Hx.
  - repeat split; [by rewrite app_nil_r | lia |]. intros x y _ Hy. by apply elem_of_nil in Hy.
  - repeat split.
    + by rewrite take_drop.
    + rewrite take_length, P. lia.
    + intros x y (i & Hi)%elem_of_list_lookup (j & Hj)%elem_of_list_lookup.
      rewrite lookup_drop in Hj. apply lookup_take_Some in Hi as [Hi Hin].
      apply (S2 i (n + j)); auto; lia.
Qed.

Lemma draw_set_ok n rnd (set : list nat) m (out : list nat) :
  NoDup set -> Forall (fun i => i < m) set -> Forall (fun i => i < m) rnd -> length set <= n ->
  draw_set n rnd set = Some out -> NoDup out /\ length out = n /\ Forall (fun i => i < m) out.
Proof.
  revert set. induction rnd as [|i rnd IH]; intros set HN HF HR HL; simpl.
  - destruct (Nat.leb_spec n (length set)); [|done]. intros [= <-]. repeat split; auto; lia.
  - destruct (Nat.leb_spec n (length set)); [intros [= <-]; repeat split; auto; lia|].
    inversion HR; subst. apply IH; auto; case_bool_decide; simpl; auto; try (by constructor); try lia.
Qed.

Lemma draw_n_ok n input rnd order out :
  (forall s, order s ≡ₚ s) -> Forall (fun i => i < length input) rnd ->
  draw_n n input rnd order = Some out ->
  length out = Nat.min n (length input) /\
  exists idx, NoDup idx /\ length idx = length out /\
    Forall2 (fun i x => input !! i = Some x) idx out.
Proof.
  intros Hord HR. unfold draw_n. destruct (Nat.eqb_spec n 0); [done|].
  destruct (Nat.leb_spec (length input) n).
  - intros [= <-]. split; [lia|]. exists (seq 0 (length input)).
    split; [apply NoDup_ListNoDup, seq_NoDup|]. split; [apply seq_length|].
    apply Forall2_same_length_lookup. rewrite seq_length. split; [done|].
    intros i x y Hx Hy. apply lookup_seq in Hx as [-> _]. done.
  - destruct (draw_set n rnd []) as [s|] eqn:E; [|done].
    assert (E' : NoDup s /\ length s = n /\ Forall (fun i => i < length input) s).
    { apply (draw_set_ok n rnd []); [constructor|constructor|done|simpl; lia|done]. }
    destruct E' as (HN & HL & HF).
    intros HM. apply mapM_Some in HM. pose proof (Forall2_length _ _ _ HM) as HLen.
    pose proof (Hord s) as P. rewrite P in HLen.
    split; [lia|]. exists (order s). split; [by rewrite P|]. split; [by rewrite P|done].
Qed.

End erase.

(** ** Median *)
Open Scope Z_scope.

Lemma sorted_app (a b : list Z) :
  StronglySorted Z.le a -> StronglySorted Z.le b -> (forall x y, x ∈ a -> y ∈ b -> x <= y) ->
  StronglySorted Z.le (a ++ b).
Proof.
  intros Ha Hb Hab. induction Ha as [|x a Ha IH Hf]; [done|]. simpl. constructor.
  - apply IH. intros; apply Hab; [by right|done].
  - apply Forall_app. split; [done|]. rewrite Forall_forall. intros y Hy. apply Hab; [by left|done].
Qed.

Lemma merge_sort_lookup (l l' : list Z) n v :
  nth_elem n l l' -> l' !! n = Some v -> merge_sort Z.le l !! n = Some v.
Proof.
  intros (P & w & Hn & Hlo & Hhi) Hv. rewrite Hn in Hv. injection Hv as ->.
  assert (HT : Total Z.le) by (intros ??; lia).
  set (a := merge_sort Z.le (take n l')). set (b := merge_sort Z.le (drop (S n) l')).
  assert (Pa : a ≡ₚ take n l') by apply merge_sort_Permutation.
  assert (Pb : b ≡ₚ drop (S n) l') by apply merge_sort_Permutation.
  assert (Sa : StronglySorted Z.le a) by (apply StronglySorted_merge_sort; [apply _ | done]).
  assert (Sb : StronglySorted Z.le b) by (apply StronglySorted_merge_sort; [apply _ | done]).
  assert (La : forall x, x ∈ a -> x <= v).
  { intros x Hx. rewrite Pa in Hx. apply elem_of_list_lookup in Hx as [i Hi].
    apply lookup_take_Some in Hi as [Hi Hl]. by apply (Hlo i). }
  assert (Lb : forall x, x ∈ b -> v <= x).
  { intros x Hx. rewrite Pb in Hx. apply elem_of_list_lookup in Hx as [i Hi].
    rewrite lookup_drop in Hi. apply (Hhi (S n + i)%nat); [lia|done]. }
  assert (E : merge_sort Z.le l = a ++ v :: b).
  { apply (StronglySorted_unique Z.le).
    - apply StronglySorted_merge_sort; [apply _ | done].
    - apply sorted_app; [done | constructor; [done|] | ].
      + rewrite Forall_forall. auto.
      + intros x y Hx [->|Hy]%elem_of_cons; [auto|]. specialize (La x Hx). specialize (Lb y Hy). lia.
    - rewrite merge_sort_Permutation, Pa, Pb, <- P. by rewrite (take_drop_middle _ _ _ Hn). }
  rewrite E. assert (length a = n).
  { rewrite Pa, take_length. apply lookup_lt_Some in Hn. lia. }
  rewrite lookup_app_r by lia. by rewrite H, Nat.sub_diag.
Qed.

Lemma merge_sort_perm_eq (l l' : list Z) : l ≡ₚ l' -> merge_sort Z.le l = merge_sort Z.le l'.
Proof.
  intros P. assert (HT : Total Z.le) by (intros ??; lia). apply (StronglySorted_unique Z.le).
  - apply StronglySorted_merge_sort; [apply _ | done].
  - apply StronglySorted_merge_sort; [apply _ | done].
  - by rewrite !merge_sort_Permutation.
Qed.

Lemma median_ok l v l' : median l (v, l') -> is_median l v /\ l' ≡ₚ l.
Proof.
  assert (HT : Total Z.le) by (intros ??; lia).
  intros H. inversion H as [? ? x Hne Hodd Hn Hx | ? l1 ? hi lo Hne Hev Hn1 Hhi Hn2 Hlo]; subst.
  - split; [|by destruct Hn]. exists (merge_sort Z.le l).
    split; [apply merge_sort_Permutation|]. split; [apply StronglySorted_merge_sort; [apply _|done]|].
    pose proof (merge_sort_lookup _ _ _ _ Hn Hx) as E. exists x, x.
    assert (E2 : ((length l - 1) / 2 = length l / 2)%nat).
    { pose proof (Nat.div_mod (length l) 2 ltac:(lia)). pose proof (Nat.mod_upper_bound (length l) 2 ltac:(lia)).
      assert (length l mod 2 = 1)%nat by lia. symmetry. apply (Nat.div_unique _ _ _ 0); lia. }
    rewrite E2. repeat split; auto. field.
  - assert (P1 : l1 ≡ₚ l) by (by destruct Hn1). assert (P2 : l' ≡ₚ l1) by (by destruct Hn2).
    split; [|by rewrite P2]. exists (merge_sort Z.le l).
    split; [apply merge_sort_Permutation|]. split; [apply StronglySorted_merge_sort; [apply _|done]|].
    pose proof (merge_sort_lookup _ _ _ _ Hn1 Hhi) as E1.
    pose proof (merge_sort_lookup _ _ _ _ Hn2 Hlo) as E2.
    rewrite (merge_sort_perm_eq _ _ P1) in E2.
    exists lo, hi.
    assert (E3 : ((length l - 1) / 2 = length l / 2 - 1)%nat).
    { pose proof (Nat.div_mod (length l) 2 ltac:(lia)). symmetry. apply (Nat.div_unique _ _ _ 1); [lia|].
      assert (length l <> 0)%nat by (destruct l; [done|simpl; lia]). lia. }
    rewrite E3. repeat split; auto. unfold Qdiv. rewrite (Qplus_comm (inject_Z hi)). reflexivity.
Qed.

(** nth_element can always be carried out, so the relation is never empty. *)
Lemma nth_elem_exists l n : (n < length l)%nat -> exists l', nth_elem n l l'.
Proof.
  intros Hn. assert (HT : Total Z.le) by (intros ??; lia).
  set (s := merge_sort Z.le l). exists s. unfold nth_elem.
  assert (P : s ≡ₚ l) by apply merge_sort_Permutation. split; [done|].
  assert (S : StronglySorted Z.le s) by (apply StronglySorted_merge_sort; [apply _|done]).
  rewrite <- P in Hn. destruct (lookup_lt_is_Some_2 s n Hn) as [v Hv]. exists v. split; [done|].
  rewrite <- (take_drop_middle _ _ _ Hv) in S.
  split; intros i x Hi Hx.
  - apply (elem_of_StronglySorted_app Z.le _ _ x v S).
    + apply elem_of_list_lookup. exists i. by rewrite lookup_take.
    + by left.
  - apply StronglySorted_app_inv_r, StronglySorted_inv in S as [_ S].
    rewrite Forall_forall in S. apply S. apply elem_of_list_lookup. exists (i - Datatypes.S n)%nat.
    rewrite lookup_drop. by replace (Datatypes.S n + (i - Datatypes.S n))%nat with i by lia.
Qed.
Lemma median_exists l : l <> [] -> exists v l', median l (v, l').
Proof.
  intros Hne. assert (Hl : (0 < length l)%nat) by (destruct l; [done|simpl; lia]).
  assert (Hh : (length l / 2 < length l)%nat) by (apply Nat.div_lt; lia).
  destruct (nth_elem_exists l (length l / 2) Hh) as [l1 H1].
  destruct H1 as (P1 & v & Hv & R1).
  destruct (decide (length l mod 2 = 0)%nat) as [E|E].
  - destruct (nth_elem_exists l1 (length l / 2 - 1)) as [l2 H2]; [rewrite P1; lia|].
    destruct H2 as (P2 & w & Hw & R2).
    exists ((inject_Z v + inject_Z w) / 2)%Q, l2.
    eapply median_even; eauto; [by split; eauto | by split; eauto].
  - exists (inject_Z v), l1. eapply median_odd; eauto. by split; eauto.
Qed.

(** ** Mean and variance *)
Lemma foldl_sumQ {B} (f : B -> Q) l q :
  (foldl (fun s x => s + f x) q l == q + sumQ (f <$> l))%Q.
Proof.
  revert q; induction l as [|x l IH]; intros q; cbn [foldl fmap list_fmap sumQ foldr].
  - ring.
  - rewrite IH. unfold sumQ. ring.
Qed.
Lemma length_pos_Q {B} (l : list B) : l <> [] -> ~ (inject_Z (Z.of_nat (length l)) == 0)%Q.
Proof. destruct l; [done|]. intros _ H. unfold Qeq in H. simpl in H. lia. Qed.
Lemma mean_ok l mu : mean l = Some mu ->
  (mu * inject_Z (Z.of_nat (length l)) == sumQ (inject_Z <$> l))%Q.
Proof.
  intros E. assert (Hl : l <> []) by (intros ->; done).
  assert (E' : (foldl (fun mu x => mu + inject_Z x) 0 l / inject_Z (Z.of_nat (length l)) = mu)%Q).
  { unfold mean in E. destruct l; [done|]. by injection E. }
  rewrite <- E'. apply length_pos_Q in Hl. rewrite (foldl_sumQ inject_Z). revert Hl.
  generalize (inject_Z (Z.of_nat (length l))) (sumQ (inject_Z <$> l)). intros c t Hne. field. exact Hne.
Qed.
Lemma variance_ok l mu v : mean l = Some mu -> variance l = Some v ->
  (v * inject_Z (Z.of_nat (length l)) == sumQ ((fun x => (inject_Z x - mu) * (inject_Z x - mu)) <$> l))%Q.
Proof.
  unfold variance. intros E. rewrite E. intros [= <-].
  assert (Hne : l <> []) by (intros ->; done). apply length_pos_Q in Hne.
  rewrite (foldl_sumQ (fun x => (inject_Z x - mu) * (inject_Z x - mu))%Q). revert Hne.
  generalize (inject_Z (Z.of_nat (length l))) (sumQ ((fun x => (inject_Z x - mu) * (inject_Z x - mu)) <$> l))%Q.
  intros c t Hne. field. exact Hne.
Qed.
Lemma variance_nonneg l v : variance l = Some v -> (0 <= v)%Q.
Proof.
  intros H. destruct (mean l) as [mu|] eqn:E; [|by unfold variance in H; rewrite E in H].
  pose proof (variance_ok l mu v E H) as Hv.
  assert (Hs : (0 <= sumQ ((fun x => (inject_Z x - mu) * (inject_Z x - mu)) <$> l))%Q).
  { clear. unfold sumQ. induction l as [|x l IH]; cbn; [lra|].
    assert (0 <= (inject_Z x - mu) * (inject_Z x - mu))%Q by (generalize (inject_Z x - mu)%Q; intros q; destruct (Qlt_le_dec q 0); nra). unfold sumQ in *. lra. }
  assert (Hne : l <> []) by (intros ->; done).
  assert (0 < inject_Z (Z.of_nat (length l)))%Q.
  { destruct l; [done|]. unfold Qlt. simpl. lia. }
  nra.
Qed.
