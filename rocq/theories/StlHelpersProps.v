(** C27, C28, C62, C63: the container helpers. *)
From Coq Require Import ZArith QArith Bool Lia.
From stdpp Require Import list list_numbers sorting.
From Verif Require Import StlHelpersModel StlHelpersSpec StlHelpersProofs.
Open Scope nat_scope.

(** ** C27 *)
(** eraseIndicesFromVector: any order of the indices, the empty list included. *)
Theorem sx_erase_vector : forall {A} (data : list A) idx,
  NoDup idx -> Forall (fun i => i < length data) idx -> erase_vector data idx = Ok (without idx data).
Proof. intros A. exact erase_vector_ok. Qed.
Print Assumptions sx_erase_vector.
(** What [without] keeps: the element at position i survives iff i is not listed; order and number. *)
Theorem sx_without : forall {A} (data : list A) idx,
  sublist (without idx data) data /\
  (NoDup idx -> Forall (fun i => i < length data) idx ->
   length (without idx data) + length idx = length data) /\
  (forall x, x ∈ without idx data <-> exists i, i ∉ idx /\ data !! i = Some x).
Proof.
  intros A data idx. rewrite without_alt. split; [|split].
  - generalize 0 as k. induction data as [|x l IH]; intros k; [constructor|].
    rewrite without_from_cons. destruct (decide _); simpl; constructor; apply IH.
  - intros HN HF.
    assert (H : forall k (l : list A), length (without_from k idx l)
      + length (filter (fun i => k <= i < k + length l) idx) = length l).
    { intros k l. revert k. induction l as [|x l IH]; intros k.
      - simpl. clear HN HF. induction idx as [|j idx IH]; [done|]. rewrite filter_cons, decide_False by lia. done.
      - rewrite without_from_cons, app_length. specialize (IH (S k)).
        assert (E : length (filter (fun i => k <= i < k + length (x :: l)) idx) =
          (if decide (k ∈ idx) then 1 else 0) + length (filter (fun i => S k <= i < S k + length l) idx)).
        { clear -HN. induction HN as [|j idx Hj HN IH2]; [done|]. rewrite !filter_cons.
          cbn [length] in *. destruct (decide (k ∈ j :: idx)) as [Hk|Hk].
          - apply elem_of_cons in Hk as [->|Hk].
            + rewrite (decide_False (P := j ∈ idx)) in IH2 by done.
              rewrite (decide_True (P := j <= j < j + S (length l))) by lia.
              rewrite (decide_False (P := S j <= j < S j + length l)) by lia. cbn [length]. lia.
            + rewrite (decide_True (P := k ∈ idx)) in IH2 by done.
              assert (k <> j) by (intros ->; done).
              destruct (decide (k <= j < k + S (length l))), (decide (S k <= j < S k + length l)); cbn [length]; lia.
          - rewrite not_elem_of_cons in Hk. destruct Hk as [Hk1 Hk2].
            rewrite (decide_False (P := k ∈ idx)) in IH2 by done.
            destruct (decide (k <= j < k + S (length l))), (decide (S k <= j < S k + length l)); cbn [length]; lia. }
        rewrite E. destruct (decide (k ∈ idx)); cbn [length]; lia. }
    specialize (H 0 data).
    assert (E : filter (fun i => 0 <= i < 0 + length data) idx = idx).
    { clear H HN. induction HF as [|i idx Hi HF IH]; [done|]. rewrite filter_cons, decide_True by lia. by f_equal. }
    rewrite E in H. done.
  - intros x.
    assert (H : forall k (l : list A), x ∈ without_from k idx l <-> exists i, k + i ∉ idx /\ l !! i = Some x).
    { intros k l. revert k. induction l as [|y l IH]; intros k.
      - split; [intros Hx; by apply elem_of_nil in Hx|]. intros (i & _ & Hi). by rewrite lookup_nil in Hi.
      - rewrite without_from_cons, elem_of_app, IH. split.
        + intros [Hx|(i & Hi & Hx)].
          * destruct (decide (k ∈ idx)); [by apply elem_of_nil in Hx|].
            apply elem_of_list_singleton in Hx as ->. exists 0. by rewrite Nat.add_0_r.
          * exists (S i). by rewrite Nat.add_succ_r.
        + intros ([|i] & Hi & Hx).
          * left. rewrite Nat.add_0_r in Hi. rewrite decide_False by done. injection Hx as ->. by left.
          * right. exists i. by rewrite Nat.add_succ_r in Hi. }
    apply (H 0).
Qed.
Print Assumptions sx_without.
(** An index beyond the end is detected; a repeated index is not allowed. *)
Theorem sx_erase_vector_bad : forall {A} (data : list A) idx,
  (Exists (fun i => length data <= i) idx -> erase_vector data idx = Abort) /\
  (Forall (fun i => i < length data) idx -> ~ NoDup idx ->
   erase_vector data idx = Ub \/ erase_vector data idx = Abort).
Proof. intros A data idx. split; [apply erase_vector_range | apply erase_vector_dup]. Qed.
Print Assumptions sx_erase_vector_bad.
Example sx_erase_vector_ex :
  NoDup [3; 0] /\ Forall (fun i => i < length [10; 11; 12; 13; 14]) [3; 0] /\
  erase_vector [10; 11; 12; 13; 14] [3; 0] = Ok [11; 12; 14] /\
  erase_vector [10; 11; 12] [1; 1] = Ub /\ erase_vector [10; 11; 12] [3; 0] = Abort.
Proof. split; [by apply (bool_decide_unpack _)|]. split; [by apply (bool_decide_unpack _)|]. done. Qed.

(** eraseIndicesFromContainer on matrices: strictly increasing, non-empty indices. *)
Theorem sx_erase_container : forall {A} (data : list A) idx,
  idx <> [] -> StronglySorted lt idx -> Forall (fun i => i < length data) idx ->
  erase_container idx (length data) data = Ok (without idx data) /\
  erase_container_vector idx (length data) data = Ok (without idx data).
Proof.
  intros A data idx H1 H2 H3. split; [by apply erase_container_ok|].
  unfold erase_container_vector. rewrite Nat.eqb_refl. cbn [negb]. apply erase_vector_ok; [|done].
  by apply strict_nodup.
Qed.
Print Assumptions sx_erase_container.
Theorem sx_erase_container_bad : forall {A} (data : list A) idx n,
  idx <> [] -> ~ StronglySorted lt idx -> Forall (fun i => i < length data) idx ->
  forall r, erase_container idx n data <> Ok r.
Proof.
  intros A data idx n H1 H2 H3 r. destruct (erase_container_unsorted data idx n H1 H2 H3) as [->| ->]; done.
Qed.
Print Assumptions sx_erase_container_bad.
Example sx_erase_container_ex :
  StronglySorted lt [0; 3] /\ Forall (fun i => i < 5) [0; 3] /\
  erase_container [0; 3] 5 [10; 11; 12; 13; 14] = Ok [11; 12; 14] /\
  ~ StronglySorted lt [3; 0] /\ erase_container [3; 0] 5 [10; 11; 12; 13; 14] = Abort.
Proof.
  split; [repeat constructor; lia|]. split; [repeat constructor; lia|]. split; [done|]. split; [|done].
  intros H. apply StronglySorted_inv in H as [_ H]. inversion H; lia.
Qed.
(** The matrix version does not accept what the claim promises: the empty list, and unsorted lists. *)
Theorem sx_erase_container_refuted :
  (exists (data : list nat), erase_container [] (length data) data = Ub) /\
  (exists (data : list nat) idx, NoDup idx /\ Forall (fun i => i < length data) idx /\
     erase_container idx (length data) data = Abort).
Proof.
  split; [by exists [1; 2]|]. exists [10; 11; 12; 13], [1; 0].
  split; [by apply (bool_decide_unpack _)|]. split; [by apply (bool_decide_unpack _)|]. done.
Qed.
Print Assumptions sx_erase_container_refuted.

(** ** C28 *)
Open Scope Z_scope.
Theorem sx_median : forall l,
  (l <> [] -> exists v l', median l (v, l')) /\
  (forall v l', median l (v, l') -> is_median l v /\ l' ≡ₚ l).
Proof. intros l. split; [apply median_exists | apply median_ok]. Qed.
Print Assumptions sx_median.
(** [is_median] determines the value. *)
Theorem sx_median_unique : forall l v w, is_median l v -> is_median l w -> (v == w)%Q.
Proof.
  intros l v w (s & P & S & a & b & Ha & Hb & Ev) (s' & P' & S' & a' & b' & Ha' & Hb' & Ew).
  assert (s = s') as <-.
  { apply (StronglySorted_unique Z.le); auto. by rewrite P, P'. }
  rewrite Ha in Ha'. rewrite Hb in Hb'. injection Ha' as <-. injection Hb' as <-. by rewrite Ev, Ew.
Qed.
Print Assumptions sx_median_unique.
Example sx_median_ex : is_median [5; 1; 9; 2] (7 # 2) /\ median [5; 1; 9] (inject_Z 5, [1; 5; 9]).
Proof.
  split.
  - exists [1; 2; 5; 9]. split; [by apply (bool_decide_unpack _)|].
    split; [repeat constructor; lia|]. by exists 2, 5.
  - apply median_odd; [done|done| |done]. split; [by apply (bool_decide_unpack _)|]. exists 5. split; [done|].
    simpl. split; intros [|[|[|i]]] x Hi; simpl in *; try lia; intros [= <-]; lia.
Qed.
Theorem sx_mean : forall l mu v,
  (mean l = Some mu -> (mu * inject_Z (Z.of_nat (length l)) == sumQ (inject_Z <$> l))%Q) /\
  (mean l = Some mu -> variance l = Some v -> (0 <= v)%Q /\
   (v * inject_Z (Z.of_nat (length l)) == sumQ ((fun x => (inject_Z x - mu) * (inject_Z x - mu)) <$> l))%Q) /\
  (mean l = None <-> l = []).
Proof.
  intros l mu v. split; [apply mean_ok|]. split; [intros; split; [by eapply variance_nonneg | by apply variance_ok]|].
  by destruct l.
Qed.
Print Assumptions sx_mean.
Example sx_mean_ex : exists mu v, mean [1; 2; 6] = Some mu /\ (mu == 3)%Q /\
  variance [1; 2; 6] = Some v /\ (v == 14 # 3)%Q.
Proof. eexists. eexists. by repeat split. Qed.
Theorem sx_count : forall {A} (ll : list (list A)), count_nested ll = length (concat ll).
Proof. intros A. exact count_nested_ok. Qed.
Print Assumptions sx_count.
Example sx_count_ex : count_nested [[1; 2]; []; [3]] = 3%nat.
Proof. done. Qed.
Close Scope Z_scope.

(** ** C62: keepOnlyNSortedElements *)
Theorem sx_keep_n : forall {A} (cmp : A -> A -> bool) n l r kept removed,
  keep_n cmp n l (r, kept, removed) ->
  kept ++ removed ≡ₚ l /\ r = length kept /\ length kept = Nat.min n (length l) /\
  (forall x y, x ∈ kept -> y ∈ removed -> cmp y x = false).
Proof. intros A. exact keep_n_ok. Qed.
Print Assumptions sx_keep_n.
Example sx_keep_n_ex : keep_n (fun a b => b <? a) 2 [3; 9; 4] (2, [9; 4], [3]).
Proof.
  change (keep_n (fun a b => b <? a) 2 [3; 9; 4] (length (take 2 [9; 4; 3]), take 2 [9; 4; 3], drop 2 [9; 4; 3])).
  apply keep_sort; [lia|simpl; lia|]. split; [by apply (bool_decide_unpack _)|].
  split; intros [|[|[|i]]] [|[|[|j]]] x y; simpl; intros; try lia; simplify_eq; done.
Qed.

(** ** C63: drawNRandomElements *)
Theorem sx_draw_n : forall {A} n (input : list A) rnd order out,
  (forall s, order s ≡ₚ s) -> Forall (fun i => i < length input) rnd ->
  draw_n n input rnd order = Some out ->
  length out = Nat.min n (length input) /\
  exists idx, NoDup idx /\ length idx = length out /\
    Forall2 (fun i x => input !! i = Some x) idx out.
Proof. intros A. exact draw_n_ok. Qed.
Print Assumptions sx_draw_n.
Example sx_draw_n_ex : draw_n 2 [10; 11; 12] [1; 1; 0; 2] reverse = Some [11; 10] /\
  (forall s : list nat, reverse s ≡ₚ s).
Proof. split; [done|]. intros s. apply reverse_Permutation. Qed.
