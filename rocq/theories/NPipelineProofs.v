(** Lemmas about the image synchronisation. *)
From Coq Require Import ZArith Lia Bool Sorting.Sorted.
From stdpp Require Import list.
From Verif Require Import NPipelineModel NPipelineSpec.
Open Scope Z_scope.

Notation keys m := (fst <$> (m : list (Z * nframe))).
Notation ssorted m := (StronglySorted Z.lt (keys m)).

Lemma fmap_lookup_key (m : groups) i k : keys m !! i = Some k <-> exists f, m !! i = Some (k, f).
Proof.
  rewrite list_lookup_fmap. destruct (m !! i) as [[k' f']|]; simpl; split.
  - intros [= ->]. eauto.
  - intros [f [= -> _]]. done.
  - done.
  - intros [f [=]].
Qed.

Lemma elem_keys (m : groups) k : k ∈ keys m <-> exists f, (k, f) ∈ m.
Proof.
  rewrite elem_of_list_fmap. split.
  - intros ([k' f] & -> & H). eauto.
  - intros [f H]. exists (k, f). eauto.
Qed.

Lemma ssorted_cons k f (m : groups) :
  ssorted ((k, f) :: m) <-> ssorted m /\ forall k', k' ∈ keys m -> k < k'.
Proof.
  rewrite fmap_cons. split.
  - intros H. apply StronglySorted_inv in H as [H1 H2]. split; [done|].
    intros k' Hk. rewrite Forall_forall in H2. by apply H2.
  - intros [H1 H2]. constructor; [done|]. apply Forall_forall. exact H2.
Qed.

Lemma lb_le t m : (lower_bound t m <= length m)%nat.
Proof. induction m as [|[k f] m IH]; simpl; [lia|]. destruct (k <? t); simpl; lia. Qed.

Lemma lb_lt t (m : groups) i k f :
  (i < lower_bound t m)%nat -> m !! i = Some (k, f) -> k < t.
Proof.
  revert i. induction m as [|[k0 f0] m IH]; intros i; simpl; [lia|].
  destruct (k0 <? t) eqn:E; [|lia]. destruct i as [|i]; simpl.
  - intros _ [= -> ->]. lia.
  - intros H1 H2. apply (IH i); [lia|done].
Qed.

Lemma lb_ge t (m : groups) i k f :
  ssorted m -> (lower_bound t m <= i)%nat -> m !! i = Some (k, f) -> t <= k.
Proof.
  revert i. induction m as [|[k0 f0] m IH]; intros i; [done|].
  rewrite ssorted_cons. intros [S1 S2]. simpl. destruct (k0 <? t) eqn:E.
  - destruct i as [|i]; simpl; [lia|]. intros H1 H2. apply (IH i); [done|lia|done].
  - intros _. destruct i as [|i]; simpl.
    + intros [= -> ->]. lia.
    + intros H. assert (k ∈ keys m) as H'.
      { apply elem_keys. exists f. by apply elem_of_list_lookup_2 in H. }
      specialize (S2 _ H'). lia.
Qed.

Lemma ssorted_lookup (m : groups) i j k k' f f' :
  ssorted m -> (i < j)%nat -> m !! i = Some (k, f) -> m !! j = Some (k', f') -> k < k'.
Proof.
  revert i j. induction m as [|[k0 f0] m IH]; intros i j; [done|].
  rewrite ssorted_cons. intros [S1 S2] Hij. destruct i as [|i], j as [|j]; simpl; try lia.
  - intros [= -> ->] H. apply S2, elem_keys. exists f'. by apply elem_of_list_lookup_2 in H.
  - intros H1 H2. apply (IH i j); [done|lia|done|done].
Qed.

Lemma closest_none t m : closest t m = None -> m = [].
Proof.
  unfold closest. destruct m as [|[k f] m]; [done|].
  intros H. exfalso.
  pose proof (lb_le t ((k, f) :: m)) as L.
  assert (exists x, ((k, f) :: m) !! (match lower_bound t ((k, f) :: m) with O => O | S j => j end)
    = Some x) as [[k1 f1] E].
  { apply lookup_lt_is_Some_2. destruct (lower_bound t ((k, f) :: m)); simpl in *; lia. }
  cbv zeta in H. rewrite E in H.
  destruct (((k, f) :: m) !! S _) as [[]|]; [|done]. by destruct (Z.abs _ <? _).
Qed.

Lemma closest_some t (m : groups) i d :
  ssorted m -> closest t m = Some (i, d) ->
  exists k f, m !! i = Some (k, f) /\ d = Z.abs (k - t) /\
    forall k', k' ∈ keys m ->
      Z.abs (k - t) <= Z.abs (k' - t) /\ (Z.abs (k - t) = Z.abs (k' - t) -> k <= k').
Proof.
  intros S H. unfold closest in H. cbv zeta in H.
  set (lb := lower_bound t m) in *.
  set (i0 := match lb with O => O | S j => j end) in *.
  destruct (m !! i0) as [[k0 f0]|] eqn:E0; [|done].
  assert (forall k' f' j, m !! j = Some (k', f') -> (j < i0)%nat -> k' < k0 /\ k0 < t) as Hlow.
  { intros k' f' j Hj Hlt. split.
    - by apply (ssorted_lookup m j i0 k' k0 f' f0).
    - apply (lb_lt t m i0 k0 f0); [|done]. fold lb. unfold i0 in *. destruct lb; lia. }
  assert (lb = O \/ k0 < t) as Hk0.
  { destruct lb eqn:El; [by left|right]. apply (lb_lt t m i0 k0 f0); [|done].
    fold lb. unfold i0. rewrite El. lia. }
  assert (lb = O -> t <= k0) as Hk0'.
  { intros El. apply (lb_ge t m i0 k0 f0); [done| |done]. fold lb. lia. }
  assert (forall k' f' j, m !! j = Some (k', f') -> (i0 < j)%nat -> t <= k' /\ k0 < k') as Hhigh.
  { intros k' f' j Hj Hlt. split.
    - apply (lb_ge t m j k' f'); [done| |done]. fold lb. unfold i0 in *. destruct lb; lia.
    - by apply (ssorted_lookup m i0 j k0 k' f0 f'). }
  destruct (m !! Datatypes.S i0) as [[k1 f1]|] eqn:E1.
  - assert (t <= k1 /\ k0 < k1) as [? ?] by (apply (Hhigh k1 f1 (Datatypes.S i0)); [done|lia]).
    assert (forall k' f' j, m !! j = Some (k', f') -> (Datatypes.S i0 < j)%nat -> k1 < k') as Hhh.
    { intros k' f' j Hj Hlt. by apply (ssorted_lookup m (Datatypes.S i0) j k1 k' f1 f'). }
    destruct (Z.abs (k1 - t) <? Z.abs (k0 - t)) eqn:C; injection H as <- <-.
    + exists k1, f1. do 2 (split; [done|]). intros k' Hk.
      apply elem_keys in Hk as [f' Hk]. apply elem_of_list_lookup_1 in Hk as [j Hj].
      destruct (Nat.lt_trichotomy j (Datatypes.S i0)) as [L|[->|L]].
      * destruct (decide (j = i0)) as [->|N].
        -- rewrite E0 in Hj. injection Hj as <- <-. lia.
        -- destruct (Hlow _ _ _ Hj); lia.
      * rewrite E1 in Hj. injection Hj as <- <-. lia.
      * specialize (Hhh _ _ _ Hj L). lia.
    + exists k0, f0. do 2 (split; [done|]). intros k' Hk.
      apply elem_keys in Hk as [f' Hk]. apply elem_of_list_lookup_1 in Hk as [j Hj].
      destruct (Nat.lt_trichotomy j i0) as [L|[->|L]].
      * destruct (Hlow _ _ _ Hj L); lia.
      * rewrite E0 in Hj. injection Hj as <- <-. lia.
      * destruct (decide (j = Datatypes.S i0)) as [->|N].
        -- rewrite E1 in Hj. injection Hj as <- <-. lia.
        -- assert (Datatypes.S i0 < j)%nat as L' by lia. specialize (Hhh _ _ _ Hj L'). lia.
  - injection H as <- <-. exists k0, f0. do 2 (split; [done|]). intros k' Hk.
    apply elem_keys in Hk as [f' Hk]. apply elem_of_list_lookup_1 in Hk as [j Hj].
    destruct (Nat.lt_trichotomy j i0) as [L|[->|L]].
    + destruct (Hlow _ _ _ Hj L); lia.
    + rewrite E0 in Hj. injection Hj as <- <-. lia.
    + exfalso. apply lookup_lt_Some in Hj. apply lookup_ge_None in E1. lia.
Qed.

(** map insertion *)
Lemma map_insert_some k f m :
  ssorted m -> k ∉ keys m ->
  map_insert k f m = Some (take (lower_bound k m) m ++ (k, f) :: drop (lower_bound k m) m).
Proof.
  induction m as [|[k0 f0] m IH]; [done|].
  rewrite ssorted_cons. intros [S1 S2] N. rewrite fmap_cons, not_elem_of_cons in N.
  simpl in N. destruct N as [N1 N2]. simpl.
  destruct (k <? k0) eqn:E1.
  - destruct (k0 <? k) eqn:E2; [lia|]. done.
  - destruct (k =? k0) eqn:E2; [lia|]. destruct (k0 <? k) eqn:E3; [|lia].
    rewrite (IH S1 N2). done.
Qed.

Lemma map_insert_none k f m :
  ssorted m -> k ∈ keys m -> map_insert k f m = None.
Proof.
  induction m as [|[k0 f0] m IH]; [by intros _ ?%elem_of_nil|].
  rewrite ssorted_cons. intros [S1 S2] N. rewrite fmap_cons, elem_of_cons in N. simpl in N. simpl.
  destruct N as [->|N].
  - rewrite Z.ltb_irrefl, Z.eqb_refl. done.
  - specialize (S2 _ N). destruct (k <? k0) eqn:E1; [lia|].
    destruct (k =? k0) eqn:E2; [lia|]. by rewrite (IH S1 N).
Qed.

Lemma map_insert_inv k f m m' :
  ssorted m -> map_insert k f m = Some m' ->
  k ∉ keys m /\ ssorted m' /\ m' ≡ₚ (k, f) :: m /\ m' !! lower_bound k m = Some (k, f).
Proof.
  intros S H. destruct (decide (k ∈ keys m)) as [I|N].
  - rewrite map_insert_none in H by done. done.
  - split; [done|]. rewrite map_insert_some in H by done. injection H as <-.
    set (lb := lower_bound k m). split; [|split].
    + rewrite fmap_app, fmap_cons. simpl. unfold lb. clear lb.
      induction m as [|[k0 f0] m IH]; [simpl; by repeat constructor|].
      rewrite ssorted_cons in S. destruct S as [S1 S2].
      rewrite fmap_cons, not_elem_of_cons in N. simpl in N. destruct N as [N1 N2].
      specialize (IH S1 N2). simpl. destruct (k0 <? k) eqn:E; simpl.
      * constructor; [done|]. apply Forall_forall. intros x Hx.
        rewrite elem_of_app, elem_of_cons in Hx. rewrite <- (take_drop (lower_bound k m) m) in S2.
        rewrite fmap_app in S2. setoid_rewrite elem_of_app in S2.
        destruct Hx as [Hx|[->|Hx]]; [auto|lia|auto].
      * constructor; [constructor; [done|]|].
        -- apply Forall_forall. exact S2.
        -- apply Forall_forall. intros x Hx. rewrite elem_of_cons in Hx.
           destruct Hx as [->|Hx]; [lia|]. specialize (S2 _ Hx). lia.
    + rewrite <- Permutation_middle. by rewrite take_drop.
    + rewrite lookup_app_r; rewrite take_length_le by apply lb_le; [|done]. by rewrite Nat.sub_diag.
Qed.

(** completeness *)
Lemma all_set_complete f : all_set f = true <-> complete f.
Proof.
  unfold all_set, complete. rewrite forallb_forall. split.
  - intros H c E. apply elem_of_list_lookup_2, elem_of_list_In, H in E. done.
  - intros H x Hx. apply elem_of_list_In, elem_of_list_lookup in Hx as [c Hc].
    destruct x; [done|]. by apply H in Hc.
Qed.

(** ** The invariant *)
Definition fits (ncam : nat) (tol : Z) (k : Z) (f : nframe) : Prop :=
  length f = ncam /\
  forall c i, f !! c = Some (Some i) -> cam i = c /\ Z.abs (stamp i - k) <= tol.

Record Inv (ncam : nat) (tol : Z) (st : state) : Prop := {
  inv_ps : ssorted (processing st);
  inv_cs : ssorted (completed st);
  inv_pf : forall k f, (k, f) ∈ processing st -> fits ncam tol k f;
  inv_cf : forall k f, (k, f) ∈ completed st -> fits ncam tol k f /\ complete f }.

Lemma inv_init ncam tol : Inv ncam tol init.
Proof.
  split; [apply SSorted_nil|apply SSorted_nil| |]; intros k f H; by apply elem_of_nil in H.
Qed.

Lemma fits_new ncam tol k : fits ncam tol k (new_nframe ncam).
Proof.
  split; [apply replicate_length|]. intros c i H. apply lookup_replicate in H as [H _]. done.
Qed.

Lemma fits_set ncam tol k f i :
  fits ncam tol k f -> Z.abs (k - stamp i) <= tol -> fits ncam tol k (set_frame i f).
Proof.
  intros [L F] H. unfold set_frame. split; [by rewrite insert_length|].
  intros c i' E. destruct (decide (c = cam i)) as [->|N].
  - apply list_lookup_insert_Some in E as [(_ & [= ->] & _)|[N _]]; [|done]. split; [done|lia].
  - rewrite list_lookup_insert_ne in E by done. eauto.
Qed.

(** find_group *)
Lemma find_group_some ncam tol t (m : groups) :
  ssorted m -> 0 <= tol ->
  exists j m' k f, find_group ncam tol t m = Some (j, m') /\ m' !! j = Some (k, f) /\
    ssorted m' /\ right_group tol (keys m) t k /\ Z.abs (k - t) <= tol /\
    ((m' = m /\ (k, f) ∈ m) \/
     (f = new_nframe ncam /\ m' ≡ₚ (k, f) :: m /\ k ∉ keys m /\ k = t /\
      forall k', k' ∈ keys m -> tol < Z.abs (k' - t))).
Proof.
  intros S T. unfold find_group.
  assert ((forall k', k' ∈ keys m -> tol < Z.abs (k' - t)) ->
    exists j m' k f, (match map_insert t (new_nframe ncam) m with
                      | Some m' => Some (lower_bound t m, m') | None => None end) = Some (j, m') /\
    m' !! j = Some (k, f) /\
    ssorted m' /\ right_group tol (keys m) t k /\ Z.abs (k - t) <= tol /\
    ((m' = m /\ (k, f) ∈ m) \/
     (f = new_nframe ncam /\ m' ≡ₚ (k, f) :: m /\ k ∉ keys m /\ k = t /\
      forall k', k' ∈ keys m -> tol < Z.abs (k' - t)))) as Create.
  { intros Far. assert (t ∉ keys m) as N.
    { intros I. specialize (Far _ I). lia. }
    destruct (map_insert t (new_nframe ncam) m) as [m'|] eqn:E.
    - destruct (map_insert_inv _ _ _ _ S E) as (_ & S' & P & L).
      exists (lower_bound t m), m', t, (new_nframe ncam). split; [done|]. split; [done|].
      split; [done|]. split; [right; done|]. split; [lia|]. right. done.
    - rewrite map_insert_some in E by done. done. }
  destruct (closest t m) as [[i d]|] eqn:C.
  - destruct (closest_some _ _ _ _ S C) as (k & f & E & -> & Near).
    destruct (tol <? Z.abs (k - t)) eqn:D.
    + apply Create. intros k' Hk. destruct (Near k' Hk). lia.
    + exists i, m, k, f. split; [done|]. split; [done|]. split; [done|].
      assert ((k, f) ∈ m) as I by by apply elem_of_list_lookup_2 in E.
      split; [|split; [lia|left; done]]. left. split; [|split; [lia|done]].
      apply elem_keys. eauto.
  - apply closest_none in C as ->. apply Create. by intros k' ?%elem_of_nil.
Qed.

(** scanning and dropping *)
Lemma keys_insert_same (m : groups) j k f f' :
  m !! j = Some (k, f) -> keys (<[j := (k, f')]> m) = keys m.
Proof.
  intros E. rewrite list_fmap_insert. simpl. apply list_insert_id.
  by rewrite list_lookup_fmap, E.
Qed.

Lemma ssorted_drop n (m : groups) : ssorted m -> ssorted (drop n m).
Proof.
  revert n. induction m as [|[k f] m IH]; intros [|n] H; try done.
  rewrite ssorted_cons in H. apply IH. tauto.
Qed.

Lemma drop_elem {A} n (m : list A) x : x ∈ drop n m -> x ∈ m.
Proof. intros H. rewrite <- (take_drop n m). apply elem_of_app. by right. Qed.
Lemma take_elem {A} n (m : list A) x : x ∈ take n m -> x ∈ m.
Proof. intros H. rewrite <- (take_drop n m). apply elem_of_app. by left. Qed.

(** moving: what happens to the two maps *)
Lemma move_spec (p : groups) : forall c pr cr evs,
  ssorted p -> ssorted c -> move_complete p c = (pr, cr, evs) ->
  exists q, p = q ++ pr /\
    (forall k f, (k, f) ∈ q -> complete f) /\
    (match pr with [] => True | (_, f) :: _ => ~ complete f end) /\
    ssorted cr /\
    cr ++ left_groups evs ≡ₚ c ++ q /\
    (forall kf, kf ∈ c -> kf ∈ cr) /\
    (forall kf, kf ∈ cr -> kf ∈ c \/ kf ∈ q) /\
    (forall k f, (k, f) ∈ left_groups evs -> (k, f) ∈ q /\ k ∈ keys c) /\
    (forall k f, (k, f) ∈ q -> k ∈ keys c \/ (k, f) ∈ cr) /\
    emitted evs = [] /\ overwritten_images evs = [] /\ dropped_groups evs = [] /\
    lost_groups evs = left_groups evs.
Proof.
  induction p as [|[k f] p IH]; intros c pr cr evs Sp Sc H.
  - injection H as <- <- <-. exists []. simpl.
    repeat split; try done; try (intros; by match goal with X : _ ∈ [] |- _ => apply elem_of_nil in X end).
    intros; auto.
  - simpl in H. rewrite ssorted_cons in Sp. destruct Sp as [Sp Lt].
    destruct (all_set f) eqn:A.
    + apply all_set_complete in A.
      destruct (map_insert k f c) as [c'|] eqn:M.
      * destruct (map_insert_inv _ _ _ _ Sc M) as (N & Sc' & P & _).
        destruct (IH c' pr cr evs Sp Sc' H) as (q & -> & Q1 & Q2 & Q3 & Q4 & Q5 & Q6 & Q7 & Q8 & Q9).
        exists ((k, f) :: q). split; [done|]. split.
        { intros k' f' I. apply elem_of_cons in I as [[= -> ->]|I]; [done|eauto]. }
        split; [done|]. split; [done|]. split.
        { rewrite Q4, P. rewrite <- Permutation_middle. done. }
        split.
        { intros kf I. apply Q5. rewrite P. by right. }
        split.
        { intros kf I. apply Q6 in I as [I|I].
          - rewrite P in I. apply elem_of_cons in I as [->|I]; [right; by left|by left].
          - right. by right. }
        split.
        { intros k' f' I. destruct (Q7 _ _ I) as [I1 I2]. split; [by right|].
          assert (k < k') as L.
          { apply Lt, elem_keys. exists f'. apply elem_of_app. by left. }
          apply elem_keys in I2 as [f2 I2]. rewrite P in I2. apply elem_of_cons in I2 as [[= -> ->]|I2].
          - lia.
          - apply elem_keys. eauto. }
        split.
        { intros k' f' I. apply elem_of_cons in I as [[= -> ->]|I].
          - right. apply Q5. rewrite P. by left.
          - destruct (Q8 _ _ I) as [I2|I2]; [|by right].
            assert (k < k') as L.
            { apply Lt, elem_keys. exists f'. apply elem_of_app. by left. }
            apply elem_keys in I2 as [f2 I2]. rewrite P in I2.
            apply elem_of_cons in I2 as [[= -> ->]|I2]; [lia|]. left. apply elem_keys. eauto. }
        done.
      * destruct (move_complete p c) as [[pr' cr'] evs'] eqn:E. injection H as <- <- <-.
        assert (k ∈ keys c) as I.
        { destruct (decide (k ∈ keys c)) as [I|N]; [done|]. rewrite map_insert_some in M by done. done. }
        destruct (IH c pr' cr' evs' Sp Sc E)
          as (q & -> & Q1 & Q2 & Q3 & Q4 & Q5 & Q6 & Q7 & Q8 & Q9 & Q10 & Q11 & Q12).
        exists ((k, f) :: q). split; [done|]. split.
        { intros k' f' I'. apply elem_of_cons in I' as [[= -> ->]|I']; [done|eauto]. }
        split; [done|]. split; [done|]. split.
        { change (left_groups (EvShadowed k f :: evs')) with ((k, f) :: left_groups evs').
          rewrite <- !Permutation_middle. by rewrite Q4. }
        split; [done|]. split.
        { intros kf I'. apply Q6 in I' as [I'|I']; [by left|right; by right]. }
        split.
        { change (left_groups (EvShadowed k f :: evs')) with ((k, f) :: left_groups evs').
          intros k' f' I'. apply elem_of_cons in I' as [[= -> ->]|I'].
          - split; [by left|done].
          - destruct (Q7 _ _ I'). split; [by right|done]. }
        split.
        { intros k' f' I'. apply elem_of_cons in I' as [[= -> ->]|I']; [by left|eauto]. }
        repeat split; try done.
        change (lost_groups (EvShadowed k f :: evs')) with ((k, f) :: lost_groups evs').
        change (left_groups (EvShadowed k f :: evs')) with ((k, f) :: left_groups evs').
        by rewrite Q12.
    + injection H as <- <- <-. exists []. simpl.
      repeat split; try done; try (intros; by match goal with X : _ ∈ [] |- _ => apply elem_of_nil in X end).
      * intros C. apply all_set_complete in C. congruence.
      * intros; auto.
Qed.

(** ** One work step in full *)
Lemma work_spec ncam tol i st :
  Inv ncam tol st -> 0 <= tol -> (cam i < ncam)%nat ->
  exists st' evs k f0 m1 n q evs',
    work ncam tol i st = Ok st' evs /\
    right_group tol (keys (processing st)) (stamp i) k /\ Z.abs (k - stamp i) <= tol /\
    (** the group before and the pending groups after adding the image *)
    ssorted m1 /\
    fits ncam tol k f0 /\
    (((k, f0) ∈ processing st /\ exists r, processing st ≡ₚ (k, f0) :: r /\
        m1 ≡ₚ (k, set_frame i f0) :: r /\ keys m1 = keys (processing st)) \/
     (f0 = new_nframe ncam /\ k = stamp i /\ k ∉ keys (processing st) /\
      (forall k', k' ∈ keys (processing st) -> tol < Z.abs (k' - stamp i)) /\
      m1 ≡ₚ (k, set_frame i f0) :: processing st)) /\
    (** dropping, moving *)
    n = num_drop m1 /\
    move_complete (drop n m1) (completed st) = (processing st', completed st', evs') /\
    drop n m1 = q ++ processing st' /\
    evs = overwritten i f0 ++ dropped_ev (take n m1) ++ evs'.
Proof.
  intros I T C. unfold work.
  replace (ncam <? cam i)%nat with false by (symmetry; apply Nat.ltb_ge; lia).
  replace (cam i =? ncam)%nat with false by (symmetry; apply Nat.eqb_neq; lia).
  destruct (find_group_some ncam tol (stamp i) (processing st) (inv_ps _ _ _ I) T)
    as (j & m & k & f & F1 & F2 & F3 & F4 & F5 & F6).
  rewrite F1, F2. set (m1 := <[j := (k, set_frame i f)]> m).
  destruct (move_complete (drop (num_drop m1) m1) (completed st)) as [[p c] evs'] eqn:M.
  assert (ssorted m1) as S1.
  { unfold m1. by rewrite (keys_insert_same m j k f). }
  destruct (move_spec _ _ _ _ _ (ssorted_drop (num_drop m1) _ S1) (inv_cs _ _ _ I) M)
    as (q & Eq & _).
  exists (State p c), (overwritten i f ++ dropped_ev (take (num_drop m1) m1) ++ evs'), k, f, m1,
    (num_drop m1), q, evs'.
  assert (m ≡ₚ (k, f) :: (take j m ++ drop (S j) m)) as Pm.
  { rewrite <- (take_drop_middle m j (k, f) F2) at 1. by rewrite <- Permutation_middle. }
  assert (m1 ≡ₚ (k, set_frame i f) :: (take j m ++ drop (S j) m)) as Pm1.
  { unfold m1. rewrite (insert_take_drop m j) by by apply lookup_lt_Some in F2.
    by rewrite <- Permutation_middle. }
  split; [done|]. split; [done|]. split; [done|]. split; [done|]. split.
  { destruct F6 as [[-> F6]|[-> _]]; [exact (inv_pf _ _ _ I _ _ F6)|apply fits_new]. }
  split; [|done].
  destruct F6 as [[-> F6]|(-> & P & N & K & Far)].
  - left. split; [done|]. exists (take j (processing st) ++ drop (S j) (processing st)).
    split; [done|]. split; [done|]. by apply keys_insert_same with f.
  - right. do 4 (split; [done|]). rewrite Pm1. constructor.
    apply (Permutation_cons_inv (a := (k, new_nframe ncam))). by rewrite <- Pm, P.
Qed.

Lemma map_fits_after ncam tol i st k f0 (m1 : groups) :
  Inv ncam tol st -> Z.abs (k - stamp i) <= tol -> fits ncam tol k f0 ->
  (((k, f0) ∈ processing st /\ exists r, processing st ≡ₚ (k, f0) :: r /\
        m1 ≡ₚ (k, set_frame i f0) :: r /\ keys m1 = keys (processing st)) \/
     (f0 = new_nframe ncam /\ k = stamp i /\ k ∉ keys (processing st) /\
      (forall k', k' ∈ keys (processing st) -> tol < Z.abs (k' - stamp i)) /\
      m1 ≡ₚ (k, set_frame i f0) :: processing st)) ->
  forall k' f', (k', f') ∈ m1 -> fits ncam tol k' f'.
Proof.
  intros I A F H k' f' E. destruct H as [(_ & r & P & P1 & _)|(_ & _ & _ & _ & P1)].
  - rewrite P1 in E. apply elem_of_cons in E as [[= -> ->]|E].
    + by apply fits_set.
    + apply (inv_pf _ _ _ I). rewrite P. by right.
  - rewrite P1 in E. apply elem_of_cons in E as [[= -> ->]|E].
    + by apply fits_set.
    + by apply (inv_pf _ _ _ I).
Qed.

Lemma last_elem {A} (l : list A) x : last l = Some x -> l = removelast l ++ [x].
Proof.
  intros H. destruct l as [|a l] using rev_ind; [done|].
  rewrite last_snoc in H. injection H as ->. by rewrite removelast_last.
Qed.

Lemma drop_until_spec t (m : groups) a b :
  ssorted m -> drop_until t m = (a, b) ->
  m = a ++ b /\ (forall k, k ∈ keys a -> k <= t) /\ (forall k, k ∈ keys b -> t < k).
Proof.
  revert a b. induction m as [|[k f] m IH]; intros a b S H.
  - injection H as <- <-. repeat split; by intros k ?%elem_of_nil.
  - rewrite ssorted_cons in S. destruct S as [S L]. simpl in H. destruct (k <=? t) eqn:E.
    + destruct (drop_until t m) as [a' b'] eqn:D. injection H as <- <-.
      destruct (IH a' b' S eq_refl) as (-> & A & B). split; [done|]. split; [|done].
      intros k' Hk. rewrite fmap_cons in Hk. apply elem_of_cons in Hk as [->|Hk]; simpl; [lia|auto].
    + injection H as <- <-. split; [done|]. split; [by intros k' ?%elem_of_nil|].
      intros k' Hk. rewrite fmap_cons in Hk. apply elem_of_cons in Hk as [->|Hk]; simpl; [lia|].
      specialize (L _ Hk). lia.
Qed.

Lemma ssorted_app_r (a b : groups) : ssorted (a ++ b) -> ssorted b.
Proof.
  induction a as [|[k f] a IH]; [done|]. simpl. intros H. apply StronglySorted_inv in H as [H _].
  by apply IH.
Qed.

Lemma ssorted_app_lt (a b : groups) k k' :
  ssorted (a ++ b) -> k ∈ keys a -> k' ∈ keys b -> k < k'.
Proof.
  induction a as [|[k0 f] a IH]; [by intros _ ?%elem_of_nil|].
  change (((k0, f) :: a) ++ b) with ((k0, f) :: (a ++ b)). rewrite ssorted_cons.
  intros [S L] H1 H2. rewrite fmap_cons in H1. apply elem_of_cons in H1 as [->|H1].
  - simpl. apply L. rewrite fmap_app. apply elem_of_app. by right.
  - by apply IH.
Qed.

(** ** Preservation *)
Lemma step_inv ncam tol st a :
  Inv ncam tol st -> 0 <= tol -> legal ncam a ->
  exists st' evs, step ncam tol st a = Ok st' evs /\ Inv ncam tol st'.
Proof.
  intros I T Lg. destruct a as [i| | |max]; cbn [step legal] in *.
  - destruct (work_spec ncam tol i st I T Lg)
      as (st' & evs & k & f0 & m1 & n & q & evs' & W & R & A & S1 & F0 & P & N & M & Q & E).
    exists st', evs. split; [done|].
    pose proof (map_fits_after _ _ _ _ _ _ _ I A F0 P) as F1.
    destruct (move_spec _ _ _ _ _ (ssorted_drop n _ S1) (inv_cs _ _ _ I) M)
      as (q' & Eq & Q1 & Q2 & Q3 & Q4 & Q5 & Q6 & Q7 & Q8 & Q9).
    assert (forall k f, (k, f) ∈ q' -> fits ncam tol k f) as Fq.
    { intros k' f' H. apply F1. apply (drop_elem n). rewrite Eq. apply elem_of_app. by left. }
    split.
    + apply (ssorted_app_r q'). rewrite <- Eq. by apply ssorted_drop.
    + done.
    + intros k' f' H. apply F1. apply (drop_elem n). rewrite Eq. apply elem_of_app. by right.
    + intros k' f' H. apply Q6 in H as [H|H].
      * by apply (inv_cf _ _ _ I).
      * split; [by apply Fq|by apply (Q1 k')].
  - unfold get_next. destruct (completed st) as [|[k f] c] eqn:E.
    + exists st, [EvEmpty]. done.
    + exists (State (processing st) c), [EvEmit k f]. split; [done|].
      destruct I as [I1 I2 I3 I4]. rewrite E in I2, I4. split; try done; cbn [processing completed].
      * rewrite ssorted_cons in I2. tauto.
      * intros k' f' H. apply I4. by right.
  - unfold get_latest. destruct (last (completed st)) as [[k f]|] eqn:E.
    + destruct (drop_until k (processing st)) as [a b] eqn:D.
      exists (State b []), (EvEmit k f :: cleared_ev (removelast (completed st)) ++ cleared_ev a).
      split; [done|]. destruct (drop_until_spec _ _ _ _ (inv_ps _ _ _ I) D) as (P & _ & _).
      split; cbn [processing completed].
      * apply (ssorted_app_r a). rewrite <- P. apply (inv_ps _ _ _ I).
      * constructor.
      * intros k' f' H. apply (inv_pf _ _ _ I). rewrite P. apply elem_of_app. by right.
      * by intros ? ? ?%elem_of_nil.
    + exists st, [EvEmpty]. done.
  - unfold make_room. replace (max <? 1)%nat with false by (symmetry; apply Nat.ltb_ge; lia).
    destruct (max <=? length (completed st))%nat eqn:L.
    + destruct (completed st) as [|[k f] c] eqn:E.
      * simpl in L. apply Nat.leb_le in L. lia.
      * exists (State (processing st) c), [EvEvicted k f]. split; [done|].
        destruct I as [I1 I2 I3 I4]. rewrite E in I2, I4. split; try done; cbn [processing completed].
        -- rewrite ssorted_cons in I2. tauto.
        -- intros k' f' H. apply I4. by right.
    + exists st, []. done.
Qed.

Lemma step_inv' ncam tol st a st' evs :
  Inv ncam tol st -> 0 <= tol -> legal ncam a -> step ncam tol st a = Ok st' evs ->
  Inv ncam tol st'.
Proof.
  intros I T L H. destruct (step_inv _ _ _ _ I T L) as (st2 & evs2 & E & I2). congruence.
Qed.

Lemma run_ok ncam tol acts : forall st,
  Inv ncam tol st -> 0 <= tol -> Forall (legal ncam) acts ->
  exists st' evs, run ncam tol st acts = Ok st' evs /\ Inv ncam tol st'.
Proof.
  induction acts as [|a acts IH]; intros st I T L.
  - exists st, []. done.
  - apply Forall_cons in L as [L1 L2].
    destruct (step_inv _ _ _ _ I T L1) as (st1 & e1 & E1 & I1).
    destruct (IH st1 I1 T L2) as (st2 & e2 & E2 & I2).
    exists st2, (e1 ++ e2). simpl. rewrite E1, E2. done.
Qed.

Lemma run_inv ncam tol acts st st' evs :
  Inv ncam tol st -> 0 <= tol -> Forall (legal ncam) acts ->
  run ncam tol st acts = Ok st' evs -> Inv ncam tol st'.
Proof.
  intros I T L H. destruct (run_ok ncam tol acts st I T L) as (s & e & E & I'). congruence.
Qed.

(** An induction principle over executions with their histories. *)
Lemma run_snoc ncam tol st acts a st' evs :
  run ncam tol st (acts ++ [a]) = Ok st' evs ->
  exists st1 e1 e2, run ncam tol st acts = Ok st1 e1 /\ step ncam tol st1 a = Ok st' e2 /\
    evs = e1 ++ e2.
Proof.
  revert st evs. induction acts as [|b acts IH]; intros st evs H; simpl in *.
  - destruct (step ncam tol st a) as [s e| |] eqn:E; try done. injection H as <- <-.
    exists st, [], e. rewrite app_nil_r. done.
  - destruct (step ncam tol st b) as [s e| |] eqn:E; try done.
    destruct (run ncam tol s (acts ++ [a])) as [s' e'| |] eqn:R; try done. injection H as <- <-.
    destruct (IH _ _ R) as (st1 & e1 & e2 & R1 & R2 & ->).
    exists st1, (e ++ e1), e2. rewrite R1. rewrite <- app_assoc. done.
Qed.

Lemma run_ind ncam tol (P : list act -> state -> list event -> Prop) :
  0 <= tol -> P [] init [] ->
  (forall acts a st evs st' e, Inv ncam tol st -> run ncam tol init acts = Ok st evs ->
     Forall (legal ncam) acts -> legal ncam a ->
     P acts st evs -> step ncam tol st a = Ok st' e -> P (acts ++ [a]) st' (evs ++ e)) ->
  forall acts st evs, Forall (legal ncam) acts -> run ncam tol init acts = Ok st evs -> P acts st evs.
Proof.
  intros T P0 PS acts. induction acts as [|a acts IH] using rev_ind; intros st evs L H.
  - injection H as <- <-. done.
  - apply Forall_app in L as [L1 L2]. apply Forall_cons in L2 as [L2 _].
    apply run_snoc in H as (st1 & e1 & e2 & R & S & ->).
    apply (PS acts a st1 e1 st e2); try done.
    + exact (run_inv _ _ _ _ _ _ (inv_init ncam tol) T L1 R).
    + by apply IH.
Qed.
