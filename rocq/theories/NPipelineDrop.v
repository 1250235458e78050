(** What the frame drop detection removes. *)
From Coq Require Import ZArith Lia Bool Sorting.Sorted.
From stdpp Require Import list.
From Verif Require Import NPipelineModel NPipelineSpec NPipelineProofs NPipelineHist.
Open Scope Z_scope.

Definition compl_at (m : groups) (j : nat) : Prop :=
  exists k f, m !! j = Some (k, f) /\ all_set f = true.
Definition pair_at (m : groups) (j : nat) : Prop := compl_at m j /\ compl_at m (S j).

Lemma compl_cons x m j : compl_at (x :: m) (S j) <-> compl_at m j.
Proof. done. Qed.
Lemma compl_head k f m : compl_at ((k, f) :: m) 0 <-> all_set f = true.
Proof.
  split; [intros (k' & f' & [= <- <-] & H); done|]. intros H. exists k, f. done.
Qed.

Lemma scan_spec m : forall idx n, (n <= 1)%nat ->
  match scan idx n m with
  | Some r =>
    (n = 1%nat /\ r = idx /\ compl_at m 0) \/
    ((n = 1%nat -> ~ compl_at m 0) /\ exists j, r = (idx + j + 1)%nat /\ pair_at m j /\
      (forall a, (a < j)%nat -> ~ pair_at m a))
  | None => (n = 1%nat -> ~ compl_at m 0) /\ forall a, ~ pair_at m a
  end.
Proof.
  induction m as [|[k f] m IH]; intros idx n Hn.
  - simpl. split; [intros _|intros a]; [intros (k & f & H & _)|intros [(k & f & H & _) _]]; done.
  - simpl. destruct (all_set f) eqn:A.
    + destruct n as [|n].
      * change (Nat.leb threshold 1) with false. cbv iota.
        specialize (IH (S idx) 1%nat ltac:(lia)).
        destruct (scan (S idx) 1 m) as [r|].
        -- destruct IH as [(_ & -> & C)|(NC & j & -> & P & Q)].
           ++ right. split; [done|]. exists 0%nat. split; [lia|]. split.
              ** split; [by apply compl_head|done].
              ** intros a Ha. lia.
           ++ right. split; [done|]. exists (S j). split; [lia|]. split; [exact P|].
              intros [|a] Ha; [|apply Q; lia]. intros [_ C]. by apply NC.
        -- destruct IH as [NC Q]. split; [done|]. intros [|a]; [|apply Q].
           intros [_ C]. by apply NC.
      * assert (n = 0%nat) as -> by lia. simpl. left. do 2 (split; [done|]). by apply compl_head.
    + change (Nat.leb threshold 0) with false. cbv iota.
      specialize (IH (S idx) 0%nat ltac:(lia)).
      assert (~ compl_at ((k, f) :: m) 0) as N.
      { intros C. apply compl_head in C. congruence. }
      destruct (scan (S idx) 0 m) as [r|].
      * destruct IH as [(? & _)|(NC & j & -> & P & Q)]; [lia|]. right. split; [done|].
        exists (S j). split; [lia|]. split; [exact P|].
        intros [|a] Ha; [|apply Q; lia]. intros [C _]. done.
      * destruct IH as [NC Q]. split; [done|]. intros [|a]; [|apply Q].
        intros [C _]. done.
Qed.

Lemma num_drop_spec m :
  (num_drop m = 0%nat /\ ((length m <= 3)%nat \/ pair_at m 0 \/ forall a, ~ pair_at m a)) \/
  ((3 < length m)%nat /\ (0 < num_drop m)%nat /\ pair_at m (num_drop m) /\
   forall a, (a < num_drop m)%nat -> ~ pair_at m a).
Proof.
  unfold num_drop, delete_upto.
  destruct (Nat.ltb_spec (threshold + 1) (length m)) as [L|L]; change (threshold + 1)%nat with 3%nat in L.
  - pose proof (scan_spec m 0 0 ltac:(lia)) as S. destruct (scan 0 0 m) as [r|].
    + destruct S as [(? & _)|(_ & j & -> & P & Q)]; [lia|].
      change (Z.of_nat threshold) with 2. destruct (Z.leb_spec 0 (Z.of_nat (0 + j + 1) - 2)).
      * right. replace (Z.to_nat (Z.of_nat (0 + j + 1) - 2 + 1)) with j by lia.
        split; [done|]. split; [lia|]. done.
      * left. assert (j = 0%nat) as -> by lia. split; [done|]. right. by left.
    + left. split; [done|]. right. right. apply S.
  - left. split; [done|]. left. lia.
Qed.

(** ** Positions in a work step *)
Lemma work_pos ncam tol i st st' evs :
  Inv ncam tol st -> 0 <= tol -> (cam i < ncam)%nat -> work ncam tol i st = Ok st' evs ->
  exists k f0 a b m1 evs',
    m1 = a ++ (k, set_frame i f0) :: b /\
    ((processing st = a ++ (k, f0) :: b) \/
     (processing st = a ++ b /\ f0 = new_nframe ncam)) /\
    ssorted m1 /\ (forall k' f', (k', f') ∈ m1 -> fits ncam tol k' f') /\
    right_group tol (keys (processing st)) (stamp i) k /\
    move_complete (drop (num_drop m1) m1) (completed st) = (processing st', completed st', evs') /\
    evs = overwritten i f0 ++ dropped_ev (take (num_drop m1) m1) ++ evs'.
Proof.
  intros I T C H.
  destruct (work_spec ncam tol i st I T C)
      as (st2 & evs2 & k2 & f2 & m2 & n2 & q0 & evs2' & W & R & A & S2 & F0 & P & N & M & Q & X).
  pose proof (map_fits_after _ _ _ _ _ _ _ I A F0 P) as F1. clear - I T C H W S2 P F1 M X N.
  revert H. unfold work.
  replace (ncam <? cam i)%nat with false by (symmetry; apply Nat.ltb_ge; lia).
  replace (cam i =? ncam)%nat with false by (symmetry; apply Nat.eqb_neq; lia).
  destruct (find_group ncam tol (stamp i) (processing st)) as [[j m]|] eqn:F; [|done].
  destruct (m !! j) as [[k f]|] eqn:E; [|done].
  destruct (move_complete (drop (num_drop (<[j:=(k, set_frame i f)]> m))
    (<[j:=(k, set_frame i f)]> m)) (completed st)) as [[p c] evs'] eqn:M'.
  intros [= <- <-].
  destruct (find_group_some ncam tol (stamp i) (processing st) (inv_ps _ _ _ I) T)
    as (j' & m' & k' & f' & F1' & F2 & F3 & F4 & F5 & F6).
  rewrite F in F1'. injection F1' as <- <-. rewrite E in F2. injection F2 as <- <-.
  exists k, f, (take j m), (drop (S j) m), (<[j:=(k, set_frame i f)]> m), evs'.
  assert (j < length m)%nat as Lj by by apply lookup_lt_Some in E.
  assert (ssorted (<[j:=(k, set_frame i f)]> m)) as S1 by by rewrite (keys_insert_same m j k f).
  split; [by apply insert_take_drop|].
  split.
  { destruct F6 as [[-> _]|(-> & P' & N' & K & Far)].
    - left. symmetry. by apply take_drop_middle.
    - right. split; [|done].
      assert (map_insert (stamp i) (new_nframe ncam) (processing st) = Some m /\
              j = lower_bound (stamp i) (processing st)) as [Mi ->].
      { unfold find_group in F. destruct (closest (stamp i) (processing st)) as [[i0 d]|] eqn:Cl.
        - destruct (tol <? d) eqn:D.
          + destruct (map_insert _ _ _); [|done]. by injection F as <- <-.
          + exfalso. injection F as <- <-.
            assert (length (processing st) = S (length (processing st))) as Q'
              by (rewrite P' at 1; done). lia.
        - destruct (map_insert _ _ _); [|done]. by injection F as <- <-. }
      rewrite K in N'. rewrite map_insert_some in Mi by (done || apply (inv_ps _ _ _ I)).
      injection Mi as <-. set (lb := lower_bound (stamp i) (processing st)).
      assert (length (take lb (processing st)) = lb) as Ll by (apply take_length_le, lb_le).
      rewrite take_app_alt by done.
      rewrite drop_app_ge by lia. rewrite Ll. replace (S lb - lb)%nat with 1%nat by lia.
      rewrite skipn_cons, drop_0. by rewrite take_drop. }
  split; [done|]. split; [|by split].
  intros k1 f1 H1. apply (insert_take_drop m j (k, set_frame i f)) in Lj. rewrite Lj in H1.
  rewrite elem_of_app, elem_of_cons in H1.
  assert (forall k1 f1, (k1, f1) ∈ m -> fits ncam tol k1 f1) as Fm.
  { intros k2' f2' H2. destruct F6 as [[-> _]|(-> & P' & N' & K & Far)].
    - by apply (inv_pf _ _ _ I).
    - rewrite P' in H2. apply elem_of_cons in H2 as [[= -> ->]|H2]; [apply fits_new|].
      by apply (inv_pf _ _ _ I). }
  destruct H1 as [H1|[[= -> ->]|H1]].
  - apply Fm. by apply (take_elem j).
  - apply fits_set; [|done]. apply Fm. by apply elem_of_list_lookup_2 in E.
  - apply Fm. by apply (drop_elem (S j)).
Qed.

(** ** Every dropped group is older than two complete groups, which are handed on in this step *)
Lemma take_lookup_elem {A} (n : nat) (m : list A) x :
  x ∈ take n m -> exists j, (j < n)%nat /\ m !! j = Some x.
Proof.
  intros H. apply elem_of_list_lookup in H as [j H]. exists j.
  apply lookup_take_Some in H. tauto.
Qed.

Lemma dropped_of_work ncam tol i st st' evs f0 m1 evs' :
  Inv ncam tol st -> ssorted m1 ->
  move_complete (drop (num_drop m1) m1) (completed st) = (processing st', completed st', evs') ->
  evs = overwritten i f0 ++ dropped_ev (take (num_drop m1) m1) ++ evs' ->
  dropped_groups evs = take (num_drop m1) m1.
Proof.
  intros I S M E.
  destruct (move_spec _ _ _ _ _ (ssorted_drop (num_drop m1) _ S) (inv_cs _ _ _ I) M)
      as (q & Eq & Q1 & Q2 & Q3 & Q4 & Q5 & Q6 & Q7 & Q8 & Q9 & Q10 & Q11 & Q12).
  by rewrite E, !dropped_app, dropped_overwritten, dropped_dropped, Q11, app_nil_r.
Qed.

Lemma drop_two_newer_lemma ncam tol i st st' evs k f :
  Inv ncam tol st -> 0 <= tol -> (cam i < ncam)%nat -> work ncam tol i st = Ok st' evs ->
  (k, f) ∈ dropped_groups evs ->
  (3 <= length (processing st))%nat /\ exists k1 k2, k < k1 < k2 /\ k1 ∈ keys (completed st') /\ k2 ∈ keys (completed st').
Proof.
  intros I T C W D.
  destruct (work_pos _ _ _ _ _ _ I T C W) as (k0 & f0 & a & b & m1 & evs' & E1 & E2 & S1 & F1 & R & M & E).
  rewrite (dropped_of_work _ _ _ _ _ _ f0 m1 evs' I S1 M E) in D.
  destruct (move_spec _ _ _ _ _ (ssorted_drop (num_drop m1) _ S1) (inv_cs _ _ _ I) M)
      as (q & Eq & Q1 & Q2 & Q3 & Q4 & Q5 & Q6 & Q7 & Q8 & _).
  destruct (num_drop_spec m1) as [[N _]|(L & N & [P1 P2] & _)].
  { rewrite N in D. by apply elem_of_nil in D. }
  apply take_lookup_elem in D as (j & Hj & D). set (n := num_drop m1) in *.
  destruct P1 as (k1 & f1 & P1 & A1). destruct P2 as (k2 & f2 & P2 & A2).
  assert (forall k' f', (k', f') ∈ q -> k' ∈ keys (completed st')) as Qk.
  { intros k' f' H. destruct (Q8 _ _ H) as [H'|H'].
    - apply elem_keys in H' as [f'' H']. apply elem_keys. exists f''. by apply Q5.
    - apply elem_keys. eauto. }
  assert (q !! 0%nat = Some (k1, f1)) as G1.
  { assert (drop n m1 !! 0%nat = Some (k1, f1)) as G by (rewrite lookup_drop, Nat.add_0_r; done).
    rewrite Eq in G. destruct q as [|x q]; [|done]. simpl in G.
    destruct (processing st') as [|[k' f'] pr] eqn:Ep; [done|]. injection G as -> ->.
    apply all_set_complete in A1. done. }
  assert (q !! 1%nat = Some (k2, f2)) as G2.
  { assert (drop n m1 !! 1%nat = Some (k2, f2)) as G
      by (rewrite lookup_drop, Nat.add_1_r; done).
    rewrite Eq in G. destruct q as [|x [|y q]]; [done| |done]. simpl in G.
    destruct (processing st') as [|[k' f'] pr] eqn:Ep; [done|]. injection G as -> ->.
    apply all_set_complete in A2. done. }
  split.
  { rewrite E1, app_length in L. simpl in L. destruct E2 as [->|[-> _]]; rewrite app_length; simpl; lia. }
  exists k1, k2. split; [split|split].
  - apply (ssorted_lookup m1 j n k k1 f f1); done.
  - apply (ssorted_lookup m1 n (S n) k1 k2 f1 f2); try done. lia.
  - apply (Qk k1 f1). by apply elem_of_list_lookup_2 in G1.
  - apply (Qk k2 f2). by apply elem_of_list_lookup_2 in G2.
Qed.

(** ** Without getLatestAndClear: a complete group is only dropped behind an incomplete one *)
Record Calm (st : state) : Prop := {
  calm_head : ~ compl_at (processing st) 0;
  calm_pairs : (length (processing st) <= 3)%nat \/ forall a, ~ pair_at (processing st) a;
  calm_img : forall k f, (k, f) ∈ processing st -> exists c i, f !! c = Some (Some i) }.

Lemma calm_init : Calm init.
Proof.
  split; cbn [processing init].
  - intros (k & f & H & _). done.
  - left. simpl. lia.
  - by intros k f ?%elem_of_nil.
Qed.

Lemma not_compl_false (m : groups) j k f : m !! j = Some (k, f) -> ~ compl_at m j -> ~ complete f.
Proof. intros E N C. apply N. exists k, f. split; [done|]. by apply all_set_complete. Qed.

Lemma compl_app_l (a b : groups) j : (j < length a)%nat -> compl_at (a ++ b) j <-> compl_at a j.
Proof. intros L. unfold compl_at. by rewrite lookup_app_l. Qed.
Lemma compl_app_r (a b : groups) j : compl_at (a ++ b) (length a + j) <-> compl_at b j.
Proof.
  unfold compl_at. rewrite lookup_app_r by lia. by replace (length a + j - length a)%nat with j by lia.
Qed.
Lemma compl_lt m j : compl_at m j -> (j < length m)%nat.
Proof. intros (k & f & E & _). by apply lookup_lt_Some in E. Qed.

(** Pairs of the new list that do not involve the changed position are old pairs. *)
Lemma old_pair (p a b : groups) x y j :
  (p = a ++ y :: b \/ p = a ++ b) ->
  pair_at (a ++ x :: b) j -> j <> length a -> S j <> length a -> exists j', pair_at p j'.
Proof.
  intros Hp [P1 P2] N1 N2.
  destruct (Nat.lt_ge_cases j (length a)) as [L|L].
  - exists j. assert (S j < length a)%nat as L' by lia.
    rewrite compl_app_l in P1, P2 by lia.
    destruct Hp as [-> | ->]; split; by rewrite compl_app_l by lia.
  - replace j with (length a + S (j - length a - 1))%nat in P1 by lia.
    replace (S j) with (length a + S (S (j - length a - 1)))%nat in P2 by lia.
    rewrite compl_app_r, compl_cons in P1, P2. set (r := (j - length a - 1)%nat) in *.
    destruct Hp as [-> | ->].
    + exists (length a + S r)%nat. split; [by rewrite compl_app_r|].
      replace (S (length a + S r)) with (length a + S (S r))%nat by lia. by rewrite compl_app_r.
    + exists (length a + r)%nat. split; [by rewrite compl_app_r|].
      replace (S (length a + r)) with (length a + S r)%nat by lia. by rewrite compl_app_r.
Qed.

Lemma has_image_after i (f : nframe) : (cam i < length f)%nat ->
  exists c i', set_frame i f !! c = Some (Some i').
Proof. intros L. exists (cam i), i. unfold set_frame. by apply list_lookup_insert. Qed.

Lemma single_complete (f : nframe) c i : length f = 1%nat -> f !! c = Some (Some i) -> complete f.
Proof.
  intros L E c' E'. apply lookup_lt_Some in E as L1. apply lookup_lt_Some in E' as L2.
  assert (c = c') as -> by lia. congruence.
Qed.

Lemma work_calm ncam tol i st st' evs :
  Inv ncam tol st -> Calm st -> 0 <= tol -> (cam i < ncam)%nat -> work ncam tol i st = Ok st' evs ->
  Calm st' /\
  forall k f, (k, f) ∈ dropped_groups evs -> complete f ->
    exists k' f', (k', f') ∈ dropped_groups evs /\ k' < k /\ ~ complete f'.
Proof.
  intros I [K1 K2 K3] T C W.
  destruct (work_pos _ _ _ _ _ _ I T C W) as (k0 & f0 & a & b & m1 & evs' & E1 & E2 & S1 & F1 & R & M & E).
  assert (forall k f, (k, f) ∈ m1 -> exists c i, f !! c = Some (Some i)) as Img.
  { intros k f H. rewrite E1, elem_of_app, elem_of_cons in H.
    destruct H as [H|[[= -> ->]|H]].
    - apply (K3 k). destruct E2 as [->|[-> _]]; rewrite elem_of_app; by left.
    - apply has_image_after. destruct (F1 k0 (set_frame i f0)) as [F _].
      { rewrite E1, elem_of_app, elem_of_cons. tauto. }
      unfold set_frame in F. rewrite insert_length in F. lia.
    - apply (K3 k). destruct E2 as [->|[-> _]]; rewrite elem_of_app, ?elem_of_cons; tauto. }
  assert (forall j, pair_at m1 j -> (3 < length m1)%nat -> (3 < length (processing st))%nat ->
     (j = length a \/ S j = length a)) as Pos.
  { intros j P _ L2. destruct K2 as [K2|K2]; [lia|].
    destruct (decide (j = length a)) as [->|N1]; [by left|].
    destruct (decide (S j = length a)) as [?|N2]; [by right|]. exfalso.
    rewrite E1 in P. destruct (old_pair (processing st) a b _ (k0, f0) j ltac:(tauto) P N1 N2)
      as [j' P']. by apply K2 in P'. }
  assert (length m1 = length (processing st) \/ length m1 = S (length (processing st))) as Len.
  { rewrite E1. destruct E2 as [->|[-> _]]; rewrite !app_length; simpl; lia. }
  destruct (move_spec _ _ _ _ _ (ssorted_drop (num_drop m1) _ S1) (inv_cs _ _ _ I) M)
      as (q & Eq & Q1 & Q2 & _).
  set (n := num_drop m1) in *.
  assert (length m1 - n = length q + length (processing st'))%nat as Lq.
  { rewrite <- app_length, <- Eq, drop_length. done. }
  assert (forall j, compl_at (processing st') j -> compl_at m1 (n + (length q + j))) as Up.
  { intros j (k & f & H & A). exists k, f. split; [|done].
    rewrite <- lookup_drop, Eq, lookup_app_r by lia. by replace (length q + j - length q)%nat with j by lia. }
  assert (~ compl_at (processing st') 0) as H0.
  { intros (k & f & H & A). destruct (processing st') as [|[k' f'] pr]; [done|].
    injection H as -> ->. apply Q2. by apply all_set_complete. }
  split.
  - split; [done| |].
    + destruct (num_drop_spec m1) as [[N [L|[[P1 P2]|P]]]|(L & N & [P1 P2] & First)]; fold n in N.
      * left. lia.
      * (* a pair at the head is moved *)
        destruct (decide (length (processing st') <= 3)%nat) as [?|L']; [by left|right].
        intros j P.
        assert (2 <= length q)%nat as L2.
        { rewrite N in Eq. change (drop 0 m1) with m1 in Eq.
          destruct (decide (2 <= length q)%nat) as [?|X]; [done|]. exfalso.
          apply H0. assert (compl_at m1 (length q)) as Y.
          { destruct (length q) as [|[|?]]; [done|done|lia]. }
          rewrite Eq in Y. rewrite <- (Nat.add_0_r (length q)) in Y. by rewrite compl_app_r in Y. }
        destruct P as [P3 P4]. destruct j as [|j]; [done|].
        apply Up in P3, P4.
        assert (pair_at m1 (n + (length q + S j))) as P'.
        { split; [done|]. by replace (S (n + (length q + S j))) with (n + (length q + S (S j)))%nat by lia. }
        assert (pair_at m1 0) as P0 by done.
        apply Pos in P'; [|lia|lia]. apply Pos in P0; [|lia|lia]. lia.
      * right. intros j [P1 P2]. apply Up in P1, P2. apply (P (n + (length q + j))%nat).
        split; [done|]. by replace (S (n + (length q + j))) with (n + (length q + S j))%nat by lia.
      * destruct (decide (length (processing st') <= 3)%nat) as [?|L']; [by left|right].
        intros j P.
        assert (2 <= length q)%nat as L2.
        { destruct (decide (2 <= length q)%nat) as [?|X]; [done|]. exfalso.
          apply H0. fold n in P1, P2. assert (compl_at m1 (n + length q)) as Y.
          { destruct (length q) as [|[|?]]; [by rewrite Nat.add_0_r|by rewrite Nat.add_1_r|lia]. }
          destruct Y as (k & f & Y & A). rewrite <- lookup_drop, Eq in Y.
          exists k, f. split; [|done]. rewrite lookup_app_r in Y by lia. by rewrite Nat.sub_diag in Y. }
        destruct P as [P3 P4]. destruct j as [|j]; [done|].
        apply Up in P3, P4.
        assert (pair_at m1 (n + (length q + S j))) as P'.
        { split; [done|]. by replace (S (n + (length q + S j))) with (n + (length q + S (S j)))%nat by lia. }
        assert (pair_at m1 n) as P0 by done.
        apply Pos in P'; [|lia|lia]. apply Pos in P0; [|lia|lia]. lia.
    + intros k f H. apply (Img k). apply (drop_elem n). rewrite Eq. apply elem_of_app. by right.
  - intros k f D Cf.
    rewrite (dropped_of_work _ _ _ _ _ _ f0 m1 evs' I S1 M E) in D |- *. fold n in D |- *.
    destruct (num_drop_spec m1) as [[N _]|(L & N & [P1 P2] & First)]; fold n in N.
    { rewrite N in D. by apply elem_of_nil in D. }
    fold n in P1, P2, First.
    apply take_lookup_elem in D as (j & Hj & D).
    destruct j as [|j].
    + exfalso.
      assert (compl_at m1 0) as C0 by (exists k, f; split; [done|by apply all_set_complete]).
      assert (~ compl_at m1 1) as C1 by (intros C1; by apply (First 0%nat); [lia|]).
      assert (2 <= n)%nat as Ln.
      { destruct n as [|[|n']]; [lia|done|lia]. }
      assert (exists k1 f1, m1 !! 1%nat = Some (k1, f1)) as (k1 & f1 & X1).
      { assert (1 < length m1)%nat as X by lia. apply lookup_lt_is_Some_2 in X as [[k1 f1] X]. eauto. }
      (* the head of the new list is the changed or inserted group *)
      destruct a as [|[ka fa] a].
      * simpl in E1. destruct E2 as [E2|[E2 ->]].
        -- simpl in E2.
           assert (pair_at (processing st) n) as Pn.
           { rewrite E1 in P1, P2. rewrite E2. destruct n as [|n']; [lia|]. done. }
           destruct K2 as [K2|K2]; [|by apply K2 in Pn]. rewrite E2 in K2. rewrite E1 in L.
           simpl in K2, L. lia.
        -- (* only with a single camera *)
           rewrite E1 in D. injection D as -> <-.
           assert (ncam = 1%nat) as ->.
           { destruct ncam as [|[|nc]]; [lia|done|]. exfalso.
             assert (exists c, c <> cam i /\ (c < S (S nc))%nat) as (c & Nc & Lc).
             { destruct (cam i) as [|x]; [exists 1%nat|exists 0%nat]; lia. }
             apply (Cf c). unfold set_frame, new_nframe.
             rewrite list_lookup_insert_ne by done. by apply lookup_replicate. }
           apply C1. exists k1, f1. split; [done|]. apply all_set_complete.
           assert ((k1, f1) ∈ m1) as X2 by by apply elem_of_list_lookup_2 in X1.
           destruct (Img _ _ X2) as (c & i' & X3). apply (single_complete f1 c i'); [|done].
           by destruct (F1 _ _ X2).
      * apply K1. rewrite E1 in C0. destruct C0 as (k' & f' & X & A). exists k', f'.
        split; [|done]. destruct E2 as [->|[-> _]]; exact X.
    + assert (exists k1 f1, m1 !! j = Some (k1, f1)) as (k1 & f1 & X1).
      { assert (j < length m1)%nat as X by (apply lookup_lt_Some in D; lia).
        apply lookup_lt_is_Some_2 in X as [[k1 f1] X]. eauto. }
      exists k1, f1. split; [|split].
      * apply elem_of_list_lookup. exists j. by rewrite lookup_take by lia.
      * apply (ssorted_lookup m1 j (S j) k1 k f1 f); try done. lia.
      * apply (not_compl_false m1 j k1 f1 X1). intros X2. apply (First j); [lia|]. split; [done|].
        exists k, f. split; [done|by apply all_set_complete].
Qed.

Lemma step_calm ncam tol a st st' evs :
  Inv ncam tol st -> Calm st -> 0 <= tol -> legal ncam a -> a <> AGetLatest ->
  step ncam tol st a = Ok st' evs -> Calm st'.
Proof.
  intros I K T L N H. destruct a as [i| | |max]; cbn [step legal] in *.
  - exact (proj1 (work_calm _ _ _ _ _ _ I K T L H)).
  - unfold get_next in H. destruct (completed st) as [|[k f] c]; injection H as <- <-; [done|].
    destruct K. by split.
  - done.
  - unfold make_room in H. destruct (max <? 1)%nat; [done|].
    destruct (max <=? length (completed st))%nat.
    + destruct (completed st) as [|[k f] c]; [done|]. injection H as <- <-. destruct K. by split.
    + by injection H as <- <-.
Qed.

Lemma run_calm ncam tol acts st evs :
  0 <= tol -> Forall (legal ncam) acts -> run ncam tol init acts = Ok st evs ->
  AGetLatest ∉ acts -> Calm st.
Proof.
  intros T L H. revert acts st evs L H.
  apply (run_ind ncam tol (fun acts st evs => AGetLatest ∉ acts -> Calm st) T).
  - intros _. apply calm_init.
  - intros acts a st evs st' e I _ _ L IH S N. rewrite not_elem_of_app in N. destruct N as [N1 N2].
    apply (step_calm ncam tol a st st' e I); try done; [by apply IH|]. intros ->. apply N2. by left.
Qed.

(** ** Delivery *)
Lemma next_all (st : state) : forall ncam tol c p, st = State p c ->
  run ncam tol st (replicate (length c) AGetNext) =
    Ok (State p []) ((fun kf => EvEmit (fst kf) (snd kf)) <$> c).
Proof.
  intros ncam tol c. revert st. induction c as [|[k f] c IH]; intros st p ->; [done|].
  simpl. rewrite (IH _ p eq_refl). done.
Qed.

(** After an image has been processed, no complete group is at the front of the pending groups, and
    a complete group without older pending groups has been handed on. *)
Lemma work_moves_front ncam tol i st st' evs :
  Inv ncam tol st -> 0 <= tol -> (cam i < ncam)%nat -> work ncam tol i st = Ok st' evs ->
  forall k f, (k, f) ∈ processing st' -> complete f ->
  exists k' f', (k', f') ∈ processing st' /\ k' < k /\ ~ complete f'.
Proof.
  intros I T C W k f H Cf.
  destruct (work_pos _ _ _ _ _ _ I T C W) as (k0 & f0 & a & b & m1 & evs' & E1 & E2 & S1 & F1 & R & M & E).
  destruct (move_spec _ _ _ _ _ (ssorted_drop (num_drop m1) _ S1) (inv_cs _ _ _ I) M)
      as (q & Eq & Q1 & Q2 & _).
  pose proof (ssorted_drop (num_drop m1) _ S1) as SS. rewrite Eq in SS. apply ssorted_app_r in SS.
  destruct (processing st') as [|[k' f'] pr]; [by apply elem_of_nil in H|].
  exists k', f'. split; [by left|]. split; [|done].
  apply elem_of_cons in H as [[= -> ->]|H]; [done|].
  apply ssorted_cons in SS as [_ SS]. apply SS, elem_keys. eauto.
Qed.

Lemma nearest_lemma ncam tol i st st' e :
  Inv ncam tol st -> 0 <= tol -> (cam i < ncam)%nat -> work ncam tol i st = Ok st' e ->
  exists k f0 f1 a b moved,
    right_group tol (fst <$> processing st) (stamp i) k /\
    ((processing st = a ++ (k, f0) :: b) \/ (processing st = a ++ b /\ f0 = replicate ncam None)) /\
    length f1 = length f0 /\ f1 !! cam i = Some (Some i) /\
    (forall c, c <> cam i -> f1 !! c = f0 !! c) /\
    a ++ (k, f1) :: b = dropped_groups e ++ moved ++ processing st'.
Proof.
  intros I T C W.
  destruct (work_pos _ _ _ _ _ _ I T C W)
    as (k0 & f0 & a & b & m1 & evs' & E1 & E2 & S1 & F1 & R & M & E).
  destruct (move_spec _ _ _ _ _ (ssorted_drop (num_drop m1) _ S1) (inv_cs _ _ _ I) M)
      as (q & Eq & _).
  exists k0, f0, (set_frame i f0), a, b, q. split; [done|]. split; [done|].
  split; [apply insert_length|]. split; [|split].
  - destruct (F1 k0 (set_frame i f0)) as [F _].
    { rewrite E1, elem_of_app, elem_of_cons. tauto. }
    unfold set_frame in *. rewrite insert_length in F. apply list_lookup_insert. lia.
  - intros c N. unfold set_frame. by rewrite list_lookup_insert_ne.
  - rewrite (dropped_of_work _ _ _ _ _ _ f0 m1 evs' I S1 M E), <- Eq, take_drop. done.
Qed.

Lemma next_oldest_lemma ncam tol acts st evs st' e k f :
  0 <= tol -> Forall (legal ncam) acts -> run ncam tol init acts = Ok st evs ->
  step ncam tol st AGetNext = Ok st' e -> (k, f) ∈ emitted e ->
  (k, f) ∈ completed st /\ forall k' f', (k', f') ∈ completed st -> k <= k'.
Proof.
  intros T L H S E. pose proof (run_inv _ _ _ _ _ _ (inv_init ncam tol) T L H) as I.
  cbn [step] in S. unfold get_next in S.
  pose proof (inv_cs _ _ _ I) as SC.
  destruct (completed st) as [|[k0 f0] c]; injection S as <- <-.
  - by apply elem_of_nil in E.
  - change (emitted [EvEmit k0 f0]) with [(k0, f0)] in E. apply elem_of_list_singleton in E as [= -> ->].
    split; [by left|]. intros k' f' X. apply ssorted_cons in SC as [_ SC].
    apply elem_of_cons in X as [[= -> ->]|X]; [lia|]. apply Z.lt_le_incl, SC, elem_keys. eauto.
Qed.

Lemma latest_newest_lemma ncam tol acts st evs st' e k f :
  0 <= tol -> Forall (legal ncam) acts -> run ncam tol init acts = Ok st evs ->
  step ncam tol st AGetLatest = Ok st' e -> (k, f) ∈ emitted e ->
  (k, f) ∈ completed st /\ (forall k' f', (k', f') ∈ completed st -> k' <= k) /\
  completed st' = [] /\ forall k' f', (k', f') ∈ processing st' <-> (k', f') ∈ processing st /\ k < k'.
Proof.
  intros T L H S E. pose proof (run_inv _ _ _ _ _ _ (inv_init ncam tol) T L H) as I.
  cbn [step] in S. unfold get_latest in S.
  pose proof (inv_cs _ _ _ I) as SC.
  destruct (last (completed st)) as [[k0 f0]|] eqn:La.
  - destruct (drop_until k0 (processing st)) as [a b] eqn:D. injection S as <- <-.
    destruct (drop_until_spec _ _ _ _ (inv_ps _ _ _ I) D) as (P & Pa & Pb).
    change (EvEmit k0 f0 :: cleared_ev (removelast (completed st)) ++ cleared_ev a) with
        ([EvEmit k0 f0] ++ cleared_ev (removelast (completed st)) ++ cleared_ev a) in E.
    rewrite !emitted_app, !emitted_cleared in E. apply elem_of_list_singleton in E as [= -> ->].
    apply last_elem in La. set (rl := removelast (completed st)) in *. rewrite La in SC |- *.
    split; [apply elem_of_app; right; by left|]. split; [|split; [done|]].
    + intros k' f' X. apply elem_of_app in X as [X|X].
      * apply Z.lt_le_incl, (ssorted_app_lt rl [(k0, f0)] k' k0 SC); [apply elem_keys; eauto|by left].
      * apply elem_of_list_singleton in X as [= -> ->]. lia.
    + cbn [processing]. intros k' f'. rewrite P, elem_of_app. split.
      * intros X. split; [by right|]. apply Pb, elem_keys. eauto.
      * intros [[X|X] X2]; [|done]. assert (k' <= k0) by (apply Pa, elem_keys; eauto). lia.
  - injection S as <- <-. by apply elem_of_nil in E.
Qed.

Lemma run_app ncam tol a1 : forall a2 st st1 e1,
  run ncam tol st a1 = Ok st1 e1 ->
  run ncam tol st (a1 ++ a2) =
    match run ncam tol st1 a2 with Ok s e => Ok s (e1 ++ e) | x => x end.
Proof.
  induction a1 as [|a a1 IH]; intros a2 st st1 e1 H.
  - injection H as <- <-. simpl. by destruct (run ncam tol st a2).
  - simpl in *. destruct (step ncam tol st a) as [s e| |]; try done.
    destruct (run ncam tol s a1) as [s' e'| |] eqn:R; try done. injection H as <- <-.
    rewrite (IH a2 _ _ _ R). destruct (run ncam tol s' a2); try done. by rewrite app_assoc.
Qed.

Lemma delivered_lemma ncam tol acts st evs :
  0 <= tol -> Forall (legal ncam) acts -> run ncam tol init acts = Ok st evs ->
  exists evs', run ncam tol init (acts ++ replicate (length (completed st)) AGetNext) =
                 Ok (State (processing st) []) (evs ++ evs') /\
               emitted evs' = completed st.
Proof.
  intros T L H. exists ((fun kf => EvEmit (fst kf) (snd kf)) <$> completed st). split.
  - rewrite (run_app _ _ _ _ _ _ _ H), (next_all st ncam tol (completed st) (processing st)); [done|].
    by destruct st.
  - induction (completed st) as [|[k f] c IH]; [done|]. simpl. f_equal. exact IH.
Qed.
