(** Proofs about the mutexes of channel groups. *)
From Coq Require Import ZArith Bool Lia.
From stdpp Require Import list gmap strings.
From Verif Require Import ChannelModel.
Local Open Scope nat_scope.

Definition ordered_call (rank : nat -> nat) (c : call) : Prop :=
  match c with Compare l r => l = r \/ rank l < rank r | Single _ => True end.
Definition ordered_thread (rank : nat -> nat) (t : thread) : Prop :=
  Forall (ordered_call rank) (todo t) /\
  match ph t with HoldLeft l r => rank l < rank r | _ => True end.

Definition weight (t : thread) : nat :=
  4 * length (todo t) + match ph t with Idle => 0 | HoldLeft _ _ => 3 | HoldBoth _ _ => 2 | HoldLast _ => 1 end.
Definition total (ts : list thread) : nat := sum_list_with weight ts.

Lemma thread_step_ordered rank ts t t' : ordered_thread rank t -> thread_step ts t = Some t' -> ordered_thread rank t'.
Proof.
  destruct t as [p cs]. unfold ordered_thread, thread_step; cbn. intros [HF Hp] E.
  destruct p as [|l r|l r|g]; [|destruct (is_free ts r)| |]; try (injection E as <-; by split); [|done].
  destruct cs as [|[l r|g] cs]; [done| |].
  - inversion HF as [|? ? Hc HF']; subst. cbn in Hc. destruct (Nat.eqb_spec l r) as [->|Hne].
    + injection E as <-. by split.
    + destruct (is_free ts l); [|done]. injection E as <-. cbn. split; [done|]. by destruct Hc.
  - inversion HF; subst. destruct (is_free ts g); [|done]. by injection E as <-.
Qed.
Lemma thread_step_weight ts t t' : thread_step ts t = Some t' -> weight t' < weight t.
Proof.
  destruct t as [p cs]. unfold thread_step, weight; cbn [ph todo]. intros E.
  destruct p as [|l r|l r|g]; [|destruct (is_free ts r)| |]; try (injection E as <-; cbn [ph todo]; lia); [|done].
  destruct cs as [|[l r|g] cs]; [done| |]; cbn [length].
  - destruct (l =? r); [injection E as <-; cbn [ph todo]; lia|].
    destruct (is_free ts l); [|done]. injection E as <-. cbn [ph todo]. lia.
  - destruct (is_free ts g); [|done]. injection E as <-. cbn [ph todo]. lia.
Qed.
Lemma lock_step_Some i ts ts' : lock_step i ts = Some ts' ->
  exists t t', ts !! i = Some t /\ thread_step ts t = Some t' /\ ts' = <[i := t']> ts.
Proof.
  unfold lock_step. destruct (ts !! i) as [t|]; [|done]. cbn.
  destruct (thread_step ts t) as [t'|] eqn:E; [|done]. cbn. intros [= <-]. by exists t, t'.
Qed.
Lemma total_insert ts : forall i t t', ts !! i = Some t -> weight t' < weight t -> total (<[i := t']> ts) < total ts.
Proof.
  unfold total. induction ts as [|t0 ts IH]; intros [|i] t t' E Hw; try done.
  - cbn -[weight] in *. injection E as ->. lia.
  - specialize (IH i t t' E Hw).
    change (weight t0 + sum_list_with weight (<[i:=t']> ts) < weight t0 + sum_list_with weight ts). lia.
Qed.
Lemma lock_run_invariant rank sched : forall ts ts', Forall (ordered_thread rank) ts ->
  lock_run ts sched = Some ts' -> Forall (ordered_thread rank) ts'.
Proof.
  induction sched as [|i sched IH]; intros ts ts' HF E; cbn in E; [by injection E as <-|].
  destruct (lock_step i ts) as [ts1|] eqn:E1; [|done]. cbn in E.
  destruct (lock_step_Some _ _ _ E1) as (t & t' & Ht & Hs & ->).
  eapply IH; [|exact E]. apply Forall_insert; [done|].
  eapply thread_step_ordered; [|exact Hs]. exact (Forall_lookup_1 _ _ _ _ HF Ht).
Qed.
Lemma lock_run_length sched : forall ts ts', lock_run ts sched = Some ts' -> length sched + total ts' <= total ts.
Proof.
  induction sched as [|i sched IH]; intros ts ts' E; cbn in E; [injection E as <-; cbn; lia|].
  destruct (lock_step i ts) as [ts1|] eqn:E1; [|done]. cbn in E.
  destruct (lock_step_Some _ _ _ E1) as (t & t' & Ht & Hs & ->).
  specialize (IH _ _ E). pose proof (total_insert _ _ _ _ Ht (thread_step_weight _ _ _ Hs)). cbn. lia.
Qed.

Lemma is_free_true ts m : is_free ts m = true <-> forall i t, ts !! i = Some t -> holds t m = false.
Proof.
  unfold is_free. rewrite forallb_forall. split.
  - intros H i t Ht. apply elem_of_list_lookup_2, elem_of_list_In, H in Ht. by apply negb_true_iff.
  - intros H t Ht. apply elem_of_list_In, elem_of_list_lookup in Ht as [i Ht]. rewrite (H _ _ Ht). done.
Qed.

(** The largest rank among the first mutexes of the threads that wait for their second one. *)
Lemma exists_max (rank : nat -> nat) (ts : list thread) : (exists i t l r, ts !! i = Some t /\ ph t = HoldLeft l r) ->
  exists i t l r, ts !! i = Some t /\ ph t = HoldLeft l r /\
    forall j t' l' r', ts !! j = Some t' -> ph t' = HoldLeft l' r' -> rank l' <= rank l.
Proof.
  induction ts as [|t ts IH]; intros (i & t0 & l & r & Hi & Hp); [done|].
  assert (D : (exists i t l r, ts !! i = Some t /\ ph t = HoldLeft l r) \/
    forall j t' l' r', ts !! j = Some t' -> ph t' <> HoldLeft l' r').
  { clear. induction ts as [|t ts IH]; [by right|].
    destruct IH as [(i & t1 & l & r & ? & ?)|IH]; [left; by exists (S i), t1, l, r|].
    destruct (ph t) as [|l r| |] eqn:E; [|left; by exists 0, t, l, r| |];
      right; intros [|j] t' l' r' Hj; cbn in Hj; try (injection Hj as <-; by rewrite E); eauto. }
  destruct D as [D|D].
  - destruct (IH D) as (j & t1 & l1 & r1 & Hj & Hp1 & Hmax).
    destruct (ph t) as [|l2 r2| |] eqn:E.
    2: destruct (le_lt_dec (rank l2) (rank l1)) as [Hle|Hlt].
    3: { exists 0, t, l2, r2. split; [done|]. split; [done|].
         intros [|k] t' l' r' Hk Hp'; cbn in Hk; [injection Hk as <-; rewrite E in Hp'; by injection Hp' as <- <-|].
         specialize (Hmax _ _ _ _ Hk Hp'). lia. }
    all: exists (S j), t1, l1, r1; split; [done|]; split; [done|];
      intros [|k] t' l' r' Hk Hp'; cbn in Hk; [injection Hk as <-; rewrite E in Hp'|eauto]; try done.
    by injection Hp' as <- <-.
  - destruct i as [|i]; cbn in Hi; [|exfalso; eapply D; eauto]. injection Hi as ->.
    exists 0, t0, l, r. split; [done|]. split; [done|].
    intros [|k] t' l' r' Hk Hp'; cbn in Hk; [|exfalso; eapply D; eauto].
    injection Hk as <-. rewrite Hp in Hp'. by injection Hp' as <- <-.
Qed.

Lemma progress rank ts : Forall (ordered_thread rank) ts ->
  forallb finished ts = true \/ exists i ts', lock_step i ts = Some ts'.
Proof.
  intros HO.
  assert (D : (exists i t, ts !! i = Some t /\ match ph t with HoldBoth _ _ | HoldLast _ => True | _ => False end) \/
     forall i t, ts !! i = Some t -> match ph t with HoldBoth _ _ | HoldLast _ => False | _ => True end).
  { clear. induction ts as [|t ts IH]; [by right|].
    destruct IH as [(i & t1 & ? & ?)|IH]; [left; by exists (S i), t1|].
    destruct (ph t) eqn:E; [|  |left; exists 0, t; by rewrite E|left; exists 0, t; by rewrite E];
    right; intros [|i] t' Hi; cbn in Hi; try (injection Hi as <-; by rewrite E); by eapply IH. }
  destruct D as [(i & t & Hi & Hp)|D].
  { right. exists i. unfold lock_step. rewrite Hi. cbn. unfold thread_step.
    destruct (ph t); cbn; done || eauto. }
  destruct (existsb (fun t => match ph t with HoldLeft _ _ => true | _ => false end) ts) eqn:Ex.
  - apply existsb_exists in Ex as (t & Hin & Hp). apply elem_of_list_In, elem_of_list_lookup in Hin as [i Hi].
    destruct (exists_max rank ts) as (j & u & l & r & Hj & Hu & Hmax).
    { destruct (ph t) as [|l r| |] eqn:E; try done. by exists i, t, l, r. }
    right. exists j. unfold lock_step. rewrite Hj. cbn. unfold thread_step. rewrite Hu.
    assert (Hfree : is_free ts r = true).
    { apply is_free_true. intros k w Hk. specialize (D _ _ Hk). unfold holds.
      destruct (ph w) as [|l' r'| |] eqn:Ew; try done.
      apply Nat.eqb_neq. intros ->. specialize (Hmax _ _ _ _ Hk Ew).
      pose proof (Forall_lookup_1 _ _ _ _ HO Hj) as [_ Hord]. rewrite Hu in Hord. lia. }
    rewrite Hfree. cbn. eauto.
  - assert (Hidle : forall i t, ts !! i = Some t -> ph t = Idle).
    { intros i t Hi. pose proof (D _ _ Hi) as Hd. destruct (ph t) as [|l r| |] eqn:E; try done.
      assert (X : existsb (fun t => match ph t with HoldLeft _ _ => true | _ => false end) ts = true).
      { apply existsb_exists. exists t. rewrite E. split; [|done]. by eapply elem_of_list_In, elem_of_list_lookup_2. }
      congruence. }
    assert (Hfree : forall m, is_free ts m = true).
    { intros m. apply is_free_true. intros k w Hk. unfold holds. by rewrite (Hidle _ _ Hk). }
    destruct (forallb finished ts) eqn:Ef; [by left|]. right.
    assert (exists i t, ts !! i = Some t /\ finished t = false) as (i & t & Hi & Hf).
    { clear -Ef. induction ts as [|t ts IH]; cbn in Ef; [done|].
      destruct (finished t) eqn:E; [|by exists 0, t].
      destruct (IH Ef) as (i & t' & ? & ?). by exists (S i), t'. }
    exists i. unfold lock_step. rewrite Hi. cbn. unfold thread_step, finished in *.
    rewrite (Hidle _ _ Hi) in *. destruct (todo t) as [|[l r|g] cs]; [done| |].
    + destruct (l =? r); [cbn; eauto|]. rewrite Hfree. cbn. eauto.
    + rewrite Hfree. cbn. eauto.
Qed.

(** Mutual exclusion. *)
Definition excl (ts : list thread) : Prop :=
  forall m i j t u, ts !! i = Some t -> ts !! j = Some u -> holds t m = true -> holds u m = true -> i = j.
Lemma thread_step_holds ts t t' m : thread_step ts t = Some t' -> holds t' m = true ->
  holds t m = true \/ is_free ts m = true.
Proof.
  destruct t as [p cs]. unfold thread_step, holds; cbn [ph todo]. intros E H.
  destruct p as [|l r|l r|g].
  - destruct cs as [|[l r|g] cs]; [done| |].
    + destruct (l =? r); [by injection E as <-|]. destruct (is_free ts l) eqn:F; [|done].
      injection E as <-. cbn in H. apply Nat.eqb_eq in H as ->. by right.
    + destruct (is_free ts g) eqn:F; [|done]. injection E as <-. cbn in H. apply Nat.eqb_eq in H as ->. by right.
  - destruct (is_free ts r) eqn:F; [|done]. injection E as <-. cbn in H.
    apply orb_true_iff in H as [H|H]; [by left|]. apply Nat.eqb_eq in H as ->. by right.
  - injection E as <-. cbn in H. left. by rewrite H.
  - by injection E as <-.
Qed.
Lemma excl_step i ts ts' : excl ts -> lock_step i ts = Some ts' -> excl ts'.
Proof.
  intros X E. destruct (lock_step_Some _ _ _ E) as (t & t' & Ht & Hs & ->).
  assert (A : forall m j u, <[i := t']> ts !! j = Some u -> holds u m = true -> i <> j -> holds t' m = true -> False).
  { intros m j u Hj Hu Hne Ht'. rewrite list_lookup_insert_ne in Hj by done.
    destruct (thread_step_holds _ _ _ _ Hs Ht') as [H|H].
    - by pose proof (X m i j t u Ht Hj H Hu).
    - rewrite is_free_true in H. rewrite (H _ _ Hj) in Hu. done. }
  intros m j k u w Hj Hk Hu Hw.
  destruct (decide (i = j)) as [<-|Hij]; destruct (decide (i = k)) as [<-|Hik]; [done| | |].
  - rewrite list_lookup_insert in Hj by (by eapply lookup_lt_Some). injection Hj as <-.
    exfalso. by eapply (A m k).
  - rewrite list_lookup_insert in Hk by (by eapply lookup_lt_Some). injection Hk as <-.
    exfalso. by eapply (A m j).
  - rewrite list_lookup_insert_ne in Hj, Hk by done. by eapply X.
Qed.
Lemma excl_run sched : forall ts ts', excl ts -> lock_run ts sched = Some ts' -> excl ts'.
Proof.
  induction sched as [|i sched IH]; intros ts ts' X E; cbn in E; [by injection E as <-|].
  destruct (lock_step i ts) as [ts1|] eqn:E1; [|done]. cbn in E.
  eapply IH; [|exact E]. by eapply excl_step.
Qed.
Lemma excl_start ps : excl (start ps).
Proof.
  intros m i j t u Hi Hj Ht. unfold start in Hi. rewrite list_lookup_fmap in Hi.
  destruct (ps !! i); [|done]. by injection Hi as <-.
Qed.
