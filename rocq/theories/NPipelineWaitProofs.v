(** Invariants of the blocking calls of VisualNPipeline. *)
From Coq Require Import ZArith Bool Lia.
From stdpp Require Import list.
From Verif Require Import NPipelineWaitModel NPipelineWaitSpec.

Lemma lookup_insert_cases (ts : list thread) (t t' : nat) x y :
  <[t := x]> ts !! t' = Some y -> (t' = t /\ y = x) \/ (t' <> t /\ ts !! t' = Some y).
Proof.
  destruct (decide (t' = t)) as [->|N].
  - intros H. apply list_lookup_insert_Some in H as [(_ & -> & _)|[? _]]; [by left|done].
  - rewrite list_lookup_insert_ne by done. by right.
Qed.

Lemma mutex_free_spec st : mutex_free st = true <-> forall t k, threads st !! t <> Some (TChecked k).
Proof.
  unfold mutex_free. rewrite forallb_forall. split.
  - intros H t k E. apply elem_of_list_lookup_2, elem_of_list_In, H in E. done.
  - intros H x Hx. apply elem_of_list_In, elem_of_list_lookup in Hx as [t Ht].
    destruct x; try done. by apply H in Ht.
Qed.

Lemma wake_full_lookup (ts : list thread) (t : nat) y :
  (wake_full <$> ts) !! t = Some y ->
  exists x, ts !! t = Some x /\ y = wake_full x.
Proof. rewrite list_lookup_fmap. destruct (ts !! t); [|done]. intros [= <-]. eauto. Qed.
Lemma wake_empty_lookup (ts : list thread) (t : nat) y :
  (wake_empty <$> ts) !! t = Some y ->
  exists x, ts !! t = Some x /\ y = wake_empty x.
Proof. rewrite list_lookup_fmap. destruct (ts !! t); [|done]. intros [= <-]. eauto. Qed.
Lemma effect_wake_lookup k (ts : list thread) (t : nat) y :
  effect_wake k ts !! t = Some y ->
  exists x, ts !! t = Some x /\ (y = wake_full x \/ y = x).
Proof.
  destruct k; cbn [effect_wake]; [| |by eauto];
    intros H; apply wake_full_lookup in H as (x & ? & ?); eauto.
Qed.

(** Waking changes sleepers only. *)
Lemma wake_full_sleep x k : wake_full x = TSleep k -> x = TSleep k /\ (k = KNext \/ k = KLatest).
Proof. destruct x as [| | |[]| | | |]; simpl; intros [=]; subst; auto. Qed.
Lemma wake_empty_sleep x k : wake_empty x = TSleep k -> x = TSleep k /\ exists m, k = KImage m.
Proof. destruct x as [| | |[]| | | |]; simpl; intros [=]; subst; eauto. Qed.
Lemma wake_full_checked x k : wake_full x = TChecked k -> x = TChecked k.
Proof. destruct x as [| | |[]| | | |]; simpl; intros [=]; subst; auto. Qed.
Lemma wake_empty_checked x k : wake_empty x = TChecked k -> x = TChecked k.
Proof. destruct x as [| | |[]| | | |]; simpl; intros [=]; subst; auto. Qed.

(** ** Nobody sleeps while the condition it waits for holds; the mutex is exclusive *)
Record Inv (st : state) : Prop := {
  inv_sleep : forall t k, threads st !! t = Some (TSleep k) -> blocked k (count st) = true;
  inv_mutex : forall t1 t2 k1 k2, threads st !! t1 = Some (TChecked k1) ->
    threads st !! t2 = Some (TChecked k2) -> t1 = t2;
  inv_flag : forall t, threads st !! t = Some TNotifyEmpty \/ threads st !! t = Some TNotifyFull ->
    flag st = true }.

Lemma inv_init m : Inv (init m).
Proof.
  split; cbn [init threads count]; intros; repeat match goal with
    | H : replicate _ _ !! _ = Some _ |- _ => apply lookup_replicate in H as [? _]
    | H : _ \/ _ |- _ => destruct H end; done.
Qed.

(** A step that only changes thread [t] to something that is neither asleep nor holding. *)
Lemma inv_set st t x n b :
  Inv st -> n = count st -> (flag st = true -> b = true) ->
  (forall k, x = TSleep k -> blocked k n = true) ->
  (forall k, x = TChecked k -> forall t' k', t' <> t -> threads st !! t' <> Some (TChecked k')) ->
  (x = TNotifyEmpty \/ x = TNotifyFull -> b = true) ->
  Inv (State n b (<[t := x]> (threads st))).
Proof.
  intros [I1 I2 I3] -> Hb H1 H2 H3. split; cbn [threads count flag].
  - intros t' k E. apply lookup_insert_cases in E as [[-> <-]|[_ E]]; eauto.
  - intros t1 t2 k1 k2 E1 E2. apply lookup_insert_cases in E1 as [[-> <-]|[N1 E1]];
      apply lookup_insert_cases in E2 as [[-> E2']|[N2 E2]]; subst; try done.
    + exfalso. by eapply H2.
    + exfalso. by eapply H2.
    + by eapply I2.
  - intros t' [E|E]; apply lookup_insert_cases in E as [[-> E]|[_ E]]; eauto.
Qed.

Lemma inv_wake_full st n :
  Inv st -> n <= count st -> Inv (State n (flag st) (wake_full <$> threads st)).
Proof.
  intros [I1 I2 I3] L. split; cbn [threads count flag].
  - intros t k E. apply wake_full_lookup in E as (x & E & H). symmetry in H.
    apply wake_full_sleep in H as [-> H]. apply I1 in E.
    destruct H as [-> | ->]; simpl in *; apply Nat.eqb_eq in E; apply Nat.eqb_eq; lia.
  - intros t1 t2 k1 k2 E1 E2. apply wake_full_lookup in E1 as (x1 & E1 & H1).
    apply wake_full_lookup in E2 as (x2 & E2 & H2). symmetry in H1, H2.
    apply wake_full_checked in H1 as ->. apply wake_full_checked in H2 as ->. by eapply I2.
  - intros t [E|E]; apply wake_full_lookup in E as (x & E & H);
      (destruct x as [| | |[]| | | |]; simpl in H; try discriminate H; eauto).
Qed.

Lemma inv_wake_empty st n :
  Inv st -> count st <= n -> Inv (State n (flag st) (wake_empty <$> threads st)).
Proof.
  intros [I1 I2 I3] L. split; cbn [threads count flag].
  - intros t k E. apply wake_empty_lookup in E as (x & E & H). symmetry in H.
    apply wake_empty_sleep in H as [-> [m ->]]. apply I1 in E. simpl in *.
    apply Nat.leb_le in E. apply Nat.leb_le. lia.
  - intros t1 t2 k1 k2 E1 E2. apply wake_empty_lookup in E1 as (x1 & E1 & H1).
    apply wake_empty_lookup in E2 as (x2 & E2 & H2). symmetry in H1, H2.
    apply wake_empty_checked in H1 as ->. apply wake_empty_checked in H2 as ->. by eapply I2.
  - intros t [E|E]; apply wake_empty_lookup in E as (x & E & H);
      (destruct x as [| | |[]| | | |]; simpl in H; try discriminate H; eauto).
Qed.

Lemma inv_head st t k :
  Inv st -> mutex_free st = true -> Inv (fst (head t k st)).
Proof.
  intros I M. unfold head. rewrite mutex_free_spec in M.
  destruct (flag st) eqn:F; cbn [fst]; apply inv_set; try done.
  - congruence.
  - by intros [|].
Qed.

Lemma effect_inv k st :
  Inv st -> Inv (State (effect k (count st)) (flag st) (effect_wake k (threads st))).
Proof.
  intros I. destruct k; cbn [effect effect_wake].
  - apply inv_wake_full; [done|lia].
  - apply inv_wake_full; [done|lia].
  - by destruct st.
Qed.

Lemma inv_succeed st t k : Inv st -> Inv (fst (succeed t k st)).
Proof.
  intros I. unfold succeed. cbn [fst]. pose proof (effect_inv k st I) as I'.
  apply (inv_set _ t TIdle _ _ I'); try done. by intros [|].
Qed.

Lemma step_inv st a st' e : Inv st -> step st a = Some (st', e) -> Inv st'.
Proof.
  intros I H. destruct a as [t k|t|t|t|t|t|t|t|n| | |max|t]; cbn [step] in H.
  - destruct (threads st !! t) as [[]|]; try done. injection H as <- <-.
    apply inv_set; try done. by intros [|].
  - destruct (threads st !! t) as [[]|]; try done. destruct (mutex_free st) eqn:M; [|done].
    injection H as H. change st' with (fst (st', e)); rewrite <- H. by apply inv_head.
  - destruct (threads st !! t) as [[]|] eqn:E; try done. destruct (blocked k (count st)) eqn:B.
    + injection H as <- <-. apply inv_set; try done; [by intros k' [= <-]|by intros [|]].
    + injection H as H. change st' with (fst (st', e)); rewrite <- H. by apply inv_succeed.
  - destruct (threads st !! t) as [[]|]; try done. destruct (mutex_free st) eqn:M; [|done].
    destruct (blocked k (count st)); injection H as H; change st' with (fst (st', e)); rewrite <- H;
      [by apply inv_head|by apply inv_succeed].
  - destruct (threads st !! t) as [[]|]; try done. injection H as <- <-.
    apply inv_set; try done. by intros [|].
  - destruct (threads st !! t) as [[]|]; try done. injection H as <- <-.
    apply inv_set; done.
  - destruct (threads st !! t) as [[]|] eqn:E; try done. injection H as <- <-.
    assert (flag st = true) as F by (eapply inv_flag; eauto).
    apply (inv_set _ t TNotifyFull _ _ (inv_wake_empty st (count st) I (Nat.le_refl _))); done.
  - destruct (threads st !! t) as [[]|] eqn:E; try done. injection H as <- <-.
    apply (inv_set _ t TIdle _ _ (inv_wake_full st (count st) I (Nat.le_refl _))); try done.
    by intros [|].
  - destruct (mutex_free st); [|done]. injection H as <- <-. destruct n as [|n].
    + rewrite Nat.add_0_r. by destruct st.
    + apply inv_wake_empty; [done|lia].
  - destruct (mutex_free st); [|done]. destruct (count st) eqn:C; injection H as <- <-; [done|].
    apply inv_wake_full; [done|lia].
  - destruct (mutex_free st); [|done]. destruct (count st) eqn:C; injection H as <- <-; [done|].
    apply inv_wake_full; [done|lia].
  - destruct (mutex_free st && (1 <=? max)); [|done].
    destruct (max <=? count st); injection H as <- <-; [|done].
    apply inv_wake_full; [done|lia].
  - destruct (threads st !! t) as [[]|]; try done. injection H as <- <-.
    apply inv_set; try done. by intros [|].
Qed.

Lemma run_inv acts : forall st st' e, Inv st -> run st acts = Some (st', e) -> Inv st'.
Proof.
  induction acts as [|a acts IH]; intros st st' e I H; simpl in H.
  - by injection H as <- <-.
  - destruct (step st a) as [[s1 e1]|] eqn:S; [|done].
    destruct (run s1 acts) as [[s2 e2]|] eqn:R; [|done]. injection H as <- <-.
    apply (IH s1 s2 e2); [by apply (step_inv st a s1 e1)|done].
Qed.

(** ** After a careful shutdown nobody sleeps *)
Definition at_notify (st : state) (full : bool) : Prop :=
  exists t, threads st !! t = Some TNotifyEmpty \/ (full = true /\ threads st !! t = Some TNotifyFull).

Record Shut (st : state) : Prop := {
  shut_checked : flag st = true -> forall t k, threads st !! t <> Some (TChecked k);
  shut_empty : flag st = true -> forall t k, threads st !! t = Some (TSleep k) ->
     k = KNext \/ k = KLatest -> at_notify st false;
  shut_full : flag st = true -> forall t k, threads st !! t = Some (TSleep k) -> at_notify st true }.

Lemma shut_init m : Shut (init m).
Proof. split; done. Qed.

(** Steps of one thread that was not notifying and does not fall asleep. *)
Lemma shut_set st t x y n :
  Shut st -> threads st !! t = Some y -> y <> TNotifyEmpty -> y <> TNotifyFull ->
  (forall k, x = TSleep k -> flag st = false) -> (forall k, x = TChecked k -> flag st = false) ->
  Shut (State n (flag st) (<[t := x]> (threads st))).
Proof.
  intros [S1 S2 S3] E N1 N2 H1 H2.
  assert (forall b, at_notify st b -> at_notify (State n (flag st) (<[t := x]> (threads st))) b) as K.
  { intros b [t' A]. exists t'. cbn [threads].
    destruct (decide (t' = t)) as [->|N]; [|by rewrite list_lookup_insert_ne by done].
    rewrite E in A. destruct A as [[= ->]|[_ [= ->]]]; done. }
  split; cbn [flag threads].
  - intros F t' k X. apply lookup_insert_cases in X as [[-> <-]|[_ X]].
    + rewrite (H2 k) in F; done.
    + by apply (S1 F) in X.
  - intros F t' k X Hk. apply lookup_insert_cases in X as [[-> X]|[_ X]].
    + rewrite (H1 k) in F; done.
    + eauto.
  - intros F t' k X. apply lookup_insert_cases in X as [[-> X]|[_ X]].
    + rewrite (H1 k) in F; done.
    + eauto.
Qed.

Lemma shut_wake_full st n : Shut st -> Shut (State n (flag st) (wake_full <$> threads st)).
Proof.
  intros [S1 S2 S3].
  assert (forall b, at_notify st b -> at_notify (State n (flag st) (wake_full <$> threads st)) b) as K.
  { intros b [t' A]. exists t'. cbn [threads]. rewrite list_lookup_fmap.
    destruct A as [->|[-> ->]]; eauto. }
  split; cbn [flag threads].
  - intros F t k X. apply wake_full_lookup in X as (x & X & H). symmetry in H.
    apply wake_full_checked in H as ->. by apply (S1 F) in X.
  - intros F t k X Hk. apply wake_full_lookup in X as (x & X & H). symmetry in H.
    apply wake_full_sleep in H as [-> H]. eauto.
  - intros F t k X. apply wake_full_lookup in X as (x & X & H). symmetry in H.
    apply wake_full_sleep in H as [-> H]. eauto.
Qed.

Lemma shut_wake_empty st n : Shut st -> Shut (State n (flag st) (wake_empty <$> threads st)).
Proof.
  intros [S1 S2 S3].
  assert (forall b, at_notify st b -> at_notify (State n (flag st) (wake_empty <$> threads st)) b) as K.
  { intros b [t' A]. exists t'. cbn [threads]. rewrite list_lookup_fmap.
    destruct A as [->|[-> ->]]; eauto. }
  split; cbn [flag threads].
  - intros F t k X. apply wake_empty_lookup in X as (x & X & H). symmetry in H.
    apply wake_empty_checked in H as ->. by apply (S1 F) in X.
  - intros F t k X Hk. apply wake_empty_lookup in X as (x & X & H). symmetry in H.
    apply wake_empty_sleep in H as [-> H]. eauto.
  - intros F t k X. apply wake_empty_lookup in X as (x & X & H). symmetry in H.
    apply wake_empty_sleep in H as [-> H]. eauto.
Qed.

Lemma shut_head st t k y :
  Shut st -> threads st !! t = Some y -> y <> TNotifyEmpty -> y <> TNotifyFull ->
  Shut (fst (head t k st)).
Proof.
  intros S E N1 N2. unfold head. destruct (flag st) eqn:F; cbn [fst]; rewrite <- F;
    by apply (shut_set st t _ y).
Qed.

Lemma shut_succeed st t k y :
  Shut st -> threads st !! t = Some y -> y = TChecked k \/ y = TWoken k ->
  Shut (fst (succeed t k st)).
Proof.
  intros S E N. unfold succeed. cbn [fst].
  assert (Shut (State (effect k (count st)) (flag st) (effect_wake k (threads st)))) as S'.
  { destruct k; cbn [effect effect_wake]; [by apply shut_wake_full|by apply shut_wake_full|by destruct st]. }
  assert (effect_wake k (threads st) !! t = Some y) as E'.
  { destruct k; cbn [effect_wake]; rewrite ?list_lookup_fmap, ?E; destruct N as [-> | ->]; done. }
  apply (shut_set _ t TIdle y _ S'); try done; by destruct N as [-> | ->].
Qed.

Lemma step_shut st a st' e :
  Shut st -> step st a = Some (st', e) ->
  (forall t, a = ASetFlag t -> forall t' k, threads st !! t' <> Some (TChecked k)) -> Shut st'.
Proof.
  intros S H C. destruct a as [t k|t|t|t|t|t|t|t|n| | |max|t]; cbn [step] in H.
  - destruct (threads st !! t) as [[]|] eqn:E; try done. injection H as <- <-.
    by apply (shut_set st t _ TIdle).
  - destruct (threads st !! t) as [[]|] eqn:E; try done. destruct (mutex_free st) eqn:M; [|done].
    injection H as H. change st' with (fst (st', e)); rewrite <- H. by apply (shut_head st t k (TEnter k)).
  - destruct (threads st !! t) as [[]|] eqn:E; try done.
    assert (flag st = false) as F.
    { destruct (flag st) eqn:F; [|done]. exfalso. by apply (shut_checked st S F t k). }
    destruct (blocked k (count st)) eqn:B.
    + injection H as <- <-. by apply (shut_set st t _ (TChecked k)).
    + injection H as H. change st' with (fst (st', e)); rewrite <- H. apply (shut_succeed st t k (TChecked k)); auto.
  - destruct (threads st !! t) as [[]|] eqn:E; try done. destruct (mutex_free st) eqn:M; [|done].
    destruct (blocked k (count st)); injection H as H; change st' with (fst (st', e)); rewrite <- H;
      [by apply (shut_head st t k (TWoken k))|apply (shut_succeed st t k (TWoken k)); auto].
  - destruct (threads st !! t) as [[]|] eqn:E; try done. injection H as <- <-.
    by apply (shut_set st t _ TIdle).
  - destruct (threads st !! t) as [[]|] eqn:E; try done. injection H as <- <-.
    specialize (C t eq_refl).
    assert (forall b, at_notify (State (count st) true (<[t:=TNotifyEmpty]> (threads st))) b) as A.
    { intros b. exists t. left. cbn [threads]. apply list_lookup_insert.
      by apply lookup_lt_Some in E. }
    split; cbn [flag threads].
    + intros _ t' k X. apply lookup_insert_cases in X as [[-> X]|[_ X]]; [done|by apply C in X].
    + intros. apply A.
    + intros. apply A.
  - destruct (threads st !! t) as [[]|] eqn:E; try done. injection H as <- <-.
    destruct S as [S1 S2 S3]. split; cbn [flag threads].
    + intros F t' k X. apply lookup_insert_cases in X as [[-> X]|[_ X]]; [done|].
      apply wake_empty_lookup in X as (x & X & Y). symmetry in Y. apply wake_empty_checked in Y as ->.
      by apply (S1 F) in X.
    + intros F t' k X Hk. exfalso. apply lookup_insert_cases in X as [[-> X]|[_ X]]; [done|].
      apply wake_empty_lookup in X as (x & X & Y). symmetry in Y.
      apply wake_empty_sleep in Y as [-> [m ->]]. by destruct Hk.
    + intros F t' k X. exists t. right. split; [done|]. cbn [threads]. apply list_lookup_insert.
      rewrite fmap_length. by apply lookup_lt_Some in E.
  - destruct (threads st !! t) as [[]|] eqn:E; try done. injection H as <- <-.
    destruct S as [S1 S2 S3].
    assert (forall t' k, (<[t:=TIdle]> (wake_full <$> threads st)) !! t' = Some (TSleep k) ->
      threads st !! t' = Some (TSleep k) /\ (k = KNext \/ k = KLatest)) as Sl.
    { intros t' k X. apply lookup_insert_cases in X as [[-> X]|[_ X]]; [done|].
      apply wake_full_lookup in X as (x & X & Y). symmetry in Y.
      apply wake_full_sleep in Y as [-> Y]. done. }
    assert (at_notify st false -> forall b,
      at_notify (State (count st) (flag st) (<[t:=TIdle]> (wake_full <$> threads st))) b) as A.
    { intros [t' [A|[? _]]] b; [|done]. exists t'. left. cbn [threads].
      rewrite list_lookup_insert_ne by congruence. by rewrite list_lookup_fmap, A. }
    split; cbn [flag threads].
    + intros F t' k X. apply lookup_insert_cases in X as [[-> X]|[_ X]]; [done|].
      apply wake_full_lookup in X as (x & X & Y). symmetry in Y. apply wake_full_checked in Y as ->.
      by apply (S1 F) in X.
    + intros F t' k X Hk. apply A. apply Sl in X as [X _]. eauto.
    + intros F t' k X. apply A. apply Sl in X as [X Y]. eauto.
  - destruct (mutex_free st); [|done]. injection H as <- <-. destruct n as [|n].
    + rewrite Nat.add_0_r. by destruct st.
    + by apply shut_wake_empty.
  - destruct (mutex_free st); [|done]. destruct (count st) eqn:Ct; injection H as <- <-; [done|].
    by apply shut_wake_full.
  - destruct (mutex_free st); [|done]. destruct (count st) eqn:Ct; injection H as <- <-; [done|].
    by apply shut_wake_full.
  - destruct (mutex_free st && (1 <=? max)); [|done].
    destruct (max <=? count st); injection H as <- <-; [|done].
    by apply shut_wake_full.
  - destruct (threads st !! t) as [[]|] eqn:E; try done. injection H as <- <-.
    by apply (shut_set st t _ (TSleep k)).
Qed.

Lemma run_shut acts : forall st st' e,
  Shut st -> careful st acts -> run st acts = Some (st', e) -> Shut st'.
Proof.
  induction acts as [|a acts IH]; intros st st' e S C H; simpl in H, C.
  - by injection H as <- <-.
  - destruct (step st a) as [[s1 e1]|] eqn:St; [|done].
    destruct (run s1 acts) as [[s2 e2]|] eqn:R; [|done]. injection H as <- <-.
    destruct C as [C1 C2]. apply (IH s1 s2 e2); [|done|done]. by apply (step_shut st a s1 e1).
Qed.

Lemma released_lemma m acts st evs t k :
  run (init m) acts = Some (st, evs) -> careful (init m) acts -> shut st -> waiting st t k ->
  exists a st' b, (a = AEnter t \/ a = AResume t) /\
    step st a = Some (st', [EvReturn t k b]) /\ threads st' !! t = Some TIdle.
Proof.
  intros H C [F Sh] W. pose proof (run_shut _ _ _ _ (shut_init m) C H) as [S1 S2 S3].
  assert (forall b, ~ at_notify st b) as NA.
  { intros b [t' [A|[_ A]]]; by apply Sh in A as (? & ? & ?). }
  assert (mutex_free st = true) as M by (apply mutex_free_spec; auto).
  destruct W as [W|[W|[W|W]]].
  - exists (AEnter t). cbn [step]. rewrite W, M. unfold head. rewrite F.
    do 2 eexists. split; [by left|]. split; [done|]. cbn [threads]. apply list_lookup_insert.
    by apply lookup_lt_Some in W.
  - exfalso. by apply (S1 F t k).
  - exfalso. apply (NA true). eauto.
  - exists (AResume t). cbn [step]. rewrite W, M. destruct (blocked k (count st)).
    + unfold head. rewrite F. do 2 eexists. split; [by right|]. split; [done|]. cbn [threads].
      apply list_lookup_insert. by apply lookup_lt_Some in W.
    + unfold succeed. do 2 eexists. split; [by right|]. split; [done|]. cbn [threads].
      apply list_lookup_insert. destruct k; cbn [effect_wake]; rewrite ?fmap_length;
        by apply lookup_lt_Some in W.
Qed.

Lemma false_only_shut acts : forall st st' e t k,
  run st acts = Some (st', e) -> EvReturn t k false ∈ e -> flag st' = true.
Proof.
  assert (forall st a st' e, step st a = Some (st', e) -> flag st = true -> flag st' = true) as Mono.
  { intros st a st' e H F. destruct a as [t k|t|t|t|t|t|t|t|n| | |max|t]; cbn [step] in H;
      unfold head, succeed in H; rewrite ?F in H;
      repeat (match goal with
        | H : context [match ?x with _ => _ end] |- _ => destruct x eqn:?
        end; try discriminate H); by injection H as <- <-. }
  assert (forall acts st st' e, run st acts = Some (st', e) -> flag st = true -> flag st' = true) as MonoR.
  { induction acts0 as [|a acts0 IH]; intros st st' e H F; simpl in H; [by injection H as <- <-|].
    destruct (step st a) as [[s1 e1]|] eqn:S; [|done].
    destruct (run s1 acts0) as [[s2 e2]|] eqn:R; [|done]. injection H as <- <-. eauto. }
  induction acts as [|a acts IH]; intros st st' e t k H E; simpl in H.
  - injection H as <- <-. by apply elem_of_nil in E.
  - destruct (step st a) as [[s1 e1]|] eqn:S; [|done].
    destruct (run s1 acts) as [[s2 e2]|] eqn:R; [|done]. injection H as <- <-.
    apply elem_of_app in E as [E|E]; [|eauto].
    apply (MonoR acts s1 s2 e2 R).
    destruct a as [t0 k0|t0|t0|t0|t0|t0|t0|t0|n| | |max|t0]; cbn [step] in S;
      unfold head, succeed in S;
      repeat (match goal with
        | H : context [match ?x with _ => _ end] |- _ => destruct x eqn:?
        end; try discriminate S); injection S as <- <-;
      try (by apply elem_of_nil in E); try (apply elem_of_list_singleton in E; by discriminate E); done.
Qed.
