(** Proofs about the statistics registry and the timers. *)
From Coq Require Import ZArith Bool Lia.
From stdpp Require Import list gmap strings.
From Verif Require Import StatisticsModel StatisticsSpec.
Open Scope Z_scope.

Lemma acc_adds_snoc w a l x a1 : acc_adds w a l = Some a1 -> acc_adds w a (l ++ [x]) = acc_add w a1 x.
Proof.
  revert a. induction l as [|y l IH]; intros a E; cbn in *.
  - inversion E; subst. by destruct (acc_add w a1 x).
  - destruct (acc_add w a y); [by apply IH|done].
Qed.

Lemma samples_under_app h e1 e2 : samples_under h (e1 ++ e2) = samples_under h e1 ++ samples_under h e2.
Proof.
  induction e1 as [|[t h'|src h' x|] e1 IH]; cbn; [done|done| |done].
  destruct (h =? h')%nat; cbn; by rewrite IH.
Qed.
Lemma by_timer_app i e1 e2 : by_timer i (e1 ++ e2) = by_timer i e1 ++ by_timer i e2.
Proof.
  induction e1 as [|[t h'|[j|] h' x|] e1 IH]; cbn; [done|done| |done|done].
  destruct (j =? i)%nat; cbn; by rewrite IH.
Qed.

Lemma run_app s a1 a2 : run s (a1 ++ a2) =
  match run s a1 with
  | None => None
  | Some (s1, e1) => match run s1 a2 with None => None | Some (s2, e2) => Some (s2, e1 ++ e2) end
  end.
Proof.
  revert s. induction a1 as [|a a1 IH]; intros s; cbn [run app].
  - by destruct (run s a2) as [[? ?]|].
  - destruct (step s a) as [[s1 e]|]; [|done]. rewrite IH.
    destruct (run s1 a1) as [[s2 e1]|]; [|done].
    destruct (run s2 a2) as [[s3 e2]|]; [|done]. by rewrite app_assoc.
Qed.

(** Every action emits at most one event. *)
Lemma step_events s a s' evs : step s a = Some (s', evs) -> evs = [] \/ exists e, evs = [e].
Proof.
  intros E. destruct a; cbn in E;
    unfold stop_timer in E; repeat (case_match; try done); simplify_eq; eauto.
Qed.
Lemma run_split acts : forall s s' e1 e e2, run s acts = Some (s', e1 ++ e :: e2) ->
  exists a1 a a2 s1 s2, acts = a1 ++ a :: a2 /\
    run s a1 = Some (s1, e1) /\ step s1 a = Some (s2, [e]) /\ run s2 a2 = Some (s', e2).
Proof.
  induction acts as [|a acts IH]; intros s s' e1 e e2 E; cbn [run] in E.
  - by destruct e1.
  - destruct (step s a) as [[s1 ev]|] eqn:E1; [|done].
    destruct (run s1 acts) as [[s2 evs]|] eqn:E2; [|done].
    injection E as -> Eev.
    destruct (step_events _ _ _ _ E1) as [->|[e' ->]].
    + cbn in Eev. subst evs. destruct (IH _ _ _ _ _ E2) as (b1&b&b2&t1&t2&->&R1&R2&R3).
      exists (a :: b1), b, b2, t1, t2. split; [done|]. split; [|done].
      cbn [run]. by rewrite E1, R1.
    + destruct e1 as [|e1' e1].
      * cbn in Eev. injection Eev as -> ->.
        exists [], a, acts, s, s1. by repeat split.
      * cbn in Eev. injection Eev as -> ->.
        destruct (IH _ _ _ _ _ E2) as (b1&b&b2&t1&t2&->&R1&R2&R3).
        exists (a :: b1), b, b2, t1, t2. split; [done|]. split; [|done].
        cbn [run]. by rewrite E1, R1.
Qed.

(** The registry invariant. *)
Record wf (s : state) (evs : list event) : Prop := Wf {
  wf_inj : forall t1 t2 h, tag_map s !! t1 = Some h -> tag_map s !! t2 = Some h -> t1 = t2;
  wf_lt : forall t h, tag_map s !! t = Some h -> (h < length (collectors s))%nat;
  wf_col : forall h c, collectors s !! h = Some c ->
    acc_adds window (acc_new limits.1 limits.2) (samples_under h evs) = Some (values c);
  wf_none : forall h, (length (collectors s) <= h)%nat -> samples_under h evs = [] }.

Lemma wf_init : wf init [].
Proof. constructor; cbn; intros; try done. Qed.

Lemma wf_timers s evs l : wf s evs -> wf (State (collectors s) (tag_map s) l) evs.
Proof. intros [H1 H2 H3 H4]. by constructor. Qed.

Lemma samples_under_handle h evs t h' : samples_under h (evs ++ [EvHandle t h']) = samples_under h evs.
Proof. rewrite samples_under_app. cbn. by rewrite app_nil_r. Qed.
Lemma samples_under_reset h evs : samples_under h (evs ++ [EvReset]) = samples_under h evs.
Proof. rewrite samples_under_app. cbn. by rewrite app_nil_r. Qed.

Lemma wf_get_handle s evs t s' h : wf s evs -> get_handle t s = (s', h) -> wf s' (evs ++ [EvHandle t h]).
Proof.
  intros [H1 H2 H3 H4] E. unfold get_handle in E.
  destruct (tag_map s !! t) as [h0|] eqn:Et; injection E as <- <-.
  - constructor; try done; intros k; rewrite samples_under_handle; auto.
  - constructor; cbn.
    + intros t1 t2 k. rewrite !lookup_insert_Some.
      intros [[? ?]|[? A]] [[? ?]|[? B]]; subst; try done.
      * apply H2 in B. lia.
      * apply H2 in A. lia.
      * eauto.
    + intros t1 k. rewrite app_length, lookup_insert_Some. cbn.
      intros [[? ?]|[? A]]; [lia|]. apply H2 in A. lia.
    + intros k c. rewrite samples_under_handle.
      intros [A|[A B]]%lookup_app_Some; [auto|].
      destruct (k - length (collectors s))%nat eqn:Ek; cbn in B; [|done].
      injection B as <-. rewrite H4 by lia. done.
    + intros k. rewrite app_length, samples_under_handle. cbn. intros. apply H4. lia.
Qed.

Lemma add_value_values c now x c' : add_value c now x = Some c' -> acc_add window (values c) x = Some (values c').
Proof. unfold add_value. intros E. repeat case_match; by simplify_eq. Qed.

Lemma wf_add_sample s evs src h now x s' : wf s evs -> add_sample h now x s = Some s' ->
  wf s' (evs ++ [EvSample src h x]).
Proof.
  intros [H1 H2 H3 H4] E. unfold add_sample in E.
  destruct (collectors s !! h) as [c|] eqn:Ec; [|done].
  destruct (add_value c now x) as [c'|] eqn:Ev; [|done]. injection E as <-.
  pose proof (lookup_lt_Some _ _ _ Ec) as Hlt.
  constructor; cbn.
  - done.
  - intros t k. rewrite insert_length. apply H2.
  - intros k c1. rewrite samples_under_app. cbn.
    destruct (Nat.eqb_spec k h) as [->|Hne].
    + rewrite list_lookup_insert by done. intros [= <-].
      rewrite (acc_adds_snoc _ _ _ _ _ (H3 _ _ Ec)). by eapply add_value_values.
    + rewrite list_lookup_insert_ne by done. rewrite app_nil_r. apply H3.
  - intros k. rewrite insert_length, samples_under_app. cbn. intros Hk.
    destruct (Nat.eqb_spec k h); [lia|]. rewrite app_nil_r. auto.
Qed.

Lemma wf_step s evs a s' e : wf s evs -> step s a = Some (s', e) -> wf s' (evs ++ e).
Proof.
  intros W E. destruct a; cbn in E.
  - destruct (get_handle tag s) eqn:G. injection E as <- <-. by eapply wf_get_handle.
  - destruct (add_sample h now x s) eqn:G; [|done]. injection E as <- <-. by eapply wf_add_sample.
  - injection E as <- <-. destruct W as [H1 H2 H3 H4].
    constructor; cbn; try done; intros k; rewrite samples_under_reset; auto.
  - destruct (get_handle tag s) eqn:G. injection E as <- <-. apply wf_timers. by eapply wf_get_handle.
  - repeat case_match; simplify_eq. rewrite app_nil_r. by apply wf_timers.
  - repeat case_match; simplify_eq. unfold stop_timer in E. repeat case_match; simplify_eq.
    + apply (wf_timers _ _ _ (wf_add_sample _ _ _ _ _ _ _ W H1)).
    + rewrite app_nil_r. by apply wf_timers.
  - repeat case_match; simplify_eq. rewrite app_nil_r. by apply wf_timers.
  - repeat case_match; simplify_eq. unfold stop_timer in E. repeat case_match; simplify_eq.
    + apply (wf_timers _ _ _ (wf_add_sample _ _ _ _ _ _ _ W H1)).
    + rewrite app_nil_r. by apply wf_timers.
Qed.
Lemma wf_run acts : forall s evs s' e, wf s evs -> run s acts = Some (s', e) -> wf s' (evs ++ e).
Proof.
  induction acts as [|a acts IH]; intros s evs s' e W E; cbn [run] in E.
  - injection E as <- <-. by rewrite app_nil_r.
  - destruct (step s a) as [[s1 e1]|] eqn:E1; [|done].
    destruct (run s1 acts) as [[s2 e2]|] eqn:E2; [|done]. injection E as <- <-.
    rewrite app_assoc. eapply IH; [|exact E2]. by eapply wf_step.
Qed.
Lemma wf_reach acts s e : run init acts = Some (s, e) -> wf s e.
Proof. intros R. apply (wf_run _ _ _ _ _ wf_init R). Qed.

(** How the tag map evolves. *)
Lemma add_sample_tags h now x s s' : add_sample h now x s = Some s' ->
  tag_map s' = tag_map s /\ length (collectors s') = length (collectors s).
Proof. unfold add_sample. intros E. repeat case_match; simplify_eq; cbn. by rewrite insert_length. Qed.

Lemma step_tags s a s' e : step s a = Some (s', e) ->
  (length (collectors s) <= length (collectors s'))%nat /\
  match e with
  | [EvReset] => tag_map s' = ∅
  | [EvHandle t h] =>
    (tag_map s !! t = Some h /\ tag_map s' = tag_map s) \/
    (tag_map s !! t = None /\ h = length (collectors s) /\ tag_map s' = <[t := h]> (tag_map s))
  | _ => tag_map s' = tag_map s
  end.
Proof.
  intros E. destruct a; cbn in E.
  - unfold get_handle in E. destruct (tag_map s !! tag) eqn:G; injection E as <- <-; cbn.
    + auto.
    + rewrite app_length. split; [lia|]. right. auto.
  - destruct (add_sample h now x s) eqn:G; [|done]. injection E as <- <-.
    apply add_sample_tags in G as [-> ->]. auto.
  - injection E as <- <-. auto.
  - unfold get_handle in E. destruct (tag_map s !! tag) eqn:G; injection E as <- <-; cbn.
    + auto.
    + rewrite app_length. split; [lia|]. right. auto.
  - destruct (timers s !! i) as [[h st|]|]; try done. injection E as <- <-. auto.
  - destruct (timers s !! i) as [[h st|]|]; try done. unfold stop_timer in E. destruct st as [t0|].
    + destruct (add_sample h now (now - t0) s) eqn:G; [|done]. injection E as <- <-. cbn.
      apply add_sample_tags in G as [-> ->]. auto.
    + injection E as <- <-. auto.
  - destruct (timers s !! i) as [[h st|]|]; try done. injection E as <- <-. auto.
  - destruct (timers s !! i) as [[h st|]|]; try done. unfold stop_timer in E. destruct st as [t0|].
    + destruct (add_sample h now (now - t0) s) eqn:G; [|done]. injection E as <- <-. cbn.
      apply add_sample_tags in G as [-> ->]. auto.
    + injection E as <- <-. auto.
Qed.

Lemma run_keep acts : forall s s' e t h, run s acts = Some (s', e) -> EvReset ∉ e ->
  tag_map s !! t = Some h -> tag_map s' !! t = Some h.
Proof.
  induction acts as [|a acts IH]; intros s s' e t h E Hn Ht; cbn [run] in E.
  - by injection E as <- <-.
  - destruct (step s a) as [[s1 e1]|] eqn:E1; [|done].
    destruct (run s1 acts) as [[s2 e2]|] eqn:E2; [|done]. injection E as <- <-.
    apply not_elem_of_app in Hn as [Hn1 Hn2].
    eapply IH; [exact E2|exact Hn2|].
    destruct (step_tags _ _ _ _ E1) as [_ T].
    destruct (step_events _ _ _ _ E1) as [->|[ev ->]]; [by rewrite T|].
    destruct ev as [t' h'|src h' x|].
    + destruct T as [[_ ->]|(Hno & -> & ->)]; [done|].
      rewrite lookup_insert_ne; [done|congruence].
    + by rewrite T.
    + by destruct Hn1; constructor.
Qed.
Lemma run_len acts : forall s s' e, run s acts = Some (s', e) ->
  (length (collectors s) <= length (collectors s'))%nat.
Proof.
  induction acts as [|a acts IH]; intros s s' e E; cbn [run] in E.
  - by injection E as <- <-.
  - destruct (step s a) as [[s1 e1]|] eqn:E1; [|done].
    destruct (run s1 acts) as [[s2 e2]|] eqn:E2; [|done]. injection E as <- <-.
    destruct (step_tags _ _ _ _ E1) as [L _]. apply IH in E2. lia.
Qed.
(** All handles of the map are at least [k]. *)
Definition above (k : nat) (s : state) : Prop := forall t h, tag_map s !! t = Some h -> (k <= h)%nat.
Lemma run_above acts k : forall s s' e, run s acts = Some (s', e) ->
  (k <= length (collectors s))%nat -> above k s -> above k s'.
Proof.
  induction acts as [|a acts IH]; intros s s' e E Hk Ha; cbn [run] in E.
  - by injection E as <- <-.
  - destruct (step s a) as [[s1 e1]|] eqn:E1; [|done].
    destruct (run s1 acts) as [[s2 e2]|] eqn:E2; [|done]. injection E as <- <-.
    destruct (step_tags _ _ _ _ E1) as [L T].
    eapply IH; [exact E2|lia|].
    intros t h Ht.
    destruct (step_events _ _ _ _ E1) as [->|[ev ->]]; [rewrite T in Ht; eauto|].
    destruct ev as [t' h'|src h' x|]; [|rewrite T in Ht; eauto|rewrite T in Ht; done].
    destruct T as [[_ T]|(Hno & Hh & T)]; rewrite T in Ht; [eauto|].
    apply lookup_insert_Some in Ht as [[_ ?]|[_ ?]]; [lia|eauto].
Qed.
Lemma run_fresh acts t : forall s s' e, run s acts = Some (s', e) ->
  (forall h, EvHandle t h ∉ e) -> tag_map s !! t = None -> tag_map s' !! t = None.
Proof.
  induction acts as [|a acts IH]; intros s s' e E Hn Ht; cbn [run] in E.
  - by injection E as <- <-.
  - destruct (step s a) as [[s1 e1]|] eqn:E1; [|done].
    destruct (run s1 acts) as [[s2 e2]|] eqn:E2; [|done]. injection E as <- <-.
    destruct (step_tags _ _ _ _ E1) as [_ T].
    eapply IH; [exact E2| |].
    { intros h. specialize (Hn h). apply not_elem_of_app in Hn. tauto. }
    destruct (step_events _ _ _ _ E1) as [->|[ev ->]]; [by rewrite T|].
    destruct ev as [t' h'|src h' x|]; [|by rewrite T|by rewrite T].
    destruct T as [[_ ->]|(Hno & _ & ->)]; [done|].
    rewrite lookup_insert_ne; [done|]. intros ->. apply (Hn h'). constructor.
Qed.
Lemma handle_in_map s a s' t h : step s a = Some (s', [EvHandle t h]) -> tag_map s' !! t = Some h.
Proof.
  intros E. destruct (step_tags _ _ _ _ E) as [_ [[H ->]|(_ & -> & ->)]]; [done|]. by rewrite lookup_insert.
Qed.

Lemma handles_iff acts s e1 t h e2 t' h' e3 :
  run init acts = Some (s, e1 ++ EvHandle t h :: e2 ++ EvHandle t' h' :: e3) ->
  (h = h' <-> t = t' /\ EvReset ∉ e2).
Proof.
  intros R. destruct (run_split _ _ _ _ _ _ R) as (a1&a&a2&s1&s2&->&R1&S1&R2).
  destruct (run_split _ _ _ _ _ _ R2) as (b1&b&b2&s3&s4&->&R3&S2&R4).
  pose proof (wf_reach _ _ _ R1) as W1. pose proof (wf_step _ _ _ _ _ W1 S1) as W2.
  pose proof (wf_run _ _ _ _ _ W2 R3) as W3. pose proof (wf_step _ _ _ _ _ W3 S2) as W4.
  pose proof (handle_in_map _ _ _ _ _ S1) as Ht. pose proof (handle_in_map _ _ _ _ _ S2) as Ht'.
  destruct (step_tags _ _ _ _ S2) as [_ T].
  pose proof (wf_lt _ _ W2 _ _ Ht) as Hlt.
  assert (Hdec : EvReset ∈ e2 \/ EvReset ∉ e2).
  { clear. induction e2 as [|e e2 IH]; [right; apply not_elem_of_nil|].
    destruct IH as [IH|IH]; [left; by right|]. destruct e; try (right; rewrite elem_of_cons; naive_solver).
    left. by left. }
  split.
  - intros <-. destruct Hdec as [Hin|Hnin].
    + exfalso. apply elem_of_list_split in Hin as (f1 & f2 & ->).
      destruct (run_split _ _ _ _ _ _ R3) as (c1&c&c2&s5&s6&->&R5&S5&R6).
      destruct (step_tags _ _ _ _ S5) as [L5 T5]. cbn in T5.
      apply run_len in R5.
      assert (A : above (length (collectors s6)) s6) by (intros ? ?; rewrite T5; done).
      pose proof (run_above _ _ _ _ _ R6 (le_n _) A) as A3.
      apply run_len in R6.
      destruct T as [[T _]|(_ & T & _)]; [apply A3 in T|]; lia.
    + split; [|done].
      pose proof (run_keep _ _ _ _ _ _ R3 Hnin Ht) as K.
      destruct T as [[T _]|(_ & T & _)].
      * exact (wf_inj _ _ W3 _ _ _ K T).
      * apply (wf_lt _ _ W3) in K. lia.
  - intros [<- Hnin]. pose proof (run_keep _ _ _ _ _ _ R3 Hnin Ht) as K.
    destruct T as [[T _]|(T & _)]; congruence.
Qed.

Lemma fresh_after_reset acts s e1 e2 t h e3 :
  run init acts = Some (s, e1 ++ EvReset :: e2 ++ EvHandle t h :: e3) ->
  (forall h', EvHandle t h' ∉ e2) -> samples_under h (e1 ++ EvReset :: e2) = [].
Proof.
  intros R Hn. destruct (run_split _ _ _ _ _ _ R) as (a1&a&a2&s1&s2&->&R1&S1&R2).
  destruct (run_split _ _ _ _ _ _ R2) as (b1&b&b2&s3&s4&->&R3&S2&R4).
  pose proof (wf_reach _ _ _ R1) as W1. pose proof (wf_step _ _ _ _ _ W1 S1) as W2.
  pose proof (wf_run _ _ _ _ _ W2 R3) as W3.
  destruct (step_tags _ _ _ _ S1) as [_ T1]. cbn in T1.
  assert (T2 : tag_map s2 !! t = None) by (rewrite T1; done).
  pose proof (run_fresh _ _ _ _ _ R3 Hn T2) as F.
  destruct (step_tags _ _ _ _ S2) as [_ [[T _]|(_ & T & _)]]; [congruence|].
  rewrite <- app_assoc in W3. cbn in W3. subst h. by apply (wf_none _ _ W3).
Qed.

(** GetTag inverts GetHandle. *)
Lemma get_tag_ok s e t h : wf s e -> tag_map s !! t = Some h -> get_tag h s = t.
Proof.
  intros W Ht. unfold get_tag.
  destruct (list_find _ _) as [[i [t' h']]|] eqn:F.
  - apply list_find_Some in F as (F1 & F2 & _). cbn in F2. subst h'.
    apply elem_of_list_lookup_2, elem_of_map_to_list in F1.
    exact (wf_inj _ _ W _ _ _ F1 Ht).
  - apply list_find_None in F. rewrite Forall_forall in F.
    destruct (F (t, h)); [|done]. by apply elem_of_map_to_list.
Qed.

(** Timers. *)
Definition timer_is (i h : nat) (r : option Z) (s : state) : Prop := timers s !! i = Some (Timer h r).
Definition timer_gone (i : nat) (s : state) : Prop := timers s !! i = Some TGone.
Lemma add_sample_timers h now x s s' : add_sample h now x s = Some s' -> timers s' = timers s.
Proof. unfold add_sample. intros E. repeat case_match; by simplify_eq. Qed.
Lemma get_handle_timers t s s' h : get_handle t s = (s', h) -> timers s' = timers s.
Proof. unfold get_handle. intros E. case_match; by simplify_eq. Qed.

Lemma gone_run acts i : forall s s' e r, timer_gone i s -> run s acts = Some (s', e) ->
  by_timer i e = [] /\ laps i r acts = [].
Proof.
  unfold timer_gone.
  induction acts as [|a acts IH]; intros s s' e r G E; cbn [run] in E.
  - by injection E as <- <-.
  - destruct (step s a) as [[s1 e1]|] eqn:E1; [|done].
    destruct (run s1 acts) as [[s2 e2]|] eqn:E2; [|done]. injection E as <- <-.
    rewrite by_timer_app.
    destruct a; cbn [step] in E1; cbn [laps].
    + destruct (get_handle tag s) as [s0 h] eqn:GH. injection E1 as <- <-.
      apply get_handle_timers in GH. cbn [by_timer app]. eapply IH; [|exact E2]. congruence.
    + destruct (add_sample h now x s) as [s0|] eqn:A; [|done]. injection E1 as <- <-.
      apply add_sample_timers in A. cbn [by_timer app]. eapply IH; [|exact E2]. congruence.
    + injection E1 as <- <-. cbn [by_timer app]. eapply IH; [|exact E2]. done.
    + destruct (get_handle tag s) as [s0 h] eqn:GH. injection E1 as <- <-.
      apply get_handle_timers in GH. cbn [by_timer app]. eapply IH; [|exact E2]. cbn.
      rewrite GH. by apply lookup_app_l_Some.
    + destruct (timers s !! i0) as [[h st|]|] eqn:Et; try done. injection E1 as <- <-.
      assert (i0 <> i) by (intros ->; congruence).
      destruct (Nat.eqb_spec i0 i); [done|]. eapply IH; [|exact E2]. cbn.
      by rewrite list_lookup_insert_ne.
    + destruct (timers s !! i0) as [[h st|]|] eqn:Et; try done.
      assert (Hne : i0 <> i) by (intros ->; congruence).
      rewrite (proj2 (Nat.eqb_neq i0 i) Hne). unfold stop_timer in E1.
      destruct st as [t0|].
      * destruct (add_sample h now (now - t0) s) as [s0|] eqn:A; [|done]. injection E1 as <- <-.
        apply add_sample_timers in A. cbn [by_timer app].
        rewrite (proj2 (Nat.eqb_neq i0 i) Hne). eapply IH; [|exact E2]. cbn.
        rewrite list_lookup_insert_ne by done. congruence.
      * injection E1 as <- <-. eapply IH; [|exact E2]. cbn. by rewrite list_lookup_insert_ne.
    + destruct (timers s !! i0) as [[h st|]|] eqn:Et; try done. injection E1 as <- <-.
      assert (i0 <> i) by (intros ->; congruence).
      destruct (Nat.eqb_spec i0 i); [done|]. eapply IH; [|exact E2]. cbn.
      by rewrite list_lookup_insert_ne.
    + destruct (timers s !! i0) as [[h st|]|] eqn:Et; try done.
      assert (Hne : i0 <> i) by (intros ->; congruence).
      rewrite (proj2 (Nat.eqb_neq i0 i) Hne). unfold stop_timer in E1.
      destruct st as [t0|].
      * destruct (add_sample h now (now - t0) s) as [s0|] eqn:A; [|done]. injection E1 as <- <-.
        apply add_sample_timers in A. cbn [by_timer app].
        rewrite (proj2 (Nat.eqb_neq i0 i) Hne). eapply IH; [|exact E2]. cbn.
        rewrite list_lookup_insert_ne by done. congruence.
      * injection E1 as <- <-. eapply IH; [|exact E2]. cbn. by rewrite list_lookup_insert_ne.
Qed.

Lemma timer_run acts i h : forall s s' e r, timer_is i h r s -> run s acts = Some (s', e) ->
  by_timer i e = map (pair h) (laps i r acts).
Proof.
  unfold timer_is.
  induction acts as [|a acts IH]; intros s s' e r G E; cbn [run] in E.
  - by injection E as <- <-.
  - destruct (step s a) as [[s1 e1]|] eqn:E1; [|done].
    destruct (run s1 acts) as [[s2 e2]|] eqn:E2; [|done]. injection E as <- <-.
    rewrite by_timer_app.
    destruct a; cbn [step] in E1; cbn [laps].
    + destruct (get_handle tag s) as [s0 h0] eqn:GH. injection E1 as <- <-.
      apply get_handle_timers in GH. cbn [by_timer app]. eapply IH; [|exact E2]. congruence.
    + destruct (add_sample h0 now x s) as [s0|] eqn:A; [|done]. injection E1 as <- <-.
      apply add_sample_timers in A. cbn [by_timer app]. eapply IH; [|exact E2]. congruence.
    + injection E1 as <- <-. cbn [by_timer app]. eapply IH; [|exact E2]. done.
    + destruct (get_handle tag s) as [s0 h0] eqn:GH. injection E1 as <- <-.
      apply get_handle_timers in GH. cbn [by_timer app]. eapply IH; [|exact E2]. cbn.
      rewrite GH. by apply lookup_app_l_Some.
    + destruct (timers s !! i0) as [[h0 st|]|] eqn:Et; try done. injection E1 as <- <-.
      pose proof (lookup_lt_Some _ _ _ Et).
      destruct (Nat.eqb_spec i0 i) as [->|Hne]; (eapply IH; [|exact E2]); cbn.
      * rewrite list_lookup_insert by done. congruence.
      * by rewrite list_lookup_insert_ne.
    + destruct (timers s !! i0) as [[h0 st|]|] eqn:Et; try done.
      pose proof (lookup_lt_Some _ _ _ Et). unfold stop_timer in E1.
      destruct (Nat.eqb_spec i0 i) as [->|Hne].
      * rewrite G in Et. injection Et as -> ->. destruct st as [t0|].
        -- destruct (add_sample h0 now (now - t0) s) as [s0|] eqn:A; [|done]. injection E1 as <- <-.
           apply add_sample_timers in A. cbn [by_timer app map]. rewrite Nat.eqb_refl.
           cbn [app]. f_equal. eapply IH; [|exact E2]. cbn.
           rewrite list_lookup_insert by congruence. done.
        -- injection E1 as <- <-. eapply IH; [|exact E2]. cbn. by rewrite list_lookup_insert.
      * destruct st as [t0|].
        -- destruct (add_sample h0 now (now - t0) s) as [s0|] eqn:A; [|done]. injection E1 as <- <-.
           apply add_sample_timers in A. cbn [by_timer app].
           rewrite (proj2 (Nat.eqb_neq i0 i) Hne). eapply IH; [|exact E2]. cbn.
           rewrite list_lookup_insert_ne by done. congruence.
        -- injection E1 as <- <-. eapply IH; [|exact E2]. cbn. by rewrite list_lookup_insert_ne.
    + destruct (timers s !! i0) as [[h0 st|]|] eqn:Et; try done. injection E1 as <- <-.
      pose proof (lookup_lt_Some _ _ _ Et).
      destruct (Nat.eqb_spec i0 i) as [->|Hne]; (eapply IH; [|exact E2]); cbn.
      * rewrite list_lookup_insert by done. congruence.
      * by rewrite list_lookup_insert_ne.
    + destruct (timers s !! i0) as [[h0 st|]|] eqn:Et; try done.
      pose proof (lookup_lt_Some _ _ _ Et). unfold stop_timer in E1.
      destruct (Nat.eqb_spec i0 i) as [->|Hne].
      * rewrite G in Et. injection Et as -> ->. destruct st as [t0|].
        -- destruct (add_sample h0 now (now - t0) s) as [s0|] eqn:A; [|done]. injection E1 as <- <-.
           apply add_sample_timers in A. cbn [by_timer app map]. rewrite Nat.eqb_refl.
           cbn [app]. destruct (gone_run acts i (set_timer i TGone s0) s2 e2 None) as [-> ->]; [|done|done].
           unfold timer_gone. cbn. rewrite list_lookup_insert by congruence. done.
        -- injection E1 as <- <-.
           destruct (gone_run acts i (set_timer i TGone s) s2 e2 None) as [-> ->]; [|done|done].
           unfold timer_gone. cbn. by rewrite list_lookup_insert.
      * destruct st as [t0|].
        -- destruct (add_sample h0 now (now - t0) s) as [s0|] eqn:A; [|done]. injection E1 as <- <-.
           apply add_sample_timers in A. cbn [by_timer app].
           rewrite (proj2 (Nat.eqb_neq i0 i) Hne). eapply IH; [|exact E2]. cbn.
           rewrite list_lookup_insert_ne by done. congruence.
        -- injection E1 as <- <-. eapply IH; [|exact E2]. cbn. by rewrite list_lookup_insert_ne.
Qed.

(** Before it is created a timer adds nothing, and the number of timers is the number created. *)
Lemma before_run acts : forall s s' e, run s acts = Some (s', e) ->
  length (timers s') = (length (timers s) + timers_created acts)%nat /\
  forall i, (length (timers s') <= i)%nat -> by_timer i e = [].
Proof.
  induction acts as [|a acts IH]; intros s s' e E; cbn [run] in E.
  - injection E as <- <-. cbn. split; [lia|done].
  - destruct (step s a) as [[s1 e1]|] eqn:E1; [|done].
    destruct (run s1 acts) as [[s2 e2]|] eqn:E2; [|done]. injection E as <- <-.
    apply IH in E2 as [L B].
    assert (H : length (timers s1) = (length (timers s) + timers_created [a])%nat /\
       forall i, (length (timers s1) <= i)%nat -> by_timer i e1 = []).
    { clear -E1. destruct a; cbn [step] in E1; cbn [timers_created].
      + destruct (get_handle tag s) as [s0 h0] eqn:GH. injection E1 as <- <-.
        apply get_handle_timers in GH. rewrite GH. split; [lia|done].
      + destruct (add_sample h now x s) as [s0|] eqn:A; [|done]. injection E1 as <- <-.
        apply add_sample_timers in A. rewrite A. split; [lia|done].
      + injection E1 as <- <-. cbn. split; [lia|done].
      + destruct (get_handle tag s) as [s0 h0] eqn:GH. injection E1 as <- <-.
        apply get_handle_timers in GH. cbn. rewrite GH, app_length. cbn. split; [lia|done].
      + repeat case_match; simplify_eq; cbn; rewrite insert_length; split; [lia|done].
      + destruct (timers s !! i) as [[h0 st|]|] eqn:Et; try done.
        apply lookup_lt_Some in Et. unfold stop_timer in E1. destruct st as [t0|].
        * destruct (add_sample h0 now (now - t0) s) as [s0|] eqn:A; [|done]. injection E1 as <- <-.
          apply add_sample_timers in A. cbn. rewrite insert_length, A. split; [lia|].
          intros j Hj. destruct (Nat.eqb_spec i j); [lia|done].
        * injection E1 as <- <-. cbn. rewrite insert_length. split; [lia|done].
      + repeat case_match; simplify_eq; cbn; rewrite insert_length; split; [lia|done].
      + destruct (timers s !! i) as [[h0 st|]|] eqn:Et; try done.
        apply lookup_lt_Some in Et. unfold stop_timer in E1. destruct st as [t0|].
        * destruct (add_sample h0 now (now - t0) s) as [s0|] eqn:A; [|done]. injection E1 as <- <-.
          apply add_sample_timers in A. cbn. rewrite insert_length, A. split; [lia|].
          intros j Hj. destruct (Nat.eqb_spec i j); [lia|done].
        * injection E1 as <- <-. cbn. rewrite insert_length. split; [lia|done]. }
    destruct H as [L1 B1].
    assert (C : timers_created (a :: acts) = (timers_created [a] + timers_created acts)%nat)
      by (by destruct a).
    rewrite C. split; [lia|]. intros i Hi. rewrite by_timer_app, B by done. rewrite B1 by lia. done.
Qed.

Lemma timer_total a1 tag stopped now a2 s evs :
  run init (a1 ++ ATimerNew tag stopped now :: a2) = Some (s, evs) ->
  exists s1 e1 h e2, run init a1 = Some (s1, e1) /\ evs = e1 ++ EvHandle tag h :: e2 /\
    by_timer (timers_created a1) evs
    = map (pair h) (laps (timers_created a1) (if stopped then None else Some now) a2).
Proof.
  intros R. rewrite run_app in R. destruct (run init a1) as [[s1 e1]|] eqn:R1; [|done].
  cbn [run step] in R. destruct (get_handle tag s1) as [s2 h] eqn:G.
  destruct (run _ a2) as [[s3 e3]|] eqn:R2; [|done]. injection R as <- <-.
  destruct (before_run _ _ _ _ R1) as [L B]. cbn in L.
  exists s1, e1, h, e3. split; [done|]. split; [done|].
  rewrite !by_timer_app, B by lia. cbn [app by_timer].
  eapply timer_run; [|exact R2]. unfold timer_is. cbn.
  apply get_handle_timers in G. rewrite G, lookup_app_r by lia. by rewrite L, Nat.sub_diag.
Qed.
