(** Progress of the pool. *)
From Coq Require Import ZArith Lia Bool ZifyBool.
From stdpp Require Import list gmap.
From Verif Require Import Counting ThreadPoolModel ThreadPoolSpec ThreadPoolProofs ThreadPoolTrace.
Open Scope Z_scope.

Definition all_exited (st : state) : Prop := forall w x, workers st !! w = Some x -> x = WExited.
Definition looker (st : state) : Prop := exists w x, workers st !! w = Some x /\ will_look x.

Definition Look (st : state) : Prop :=
  (exists t, startable st t) -> looker st \/ CNotify ∈ clients st \/ all_exited st.

Lemma look_init n m : Look (init n m).
Proof. intros (t & Ht & _). by apply elem_of_nil in Ht. Qed.

Lemma look_silent st st' :
  Look st -> workers st' = workers st -> queue st' = queue st ->
  (CNotify ∈ clients st -> CNotify ∈ clients st') -> Look st'.
Proof.
  intros HL Hw Hq Hc. unfold Look, looker, all_exited, startable, executing in *.
  rewrite Hw, Hq. naive_solver.
Qed.

Lemma notify_kept (cs : list client) (c : nat) x y :
  cs !! c = Some x -> x <> CNotify -> CNotify ∈ cs -> CNotify ∈ <[c := y]> cs.
Proof.
  intros Hc Hx Hin. apply elem_of_list_lookup in Hin as (i & Hi).
  apply elem_of_list_lookup. exists i. rewrite list_lookup_insert_ne; [done|]. intros ->. congruence.
Qed.

Lemma notify_kept_wake (cs : list client) : CNotify ∈ cs -> CNotify ∈ wake_client <$> cs.
Proof. intros H. apply elem_of_list_fmap. by exists CNotify. Qed.

Lemma no_sleeper_look st :
  Inv st -> existsb is_wsleep (workers st) = false -> looker st \/ all_exited st.
Proof.
  intros HI Hs.
  assert (Hns : forall w, workers st !! w <> Some WSleep).
  { intros w Hw. apply elem_of_list_lookup_2 in Hw. rewrite <- not_true_iff_false in Hs.
    apply Hs. apply existsb_exists. exists WSleep. split; [by apply elem_of_list_In|done]. }
  destruct (existsb (fun x => match x with WReady | WRun _ => true | _ => false end) (workers st))
    eqn:E.
  - left. apply existsb_exists in E as (x & Hx & Hl). apply elem_of_list_In in Hx.
    apply elem_of_list_lookup in Hx as (w & Hw). exists w, x. split; [done|].
    destruct x; try done; [by left|right; eauto].
  - right. intros w x Hx. rewrite <- not_true_iff_false in E.
    destruct x; try done; exfalso.
    + apply E, existsb_exists. exists WReady. split; [|done].
      apply elem_of_list_In. by eapply elem_of_list_lookup_2.
    + by eapply Hns.
    + apply E, existsb_exists. exists (WRun t). split; [|done].
      apply elem_of_list_In. by eapply elem_of_list_lookup_2.
    + by eapply (i_nofault _ HI).
Qed.

Lemma step_look st a st' es :
  Inv st -> calm st -> Look st -> step st a = Some (st', es) -> Look st'.
Proof.
  intros HI HC HL Hs. pose proof (step_inv _ _ _ _ HI Hs) as HI'.
  assert (Hready : forall w, workers st' !! w = Some WReady -> Look st').
  { intros w Hw _. left. exists w, WReady. split; [done|by left]. }
  destruct a as [c g|c|c x|c|c|c|c|c|w|w|w|c]; cbn in Hs.
  - destruct (clients st !! c) as [[]|] eqn:Hc; try done.
    destruct (stop st); injection Hs as <- <-; [done|].
    eapply look_silent; [done..|]. by eapply notify_kept.
  - destruct (clients st !! c) as [[]|] eqn:Hc; try done.
    injection Hs as <- <-. intros _. right; left. cbn.
    apply elem_of_list_lookup. exists c. apply list_lookup_insert. by eapply lookup_lt_Some.
  - destruct (clients st !! c) as [[]|] eqn:Hc; try done.
    destruct (notify_one x st) as [st1|] eqn:Hn; [|done]. injection Hs as <- <-.
    destruct x as [w|c'|]; cbn in Hn.
    + destruct (workers st !! w) as [[]|] eqn:Hw; try done. injection Hn as <-.
      apply (Hready w). cbn. apply list_lookup_insert. by eapply lookup_lt_Some.
    + exfalso. destruct (clients st !! c') as [[]|] eqn:Hw; try done.
      apply elem_of_list_lookup_2 in Hc, Hw. by apply HC in Hc.
    + destruct (_ || _) eqn:E; [done|]. injection Hn as <-. apply orb_false_iff in E as [E _].
      intros _. destruct (no_sleeper_look st HI E) as [H|H]; [by left|by right; right].
  - destruct (clients st !! c) as [[]|] eqn:Hc; try done. injection Hs as <- <-.
    eapply look_silent; [done..|]. by eapply notify_kept.
  - destruct (clients st !! c) as [[]|] eqn:Hc; try done.
    unfold wait_check in Hs. destruct (_ || _) eqn:Hx; injection Hs as <- <-;
      (eapply look_silent; [done..|]; by eapply notify_kept).
  - destruct (clients st !! c) as [[]|] eqn:Hc; try done. injection Hs as <- <-.
    by eapply look_silent.
  - destruct (clients st !! c) as [[]|] eqn:Hc; try done. injection Hs as <- <-.
    eapply look_silent; [done..|]. by eapply notify_kept.
  - destruct (clients st !! c) as [[]|] eqn:Hc; try done. injection Hs as <- <-.
    intros (t & Ht). cbn in *.
    destruct HL as [(w & x & Hw & Hx)|[HL|HL]].
    + exists t. destruct Ht as [Ht1 Ht2]. split; [exact Ht1|]. unfold executing in *. cbn in Ht2.
      fold exe in *. by rewrite executing_wake in Ht2.
    + left. exists w, (wake_worker x). cbn. split; [by rewrite list_lookup_fmap, Hw|].
      destruct Hx as [->|[t' ->]]; [by left|right; by exists t'].
    + right; left. eapply (notify_kept _ _ CDtorNotify); [|done|by apply notify_kept_wake].
      by rewrite list_lookup_fmap, Hc.
    + right; right. intros w x Hx. cbn in Hx. rewrite list_lookup_fmap in Hx.
      apply fmap_Some in Hx as (y & Hy & ->). by rewrite (HL _ _ Hy).
  - destruct (workers st !! w) as [[]|] eqn:Hw; try done. injection Hs as Hs.
    assert (Hlt : (w < length (workers st))%nat) by (by eapply lookup_lt_Some).
    unfold select in Hs. fold (found st) in Hs.
    destruct (found st) as [[t q']|] eqn:Hf.
    + assert (Hrun : workers st' !! w = Some (WRun t) -> Look st').
      { intros H _. left. exists w, (WRun t). split; [done|]. right. eauto. }
      destruct (is_nonexcl t) eqn:Hne.
      * injection Hs as <- <-. apply Hrun. cbn. by apply list_lookup_insert.
      * destruct (guards st !! grp t) as [[]|] eqn:Hg; injection Hs as <- <-.
        -- exfalso. eapply (i_nofault _ HI' w). cbn. by apply list_lookup_insert.
        -- apply Hrun. cbn. by apply list_lookup_insert.
        -- exfalso. eapply (i_nofault _ HI' w). cbn. by apply list_lookup_insert.
    + assert (Hno : forall t, ~ startable st' t).
      { intros t Ht. apply (startable_spec _ _ HI') in Ht as [Ht Hb].
        assert (queue st' = queue st /\ guards st' = guards st) as [E1 E2].
        { destruct (stop st && _); by injection Hs as <- <-. }
        rewrite E1 in Ht. rewrite E2 in Hb.
        pose proof (found_None st t HI Hf Ht). congruence. }
      intros (t & Ht). by destruct (Hno t).
  - destruct (workers st !! w) as [[]|] eqn:Hw; try done. injection Hs as Hs.
    assert (Hlt : (w < length (workers st))%nat) by (by eapply lookup_lt_Some).
    unfold finish in Hs. destruct (is_nonexcl t) eqn:Hne.
    + injection Hs as <- <-. apply (Hready w). cbn. apply list_lookup_insert.
      by rewrite fmap_length.
    + destruct (guards st !! grp t) as [[]|] eqn:Hg; injection Hs as <- <-.
      * apply (Hready w). cbn. apply list_lookup_insert. by rewrite fmap_length.
      * exfalso. eapply (i_nofault _ HI' w). cbn. by apply list_lookup_insert.
      * exfalso. eapply (i_nofault _ HI' w). cbn. by apply list_lookup_insert.
  - destruct (workers st !! w) as [[]|] eqn:Hw; try done. injection Hs as <- <-.
    apply (Hready w). cbn. apply list_lookup_insert. by eapply lookup_lt_Some.
  - destruct (clients st !! c) as [[]|] eqn:Hc; try done. injection Hs as <- <-.
    eapply look_silent; [done..|]. by eapply notify_kept.
Qed.

Lemma run_look acts : forall st st' es,
  Inv st -> Look st -> always calm st acts -> run st acts = Some (st', es) -> Look st'.
Proof.
  induction acts as [|a acts IH]; intros st st' es HI HL HC Hr; cbn in *.
  - by injection Hr as <- <-.
  - destruct HC as [HC HC'].
    destruct (step st a) as [[st1 e1]|] eqn:Hs; [|done].
    destruct (run st1 acts) as [[st2 e2]|] eqn:Hr2; [|done]. injection Hr as <- <-.
    eapply IH; [by eapply step_inv|by eapply step_look|done..].
Qed.

(** *** What a stuck state looks like *)
Lemma existsb_lookup {A} (f : A -> bool) (l : list A) :
  existsb f l = true -> exists i x, l !! i = Some x /\ f x = true.
Proof.
  intros H. apply existsb_exists in H as (x & Hx & Hf). apply elem_of_list_In in Hx.
  apply elem_of_list_lookup in Hx as (i & Hi). eauto.
Qed.

Definition stuck (st : state) : Prop := forall a, internal a = true -> step st a = None.

Lemma stuck_state st :
  Inv st -> stuck st ->
  (forall w x, workers st !! w = Some x -> x = WSleep \/ x = WExited) /\
  (forall c x, clients st !! c = Some x -> x = CIdle \/ x = CWaitSleep \/ x = CJoin).
Proof.
  intros HI HS. split.
  - intros w x Hx. destruct x; auto.
    + pose proof (HS (ASelect w) eq_refl) as H. cbn in H. by rewrite Hx in H.
    + pose proof (HS (AFinish w) eq_refl) as H. cbn in H. by rewrite Hx in H.
    + by apply (i_nofault _ HI) in Hx.
  - intros c x Hx. destruct x; auto; exfalso.
    + pose proof (HS (AInsert c) eq_refl) as H. cbn in H. by rewrite Hx in H.
    + destruct (existsb is_wsleep (workers st)) eqn:E1.
      { apply existsb_lookup in E1 as (w & y & Hy & Hf). destruct y; try done.
        pose proof (HS (ANotifyOne c (OnWorker w)) eq_refl) as H. cbn in H. by rewrite Hx, Hy in H. }
      destruct (existsb is_csleep (clients st)) eqn:E2.
      { apply existsb_lookup in E2 as (c' & y & Hy & Hf). destruct y; try done.
        pose proof (HS (ANotifyOne c (OnClient c')) eq_refl) as H. cbn in H. by rewrite Hx, Hy in H. }
      pose proof (HS (ANotifyOne c OnNobody) eq_refl) as H. cbn in H. by rewrite Hx, E1, E2 in H.
    + pose proof (HS (AWaitCheck c) eq_refl) as H. cbn in H. by rewrite Hx in H.
    + pose proof (HS (ADtorNotify c) eq_refl) as H. cbn in H. by rewrite Hx in H.
Qed.

Lemma stuck_executing st : Inv st -> stuck st -> executing st = [] /\ active st = 0.
Proof.
  intros HI HS. destruct (stuck_state st HI HS) as [Hw _].
  assert (executing st = []) as He.
  { destruct (executing st) as [|t l] eqn:E; [done|exfalso].
    assert (t ∈ executing st) as Ht by (rewrite E; left).
    apply elem_of_executing in Ht as (w & Hr). apply Hw in Hr. naive_solver. }
  split; [done|]. rewrite (i_active _ HI).
  destruct (decide (cnt is_run (workers st) = 0)) as [|Hn]; [done|].
  pose proof (cnt_nonneg is_run (workers st)).
  destruct (cnt_witness is_run (workers st)) as (w & x & Hx & Hr); [lia|].
  apply Hw in Hx. destruct Hx as [-> | ->]; done.
Qed.

Lemma stuck_queue st :
  Inv st -> Look st -> stuck st -> queue st = [] \/ all_exited st.
Proof.
  intros HI HL HS. destruct (queue st) as [|t q] eqn:Hq; [by left|right].
  destruct (stuck_state st HI HS) as [Hw Hc].
  destruct (stuck_executing st HI HS) as [He _].
  destruct HL as [(w & x & Hx & Hl)|[Hn|H]]; [| | |done].
  - exists t. split; [rewrite Hq; left|]. right. rewrite He. intros (t' & Ht' & _).
    by apply elem_of_nil in Ht'.
  - apply Hw in Hx. destruct Hx as [-> | ->], Hl as [|[? ?]]; done.
  - exfalso. apply elem_of_list_lookup in Hn as (c & Hn). apply Hc in Hn. naive_solver.
Qed.

Lemma stuck_waiters st c :
  Inv st -> stuck st -> queue st = [] -> clients st !! c <> Some CWaitSleep.
Proof.
  intros HI HS Hq Hc. destruct (stuck_executing st HI HS) as [_ Ha].
  destruct (i_wait _ HI c Hc) as [H|H]; [lia|done].
Qed.

Lemma stuck_join st c :
  Inv st -> stuck st -> queue st = [] -> clients st !! c = Some CJoin -> all_exited st.
Proof.
  intros HI HS Hq Hc. destruct (stuck_executing st HI HS) as [_ Ha].
  destruct (stuck_state st HI HS) as [Hw _].
  intros w x Hx. destruct (Hw _ _ Hx) as [-> | ->]; [|done].
  destruct (i_joinsleep _ HI _ _ Hc Hx) as [|]; [done|lia].
Qed.

(** *** Termination *)
Definition is_insert (c : client) : bool := match c with CInsert _ => true | _ => false end.
Definition is_notify (c : client) : bool := match c with CNotify => true | _ => false end.
Definition is_dtor (c : client) : bool := match c with CDtorNotify => true | _ => false end.
Definition is_cready (c : client) : bool := match c with CWaitReady => true | _ => false end.
Definition is_wready (w : worker) : bool := match w with WReady => true | _ => false end.

Definition size (st : state) : Z :=
  Z.of_nat (length (workers st)) + Z.of_nat (length (clients st)) + 3.

Definition work (st : state) : Z :=
  size st * (2 * Z.of_nat (length (queue st)) + cnt is_run (workers st)
             + 3 * cnt is_insert (clients st) + cnt is_dtor (clients st))
  + 2 * cnt is_notify (clients st) + cnt is_wready (workers st) + cnt is_cready (clients st).

Lemma work_nonneg st : 0 <= work st.
Proof.
  unfold work, size.
  pose proof (cnt_nonneg is_run (workers st)). pose proof (cnt_nonneg is_wready (workers st)).
  pose proof (cnt_nonneg is_insert (clients st)). pose proof (cnt_nonneg is_notify (clients st)).
  pose proof (cnt_nonneg is_dtor (clients st)). pose proof (cnt_nonneg is_cready (clients st)).
  nia.
Qed.

Lemma cnt_wake_same {f : client -> bool} (cs : list client) :
  (forall c, f (wake_client c) = f c) -> cnt f (wake_client <$> cs) = cnt f cs.
Proof. intros H. rewrite cnt_fmap. by apply cnt_ext. Qed.

Lemma internal_decreases st a st' es :
  Inv st -> internal a = true -> step st a = Some (st', es) -> work st' < work st.
Proof.
  intros HI Ha Hs. destruct a as [c g|c|c x|c|c|c|c|c|w|w|w|c]; try done; cbn in Hs.
  - destruct (clients st !! c) as [[]|] eqn:Hc; try done. injection Hs as <- <-.
    unfold work, size; cbn. rewrite insert_length, app_length. cbn [length].
    rewrite !(cnt_insert _ _ _ _ _ Hc). cbn [bz is_insert is_notify is_dtor is_cready]. nia.
  - destruct (clients st !! c) as [[]|] eqn:Hc; try done.
    destruct (notify_one x st) as [st1|] eqn:Hn; [|done]. injection Hs as <- <-.
    destruct x as [w|c'|]; cbn in Hn.
    + destruct (workers st !! w) as [[]|] eqn:Hw; try done. injection Hn as <-.
      unfold work, size; cbn. rewrite !insert_length.
      rewrite !(cnt_insert _ _ _ _ _ Hc), !(cnt_insert _ _ _ _ _ Hw).
      cbn [bz is_insert is_notify is_dtor is_cready is_run is_wready].
      rewrite ?Z.sub_0_r, ?Z.add_0_r. lia.
    + destruct (clients st !! c') as [[]|] eqn:Hw; try done. injection Hn as <-.
      unfold work, size; cbn. rewrite !insert_length.
      assert (Hc2 : <[c':=CWaitReady]> (clients st) !! c = Some CNotify).
      { rewrite list_lookup_insert_ne; [done|]. intros ->. congruence. }
      rewrite !(cnt_insert _ _ _ _ _ Hc2), !(cnt_insert _ _ _ _ _ Hw).
      cbn [bz is_insert is_notify is_dtor is_cready is_run is_wready].
      rewrite ?Z.sub_0_r, ?Z.add_0_r. lia.
    + destruct (_ || _) eqn:E; [done|]. injection Hn as <-.
      unfold work, size; cbn. rewrite !insert_length.
      rewrite !(cnt_insert _ _ _ _ _ Hc).
      cbn [bz is_insert is_notify is_dtor is_cready is_run is_wready].
      rewrite ?Z.sub_0_r, ?Z.add_0_r. lia.
  - destruct (clients st !! c) as [[]|] eqn:Hc; try done.
    unfold wait_check in Hs. destruct (_ || _) eqn:Hx; injection Hs as <- <-;
      unfold work, size; cbn; rewrite !insert_length;
      rewrite !(cnt_insert _ _ _ _ _ Hc);
      cbn [bz is_insert is_notify is_dtor is_cready is_run is_wready];
      rewrite ?Z.sub_0_r, ?Z.add_0_r; lia.
  - destruct (clients st !! c) as [[]|] eqn:Hc; try done. injection Hs as <- <-.
    assert (Hc2 : (wake_client <$> clients st) !! c = Some CDtorNotify)
      by by rewrite list_lookup_fmap, Hc.
    unfold work, size; cbn. rewrite insert_length, !fmap_length.
    rewrite !(cnt_insert _ _ _ _ _ Hc2).
    cbn [bz is_insert is_notify is_dtor is_cready is_run is_wready].
    rewrite (@cnt_wake_same is_insert), (@cnt_wake_same is_dtor), (@cnt_wake_same is_notify)
      by by intros [].
    rewrite cnt_is_run_wake.
    pose proof (cnt_le_length is_wready (wake_worker <$> workers st)) as B1.
    pose proof (cnt_le_length is_cready (wake_client <$> clients st)) as B2.
    rewrite fmap_length in B1. rewrite fmap_length in B2.
    pose proof (cnt_nonneg is_wready (workers st)). pose proof (cnt_nonneg is_cready (clients st)).
    nia.
  - destruct (workers st !! w) as [[]|] eqn:Hw; try done. injection Hs as Hs.
    unfold select in Hs. fold (found st) in Hs.
    destruct (found st) as [[t q']|] eqn:Hf.
    + apply found_Some in Hf as (l & r & Hq & -> & Hb & Hl).
      assert (Hlen : Z.of_nat (length (queue st)) = Z.of_nat (length (l ++ r)) + 1).
      { rewrite Hq, !app_length. cbn. lia. }
      destruct (is_nonexcl t) eqn:Hne; [|destruct (guards st !! grp t) as [[]|] eqn:Hg];
        injection Hs as <- <-; unfold work, size; cbn; rewrite insert_length;
        rewrite !(cnt_insert _ _ _ _ _ Hw); rewrite Hlen;
        cbn [bz is_insert is_notify is_dtor is_cready is_run is_wready]; nia.
    + destruct (stop st && _) eqn:Hst; injection Hs as <- <-; unfold work, size; cbn;
        rewrite insert_length; rewrite !(cnt_insert _ _ _ _ _ Hw);
        cbn [bz is_insert is_notify is_dtor is_cready is_run is_wready];
        rewrite ?Z.sub_0_r, ?Z.add_0_r; lia.
  - destruct (workers st !! w) as [[]|] eqn:Hw; try done. injection Hs as Hs.
    assert (Hdec : forall gs a,
      work (State (queue st) gs (num_nonexcl st) a (stop st) (next_id st)
              (<[w:=WReady]> (wake_worker <$> workers st)) (wake_client <$> clients st)) < work st).
    { intros gs a.
      assert (Hw2 : (wake_worker <$> workers st) !! w = Some (WRun t)) by by apply wake_worker_run.
      unfold work, size; cbn. rewrite insert_length, !fmap_length.
      rewrite !(cnt_insert is_run _ _ _ _ Hw2).
      pose proof (cnt_le_length is_wready (<[w:=WReady]> (wake_worker <$> workers st))) as B1.
      pose proof (cnt_le_length is_cready (wake_client <$> clients st)) as B2.
      rewrite insert_length, fmap_length in B1. rewrite fmap_length in B2.
      cbn [bz is_insert is_notify is_dtor is_cready is_run is_wready].
      rewrite (@cnt_wake_same is_insert), (@cnt_wake_same is_dtor), (@cnt_wake_same is_notify)
        by by intros [].
      rewrite cnt_is_run_wake.
      pose proof (cnt_nonneg is_wready (workers st)). pose proof (cnt_nonneg is_cready (clients st)).
      nia. }
    unfold finish in Hs. destruct (is_nonexcl t) eqn:Hne.
    + injection Hs as <- <-. apply Hdec.
    + assert (guards st !! grp t = Some true) as Hg.
      { apply (i_guard _ HI); [by apply is_nonexcl_false|]. by exists w, t. }
      rewrite Hg in Hs. injection Hs as <- <-. apply Hdec.
Qed.

Lemma internal_bound acts : forall st st' es,
  Inv st -> Forall (fun a => internal a = true) acts -> run st acts = Some (st', es) ->
  Z.of_nat (length acts) + work st' <= work st.
Proof.
  induction acts as [|a acts IH]; intros st st' es HI HF Hr; cbn [run] in Hr.
  - injection Hr as <- <-. cbn. lia.
  - apply Forall_cons in HF as [Ha HF].
    destruct (step st a) as [[st1 e1]|] eqn:Hs; [|done].
    destruct (run st1 acts) as [[st2 e2]|] eqn:Hr2; [|done]. injection Hr as <- <-.
    pose proof (internal_decreases _ _ _ _ HI Ha Hs).
    specialize (IH _ _ _ (step_inv _ _ _ _ HI Hs) HF Hr2). cbn [length]. lia.
Qed.

(** *** Lemmas behind the property theorems *)
Definition excl_fin (h : list event) (st : state) : Prop :=
  Hist h st /\
  forall g, g <> nonexcl ->
    of_group g (started h) = of_group g (finished h) ++ of_group g (executing st).

Lemma of_group_perm g l l' : l ≡ₚ l' -> of_group g l ≡ₚ of_group g l'.
Proof. intros H. unfold of_group. by rewrite H. Qed.

Lemma omap_lookup_pair (ws : list worker) i j x y :
  omap exe ws !! i = Some x -> omap exe ws !! j = Some y -> i <> j ->
  exists w1 w2, w1 <> w2 /\ ws !! w1 = Some (WRun x) /\ ws !! w2 = Some (WRun y).
Proof.
  revert i j; induction ws as [|w ws IH]; intros i j Hi Hj Hn; [done|].
  assert (Hex : forall k z, omap exe ws !! k = Some z -> exists w', ws !! w' = Some (WRun z)).
  { intros k z Hk. apply elem_of_list_lookup_2 in Hk.
    apply elem_of_list_omap in Hk as (v & Hv & Hz). destruct v; try done. injection Hz as ->.
    by apply elem_of_list_lookup in Hv. }
  destruct (exe w) as [t|] eqn:E.
  - assert (w = WRun t) as -> by (destruct w; try done; by injection E as ->).
    change (omap exe (WRun t :: ws)) with (t :: omap exe ws) in Hi, Hj.
    destruct i as [|i], j as [|j]; cbn [lookup list_lookup] in Hi, Hj; try done.
    + injection Hi as ->. destruct (Hex _ _ Hj) as (w' & Hw'). by exists 0%nat, (S w').
    + injection Hj as ->. destruct (Hex _ _ Hi) as (w' & Hw'). by exists (S w'), 0%nat.
    + destruct (IH i j) as (w1 & w2 & Hw & H1 & H2); try done; [congruence|].
      exists (S w1), (S w2). split; [congruence|done].
  - assert (omap exe (w :: ws) = omap exe ws) as He by (cbn; by rewrite E).
    rewrite He in Hi, Hj. destruct (IH i j Hi Hj Hn) as (w1 & w2 & Hw & H1 & H2).
    exists (S w1), (S w2). split; [congruence|done].
Qed.

Lemma NoDup_two {A} (l : list A) : (forall x y, x ∈ l -> y ∈ l -> x = y) -> NoDup l ->
  l = [] \/ exists x, l = [x].
Proof.
  intros Heq Hnd. destruct l as [|x [|y l]]; [by left|by right; exists x|].
  exfalso. apply NoDup_cons in Hnd as [Hn _]. apply Hn.
  rewrite (Heq x y); [left|left|right; left].
Qed.

Lemma hist_nodup_inserted h st : Hist h st -> NoDup (inserted h).
Proof. intros HH. apply (NoDup_fmap_1 tid). rewrite (h_ids _ _ HH). apply NoDup_seq. Qed.

Lemma hist_nodup_started h st : Hist h st -> NoDup (started h).
Proof.
  intros HH. pose proof (hist_nodup_inserted _ _ HH) as H. rewrite (h_perm _ _ HH) in H.
  by apply NoDup_app in H as [? _].
Qed.

Lemma hist_nodup_finished h st : Hist h st -> NoDup (finished h).
Proof.
  intros HH. pose proof (hist_nodup_started _ _ HH) as H. rewrite (h_run _ _ HH) in H.
  by apply NoDup_app in H as [? _].
Qed.

Lemma executing_group_small h st g :
  Hist h st -> g <> nonexcl ->
  of_group g (executing st) = [] \/ exists t, of_group g (executing st) = [t].
Proof.
  intros HH Hg. apply NoDup_two.
  - intros x y [Hx Hx']%elem_of_list_filter [Hy Hy']%elem_of_list_filter.
    apply elem_of_executing in Hx' as (w1 & H1). apply elem_of_executing in Hy' as (w2 & H2).
    assert (w1 = w2) as ->.
    { eapply (i_excl _ (h_inv _ _ HH)); [done|done|congruence|congruence]. }
    unfold runs in *. congruence.
  - apply NoDup_filter. pose proof (hist_nodup_started _ _ HH) as H.
    rewrite (h_run _ _ HH) in H. by apply NoDup_app in H as (_ & _ & ?).
Qed.

Lemma app_perm_singleton {A} (l : list A) x : [x] ≡ₚ l -> l = [x].
Proof. intros H. by apply Permutation_singleton_l in H. Qed.

Lemma step_excl_fin h st a st' es :
  excl_fin h st -> step st a = Some (st', es) -> excl_fin (h ++ es) st'.
Proof.
  intros [HH HF] Hs. pose proof (step_hist _ _ _ _ _ HH Hs) as HH'.
  split; [done|]. intros g Hg. specialize (HF g Hg).
  (* the new books, as multisets *)
  pose proof (of_group_perm g _ _ (h_run _ _ HH')) as HP.
  rewrite started_app, finished_app, !of_group_app in HP.
  rewrite started_app, finished_app, !of_group_app.
  pose proof (executing_group_small _ _ g HH' Hg) as Hsm'.
  pose proof (executing_group_small _ _ g HH Hg) as Hsm.
  rewrite HF in HP |- *.
  (* which events can a step produce *)
  assert (Hev : (started es = [] /\ finished es = []) \/
                (exists w t, es = [EvStarted w t] /\
                   (grp t <> nonexcl -> of_group (grp t) (executing st) = [])) \/
                (exists w t, es = [EvFinished w t] /\ t ∈ executing st)).
  { destruct a as [c g'|c|c x|c|c|c|c|c|w|w|w|c]; cbn in Hs.
    1-8,11-12: left;
     repeat match type of Hs with
       | match ?x with _ => _ end = _ => destruct x; try done
       end;
     try (injection Hs as <- <-; done).
    - unfold wait_check in Hs. destruct (_ || _); by injection Hs as <- <-.
    - destruct (workers st !! w) as [[]|] eqn:Hw; try done. injection Hs as Hs.
      unfold select in Hs. fold (found st) in Hs.
      destruct (found st) as [[t q']|] eqn:Hf.
      + apply found_Some in Hf as (l & r & Hq & -> & Hb & Hl).
        assert (Hfree : grp t <> nonexcl -> of_group (grp t) (executing st) = []).
        { intros Hn. destruct (of_group (grp t) (executing st)) as [|y ys] eqn:E; [done|exfalso].
          assert (y ∈ of_group (grp t) (executing st)) as Hy by (rewrite E; left).
          apply elem_of_list_filter in Hy as [Hy1 Hy2].
          assert (blocked (guards st) t = true); [|congruence].
          apply blocked_spec; [by eapply h_inv|]. split; [done|]. by exists y. }
        destruct (is_nonexcl t) eqn:Hne; [|destruct (guards st !! grp t) as [[]|] eqn:Hg'];
          injection Hs as <- <-; try (left; done); right; left; by exists w, t.
      + destruct (stop st && _); injection Hs as <- <-; by left.
    - destruct (workers st !! w) as [[]|] eqn:Hw; try done. injection Hs as Hs.
      assert (t ∈ executing st) by (apply elem_of_executing; by exists w).
      unfold finish in Hs.
      destruct (is_nonexcl t) eqn:Hne; [|destruct (guards st !! grp t) as [[]|] eqn:Hg'];
        injection Hs as <- <-; try (left; done); right; right; by exists w, t. }
  destruct Hev as [[E1 E2]|[(w & t & -> & Hfree)|(w & t & -> & Hin)]].
  - rewrite E1, E2 in *. change (of_group g []) with (@nil task) in *. rewrite !app_nil_r in *.
    f_equal. apply Permutation_app_inv_l in HP.
    destruct Hsm as [E|(x & E)]; rewrite E in HP |- *.
    + symmetry. by apply Permutation_nil_l in HP.
    + symmetry. by apply app_perm_singleton.
  - change (started [EvStarted w t]) with [t] in *. change (finished [EvStarted w t]) with (@nil task) in *.
    change (of_group g []) with (@nil task) in *. rewrite app_nil_r in *.
    rewrite <- app_assoc in HP |- *. f_equal. apply Permutation_app_inv_l in HP.
    destruct (decide (grp t = g)) as [<-|Hn].
    + rewrite (Hfree Hg) in HP |- *.
      assert (of_group (grp t) [t] = [t]) as E.
      { unfold of_group. rewrite filter_cons_True; done. }
      rewrite E in *. cbn in *. symmetry. by apply app_perm_singleton.
    + assert (of_group g [t] = []) as E.
      { unfold of_group. rewrite filter_cons_False; done. }
      rewrite E, app_nil_r in *.
      destruct Hsm as [E'|(x & E')]; rewrite E' in HP |- *.
      * symmetry. by apply Permutation_nil_l in HP.
      * symmetry. by apply app_perm_singleton.
  - change (finished [EvFinished w t]) with [t] in *. change (started [EvFinished w t]) with (@nil task) in *.
    change (of_group g []) with (@nil task) in *. rewrite app_nil_r in *.
    rewrite <- app_assoc in HP |- *. f_equal. apply Permutation_app_inv_l in HP.
    destruct (decide (grp t = g)) as [<-|Hn].
    + assert (t ∈ of_group (grp t) (executing st)) as Hin' by (apply elem_of_list_filter; done).
      assert (of_group (grp t) [t] = [t]) as E.
      { unfold of_group. rewrite filter_cons_True; done. }
      rewrite E in *.
      destruct Hsm as [E'|(x & E')]; rewrite E' in *; [by apply elem_of_nil in Hin'|].
      apply elem_of_list_singleton in Hin' as <-.
      destruct Hsm' as [E''|(y & E'')]; rewrite E'' in *; [done|].
      apply Permutation_length in HP. done.
    + assert (of_group g [t] = []) as E.
      { unfold of_group. rewrite filter_cons_False; done. }
      rewrite E in *. cbn [app] in *.
      destruct Hsm as [E'|(x & E')]; rewrite E' in HP |- *.
      * symmetry. by apply Permutation_nil_l in HP.
      * symmetry. by apply app_perm_singleton.
Qed.

Lemma run_excl_fin n m acts st evs :
  run (init n m) acts = Some (st, evs) -> excl_fin evs st.
Proof.
  intros H. refine (run_hist excl_fin step_excl_fin acts (init n m) [] st evs _ H).
  split; [apply hist_init|]. intros g Hg.
  assert (executing (init n m) = []) as ->; [|done].
  unfold executing; cbn. clear. by induction n as [|n IH].
Qed.

Lemma group_order_lemma n m acts st evs g :
  run (init n m) acts = Some (st, evs) ->
  of_group g (started evs) `prefix_of` of_group g (inserted evs).
Proof.
  intros H. pose proof (run_hist_init _ _ _ _ _ H) as HH. exists (of_group g (queue st)).
  by apply (h_order _ _ HH).
Qed.

Lemma group_finish_order_lemma n m acts st evs g :
  run (init n m) acts = Some (st, evs) -> g <> nonexcl ->
  of_group g (finished evs) `prefix_of` of_group g (inserted evs).
Proof.
  intros H Hg. pose proof (run_hist_init _ _ _ _ _ H) as HH.
  destruct (run_excl_fin _ _ _ _ _ H) as [_ HF].
  exists (of_group g (executing st) ++ of_group g (queue st)).
  rewrite (h_order _ _ HH), (HF g Hg). by rewrite app_assoc.
Qed.

(** Once a worker has exited, everything inserted before the stop flag was set has been started. *)
Lemma run_split st acts1 acts2 st' es :
  run st (acts1 ++ acts2) = Some (st', es) ->
  exists st1 e1 e2, run st acts1 = Some (st1, e1) /\ run st1 acts2 = Some (st', e2) /\ es = e1 ++ e2.
Proof.
  revert st es; induction acts1 as [|a acts1 IH]; intros st es H; cbn in *.
  - by exists st, [], es.
  - destruct (step st a) as [[st1 e1]|]; [|done].
    destruct (run st1 (acts1 ++ acts2)) as [[st2 e2]|] eqn:E; [|done]. injection H as <- <-.
    destruct (IH _ _ E) as (st3 & e3 & e4 & -> & H2 & ->).
    eexists _, _, _. split; [done|]. split; [done|]. by rewrite app_assoc.
Qed.

Lemma run_app st acts1 acts2 st1 st2 e1 e2 :
  run st acts1 = Some (st1, e1) -> run st1 acts2 = Some (st2, e2) ->
  run st (acts1 ++ acts2) = Some (st2, e1 ++ e2).
Proof.
  revert st e1; induction acts1 as [|a acts1 IH]; intros st e1 H1 H2; cbn in *.
  - by injection H1 as -> <-.
  - destruct (step st a) as [[st3 e3]|]; [|done].
    destruct (run st3 acts1) as [[st4 e4]|] eqn:E; [|done]. injection H1 as -> <-.
    rewrite (IH _ _ E H2). by rewrite app_assoc.
Qed.

Definition covered (S : list task) (h : list event) (st : state) : Prop :=
  Hist h st /\ (forall t, t ∈ S -> t ∈ started h \/ t ∈ queue st) /\
  ((exists w, workers st !! w = Some WExited) -> forall t, t ∈ S -> t ∈ started h).

Lemma step_covered S h st a st' es :
  covered S h st -> step st a = Some (st', es) -> covered S (h ++ es) st'.
Proof.
  intros (HH & H1 & H2) Hs. pose proof (step_hist _ _ _ _ _ HH Hs) as HH'.
  assert (H1' : forall t, t ∈ S -> t ∈ started (h ++ es) \/ t ∈ queue st').
  { intros t Ht. assert (t ∈ inserted h) as Hin.
    { rewrite (h_perm _ _ HH). apply elem_of_app. by apply H1. }
    assert (t ∈ inserted (h ++ es)) as Hin' by (rewrite inserted_app; apply elem_of_app; by left).
    rewrite (h_perm _ _ HH') in Hin'. by apply elem_of_app in Hin'. }
  split; [done|]. split; [done|].
  intros (w & Hw) t Ht.
  destruct (existsb (fun x => match x with WExited => true | _ => false end) (workers st)) eqn:Eex.
  { apply existsb_lookup in Eex as (w' & x & Hx & Ex). destruct x; try done.
    assert (exists w, workers st !! w = Some WExited) as Hex by eauto.
    rewrite started_app. apply elem_of_app. left. by apply H2. }
  (* some worker exits right now *)
  destruct (H1' t Ht) as [|Hq]; [done|exfalso].
  assert (Hsame : forall w x, workers st !! w = Some x -> x <> WExited).
  { intros w' x Hx ->. rewrite <- not_true_iff_false in Eex. apply Eex, existsb_exists.
    exists WExited. split; [|done]. apply elem_of_list_In. by eapply elem_of_list_lookup_2. }
  assert (Hcl : forall w0 x, workers st' = <[w0 := x]> (workers st) -> x <> WExited -> False).
  { intros w0 x E Hx. rewrite E in Hw. apply lookup_insert_inv in Hw as [[_ ?]|[_ Hw]]; [done|].
    by eapply Hsame. }
  assert (Hcw : forall w0 x, workers st' = <[w0 := x]> (wake_worker <$> workers st) -> x <> WExited ->
    False).
  { intros w0 x E Hx. rewrite E in Hw. apply lookup_insert_inv in Hw as [[_ ?]|[_ Hw]]; [done|].
    apply (proj1 (wake_worker_exited _ _)) in Hw. by eapply Hsame. }
  assert (Hcn : workers st' = workers st -> False).
  { intros E. rewrite E in Hw. by eapply Hsame. }
  destruct a as [c g|c|c x|c|c|c|c|c|w'|w'|w'|c]; cbn in Hs.
  - destruct (clients st !! c) as [[]|] eqn:Hc; try done.
    destruct (stop st); injection Hs as <- <-; by apply Hcn.
  - destruct (clients st !! c) as [[]|] eqn:Hc; try done. injection Hs as <- <-. by apply Hcn.
  - destruct (clients st !! c) as [[]|] eqn:Hc; try done.
    destruct (notify_one x st) as [st1|] eqn:Hn; [|done]. injection Hs as <- <-.
    destruct x as [w'|c'|]; cbn in Hn.
    + destruct (workers st !! w') as [[]|] eqn:Hw'; try done. injection Hn as <-. by eapply Hcl.
    + destruct (clients st !! c') as [[]|] eqn:Hw'; try done. injection Hn as <-. by apply Hcn.
    + destruct (_ || _); [done|]. injection Hn as <-. by apply Hcn.
  - destruct (clients st !! c) as [[]|] eqn:Hc; try done. injection Hs as <- <-. by apply Hcn.
  - destruct (clients st !! c) as [[]|] eqn:Hc; try done.
    unfold wait_check in Hs. destruct (_ || _) eqn:Hx; injection Hs as <- <-; by apply Hcn.
  - destruct (clients st !! c) as [[]|] eqn:Hc; try done. injection Hs as <- <-. by apply Hcn.
  - destruct (clients st !! c) as [[]|] eqn:Hc; try done. injection Hs as <- <-. by apply Hcn.
  - destruct (clients st !! c) as [[]|] eqn:Hc; try done. injection Hs as <- <-.
    cbn in Hw. apply (proj1 (wake_worker_exited _ _)) in Hw. by eapply Hsame.
  - destruct (workers st !! w') as [[]|] eqn:Hw'; try done. injection Hs as Hs.
    unfold select in Hs. fold (found st) in Hs.
    destruct (found st) as [[t' q']|] eqn:Hf.
    + destruct (is_nonexcl t') eqn:Hne; [|destruct (guards st !! grp t') as [[]|] eqn:Hg'];
        injection Hs as <- <-; by eapply Hcl.
    + destruct (stop st && _) eqn:E; injection Hs as <- <-.
      * apply andb_true_iff in E as [_ E]. cbn in Hq. destruct (queue st); [|done].
        by apply elem_of_nil in Hq.
      * by eapply Hcl.
  - destruct (workers st !! w') as [[]|] eqn:Hw'; try done. injection Hs as Hs.
    unfold finish in Hs.
    destruct (is_nonexcl _) eqn:Hne; [|destruct (guards st !! _) as [[]|] eqn:Hg'];
        injection Hs as <- <-; first [by eapply Hcl|by eapply Hcw].
  - destruct (workers st !! w') as [[]|] eqn:Hw'; try done. injection Hs as <- <-. by eapply Hcl.
  - destruct (clients st !! c) as [[]|] eqn:Hc; try done. injection Hs as <- <-. by apply Hcn.
Qed.

Lemma step_lengths st a st' es :
  step st a = Some (st', es) ->
  length (workers st') = length (workers st) /\ length (clients st') = length (clients st).
Proof.
  intros Hs. destruct a as [c g|c|c [w|c'|]|c|c|c|c|c|w|w|w|c]; cbn in Hs;
  unfold select, finish, wait_check, insert_task, notify_one in Hs; cbn in Hs;
  repeat match type of Hs with
    | context [match match ?x with _ => _ end with _ => _ end] => destruct x; try done
    | context [match ?x with _ => _ end] => destruct x; try done
    end;
  injection Hs as <- <-; cbn; by rewrite ?insert_length, ?fmap_length.
Qed.

Lemma run_lengths acts : forall st st' es, run st acts = Some (st', es) ->
  length (workers st') = length (workers st) /\ length (clients st') = length (clients st).
Proof.
  induction acts as [|a acts IH]; intros st st' es Hr; cbn in Hr.
  - by injection Hr as <- <-.
  - destruct (step st a) as [[st1 e1]|] eqn:Hs; [|done].
    destruct (run st1 acts) as [[st2 e2]|] eqn:Hr2; [|done]. injection Hr as <- <-.
    destruct (IH _ _ _ Hr2), (step_lengths _ _ _ _ Hs). split; congruence.
Qed.

Lemma executing_all_exited st : all_exited st -> executing st = [].
Proof.
  intros H. destruct (executing st) as [|t l] eqn:E; [done|exfalso].
  assert (t ∈ executing st) as Ht by (rewrite E; left).
  apply elem_of_executing in Ht as (w & Hr). by apply H in Hr.
Qed.

Lemma all_executed_lemma n m acts1 st1 e1 acts2 st2 e2 :
  (0 < n)%nat -> run (init n m) acts1 = Some (st1, e1) -> stop st1 = false ->
  run st1 acts2 = Some (st2, e2) -> all_exited st2 ->
  forall t, t ∈ inserted e1 -> t ∈ finished (e1 ++ e2).
Proof.
  intros Hn H1 Hst H2 Hex t Ht.
  pose proof (run_hist_init _ _ _ _ _ H1) as HH.
  assert (Hc : covered (inserted e1) e1 st1).
  { split; [done|]. split.
    - intros t'. rewrite (h_perm _ _ HH), elem_of_app. done.
    - intros (w & Hw). apply (i_exit _ (h_inv _ _ HH)) in Hw. congruence. }
  pose proof (run_hist (covered (inserted e1)) (step_covered _) acts2 st1 e1 st2 e2 Hc H2)
    as (HH2 & _ & Hs).
  destruct (run_lengths _ _ _ _ H1) as [Hl1 _], (run_lengths _ _ _ _ H2) as [Hl2 _].
  cbn in Hl1. rewrite replicate_length in Hl1.
  assert (exists w, workers st2 !! w = Some WExited) as Hw.
  { destruct (lookup_lt_is_Some_2 (workers st2) 0) as [x Hx]; [lia|].
    exists 0%nat. by rewrite <- (Hex _ _ Hx). }
  specialize (Hs Hw t Ht). rewrite (h_run _ _ HH2) in Hs.
  by rewrite (executing_all_exited _ Hex), app_nil_r in Hs.
Qed.

(** All workers exited: nothing is started any more. *)
Lemma exited_no_start h0 h st a st' es :
  all_exited st /\ started h = h0 -> step st a = Some (st', es) ->
  all_exited st' /\ started (h ++ es) = h0.
Proof.
  intros [Hex Hh] Hs. rewrite started_app.
  assert (Hno : forall w x, workers st !! w = Some x -> x <> WExited -> False).
  { intros w x Hx Hn. by apply Hex in Hx. }
  assert (Hw : forall w x, (wake_worker <$> workers st) !! w = Some x -> x = WExited).
  { intros w x Hx. rewrite list_lookup_fmap in Hx. apply fmap_Some in Hx as (y & Hy & ->).
    by rewrite (Hex _ _ Hy). }
  destruct a as [c g|c|c x|c|c|c|c|c|w|w|w|c]; cbn in Hs;
  try (destruct (workers st !! w) as [[]|] eqn:E; try done; exfalso; by eapply Hno);
  destruct (clients st !! c) as [[]|] eqn:Hc; try done.
  - destruct (stop st); injection Hs as <- <-; cbn; by rewrite app_nil_r.
  - injection Hs as <- <-; cbn; by rewrite app_nil_r.
  - destruct (notify_one x st) as [st1|] eqn:Hn; [|done]. injection Hs as <- <-.
    cbn. rewrite app_nil_r. split; [|done].
    destruct x as [w|c'|]; cbn in Hn.
    + destruct (workers st !! w) as [[]|] eqn:E; try done. exfalso; by eapply Hno.
    + destruct (clients st !! c') as [[]|] eqn:E; try done. by injection Hn as <-.
    + destruct (_ || _); [done|]. by injection Hn as <-.
  - injection Hs as <- <-; cbn; by rewrite app_nil_r.
  - unfold wait_check in Hs. destruct (_ || _) eqn:Hx; injection Hs as <- <-; cbn; by rewrite app_nil_r.
  - injection Hs as <- <-; cbn; by rewrite app_nil_r.
  - injection Hs as <- <-; cbn; by rewrite app_nil_r.
  - injection Hs as <- <-; cbn; by rewrite app_nil_r.
  - injection Hs as <- <-; cbn; by rewrite app_nil_r.
Qed.

Lemma exited_never st h acts st' es :
  all_exited st -> run st acts = Some (st', es) -> started (h ++ es) = started h.
Proof.
  intros Hex Hr.
  refine (proj2 (run_hist (fun h' st => all_exited st /\ started h' = started h) _ acts st h st' es
    (conj Hex eq_refl) Hr)).
  intros. by eapply exited_no_start.
Qed.

Lemma wait_idle_lemma n m acts st evs c st' es :
  run (init n m) acts = Some (st, evs) -> step st (AWaitCheck c) = Some (st', es) ->
  EvWaitReturned c ∈ es ->
  queue st = [] /\ executing st = [] /\ inserted evs ≡ₚ finished evs.
Proof.
  intros H Hs Hin. pose proof (run_hist_init _ _ _ _ _ H) as HH. pose proof (h_inv _ _ HH) as HI.
  cbn in Hs. destruct (clients st !! c) as [[]|] eqn:Hc; try done.
  unfold wait_check in Hs. destruct (_ || _) eqn:Hx; injection Hs as <- <-;
    [by apply elem_of_nil in Hin|].
  apply orb_false_iff in Hx as [Ha Hq].
  assert (queue st = []) as Hq' by by destruct (queue st).
  assert (executing st = []) as He.
  { destruct (executing st) as [|t l] eqn:E; [done|exfalso].
    assert (t ∈ executing st) as Ht by (rewrite E; left).
    apply elem_of_executing in Ht as (w & Hr).
    pose proof (cnt_lookup is_run _ _ _ Hr eq_refl). rewrite (i_active _ HI) in Ha. lia. }
  split; [done|]. split; [done|].
  rewrite (h_perm _ _ HH), (h_run _ _ HH), Hq', He. by rewrite !app_nil_r.
Qed.

(** *** Calm schedules *)
Lemma calm_single acts : forall st st' es,
  length (clients st) = 1%nat -> run st acts = Some (st', es) -> always calm st acts.
Proof.
  assert (Hc : forall st, length (clients st) = 1%nat -> calm st).
  { intros st Hl H1 H2. destruct (clients st) as [|c [|]]; try done.
    apply elem_of_list_singleton in H1, H2. congruence. }
  induction acts as [|a acts IH]; intros st st' es Hl Hr; cbn in *.
  - split; [by apply Hc|done].
  - split; [by apply Hc|]. destruct (step st a) as [[st1 e1]|] eqn:Hs; [|done].
    destruct (run st1 acts) as [[st2 e2]|] eqn:Hr2; [|done]. injection Hr as <- <-.
    eapply IH; [|done]. destruct (step_lengths _ _ _ _ Hs). congruence.
Qed.

Definition waits (a : act) : bool := match a with AWait _ => true | _ => false end.

Lemma no_wait_step st a st' es :
  waits a = false -> CWaitSleep ∉ clients st -> CWaitReady ∉ clients st ->
  step st a = Some (st', es) -> CWaitSleep ∉ clients st' /\ CWaitReady ∉ clients st'.
Proof.
  intros Ha H1 H2 Hs.
  assert (Hi : forall c x, x <> CWaitSleep -> x <> CWaitReady ->
     CWaitSleep ∉ <[c:=x]> (clients st) /\ CWaitReady ∉ <[c:=x]> (clients st)).
  { intros c x Hx1 Hx2. split; intros Hin; apply elem_of_list_lookup in Hin as (i & Hi);
    apply lookup_insert_inv in Hi as [[_ ?]|[_ Hi]]; try done;
    apply elem_of_list_lookup_2 in Hi; done. }
  assert (Hw : wake_client <$> clients st = clients st).
  { rewrite <- list_fmap_id. apply list_fmap_ext. intros i x Hx. apply elem_of_list_lookup_2 in Hx.
    by destruct x. }
  destruct a as [c g|c|c x|c|c|c|c|c|w|w|w|c]; cbn in Hs; try done;
  try (destruct (clients st !! c) as [[]|] eqn:Hc; try done).
  - destruct (stop st); injection Hs as <- <-; [done|]. by apply Hi.
  - injection Hs as <- <-. by apply Hi.
  - destruct (notify_one x st) as [st1|] eqn:Hn; [|done]. injection Hs as <- <-.
    destruct x as [w|c'|]; cbn in Hn.
    + destruct (workers st !! w) as [[]|] eqn:E; try done. injection Hn as <-. by apply Hi.
    + destruct (clients st !! c') as [[]|] eqn:E; try done. apply elem_of_list_lookup_2 in E. done.
    + destruct (_ || _); [done|]. injection Hn as <-. by apply Hi.
  - apply elem_of_list_lookup_2 in Hc. done.
  - injection Hs as <- <-. done.
  - injection Hs as <- <-. by apply Hi.
  - injection Hs as <- <-. cbn. rewrite Hw. by apply Hi.
  - destruct (workers st !! w) as [[]|] eqn:E; try done. injection Hs as Hs.
    assert (clients st' = clients st) as ->; [|done].
    unfold select in Hs. fold (found st) in Hs. destruct (found st) as [[t' q']|].
    + destruct (is_nonexcl t'); [|destruct (guards st !! grp t') as [[]|]]; by injection Hs as <- <-.
    + destruct (stop st && _); by injection Hs as <- <-.
  - destruct (workers st !! w) as [[]|] eqn:E; try done. injection Hs as Hs.
    assert (clients st' = clients st) as ->; [|done].
    unfold finish in Hs. rewrite Hw in Hs.
    destruct (is_nonexcl t); [|destruct (guards st !! grp t) as [[]|]]; by injection Hs as <- <-.
  - destruct (workers st !! w) as [[]|] eqn:E; try done. by injection Hs as <- <-.
  - apply elem_of_list_lookup_2 in Hc. done.
Qed.

Lemma calm_no_wait acts : forall st,
  Forall (fun a => waits a = false) acts ->
  CWaitSleep ∉ clients st -> CWaitReady ∉ clients st -> always calm st acts.
Proof.
  induction acts as [|a acts IH]; intros st HF H1 H2; cbn; (split; [by intros _|]); [done|].
  apply Forall_cons in HF as [Ha HF]. destruct (step st a) as [[st1 e1]|] eqn:Hs; [|done].
  destruct (no_wait_step _ _ _ _ Ha H1 H2 Hs). by apply IH.
Qed.

Lemma calm_no_wait_init n m acts :
  Forall (fun a => waits a = false) acts -> always calm (init n m) acts.
Proof.
  intros H. apply calm_no_wait; [done|..]; intros Hin; apply elem_of_list_lookup in Hin as (i & Hi);
    by apply lookup_replicate in Hi as [? _].
Qed.

Lemma waiter_lemma n m acts st evs c :
  run (init n m) acts = Some (st, evs) -> clients st !! c = Some CWaitSleep ->
  executing st <> [] \/ queue st <> [].
Proof.
  intros H Hc. pose proof (run_inv _ _ _ _ (inv_init n m) H) as HI.
  destruct (i_wait _ HI _ Hc) as [Ha|]; [|by right]. left.
  rewrite (i_active _ HI) in Ha. apply cnt_witness in Ha as (w & x & Hx & Hr).
  destruct x; try done. intros He. assert (t ∈ executing st) as Ht.
  { apply elem_of_executing. by exists w. }
  rewrite He in Ht. by apply elem_of_nil in Ht.
Qed.

Lemma drains_lemma n m acts st evs acts' st' evs' :
  run (init n m) acts = Some (st, evs) ->
  Forall (fun a => internal a = true) acts' -> run st acts' = Some (st', evs') ->
  always calm (init n m) (acts ++ acts') ->
  Z.of_nat (length acts') <= work st /\
  ((forall a, internal a = true -> step st' a = None) ->
   executing st' = [] /\
   (queue st' = [] \/ forall w x, workers st' !! w = Some x -> x = WExited) /\
   (queue st' = [] -> CWaitSleep ∉ clients st') /\
   (queue st' = [] -> CJoin ∈ clients st' -> forall w x, workers st' !! w = Some x -> x = WExited)).
Proof.
  intros H HF H' HC. pose proof (run_inv _ _ _ _ (inv_init n m) H) as HI.
  pose proof (run_inv _ _ _ _ HI H') as HI'.
  pose proof (run_app _ _ _ _ _ _ _ H H') as Happ.
  pose proof (run_look _ _ _ _ (inv_init n m) (look_init n m) HC Happ) as HL. split.
  - pose proof (internal_bound _ _ _ _ HI HF H'). pose proof (work_nonneg st'). lia.
  - intros HS. split; [by apply stuck_executing|]. split; [by apply stuck_queue|].
    split.
    + intros Hq Hin. apply elem_of_list_lookup in Hin as (c & Hc). by eapply stuck_waiters.
    + intros Hq Hin. apply elem_of_list_lookup in Hin as (c & Hc). by eapply stuck_join.
Qed.

Lemma oversleep_witness : exists n m acts st evs t,
  run (init n m) acts = Some (st, evs) /\ stop st = false /\ startable st t /\
  (forall w x, workers st !! w = Some x -> x = WSleep) /\
  (exists c, clients st !! c = Some CWaitSleep) /\
  (forall a, internal a = true -> step st a = None).
Proof.
  exists 1%nat, 2%nat,
   [ASelect 0; AEnqueue 0 nonexcl; AInsert 0; AWait 1; AWaitCheck 1; ANotifyOne 0 (OnClient 1);
    AWaitCheck 1]. do 2 eexists. exists (Task 0 nonexcl).
  split; [vm_compute; reflexivity|]. split; [done|].
  split; [split; [left|by left]|].
  split; [by intros [|w] x Hx; [injection Hx as <-|]|].
  split; [by exists 1%nat|].
  intros a Ha. destruct a as [c g|c|c x|c|c|c|c|c|w|w|w|c]; try done; cbn;
    try (destruct c as [|[|[|]]]; done); destruct w as [|[|]]; done.
Qed.

Lemma lost_future_witness : exists n m acts st evs t,
  (0 < n)%nat /\ run (init n m) acts = Some (st, evs) /\ t ∈ inserted evs /\
  forall acts' st' evs', run st acts' = Some (st', evs') -> t ∉ started (evs ++ evs').
Proof.
  exists 1%nat, 2%nat, [AEnqueue 0 nonexcl; AStop 1; ASelect 0; AInsert 0; ANotifyOne 0 OnNobody].
  do 2 eexists. exists (Task 0 nonexcl). split; [lia|].
  split; [vm_compute; reflexivity|]. split; [left|].
  intros acts' st' evs' Hr. erewrite exited_never; [|intros [|w] x Hx|done]; cbn; try done.
  - apply not_elem_of_nil.
  - by injection Hx as <-.
Qed.
