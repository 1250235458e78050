From Coq Require Import ZArith Lia Bool ZifyBool.
From stdpp Require Import list gmap.
From Verif Require Import Counting ThreadPoolModel ThreadPoolSpec.
Open Scope Z_scope.

(** *** Auxiliary facts *)
Definition is_run (w : worker) : bool := match w with WRun _ => true | _ => false end.

Definition blocked (gs : gmap N bool) (t : task) : bool :=
  negb (is_nonexcl t) && guard_active gs (grp t).

Lemma pick_Some gs q t q' :
  pick gs q = Some (t, q') ->
  exists l r, q = l ++ t :: r /\ q' = l ++ r /\ blocked gs t = false /\
    Forall (fun t => blocked gs t = true) l.
Proof.
  revert t q'; induction q as [|x q IH]; intros t q' H; cbn in H; [done|].
  fold (blocked gs x) in H. destruct (blocked gs x) eqn:Hb; cbn in H.
  - destruct (pick gs q) as [[t' r']|]; [|done]. injection H as -> <-.
    destruct (IH _ _ eq_refl) as (l & r & -> & -> & ? & ?).
    exists (x :: l), r. by repeat split; [|constructor].
  - injection H as -> ->. exists [], q'. by repeat split; [|constructor].
Qed.

Lemma pick_None gs q : pick gs q = None -> Forall (fun t => blocked gs t = true) q.
Proof.
  induction q as [|x q IH]; intros H; cbn in H; [constructor|].
  fold (blocked gs x) in H. destruct (blocked gs x) eqn:Hb; cbn in H; [|done].
  destruct (pick gs q) as [[t' r']|]; [done|]. constructor; auto.
Qed.

Lemma is_nonexcl_true t : is_nonexcl t = true <-> grp t = nonexcl.
Proof. unfold is_nonexcl. apply N.eqb_eq. Qed.
Lemma is_nonexcl_false t : is_nonexcl t = false <-> grp t <> nonexcl.
Proof. unfold is_nonexcl. apply N.eqb_neq. Qed.

Lemma all_guards_active_true gs g b :
  all_guards_active gs = true -> gs !! g = Some b -> b = true.
Proof.
  unfold all_guards_active. rewrite forallb_forall. intros H Hg.
  apply (H (g, b)). apply elem_of_list_In, elem_of_map_to_list. done.
Qed.

(** *** The invariant *)
Definition runs (st : state) (w : nat) (t : task) : Prop := workers st !! w = Some (WRun t).

Record Inv (st : state) : Prop := {
  i_active : active st = cnt is_run (workers st);
  i_non : num_nonexcl st = cnt is_nonexcl (queue st);
  i_guard : forall g, g <> nonexcl ->
    guards st !! g = Some true <-> exists w t, runs st w t /\ grp t = g;
  i_excl : forall w1 w2 t1 t2, runs st w1 t1 -> runs st w2 t2 -> grp t1 = grp t2 ->
    grp t1 <> nonexcl -> w1 = w2;
  i_q : forall t, t ∈ queue st -> grp t <> nonexcl -> guards st !! grp t <> None;
  i_exit : forall w, workers st !! w = Some WExited -> stop st = true;
  i_nofault : forall w, workers st !! w <> Some WFault;
  i_wait : forall c, clients st !! c = Some CWaitSleep -> 0 < active st \/ queue st <> [];
  i_join : forall c, clients st !! c = Some CJoin \/ clients st !! c = Some CDtorNotify ->
    stop st = true;
  i_joinsleep : forall c w, clients st !! c = Some CJoin -> workers st !! w = Some WSleep ->
    queue st <> [] \/ 0 < active st }.

Lemma inv_init n m : Inv (init n m).
Proof.
  constructor; cbn; unfold runs; cbn.
  - by rewrite cnt_replicate.
  - done.
  - intros g _. split; [done|]. intros (w & t & [? _]%lookup_replicate & _). done.
  - intros w1 w2 t1 t2 [? _]%lookup_replicate. done.
  - intros t []%elem_of_nil.
  - intros w [? _]%lookup_replicate. done.
  - intros w [? _]%lookup_replicate. done.
  - intros w [? _]%lookup_replicate. done.
  - intros w [[? _]%lookup_replicate|[? _]%lookup_replicate]; done.
  - intros c w [? _]%lookup_replicate. done.
Qed.

(** A worker whose state is overwritten. *)
Lemma lookup_insert_inv {A} (l : list A) i j x y :
  <[i := x]> l !! j = Some y -> (i = j /\ x = y) \/ (i <> j /\ l !! j = Some y).
Proof.
  intros H. destruct (decide (i = j)) as [->|Hn].
  - left. split; [done|]. assert (is_Some (<[j:=x]> l !! j)) as Hs by eauto.
    apply lookup_lt_is_Some in Hs. rewrite insert_length in Hs.
    rewrite list_lookup_insert in H by done. congruence.
  - right. by rewrite list_lookup_insert_ne in H.
Qed.

(** If the picker finds nothing every queued task is blocked. *)
Definition found (st : state) : option (task * list task) :=
  if negb (all_guards_active (guards st)) || (0 <? num_nonexcl st)
  then pick (guards st) (queue st) else None.

Lemma found_None st t :
  Inv st -> found st = None -> t ∈ queue st -> blocked (guards st) t = true.
Proof.
  intros HI Hf Ht. unfold found in Hf. destruct (_ || _) eqn:Hc.
  - apply pick_None in Hf. rewrite Forall_forall in Hf. by apply Hf.
  - apply orb_false_iff in Hc as [Ha Hn]. apply negb_false_iff in Ha.
    assert (Hne : is_nonexcl t = false).
    { destruct (is_nonexcl t) eqn:E; [|done]. apply elem_of_list_lookup in Ht as (i & Hi).
      pose proof (cnt_lookup is_nonexcl _ _ _ Hi E). rewrite (i_non _ HI) in Hn. lia. }
    unfold blocked. rewrite Hne. cbn. unfold guard_active.
    pose proof (i_q _ HI t Ht) as Hq. rewrite is_nonexcl_false in Hne. specialize (Hq Hne).
    destruct (guards st !! grp t) as [b|] eqn:E; [|done].
    by eapply all_guards_active_true.
Qed.

Lemma found_Some st t q' :
  found st = Some (t, q') ->
  exists l r, queue st = l ++ t :: r /\ q' = l ++ r /\ blocked (guards st) t = false /\
    Forall (fun t => blocked (guards st) t = true) l.
Proof. unfold found. destruct (_ || _); [apply pick_Some|done]. Qed.

(** Blocked means: a task of the group is in execution. *)
Lemma elem_of_executing st t : t ∈ executing st <-> exists w, runs st w t.
Proof.
  unfold executing, runs. rewrite elem_of_list_omap. split.
  - intros (w & Hw & Ht). apply elem_of_list_lookup in Hw as (i & Hi).
    destruct w; try done. injection Ht as ->. by exists i.
  - intros (i & Hi). exists (WRun t). split; [|done]. by eapply elem_of_list_lookup_2.
Qed.

Lemma blocked_spec st t :
  Inv st -> blocked (guards st) t = true <->
  grp t <> nonexcl /\ exists t', t' ∈ executing st /\ grp t' = grp t.
Proof.
  intros HI. unfold blocked. rewrite andb_true_iff, negb_true_iff, is_nonexcl_false.
  unfold guard_active. split.
  - intros [Hn Hg]. split; [done|].
    destruct (guards st !! grp t) as [[]|] eqn:E; try done.
    apply (i_guard _ HI) in E as (w & t' & Hr & Hgr); [|done].
    exists t'. split; [|done]. apply elem_of_executing. eauto.
  - intros (Hn & t' & Ht' & Hg). split; [done|]. apply elem_of_executing in Ht' as (w & Hw).
    assert (guards st !! grp t = Some true) as ->; [|done]. apply (i_guard _ HI); eauto.
Qed.

Lemma startable_spec st t :
  Inv st -> startable st t <-> t ∈ queue st /\ blocked (guards st) t = false.
Proof.
  intros HI. unfold startable. pose proof (blocked_spec st t HI) as Hb.
  destruct (blocked (guards st) t).
  - split; intros [? H]; [|done]. destruct Hb as [Hb _]. specialize (Hb eq_refl) as [? ?].
    naive_solver.
  - split; intros [? H]; (split; [done|]); [done|].
    destruct (decide (grp t = nonexcl)) as [|Hn]; [by left|right].
    intros Hx. destruct Hb as [_ Hb]. by specialize (Hb (conj Hn Hx)).
Qed.

Lemma cnt_is_run_wake (ws : list worker) : cnt is_run (wake_worker <$> ws) = cnt is_run ws.
Proof. rewrite cnt_fmap. apply cnt_ext. by intros []. Qed.

Lemma wake_worker_run (ws : list worker) (w : nat) t : (wake_worker <$> ws) !! w = Some (WRun t) <-> ws !! w = Some (WRun t).
Proof.
  rewrite list_lookup_fmap, fmap_Some. split.
  - intros (x & Hx & He). by destruct x; cbn in He; try done; injection He as ->.
  - intros H. by exists (WRun t).
Qed.
Lemma wake_worker_exited (ws : list worker) (w : nat) : (wake_worker <$> ws) !! w = Some WExited <-> ws !! w = Some WExited.
Proof.
  rewrite list_lookup_fmap, fmap_Some. split.
  - intros (x & Hx & He). by destruct x.
  - intros H. by exists WExited.
Qed.
Lemma wake_worker_fault (ws : list worker) (w : nat) : (wake_worker <$> ws) !! w = Some WFault <-> ws !! w = Some WFault.
Proof.
  rewrite list_lookup_fmap, fmap_Some. split.
  - intros (x & Hx & He). by destruct x.
  - intros H. by exists WFault.
Qed.
Lemma wake_worker_sleep (ws : list worker) (w : nat) : (wake_worker <$> ws) !! w <> Some WSleep.
Proof. rewrite list_lookup_fmap. destruct (ws !! w) as [[]|]; done. Qed.
Lemma wake_client_sleep (cs : list client) (c : nat) : (wake_client <$> cs) !! c <> Some CWaitSleep.
Proof. rewrite list_lookup_fmap. destruct (cs !! c) as [[]|]; done. Qed.
Lemma wake_client_other (cs : list client) (c : nat) x :
  x <> CWaitReady -> x <> CWaitSleep ->
  (wake_client <$> cs) !! c = Some x <-> cs !! c = Some x.
Proof.
  intros H1 H2. rewrite list_lookup_fmap, fmap_Some. split.
  - intros (y & Hy & He). by destruct y; cbn in He; subst.
  - intros H. exists x. split; [done|]. by destruct x.
Qed.

(** Changes of a client that is not asleep, joining or in the destructor afterwards. *)
Definition harmless (x : client) : Prop := x <> CWaitSleep /\ x <> CJoin /\ x <> CDtorNotify.

Lemma inv_set_client st c x : Inv st -> harmless x -> Inv (set_client c x st).
Proof.
  intros HI (H1 & H2 & H3).
  destruct HI as [A1 A2 A3 A4 A5 A6 A7 A8 A9 A10].
  constructor; try done; cbn in *.
  - intros c' [[_ ->]|[_ H]]%lookup_insert_inv; [done|eauto].
  - intros c' [H|H]; apply lookup_insert_inv in H as [[_ ->]|[_ H]]; eauto; done.
  - intros c' w [[_ ->]|[_ H]]%lookup_insert_inv; [done|eauto].
Qed.

Lemma inv_set_stop st : Inv st -> Inv (set_stop st).
Proof. intros [A1 A2 A3 A4 A5 A6 A7 A8 A9 A10]. by constructor. Qed.

(** A sleeping or ready worker becomes ready. *)
Lemma inv_set_worker_ready st w x :
  Inv st -> workers st !! w = Some x -> is_run x = false -> Inv (set_worker w WReady st).
Proof.
  intros [A1 A2 A3 A4 A5 A6 A7 A8 A9 A10] Hw Hx.
  assert (Hr : forall w' t, runs (set_worker w WReady st) w' t <-> runs st w' t).
  { intros w' t. unfold runs. cbn. split.
    - by intros [[_ ?]|[_ H]]%lookup_insert_inv.
    - intros H. rewrite list_lookup_insert_ne; [done|]. intros ->. rewrite Hw in H.
      injection H as ->. done. }
  constructor; cbn; try done.
  - rewrite (cnt_insert _ _ _ _ _ Hw), Hx. cbn. lia.
  - intros g Hg. rewrite A3 by done. by setoid_rewrite Hr.
  - intros w1 w2 t1 t2. rewrite !Hr. apply A4.
  - intros w' [[_ ?]|[_ H]]%lookup_insert_inv; [done|eauto].
  - intros w' [[_ ?]|[_ H]]%lookup_insert_inv; [done|]. by eapply A7.
  - intros c w' H [[_ ?]|[_ H']]%lookup_insert_inv; [done|eauto].
Qed.

Lemma inv_select st w : Inv st -> workers st !! w = Some WReady -> Inv (select w st).1.
Proof.
  intros HI Hw. pose proof HI as [A1 A2 A3 A4 A5 A6 A7 A8 A9 A10].
  assert (Hlt : (w < length (workers st))%nat) by (by eapply lookup_lt_Some).
  assert (Hnr : forall t, ~ runs st w t) by (unfold runs; congruence).
  assert (HrN : forall x w' t, is_run x = false ->
    <[w:=x]> (workers st) !! w' = Some (WRun t) <-> runs st w' t).
  { intros x w' t Hx. split.
    - intros [[_ ->]|[_ H]]%lookup_insert_inv; done.
    - intros H. rewrite list_lookup_insert_ne; [done|]. intros ->. by eapply Hnr. }
  assert (HrR : forall u w' t,
    <[w:=WRun u]> (workers st) !! w' = Some (WRun t) <-> (w' = w /\ t = u) \/ runs st w' t).
  { intros u w' t. split.
    - intros [[-> [= ->]]|[_ H]]%lookup_insert_inv; [by left|by right].
    - intros [[-> ->]|H]; [by apply list_lookup_insert|].
      rewrite list_lookup_insert_ne; [done|]. intros ->. by eapply Hnr. }
  unfold select. fold (found st).
  destruct (found st) as [[t q']|] eqn:Hf.
  - apply found_Some in Hf as (l & r & Hq & -> & Hb & _).
    assert (Hsub : forall t', t' ∈ l ++ r -> t' ∈ queue st).
    { intros t'. rewrite Hq, !elem_of_app, elem_of_cons. tauto. }
    assert (Hcnt : cnt is_nonexcl (queue st) = cnt is_nonexcl (l ++ r) + bz (is_nonexcl t)).
    { rewrite Hq, !cnt_app. cbn. lia. }
    destruct (is_nonexcl t) eqn:Hne.
    + apply is_nonexcl_true in Hne.
      constructor; cbn; unfold runs; cbn.
      * rewrite (cnt_insert _ _ _ _ _ Hw). cbn. lia.
      * cbn in Hcnt. lia.
      * intros g Hg. rewrite A3 by done. split.
        -- intros (w' & t' & Hr & Hgr). exists w', t'. split; [|done]. apply HrR. by right.
        -- intros (w' & t' & [[-> ->]|Hr]%HrR & Hgr); [congruence|eauto].
      * intros w1 w2 t1 t2 [[-> ->]|H1]%HrR [[-> ->]|H2]%HrR Heq Hn; try done; [congruence|].
        by eapply A4.
      * intros t' Ht'. apply A5. by apply Hsub.
      * intros w' [[_ ?]|[_ H]]%lookup_insert_inv; [done|eauto].
      * intros w' [[_ ?]|[_ H]]%lookup_insert_inv; [done|]. by eapply A7.
      * intros c Hc. left. pose proof (cnt_nonneg is_run (workers st)). lia.
      * done.
      * intros c w' _ _. right. pose proof (cnt_nonneg is_run (workers st)). lia.
    + pose proof Hne as Hne'. apply is_nonexcl_false in Hne'.
      assert (Hg0 : guards st !! grp t = Some false).
      { unfold blocked in Hb. rewrite Hne in Hb. cbn in Hb. unfold guard_active in Hb.
        assert (t ∈ queue st) as Hin by (rewrite Hq; apply elem_of_app; right; left).
        pose proof (A5 _ Hin Hne'). by destruct (guards st !! grp t) as [[]|]. }
      assert (Hfree : forall w' t', runs st w' t' -> grp t' <> grp t).
      { intros w' t' Hr Heq. assert (guards st !! grp t = Some true); [|congruence].
        apply A3; [done|]. eauto. }
      rewrite Hg0. constructor; cbn; unfold runs; cbn.
      * rewrite (cnt_insert _ _ _ _ _ Hw). cbn. lia.
      * cbn in Hcnt. lia.
      * intros g Hg. destruct (decide (g = grp t)) as [->|Hgn].
        -- rewrite lookup_insert. split; [|done]. intros _. exists w, t. split; [|done].
           apply HrR. by left.
        -- rewrite lookup_insert_ne by done. rewrite A3 by done. split.
           ++ intros (w' & t' & Hr & Hgr). exists w', t'. split; [|done]. apply HrR. by right.
           ++ intros (w' & t' & [[-> ->]|Hr]%HrR & Hgr); [congruence|eauto].
      * intros w1 w2 t1 t2 [[-> ->]|H1]%HrR [[-> ->]|H2]%HrR Heq Hn; try done.
        -- exfalso. by eapply Hfree.
        -- exfalso. by eapply Hfree.
        -- by eapply A4.
      * intros t' Ht' Hn'. destruct (decide (grp t' = grp t)) as [->|Hn2].
        -- by rewrite lookup_insert.
        -- rewrite lookup_insert_ne by done. apply A5; auto.
      * intros w' [[_ ?]|[_ H]]%lookup_insert_inv; [done|eauto].
      * intros w' [[_ ?]|[_ H]]%lookup_insert_inv; [done|]. by eapply A7.
      * intros c Hc. left. pose proof (cnt_nonneg is_run (workers st)). lia.
      * done.
      * intros c w' _ _. right. pose proof (cnt_nonneg is_run (workers st)). lia.
  - destruct (stop st && _) eqn:Hs.
    + apply andb_true_iff in Hs as [Hs Hq]. constructor; cbn; unfold runs; cbn; try done.
      * rewrite (cnt_insert _ _ _ _ _ Hw). cbn. lia.
      * intros g Hg. rewrite A3 by done. setoid_rewrite HrN; done.
      * intros w1 w2 t1 t2. rewrite !HrN by done. apply A4.
      * intros w' [[_ ?]|[_ H]]%lookup_insert_inv; [done|]. by eapply A7.
      * intros c w' H [[_ ?]|[_ H']]%lookup_insert_inv; [done|eauto].
    + apply andb_false_iff in Hs. constructor; cbn; unfold runs; cbn; try done.
      * rewrite (cnt_insert _ _ _ _ _ Hw). cbn. lia.
      * intros g Hg. rewrite A3 by done. setoid_rewrite HrN; done.
      * intros w1 w2 t1 t2. rewrite !HrN by done. apply A4.
      * intros w' [[_ ?]|[_ H]]%lookup_insert_inv; [done|eauto].
      * intros w' [[_ ?]|[_ H]]%lookup_insert_inv; [done|]. by eapply A7.
      * intros c w' H _. pose proof (A9 c ltac:(by left)) as Hst. rewrite Hst in Hs.
        destruct Hs as [|Hs]; [done|]. left. by destruct (queue st).
Qed.

Lemma inv_finish st w t : Inv st -> runs st w t -> Inv (finish w t st).1.
Proof.
  intros HI Hw. pose proof HI as [A1 A2 A3 A4 A5 A6 A7 A8 A9 A10].
  assert (Hlt : (w < length (workers st))%nat) by (by eapply lookup_lt_Some).
  assert (Hr : forall w' t',
    <[w:=WReady]> (wake_worker <$> workers st) !! w' = Some (WRun t') <-> w' <> w /\ runs st w' t').
  { intros w' t'. split.
    - intros [[_ ?]|[? H]]%lookup_insert_inv; [done|]. apply (proj1 (wake_worker_run _ _ _)) in H.
      split; [congruence|done].
    - intros [Hn H]. rewrite list_lookup_insert_ne by congruence. by apply wake_worker_run. }
  assert (Hc : cnt is_run (<[w:=WReady]> (wake_worker <$> workers st)) = cnt is_run (workers st) - 1).
  { rewrite (cnt_insert _ _ _ (WRun t)) by (by apply wake_worker_run).
    rewrite cnt_is_run_wake. cbn. lia. }
  assert (Hex : forall w', <[w:=WReady]> (wake_worker <$> workers st) !! w' = Some WExited ->
    stop st = true).
  { intros w' [[_ ?]|[_ H]]%lookup_insert_inv; [done|]. apply (proj1 (wake_worker_exited _ _)) in H. eauto. }
  assert (Hfl : forall w', <[w:=WReady]> (wake_worker <$> workers st) !! w' <> Some WFault).
  { intros w' [[_ ?]|[_ H]]%lookup_insert_inv; [done|]. apply (proj1 (wake_worker_fault _ _)) in H. by eapply A7. }
  assert (Hsl : forall w', <[w:=WReady]> (wake_worker <$> workers st) !! w' <> Some WSleep).
  { intros w' [[_ ?]|[_ H]]%lookup_insert_inv; [done|]. by apply wake_worker_sleep in H. }
  assert (Hj : forall c, (wake_client <$> clients st) !! c = Some CJoin \/
    (wake_client <$> clients st) !! c = Some CDtorNotify -> stop st = true).
  { intros c. rewrite !wake_client_other by done. apply A9. }
  unfold finish. destruct (is_nonexcl t) eqn:Hne.
  - apply is_nonexcl_true in Hne.
    constructor; cbn; unfold runs; cbn; try done; try lia.
    + intros g Hg. rewrite A3 by done. split.
      * intros (w' & t' & Hr' & Hgr). exists w', t'. split; [|done]. apply Hr. split; [|done].
        intros ->. unfold runs in *. congruence.
      * intros (w' & t' & [_ Hr']%Hr & Hgr). eauto.
    + intros w1 w2 t1 t2 [_ H1]%Hr [_ H2]%Hr. by eapply A4.
    + intros c Hcs. by apply wake_client_sleep in Hcs.
    + intros c w' _ Hs. by apply Hsl in Hs.
  - apply is_nonexcl_false in Hne.
    assert (Hg : guards st !! grp t = Some true) by (apply A3; eauto).
    rewrite Hg. constructor; cbn; unfold runs; cbn; try done; try lia.
    + intros g Hgn. destruct (decide (g = grp t)) as [->|Hgt].
      * rewrite lookup_insert. split; [done|]. intros (w' & t' & [Hn Hr']%Hr & Hgr).
        exfalso. apply Hn. eapply A4; [done|done|done|congruence].
      * rewrite lookup_insert_ne by done. rewrite A3 by done. split.
        -- intros (w' & t' & Hr' & Hgr). exists w', t'. split; [|done]. apply Hr. split; [|done].
           intros ->. unfold runs in *. congruence.
        -- intros (w' & t' & [_ Hr']%Hr & Hgr). eauto.
    + intros w1 w2 t1 t2 [_ H1]%Hr [_ H2]%Hr. by eapply A4.
    + intros t' Ht' Hn'. destruct (decide (grp t' = grp t)) as [->|Hn2].
      * by rewrite lookup_insert.
      * rewrite lookup_insert_ne by done. by apply A5.
    + intros c Hcs. by apply wake_client_sleep in Hcs.
    + intros c w' _ Hs. by apply Hsl in Hs.
Qed.

Lemma app_singleton_ne {A} (l : list A) x : l ++ [x] <> [].
Proof. by destruct l. Qed.

Lemma inv_insert st c g : Inv st -> Inv (insert_task c g st).1.
Proof.
  intros HI. pose proof HI as [A1 A2 A3 A4 A5 A6 A7 A8 A9 A10].
  assert (Hgs : forall g', (if N.eqb g nonexcl then guards st
            else match guards st !! g with None => <[g := false]> (guards st) | _ => guards st end)
            !! g' = Some true <-> guards st !! g' = Some true).
  { intros g'. destruct (N.eqb g nonexcl); [done|].
    destruct (guards st !! g) eqn:E; [done|].
    destruct (decide (g = g')) as [->|Hn]; [|by rewrite lookup_insert_ne].
    rewrite lookup_insert, E. split; done. }
  constructor; cbn; try done.
  - rewrite cnt_app. cbn. unfold is_nonexcl at 2. cbn.
    destruct (N.eqb g nonexcl); cbn; lia.
  - intros g' Hg'. rewrite Hgs. by apply A3.
  - intros t Hin Hn. apply elem_of_app in Hin as [Ht|Ht]; [|apply elem_of_list_singleton in Ht as ->].
    + specialize (A5 _ Ht Hn). destruct (N.eqb g nonexcl); [done|].
      destruct (guards st !! g) eqn:E; [done|].
      destruct (decide (g = grp t)) as [->|Hn2]; [by rewrite lookup_insert|].
      by rewrite lookup_insert_ne.
    + cbn in *. apply N.eqb_neq in Hn. rewrite Hn.
      destruct (guards st !! g) eqn:E; [by rewrite E|]. by rewrite lookup_insert.
  - intros _ _. right. apply app_singleton_ne.
  - intros c' [H|H]; apply lookup_insert_inv in H as [[_ ?]|[_ H]]; eauto; done.
  - intros _ _ _ _. left. apply app_singleton_ne.
Qed.

Lemma inv_wake_all st : Inv st -> Inv (wake_all st).
Proof.
  intros HI. pose proof HI as [A1 A2 A3 A4 A5 A6 A7 A8 A9 A10].
  constructor; cbn; unfold runs; cbn; try done.
  - by rewrite cnt_is_run_wake.
  - intros g Hg. rewrite A3 by done. by setoid_rewrite wake_worker_run.
  - intros w1 w2 t1 t2. rewrite !wake_worker_run. apply A4.
  - intros w H. apply (proj1 (wake_worker_exited _ _)) in H. eauto.
  - intros w H. apply (proj1 (wake_worker_fault _ _)) in H. by eapply A7.
  - intros c H%wake_client_sleep. done.
  - intros c. rewrite !wake_client_other by done. apply A9.
  - intros c w _ H%wake_worker_sleep. done.
Qed.

Lemma step_inv st a st' evs : Inv st -> step st a = Some (st', evs) -> Inv st'.
Proof.
  intros HI Hs. destruct a as [c g|c|c x|c|c|c|c|c|w|w|w|c]; cbn in Hs.
  - destruct (clients st !! c) as [[]|] eqn:Hc; try done.
    destruct (stop st); injection Hs as <- <-; [done|]. by apply inv_set_client.
  - destruct (clients st !! c) as [[]|] eqn:Hc; try done.
    injection Hs as <- <-. by apply (inv_insert st c g).
  - destruct (clients st !! c) as [[]|] eqn:Hc; try done.
    destruct (notify_one x st) as [st1|] eqn:Hn; [|done]. injection Hs as <- <-.
    apply inv_set_client; [|done]. destruct x as [w|c'|]; cbn in Hn.
    + destruct (workers st !! w) as [[]|] eqn:Hw; try done. injection Hn as <-.
      by eapply inv_set_worker_ready.
    + destruct (clients st !! c') as [[]|] eqn:Hw; try done. injection Hn as <-.
      by apply inv_set_client.
    + destruct (_ || _); [done|]. by injection Hn as <-.
  - destruct (clients st !! c) as [[]|] eqn:Hc; try done.
    injection Hs as <- <-. by apply inv_set_client.
  - destruct (clients st !! c) as [[]|] eqn:Hc; try done.
    unfold wait_check in Hs. destruct (_ || _) eqn:Hx; injection Hs as <- <-.
    + pose proof HI as [A1 A2 A3 A4 A5 A6 A7 A8 A9 A10]. constructor; try done; cbn.
      * intros c' _. apply orb_true_iff in Hx as [Hx|Hx]; [left; lia|right; by destruct (queue st)].
      * intros c' [H|H]; apply lookup_insert_inv in H as [[_ ?]|[_ H]]; eauto; done.
      * intros c' w [[_ ?]|[_ H]]%lookup_insert_inv; [done|eauto].
    + by apply inv_set_client.
  - destruct (clients st !! c) as [[]|] eqn:Hc; try done.
    injection Hs as <- <-. by apply inv_set_stop.
  - destruct (clients st !! c) as [[]|] eqn:Hc; try done. injection Hs as <- <-.
    apply inv_set_stop in HI as [A1 A2 A3 A4 A5 A6 A7 A8 A9 A10]. constructor; try done; cbn in *.
    + intros c' [[_ ?]|[_ H]]%lookup_insert_inv; [done|eauto].
    + intros c' w [[_ ?]|[_ H]]%lookup_insert_inv; [done|eauto].
  - destruct (clients st !! c) as [[]|] eqn:Hc; try done. injection Hs as <- <-.
    pose proof (i_join _ HI c (or_intror Hc)) as Hst.
    apply inv_wake_all in HI as [A1 A2 A3 A4 A5 A6 A7 A8 A9 A10]. constructor; try done; cbn in *.
    + intros c' [[_ ?]|[_ H]]%lookup_insert_inv; [done|eauto].
    + intros c' w _ H%wake_worker_sleep. done.
  - destruct (workers st !! w) as [[]|] eqn:Hw; try done. injection Hs as Hs.
    pose proof (inv_select st w HI Hw) as H. by rewrite Hs in H.
  - destruct (workers st !! w) as [[]|] eqn:Hw; try done. injection Hs as Hs.
    pose proof (inv_finish st w _ HI Hw) as H. by rewrite Hs in H.
  - destruct (workers st !! w) as [[]|] eqn:Hw; try done. injection Hs as <- <-.
    by eapply inv_set_worker_ready.
  - destruct (clients st !! c) as [[]|] eqn:Hc; try done. injection Hs as <- <-.
    by apply inv_set_client.
Qed.
