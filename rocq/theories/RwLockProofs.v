From Coq Require Import ZArith Lia Bool ZifyBool.
From stdpp Require Import list.
From Verif Require Import Counting RwLockModel RwLockSpec RwLockInv.
Open Scope Z_scope.

(** *** Exclusion *)
Lemma cnt_holds_read ps : cnt holds_read ps = c Reading ps + n_up ps.
Proof.
  unfold n_up, c.
  rewrite (cnt_split holds_read (pc_eqb Reading) (fun x => pc_eqb (UpWait true) x || pc_eqb (UpWait false) x));
    [|intros [|[]| |[]|[]| | |[]]; done].
  f_equal. apply cnt_split. intros [|[]| |[]|[]| | |[]]; done.
Qed.
Lemma cnt_holds_write ps : cnt holds_write ps = c Writing ps.
Proof. apply cnt_ext. intros [|[]| |[]|[]| | |[]]; done. Qed.
Definition upgrading (p : pc) : bool := match p with UpWait _ => true | _ => false end.
Lemma cnt_upgrading ps : cnt upgrading ps = n_up ps.
Proof. apply cnt_split. intros [|[]| |[]|[]| | |[]]; done. Qed.

Lemma inv_exclusion k st t1 t2 p1 p2 :
  Inv k st -> pcs st !! t1 = Some p1 -> pcs st !! t2 = Some p2 -> t1 <> t2 ->
  holds_write p1 = true -> holds_write p2 = false /\ holds_read p2 = false.
Proof.
  intros HI H1 H2 Hn Hw.
  pose proof (inv_cw _ _ HI) as Hcw. pose proof (inv_nr _ _ HI) as Hnr.
  pose proof (cnt_lookup _ _ _ _ H1 Hw) as Hc. rewrite cnt_holds_write in Hc.
  assert (Hwt : current_writer (sh st) = true).
  { destruct (current_writer (sh st)); [done|]. simpl in Hcw. lia. }
  pose proof (inv_ex _ _ HI Hwt) as H0. rewrite Hwt in Hcw. simpl in Hcw. split.
  - destruct (holds_write p2) eqn:E; [|done].
    pose proof (cnt_two _ _ _ _ _ _ H1 H2 Hw E Hn) as H3. rewrite cnt_holds_write in H3. lia.
  - destruct (holds_read p2) eqn:E; [|done].
    pose proof (cnt_lookup _ _ _ _ H2 E) as H3. rewrite cnt_holds_read in H3. lia.
Qed.

(** *** The observer accepts every trace *)
Record Rel (st : state) (h : holders) : Prop := {
  rel_r : forall t, t ∈ readers h <-> exists p, pcs st !! t = Some p /\ holds_read p = true;
  rel_nd : NoDup (readers h);
  rel_w : forall t, writer h = Some t <-> pcs st !! t = Some Writing;
  rel_u : forall t, upgrader h = Some t <-> exists b, pcs st !! t = Some (UpWait b) }.

Lemma rel_init n : Rel (init n) nobody.
Proof.
  constructor; cbn.
  - intros t. split; [intros []%elem_of_nil|].
    intros (p & Hp & Hh). apply lookup_replicate in Hp as [-> _]. done.
  - constructor.
  - intros t. split; [done|]. intros [? _]%lookup_replicate. done.
  - intros t. split; [done|]. intros (b & [? _]%lookup_replicate). done.
Qed.

Lemma rel_readers_nil st h : Rel st h -> cnt holds_read (pcs st) = 0 -> readers h = [].
Proof.
  intros HR H0. destruct (readers h) as [|t l] eqn:E; [done|].
  destruct (rel_r _ _ HR t) as [Hx _]. destruct Hx as (p & Hp & Hh); [rewrite E; left|].
  pose proof (cnt_lookup _ _ _ _ Hp Hh). lia.
Qed.

Lemma rel_readers_one st h t p :
  Rel st h -> pcs st !! t = Some p -> holds_read p = true -> cnt holds_read (pcs st) <= 1 ->
  readers h = [t].
Proof.
  intros HR Hp Hh Hc.
  assert (Honly : forall t', t' ∈ readers h -> t' = t).
  { intros t' Ht'. apply (rel_r _ _ HR) in Ht' as (p' & Hp' & Hh').
    destruct (decide (t' = t)) as [|Hn]; [done|].
    pose proof (cnt_two _ _ _ _ _ _ Hp Hp' Hh Hh' (not_eq_sym Hn)). lia. }
  assert (Hin : t ∈ readers h) by (apply (rel_r _ _ HR); eauto).
  pose proof (rel_nd _ _ HR) as Hnd.
  destruct (readers h) as [|a l]; [by apply elem_of_nil in Hin|].
  assert (a = t) as -> by (apply Honly; left).
  destruct l as [|b l]; [done|].
  assert (b = t) as -> by (apply Honly; right; left).
  apply NoDup_cons in Hnd as [Hnd _]. destruct Hnd. left.
Qed.

Lemma rel_writer_none st h : Rel st h -> cnt holds_write (pcs st) = 0 -> writer h = None.
Proof.
  intros HR H0. destruct (writer h) as [t|] eqn:E; [|done].
  apply (rel_w _ _ HR) in E. pose proof (cnt_lookup holds_write _ _ _ E eq_refl). lia.
Qed.

Lemma rel_upgrader_none st h : Rel st h -> cnt upgrading (pcs st) = 0 -> upgrader h = None.
Proof.
  intros HR H0. destruct (upgrader h) as [t|] eqn:E; [|done].
  apply (rel_u _ _ HR) in E as (b & E). pose proof (cnt_lookup upgrading _ _ _ E eq_refl). lia.
Qed.

(** Waking threads changes nothing an observer can see. *)
Lemma rel_wake st h g s' :
  (forall p, holds_read (g p) = holds_read p) -> (forall p, g p = Writing <-> p = Writing) ->
  (forall p, upgrading (g p) = upgrading p) ->
  Rel st h -> Rel (State s' (g <$> pcs st)) h.
Proof.
  intros Hr Hw Hu HR. constructor; cbn.
  - intros t. rewrite (rel_r _ _ HR), list_lookup_fmap. split.
    + intros (p & Hp & Hh). rewrite Hp. exists (g p). by rewrite Hr.
    + intros (p & Hp & Hh). apply fmap_Some in Hp as (q & Hq & ->). exists q. by rewrite <- Hr.
  - apply HR.
  - intros t. rewrite (rel_w _ _ HR), list_lookup_fmap, fmap_Some. split.
    + intros H. exists Writing. split; [done|]. symmetry. by apply Hw.
    + intros (q & Hq & Hg). symmetry in Hg. apply (proj1 (Hw q)) in Hg. by subst.
  - intros t. rewrite (rel_u _ _ HR), list_lookup_fmap. split.
    + intros (b & Hb). rewrite Hb. specialize (Hu (UpWait b)). cbn in *.
      destruct (g (UpWait b)); try done. eauto.
    + intros (b & Hb). apply fmap_Some in Hb as (q & Hq & Hg).
      specialize (Hu q). rewrite <- Hg in Hu. destruct q; try done. eauto.
Qed.

(** Moving a thread between two positions that look the same from outside. *)
Lemma rel_silent st h s' t p q :
  pcs st !! t = Some p -> holds_read p = holds_read q -> (p = Writing <-> q = Writing) ->
  upgrading p = upgrading q ->
  Rel st h -> Rel (State s' (<[t := q]> (pcs st))) h.
Proof.
  intros Hp Hr Hw Hu HR.
  assert (Hlt : (t < length (pcs st))%nat) by (by eapply lookup_lt_Some).
  constructor; cbn.
  - intros t'. rewrite (rel_r _ _ HR). destruct (decide (t = t')) as [<-|Hn].
    + rewrite list_lookup_insert by done. rewrite Hp. split; intros (p' & [= <-] & Hh); eexists;
        (split; [done|]); congruence.
    + by rewrite list_lookup_insert_ne.
  - apply HR.
  - intros t'. rewrite (rel_w _ _ HR). destruct (decide (t = t')) as [<-|Hn].
    + rewrite list_lookup_insert by done. rewrite Hp.
      split; intros [= H]; f_equal; by apply Hw.
    + by rewrite list_lookup_insert_ne.
  - intros t'. rewrite (rel_u _ _ HR). destruct (decide (t = t')) as [<-|Hn].
    + rewrite list_lookup_insert by done. rewrite Hp.
      split; intros (b & [= H]); subst; cbn in Hu.
      * destruct q; try done. eauto.
      * destruct p; try done. eauto.
    + by rewrite list_lookup_insert_ne.
Qed.

Lemma elem_of_remove_one t t' l : t' ∈ remove_one t l <-> t' ∈ l /\ t' <> t.
Proof. unfold remove_one. rewrite elem_of_list_filter. tauto. Qed.

(** General update lemma: the observer's bookkeeping follows a change of one thread. *)
Lemma rel_update st h h' s' t p q :
  pcs st !! t = Some p -> Rel st h ->
  (forall t', t' <> t -> (t' ∈ readers h' <-> t' ∈ readers h)) ->
  (t ∈ readers h' <-> holds_read q = true) -> NoDup (readers h') ->
  (forall t', t' <> t -> (writer h' = Some t' <-> writer h = Some t')) ->
  (writer h' = Some t <-> q = Writing) ->
  (forall t', t' <> t -> (upgrader h' = Some t' <-> upgrader h = Some t')) ->
  (upgrader h' = Some t <-> upgrading q = true) ->
  Rel (State s' (<[t := q]> (pcs st))) h'.
Proof.
  intros Hp HR R1 R2 Hnd W1 W2 U1 U2.
  assert (Hlt : (t < length (pcs st))%nat) by (by eapply lookup_lt_Some).
  constructor; cbn; [| done | |]; intros t'; destruct (decide (t' = t)) as [->|Hn].
  - rewrite R2, list_lookup_insert by done. split; [eauto|]. by intros (? & [= <-] & ?).
  - rewrite R1 by done. rewrite (rel_r _ _ HR), list_lookup_insert_ne by congruence. done.
  - rewrite W2, list_lookup_insert by done. split; [by intros ->|by intros [= ->]].
  - rewrite W1 by done. rewrite (rel_w _ _ HR), list_lookup_insert_ne by congruence. done.
  - rewrite U2, list_lookup_insert by done. split.
    + destruct q; try done. eauto.
    + by intros (b & [= ->]).
  - rewrite U1 by done. rewrite (rel_u _ _ HR), list_lookup_insert_ne by congruence. done.
Qed.

Section events.
  Context (st : state) (h : holders) (s' : shared) (t : nat) (HR : Rel st h).

  Lemma not_reader p : pcs st !! t = Some p -> holds_read p = false -> t ∉ readers h.
  Proof. intros Hp Hh Hin. apply (rel_r _ _ HR) in Hin as (q & Hq & ?). congruence. Qed.
  Lemma is_reader p : pcs st !! t = Some p -> holds_read p = true -> t ∈ readers h.
  Proof. intros Hp Hh. apply (rel_r _ _ HR). eauto. Qed.
  Lemma not_upgrader p : pcs st !! t = Some p -> upgrading p = false -> upgrader h <> Some t.
  Proof. intros Hp Hh Hu. apply (rel_u _ _ HR) in Hu as (b & Hb). rewrite Hp in Hb.
    injection Hb as ->. done. Qed.
  Lemma not_writer p : pcs st !! t = Some p -> p <> Writing -> writer h <> Some t.
  Proof. intros Hp Hh Hu. apply (rel_w _ _ HR) in Hu. congruence. Qed.

  Lemma ev_read p :
    pcs st !! t = Some p -> holds_read p = false -> cnt holds_write (pcs st) = 0 ->
    exists h', watch h [EvReadAcquired t] = Some h' /\ Rel (State s' (<[t := Reading]> (pcs st))) h'.
  Proof.
    intros Hp Hh Hw. pose proof (rel_writer_none _ _ HR Hw) as Hwn.
    pose proof (not_reader _ Hp Hh) as Hnr. cbn.
    rewrite decide_True by done. eexists; split; [done|].
    assert (upgrading p = false) as Hu by by destruct p.
    pose proof (not_upgrader _ Hp Hu).
    eapply rel_update; [done..| | | | | | |]; cbn; [| |constructor; [done|apply HR]| | | |].
    - intros t' Hn. rewrite elem_of_cons. naive_solver.
    - split; [done|left].
    - by rewrite Hwn.
    - done.
    - done.
    - done.
  Qed.

  Lemma NoDup_remove : NoDup (remove_one t (readers h)).
  Proof. apply NoDup_filter, HR. Qed.

  Lemma ev_read_released :
    pcs st !! t = Some Reading ->
    exists h', watch h [EvReadReleased t] = Some h' /\ Rel (State s' (<[t := Idle]> (pcs st))) h'.
  Proof.
    intros Hp. pose proof (is_reader _ Hp eq_refl). pose proof (not_upgrader _ Hp eq_refl).
    pose proof (not_writer _ Hp ltac:(done)).
    cbn. rewrite decide_True by done. eexists; split; [done|].
    eapply rel_update; [done..| | | | | | |]; cbn; [| |apply NoDup_remove| | | |]; try done.
    - intros t' Hn. rewrite elem_of_remove_one. naive_solver.
    - rewrite elem_of_remove_one. naive_solver.
  Qed.

  Lemma ev_upgrade_refused :
    pcs st !! t = Some Reading -> 0 < cnt upgrading (pcs st) ->
    exists h', watch h [EvUpgradeRefused t] = Some h' /\ Rel (State s' (<[t := Idle]> (pcs st))) h'.
  Proof.
    intros Hp Hc. pose proof (is_reader _ Hp eq_refl). pose proof (not_upgrader _ Hp eq_refl).
    pose proof (not_writer _ Hp ltac:(done)).
    assert (upgrader h <> None).
    { apply cnt_witness in Hc as (t' & p & Hp' & Hu). destruct p; try done.
      assert (upgrader h = Some t') by (apply (rel_u _ _ HR); eauto). congruence. }
    cbn. rewrite decide_True by done. eexists; split; [done|].
    eapply rel_update; [done..| | | | | | |]; cbn; [| |apply NoDup_remove| | | |]; try done.
    - intros t' Hn. rewrite elem_of_remove_one. naive_solver.
    - rewrite elem_of_remove_one. naive_solver.
  Qed.

  Lemma ev_write p :
    pcs st !! t = Some p -> cnt holds_write (pcs st) = 0 -> cnt holds_read (pcs st) = 0 ->
    exists h', watch h [EvWriteAcquired t] = Some h' /\ Rel (State s' (<[t := Writing]> (pcs st))) h'.
  Proof.
    intros Hp Hw Hr. pose proof (rel_writer_none _ _ HR Hw) as Hwn.
    pose proof (rel_readers_nil _ _ HR Hr) as Hrn.
    assert (upgrader h = None) as Hun.
    { apply (rel_upgrader_none _ _ HR). pose proof (cnt_nonneg upgrading (pcs st)).
      pose proof (cnt_le upgrading holds_read (pcs st) ltac:(by intros [])). lia. }
    cbn. rewrite decide_True by done. eexists; split; [done|].
    eapply rel_update; [done..| | | | | | |]; cbn; rewrite ?Hwn, ?Hrn, ?Hun; try done.
    - split; [intros []%elem_of_nil|done].
    - constructor.
    - intros t' Hn. split; [congruence|done].
  Qed.

  Lemma ev_write_released :
    pcs st !! t = Some Writing ->
    exists h', watch h [EvWriteReleased t] = Some h' /\ Rel (State s' (<[t := WrNotify]> (pcs st))) h'.
  Proof.
    intros Hp. assert (writer h = Some t) as Hw by by apply (rel_w _ _ HR).
    pose proof (not_reader _ Hp eq_refl). pose proof (not_upgrader _ Hp eq_refl).
    cbn. rewrite decide_True by done. eexists; split; [done|].
    eapply rel_update; [done..| | | | | | |]; cbn; rewrite ?Hw; try done; [apply HR|].
    intros t' Hn. split; [done|congruence].
  Qed.

  Lemma ev_upgrade_requested b :
    pcs st !! t = Some Reading -> cnt upgrading (pcs st) = 0 ->
    exists h', watch h [EvUpgradeRequested t] = Some h' /\
               Rel (State s' (<[t := UpWait b]> (pcs st))) h'.
  Proof.
    intros Hp Hc. pose proof (is_reader _ Hp eq_refl) as Hin.
    pose proof (rel_upgrader_none _ _ HR Hc) as Hun. pose proof (not_writer _ Hp ltac:(done)).
    cbn. rewrite decide_True by done. eexists; split; [done|].
    eapply rel_update; [done..| | | | | | |]; cbn; rewrite ?Hun; try done; [apply HR|].
    intros t' Hn. split; [congruence|done].
  Qed.

  Lemma ev_upgrade_granted b :
    pcs st !! t = Some (UpWait b) -> cnt holds_read (pcs st) <= 1 -> cnt holds_write (pcs st) = 0 ->
    exists h', watch h [EvUpgradeGranted t] = Some h' /\
               Rel (State s' (<[t := Writing]> (pcs st))) h'.
  Proof.
    intros Hp Hr Hw. pose proof (rel_readers_one _ _ _ _ HR Hp eq_refl Hr) as Hrn.
    pose proof (rel_writer_none _ _ HR Hw) as Hwn.
    assert (upgrader h = Some t) as Hu by (apply (rel_u _ _ HR); eauto).
    cbn. rewrite decide_True by done. eexists; split; [done|].
    eapply rel_update; [done..| | | | | | |]; cbn; rewrite ?Hrn, ?Hwn, ?Hu; try done.
    - intros t' Hn. rewrite elem_of_list_singleton. split; [intros []%elem_of_nil|done].
    - split; [intros []%elem_of_nil|done].
    - constructor.
    - intros t' Hn. split; congruence.
    - intros t' Hn. split; congruence.
  Qed.
End events.

Lemma watch_cons_inv h e es h1 h2 :
  watch h [e] = Some h1 -> watch h1 es = Some h2 -> watch h (e :: es) = Some h2.
Proof. cbn. destruct (watch1 h e); [|done]. by intros [= ->]. Qed.

Lemma watch_app h es es' h1 h2 :
  watch h es = Some h1 -> watch h1 es' = Some h2 -> watch h (es ++ es') = Some h2.
Proof.
  revert h; induction es as [|e es IH]; cbn; intros h H1 H2; [by injection H1 as ->|].
  destruct (watch1 h e); [by apply IH|done].
Qed.

Lemma rel_wake_r st h s' : Rel st h -> Rel (State s' (wake_readers_cv <$> pcs st)) h.
Proof. apply rel_wake; by intros []. Qed.
Lemma rel_wake_w st h s' : Rel st h -> Rel (State s' (wake_writer_cv <$> pcs st)) h.
Proof. apply rel_wake; by intros []. Qed.

Lemma cnt_wake_r_read ps : cnt holds_read (wake_readers_cv <$> ps) = cnt holds_read ps.
Proof. rewrite cnt_fmap. apply cnt_ext. by intros []. Qed.
Lemma cnt_wake_r_write ps : cnt holds_write (wake_readers_cv <$> ps) = cnt holds_write ps.
Proof. rewrite cnt_fmap. apply cnt_ext. by intros []. Qed.
Lemma cnt_wake_r_up ps : cnt upgrading (wake_readers_cv <$> ps) = cnt upgrading ps.
Proof. rewrite cnt_fmap. apply cnt_ext. by intros []. Qed.

Lemma read_loop_rel k s0 t s ps p h st' evs :
  Rel (State s0 ps) h -> ps !! t = Some p -> holds_read p = false -> p <> Writing ->
  b2z (current_writer s) = cnt holds_write ps ->
  read_loop k t s ps = (st', evs) -> exists h', watch h evs = Some h' /\ Rel st' h'.
Proof.
  intros HR Hp Hh Hnw Hcw. unfold read_loop. destruct (read_blocked k s) eqn:Hb; intros [= <- <-].
  - exists h. split; [done|]. eapply (rel_silent (State s0 ps)); [done| |by split| |done];
      by destruct p.
  - eapply (ev_read (State s0 ps)); [done..|]. cbn. rewrite <- Hcw.
    unfold read_blocked in Hb. destruct (current_writer s); [|done].
    destruct k; [|done]. by rewrite orb_true_r in Hb.
Qed.

Lemma write_loop2_rel s0 t s ps p h st' evs :
  Rel (State s0 ps) h -> ps !! t = Some p -> holds_read p = false -> p <> Writing ->
  b2z (current_writer s) = cnt holds_write ps -> num_readers s = cnt holds_read ps ->
  num_readers s <= b2z (pending_upgrade s) ->
  write_loop2_base t s ps = (st', evs) -> exists h', watch h evs = Some h' /\ Rel st' h'.
Proof.
  intros HR Hp Hh Hnw Hcw Hnr Hle. unfold write_loop2_base, write_blocked2.
  destruct (current_writer s) eqn:Ec, (pending_upgrade s) eqn:Eu; cbn [orb]; intros [= <- <-];
    try (exists h; split; [done|]; eapply (rel_silent (State s0 ps)); [done| |by split| |done];
      by destruct p).
  eapply (ev_write (State s0 ps)); [done..| |]; cbn in *; [done|].
  pose proof (cnt_nonneg holds_read ps). lia.
Qed.

Lemma write_loop_rel k s0 t s ps p h st' evs :
  Rel (State s0 ps) h -> ps !! t = Some p -> holds_read p = false -> p <> Writing ->
  b2z (current_writer s) = cnt holds_write ps -> num_readers s = cnt holds_read ps ->
  write_loop k t s ps = (st', evs) -> exists h', watch h evs = Some h' /\ Rel st' h'.
Proof.
  intros HR Hp Hh Hnw Hcw Hnr. unfold write_loop.
  destruct (write_blocked1 s) eqn:Hb.
  - intros [= <- <-]. exists h; split; [done|]; eapply (rel_silent (State s0 ps)); [done| |by split| |done];
      by destruct p.
  - unfold write_blocked1 in Hb. destruct k.
    + eapply write_loop2_rel; try done. lia.
    + unfold write_blocked2.
      destruct (current_writer s) eqn:Ec, (pending_upgrade s) eqn:Eu; cbn [orb andb negb];
      intros [= <- <-];
      try (exists h; split; [done|]; eapply (rel_silent (State s0 ps)); [done| |by split| |done];
        by destruct p).
      eapply (ev_write (State s0 ps)); [done..| |]; cbn in *; [done|].
      pose proof (cnt_nonneg holds_read ps). lia.
Qed.

Lemma upgrade_loop_rel s0 t s ps b h st' evs :
  Rel (State s0 ps) h -> ps !! t = Some (UpWait b) ->
  b2z (current_writer s) = cnt holds_write ps -> num_readers s = cnt holds_read ps ->
  cnt holds_write ps = 0 ->
  upgrade_loop t s ps = (st', evs) -> exists h', watch h evs = Some h' /\ Rel st' h'.
Proof.
  intros HR Hp Hcw Hnr Hw. unfold upgrade_loop. destruct (1 <? num_readers s) eqn:Hb; intros [= <- <-].
  - exists h. split; [done|]. eapply (rel_silent (State s0 ps)); try done.
  - pose proof (rel_wake_r _ _ s0 HR) as HR2.
    destruct (_ =? _).
    + apply (ev_upgrade_granted (State s0 (wake_readers_cv <$> ps)) h _ t HR2 true); cbn.
      * by rewrite list_lookup_fmap, Hp.
      * rewrite cnt_wake_r_read. lia.
      * by rewrite cnt_wake_r_write.
    + eapply (ev_upgrade_granted (State s0 ps)); cbn; [done..| |done]. lia.
Qed.

Lemma step_rel k st t a st' evs h :
  Inv k st -> Rel st h -> step k st t a = Some (st', evs) ->
  exists h', watch h evs = Some h' /\ Rel st' h'.
Proof.
  intros HI HR. destruct st as [s ps].
  pose proof (inv_nr _ _ HI) as Hnr. pose proof (inv_cw _ _ HI) as Hcw.
  pose proof (inv_pu _ _ HI) as Hpu. pose proof (inv_ex _ _ HI) as Hex.
  pose proof (inv_w2 _ _ HI) as Hw2. cbn [sh pcs] in *.
  rewrite <- cnt_holds_read in Hnr. rewrite <- cnt_holds_write in Hcw.
  rewrite <- cnt_upgrading in Hpu.
  unfold step; cbn [sh pcs]. destruct (ps !! t) as [p|] eqn:Hp; [|done].
  destruct a.
  - destruct p; try done. intros [= H]. eapply read_loop_rel; [done..| |exact H]. by destruct k.
  - destruct p; try done. intros [= H]. eapply write_loop_rel; [done..| | |exact H]; by destruct k.
  - destruct p; try done. unfold upgrade. destruct (pending_upgrade s) eqn:Eu.
    + intros [= <- <-]. cbn in Hpu. destruct (_ =? _).
      * apply (ev_upgrade_refused (State s (wake_readers_cv <$> ps)) h _ t (rel_wake_r _ _ s HR)).
        -- cbn. by rewrite list_lookup_fmap, Hp.
        -- cbn. rewrite cnt_wake_r_up. lia.
      * eapply (ev_upgrade_refused (State s ps)); [done..|]. cbn. lia.
    + destruct (upgrade_loop t (set_upgrade true s) ps) as [st1 evs1] eqn:Hl. intros [= <- <-].
      destruct (ev_upgrade_requested (State s ps) h s t HR true Hp (eq_sym Hpu)) as (h1 & Hh1 & HR1).
      cbn in HR1.
      assert (Hc : cnt holds_read ps = cnt holds_read (<[t:=UpWait true]> ps) /\
                   cnt holds_write ps = cnt holds_write (<[t:=UpWait true]> ps)).
      { split; rewrite (cnt_insert _ _ _ _ _ Hp); cbn; lia. }
      assert (Hw0 : cnt holds_write ps = 0).
      { destruct (current_writer s); [|by rewrite <- Hcw]. specialize (Hex eq_refl).
        pose proof (cnt_lookup holds_read _ _ _ Hp eq_refl). lia. }
      assert (Hl2 : upgrade_loop t (set_upgrade true s) (<[t:=UpWait true]> ps) = (st1, evs1)).
      { rewrite <- Hl. unfold upgrade_loop. destruct (1 <? _); [by rewrite list_insert_insert|].
        destruct (_ =? _); [|by rewrite list_insert_insert].
        rewrite list_fmap_insert, list_insert_insert. done. }
      destruct (upgrade_loop_rel s t (set_upgrade true s) _ true h1 st1 evs1 HR1) as (h2 & Hh2 & HR2); try done.
      * apply list_lookup_insert. by eapply lookup_lt_Some.
      * cbn. lia.
      * cbn. lia.
      * lia.
      * exists h2. split; [|done]. by eapply watch_cons_inv.
  - destruct p; try done.
    + unfold release_read. intros [= <- <-]. destruct (_ =? _).
      * apply (ev_read_released (State s (wake_readers_cv <$> ps)) h _ t (rel_wake_r _ _ s HR)).
        cbn. by rewrite list_lookup_fmap, Hp.
      * by eapply (ev_read_released (State s ps)).
    + unfold release_write. intros [= <- <-]. by eapply (ev_write_released (State s ps)).
  - destruct p as [|[]| |[]|[]| | |[]]; try done; cbn.
    + intros [= H]. by eapply read_loop_rel.
    + intros [= H]. by eapply write_loop_rel.
    + destruct k.
      * intros [= H]. eapply write_loop2_rel; try done.
        apply Hw2. pose proof (c_here (WrWait2 true) ps t _ Hp eq_refl).
        unfold n_w2. pose proof (c_nonneg (WrWait2 false) ps). lia.
      * destruct (write_blocked2 s).
        -- intros [= <- <-]. exists h; split; [done|]. by eapply (rel_silent (State s ps)).
        -- intros [= H]. by eapply write_loop_rel.
    + intros [= H]. eapply upgrade_loop_rel; try done.
      destruct (current_writer s); [|by rewrite <- Hcw]. specialize (Hex eq_refl).
      pose proof (cnt_lookup holds_read _ _ _ Hp eq_refl). lia.
  - destruct p; try done. intros [= <- <-]. exists h; split; [done|].
    assert (Hp' : (wake_writer_cv <$> ps) !! t = Some WrNotify)
      by by rewrite list_lookup_fmap, Hp.
    pose proof (rel_silent (State s (wake_writer_cv <$> ps)) h s t WrNotify Idle Hp' eq_refl
      ltac:(done) eq_refl (rel_wake_w _ _ s HR)) as HR'. cbn [pcs] in HR'.
    exact HR'.
  - destruct p as [|[]| |[]|[]| | |[]]; try done; cbn; intros [= <- <-]; exists h; (split; [done|]);
     by eapply (rel_silent (State s ps)).
Qed.

Lemma run_rel k acts : forall st st' evs h,
  Inv k st -> Rel st h -> run k st acts = Some (st', evs) ->
  exists h', watch h evs = Some h' /\ Rel st' h'.
Proof.
  induction acts as [|[t a] acts IH]; intros st st' evs h HI HR Hr; cbn in Hr.
  - injection Hr as <- <-. by exists h.
  - destruct (step k st t a) as [[st1 e1]|] eqn:Hs; [|done].
    destruct (run k st1 acts) as [[st2 e2]|] eqn:Hr2; [|done].
    injection Hr as <- <-.
    destruct (step_rel _ _ _ _ _ _ _ HI HR Hs) as (h1 & Hh1 & HR1).
    destruct (IH _ _ _ _ (step_inv _ _ _ _ _ _ HI Hs) HR1 Hr2) as (h2 & Hh2 & HR2).
    exists h2. split; [by eapply watch_app|done].
Qed.

(** *** Progress *)
Lemma resume_awake k t p s ps :
  in_call p = true -> p <> WrNotify -> sleeping p = false ->
  exists r, resume k t p s ps = Some r.
Proof.
  destruct p as [|[]| |[]|[]| | |[]]; cbn; try done; intros; eauto.
  destruct k; [eauto|]. destruct (write_blocked2 s); eauto.
Qed.

Lemma c_zero_of p ps : (forall t, ps !! t <> Some p) -> c p ps = 0.
Proof.
  intros H. destruct (decide (c p ps = 0)) as [|Hn]; [done|].
  pose proof (c_nonneg p ps).
  destruct (cnt_witness (pc_eqb p) ps) as (t & q & Hq & He); [unfold c in *; lia|].
  exfalso. apply (H t). rewrite Hq. f_equal.
  destruct p as [|[]| |[]|[]| | |[]], q as [|[]| |[]|[]| | |[]]; done.
Qed.

Lemma inv_no_stuck k st :
  Inv k st -> (forall t a, draining a = true -> step k st t a = None) ->
  forall t p, pcs st !! t = Some p -> p = Idle.
Proof.
  intros HI Hstuck. destruct st as [s ps].
  assert (Hgone : forall p, p = Reading \/ p = Writing \/ p = WrNotify \/
     (in_call p = true /\ p <> WrNotify /\ sleeping p = false) -> c p ps = 0).
  { intros p Hp. apply c_zero_of. intros t Ht.
    pose proof (Hstuck t ARelease eq_refl) as S1. pose proof (Hstuck t ANotify eq_refl) as S2.
    pose proof (Hstuck t AResume eq_refl) as S3. unfold step in *. cbn [sh pcs] in *.
    rewrite Ht in *. destruct Hp as [->|[->|[->|(H1 & H2 & H3)]]]; try done.
    destruct (resume_awake k t p s ps H1 H2 H3) as [r Hr]. congruence. }
  pose proof (Hgone Reading ltac:(by left)) as G1.
  pose proof (Hgone Writing ltac:(by right; left)) as G2.
  pose proof (Hgone WrNotify ltac:(by right; right; left)) as G3.
  pose proof (Hgone (RdWait true) ltac:(by right; right; right)) as G4.
  pose proof (Hgone (WrWait1 true) ltac:(by right; right; right)) as G5.
  pose proof (Hgone (WrWait2 true) ltac:(by right; right; right)) as G6.
  pose proof (Hgone (UpWait true) ltac:(by right; right; right)) as G7.
  clear Hgone Hstuck. all_nonneg ps.
  destruct HI as [H1' H2' H3' H4' H5' H6' H7' H8' H9' H10' H11'].
  unfold n_up, n_w1, n_w2, n_rd, read_blocked, write_blocked2 in *. cbn [sh pcs] in *.
  destruct s as [pr nr pw cw pu]; cbn in *.
  assert (c (UpWait false) ps = 0) as G8 by (destruct pu; cbn in *; lia).
  assert (pu = false) as -> by (destruct pu; cbn in *; [lia|done]).
  assert (cw = false) as -> by (destruct cw; cbn in *; [lia|done]).
  assert (c (WrWait1 false) ps = 0) as G9 by (cbn in *; lia).
  assert (c (WrWait2 false) ps = 0) as G10 by (cbn in *; lia).
  assert (c (RdWait false) ps = 0) as G11 by (destruct k; cbn in *; lia).
  intros t p Hp. destruct p as [|[]| |[]|[]| | |[]]; try done;
    pose proof (c_here _ _ _ _ Hp (pc_eqb_refl _)); lia.
Qed.

(** A sleeping thread whose loop condition is false: a notify_all is still to come. *)
Lemma inv_no_lost_wakeup k st t p p' st' evs :
  Inv k st -> pcs st !! t = Some p -> sleeping_to_awake p = Some p' ->
  resume k t p' (sh st) (pcs st) = Some (st', evs) -> evs <> [] ->
  exists t', pcs st !! t' = Some WrNotify.
Proof.
  intros HI Hp Hs Hr He. destruct st as [s ps]. cbn [sh pcs] in *.
  pose proof (c_here p ps t p Hp (pc_eqb_refl p)) as Hc.
  enough (0 < c WrNotify ps) as Hw.
  { destruct (cnt_witness _ _ Hw) as (t' & q & Hq & Heq). exists t'. by destruct q. }
  pose proof (inv_s1 _ _ HI) as S1. pose proof (inv_su _ _ HI) as S2.
  pose proof (inv_sr _ _ HI) as S3. pose proof (inv_s2 _ _ HI) as S4. cbn [sh pcs] in *.
  destruct p as [|[]| |[]|[]| | |[]]; cbn in Hs; try done; injection Hs as <-;
    cbn [resume] in Hr.
  - destruct (S3 ltac:(lia)) as [Hb|]; [|done]. injection Hr as Hr. unfold read_loop in Hr.
    rewrite Hb in Hr. by injection Hr as <- <-.
  - specialize (S1 ltac:(lia)). injection Hr as Hr. unfold write_loop, write_blocked1 in Hr.
    rewrite (proj2 (Z.ltb_lt _ _) S1) in Hr. by injection Hr as <- <-.
  - destruct (S4 ltac:(lia)) as [Hb|]; [|done]. destruct k.
    + injection Hr as Hr. unfold write_loop2_base in Hr. rewrite Hb in Hr. by injection Hr as <- <-.
    + rewrite Hb in Hr. by injection Hr as <- <-.
  - specialize (S2 ltac:(lia)). injection Hr as Hr. unfold upgrade_loop in Hr.
    rewrite (proj2 (Z.ltb_lt _ _) S2) in Hr. by injection Hr as <- <-.
Qed.

(** Termination of draining. *)
Definition rank (p : pc) : Z :=
  match p with
  | Idle => 0 | WrNotify => 1 | Writing => 2 | Reading => 1 | UpWait _ => 3
  | RdWait _ => 2 | WrWait1 _ | WrWait2 _ => 3
  end.
Definition awake (p : pc) : bool :=
  match p with RdWait b | WrWait1 b | WrWait2 b | UpWait b => b | _ => false end.
Fixpoint total (ps : list pc) : Z := match ps with [] => 0 | p :: ps => rank p + total ps end.

Lemma total_insert ps t p q : ps !! t = Some p -> total (<[t := q]> ps) = total ps - rank p + rank q.
Proof.
  revert t; induction ps as [|x ps IH]; intros [|t] H; simpl in *; try done.
  - injection H as ->. lia.
  - rewrite (IH _ H). lia.
Qed.
Lemma total_fmap g ps : (forall p, rank (g p) = rank p) -> total (g <$> ps) = total ps.
Proof. intros H. induction ps as [|x ps IH]; cbn; [done|]. rewrite H, IH. done. Qed.
Lemma total_bounds ps : 0 <= total ps <= 3 * Z.of_nat (length ps).
Proof.
  induction ps as [|x ps IH]; cbn [total length]; [lia|].
  assert (0 <= rank x <= 3) by (destruct x; cbn; lia). lia.
Qed.

Definition measure (ps : list pc) : Z :=
  total ps * (Z.of_nat (length ps) + 1) + cnt awake ps.

Lemma measure_bounds ps :
  0 <= measure ps <= 3 * Z.of_nat (length ps) * (Z.of_nat (length ps) + 1) + Z.of_nat (length ps).
Proof.
  unfold measure. pose proof (total_bounds ps). pose proof (cnt_nonneg awake ps).
  pose proof (cnt_le_length awake ps). nia.
Qed.

Lemma measure_lt ps ps' :
  length ps' = length ps -> total ps' + 1 <= total ps -> measure ps' < measure ps.
Proof.
  intros Hl Ht. unfold measure. rewrite Hl. pose proof (cnt_nonneg awake ps).
  pose proof (cnt_le_length awake ps'). rewrite Hl in *. nia.
Qed.
Lemma measure_lt_awake ps ps' :
  length ps' = length ps -> total ps' = total ps -> cnt awake ps' < cnt awake ps ->
  measure ps' < measure ps.
Proof. intros Hl Ht Ha. unfold measure. rewrite Hl, Ht. lia. Qed.

Lemma rank_wake_r p : rank (wake_readers_cv p) = rank p.
Proof. by destruct p. Qed.
Lemma rank_wake_w p : rank (wake_writer_cv p) = rank p.
Proof. by destruct p. Qed.

Lemma measure_move ps t p q :
  ps !! t = Some p -> rank q < rank p -> measure (<[t := q]> ps) < measure ps.
Proof.
  intros Hp Hr. apply measure_lt; [by rewrite insert_length|].
  rewrite (total_insert _ _ _ _ Hp). lia.
Qed.
Lemma measure_move_wake g ps t p q :
  (forall p, rank (g p) = rank p) ->
  ps !! t = Some p -> rank q < rank p -> measure (<[t := q]> (g <$> ps)) < measure ps.
Proof.
  intros Hg Hp Hr. apply measure_lt; [by rewrite insert_length, fmap_length|].
  rewrite (total_insert _ _ (g p)) by (by rewrite list_lookup_fmap, Hp).
  rewrite total_fmap by done. rewrite Hg. lia.
Qed.
Lemma measure_sleep ps t p q :
  ps !! t = Some p -> rank q = rank p -> awake p = true -> awake q = false ->
  measure (<[t := q]> ps) < measure ps.
Proof.
  intros Hp Hr Hap Haq. apply measure_lt_awake; [by rewrite insert_length| |].
  - rewrite (total_insert _ _ _ _ Hp). lia.
  - rewrite (cnt_insert _ _ _ _ _ Hp), Hap, Haq. cbn. lia.
Qed.

Lemma step_length k st t a st' evs :
  step k st t a = Some (st', evs) -> length (pcs st') = length (pcs st).
Proof.
  unfold step. destruct st as [s ps]; cbn [sh pcs]. destruct (ps !! t) as [p|]; [|done].
  unfold read_loop, write_loop, write_loop2_base, upgrade, upgrade_loop, release_read, release_write,
    resume, read_loop, write_loop, write_loop2_base, upgrade_loop.
  destruct a, p as [|[]| |[]|[]| | |[]], k; cbn; try done;
  repeat match goal with |- context [if ?b then _ else _] => destruct b end;
  intros [= <- <-]; cbn; by rewrite ?insert_length, ?fmap_length.
Qed.

Lemma drain_decreases k st t a st' evs :
  draining a = true -> step k st t a = Some (st', evs) -> measure (pcs st') < measure (pcs st).
Proof.
  unfold step. destruct st as [s ps]; cbn [sh pcs]. destruct (ps !! t) as [p|] eqn:Hp; [|done].
  unfold upgrade, release_read, release_write,
    resume, read_loop, write_loop, write_loop2_base, upgrade_loop.
  intros Ha.
  destruct a, p as [|[]| |[]|[]| | |[]], k; try done;
  unfold write_blocked2;
  destruct (current_writer s), (pending_upgrade s); cbn [orb andb negb];
  repeat match goal with |- context [if ?b then _ else _] => destruct b end;
  intros [= <- <-]; cbn [pcs];
  first [ by eapply measure_move; [exact Hp|]
        | by eapply measure_move_wake; [exact rank_wake_r|exact Hp|]
        | by eapply measure_move_wake; [exact rank_wake_w|exact Hp|]
        | by eapply measure_sleep; [exact Hp|..] ].
Qed.

Lemma run_length k acts : forall st st' evs,
  run k st acts = Some (st', evs) -> length (pcs st') = length (pcs st).
Proof.
  induction acts as [|[t a] acts IH]; intros st st' evs Hr; cbn in Hr.
  - by injection Hr as <- <-.
  - destruct (step k st t a) as [[st1 e1]|] eqn:Hs; [|done].
    destruct (run k st1 acts) as [[st2 e2]|] eqn:Hr2; [|done].
    injection Hr as <- <-. erewrite IH by done. by eapply step_length.
Qed.

Lemma drain_bound k acts : forall st st' evs,
  Forall (fun ta => draining ta.2 = true) acts ->
  run k st acts = Some (st', evs) ->
  Z.of_nat (length acts) + measure (pcs st') <= measure (pcs st).
Proof.
  induction acts as [|[t a] acts IH]; intros st st' evs Hd Hr; cbn [run] in Hr.
  - injection Hr as <- <-. cbn. lia.
  - apply Forall_cons in Hd as [Ha Hd].
    destruct (step k st t a) as [[st1 e1]|] eqn:Hs; [|done].
    destruct (run k st1 acts) as [[st2 e2]|] eqn:Hr2; [|done].
    injection Hr as <- <-. specialize (IH _ _ _ Hd Hr2).
    pose proof (drain_decreases _ _ _ _ _ _ Ha Hs). cbn [length]. lia.
Qed.

(** *** isInUse *)
Lemma cnt_uses_lock ps :
  cnt uses_lock ps = n_rd ps + c Reading ps + n_w1 ps + n_w2 ps + c Writing ps + n_up ps.
Proof.
  unfold n_rd, n_w1, n_w2, n_up, c. induction ps as [|x ps IH]; cbn [cnt]; [done|].
  rewrite IH. destruct x as [|[]| |[]|[]| | |[]]; cbn; lia.
Qed.

Lemma inv_is_in_use st :
  Inv Base st ->
  is_in_use st = true <-> exists t p, pcs st !! t = Some p /\ uses_lock p = true.
Proof.
  intros HI. rewrite <- cnt_pos, cnt_uses_lock.
  destruct HI as [H1 H2 H3 H4 H5 _ _ _ _ _ _]. destruct st as [[pr nr pw cw pu] ps].
  unfold is_in_use. cbn [sh pcs pending_readers num_readers num_pending_writers current_writer
    pending_upgrade] in *.
  all_nonneg ps. unfold n_rd, n_w1, n_w2, n_up in *.
  destruct cw, pu; cbn [b2z] in *; lia.
Qed.

(** For the reader-first class isInUse sees holders and a registered upgrade, nothing else. *)
Lemma inv_is_in_use_rf st :
  Inv ReaderFirst st ->
  is_in_use st = true <->
  exists t p, pcs st !! t = Some p /\ (holds_read p || holds_write p) = true.
Proof.
  intros HI.
  rewrite <- (cnt_pos (fun p => holds_read p || holds_write p)).
  rewrite (cnt_split _ holds_read holds_write) by (by intros []).
  rewrite cnt_holds_read, cnt_holds_write.
  destruct HI as [H1 H2 H3 H4 H5 _ _ _ _ _ _]. destruct st as [[pr nr pw cw pu] ps].
  unfold is_in_use. cbn [sh pcs pending_readers num_readers num_pending_writers current_writer
    pending_upgrade] in *.
  all_nonneg ps. unfold n_rd, n_w1, n_w2, n_up in *.
  destruct cw, pu; cbn [b2z] in *; lia.
Qed.

(** *** Consequences of being accepted by the observer *)
Lemma watch_app_inv h es es' h2 :
  watch h (es ++ es') = Some h2 -> exists h1, watch h es = Some h1 /\ watch h1 es' = Some h2.
Proof.
  revert h; induction es as [|e es IH]; cbn; intros h H; [eauto|].
  destruct (watch1 h e); [by apply IH|done].
Qed.

Lemma watch_upgrader t es : forall h h',
  upgrader h = Some t -> watch h es = Some h' -> EvUpgradeGranted t ∉ es ->
  upgrader h' = Some t /\
  forall t', EvWriteAcquired t' ∉ es /\ EvUpgradeGranted t' ∉ es /\ EvUpgradeRequested t' ∉ es.
Proof.
  induction es as [|e es IH]; intros h h' Hu Hw Hn; cbn in Hw.
  - injection Hw as <-. split; [done|]. intros t'. split_and!; apply not_elem_of_nil.
  - destruct (watch1 h e) as [h1|] eqn:He; [|done].
    apply not_elem_of_cons in Hn as [Hne Hn].
    assert (upgrader h1 = Some t /\ forall t', e <> EvWriteAcquired t' /\ e <> EvUpgradeGranted t'
              /\ e <> EvUpgradeRequested t')
      as [Hu1 Hx].
    { destruct e; cbn in He; case_decide as Hd; try done; injection He as <-; cbn;
      try (split; [done|]; intros; split_and!; congruence); naive_solver congruence. }
    destruct (IH _ _ Hu1 Hw Hn) as [Hu' Hy]. split; [done|].
    intros t'. destruct (Hy t') as (? & ? & ?), (Hx t') as (? & ? & ?).
    rewrite !not_elem_of_cons. naive_solver.
Qed.

Lemma requested_upgrader h t h1 :
  watch1 h (EvUpgradeRequested t) = Some h1 -> upgrader h1 = Some t.
Proof. cbn. case_decide; [|done]. by intros [= <-]. Qed.

Lemma upgrade_refused_lemma k st t st' evs' :
  Inv k st -> step k st t AUpgrade = Some (st', evs') -> EvUpgradeRefused t ∈ evs' ->
  (exists t' b, t' <> t /\ pcs st !! t' = Some (UpWait b)) /\
  pcs st' !! t = Some Idle /\ step k st' t ARelease = None.
Proof.
  intros HI Hs Hin. destruct st as [s ps]. unfold step in Hs. cbn [sh pcs] in *.
  destruct (ps !! t) as [p|] eqn:Hp; [|done].
  assert (Hlt : (t < length ps)%nat) by (by eapply lookup_lt_Some).
  destruct p; try done. unfold upgrade in Hs. destruct (pending_upgrade s) eqn:Eu.
  - injection Hs as <- <-. pose proof (inv_pu _ _ HI) as Hpu. cbn [sh pcs] in Hpu.
    rewrite Eu, <- cnt_upgrading in Hpu. split.
    { destruct (cnt_witness upgrading ps) as (t' & q & Hq & Hu); [cbn in Hpu; lia|].
      destruct q; try done. eexists t', _. split; [|done]. intros ->. congruence. }
    assert (Hl : forall g, (<[t:=Idle]> (g <$> ps)) !! t = Some Idle).
    { intros g. apply list_lookup_insert. by rewrite fmap_length. }
    assert (Hl2 : (<[t:=Idle]> ps) !! t = Some Idle) by by apply list_lookup_insert.
    unfold step. destruct (_ =? _); cbn [sh pcs]; rewrite ?Hl, ?Hl2; done.
  - unfold upgrade_loop in Hs. destruct (1 <? _); injection Hs as <- <-; exfalso;
    repeat (apply elem_of_cons in Hin as [?|Hin]; [done|]); by apply elem_of_nil in Hin.
Qed.

Lemma no_deadlock_lemma k st :
  Inv k st -> (exists t p, pcs st !! t = Some p /\ p <> Idle) ->
  exists t a st' evs', draining a = true /\ step k st t a = Some (st', evs').
Proof.
  intros HI (t & p & Hp & Hn).
  destruct (decide (Exists (fun t => step k st t AResume <> None \/ step k st t ANotify <> None \/
     step k st t ARelease <> None) (seq 0 (length (pcs st))))) as [He|Hne].
  - apply Exists_exists in He as (t' & _ & [H|[H|H]]).
    + destruct (step k st t' AResume) as [[]|] eqn:E; [|done]. by eexists t', AResume, _, _.
    + destruct (step k st t' ANotify) as [[]|] eqn:E; [|done]. by eexists t', ANotify, _, _.
    + destruct (step k st t' ARelease) as [[]|] eqn:E; [|done]. by eexists t', ARelease, _, _.
  - exfalso. apply Hn. eapply inv_no_stuck; [done| |done].
    intros t' a Ha. destruct (step k st t' a) as [[st1 e1]|] eqn:E; [|done].
    exfalso. apply Hne, Exists_exists. exists t'. split.
    + apply elem_of_list_In, in_seq. split; [lia|]. unfold step in E.
      destruct (pcs st !! t') eqn:E2; [|done]. apply lookup_lt_Some in E2. lia.
    + destruct a; try done; rewrite E; naive_solver.
Qed.

Lemma no_deadlock_unheld_lemma k st :
  Inv k st ->
  (forall t p, pcs st !! t = Some p -> holds_read p = true -> in_call p = true) ->
  (forall t p, pcs st !! t = Some p -> holds_write p = false) ->
  (exists t p, pcs st !! t = Some p /\ in_call p = true) ->
  exists t p a st' evs', pcs st !! t = Some p /\ in_call p = true /\ (a = AResume \/ a = ANotify) /\
    step k st t a = Some (st', evs').
Proof.
  intros HI Hr Hw (t & p & Hp & Hc).
  destruct (no_deadlock_lemma k st HI) as (t' & a & st' & evs' & Ha & Hs).
  { exists t, p. split; [done|]. by intros ->. }
  pose proof Hs as Hs2. unfold step in Hs2. destruct (pcs st !! t') as [q|] eqn:Hq; [|done].
  exists t', q, a, st', evs'.
  specialize (Hr _ _ Hq). specialize (Hw _ _ Hq).
  destruct a; try done; destruct q as [|[]| |[]|[]| | |[]]; try done; cbn in *;
    try (by specialize (Hr eq_refl)); split_and!; try done; try (by left); by right.
Qed.

Lemma drains_lemma k n acts st evs acts' st' evs' :
  run k (init n) acts = Some (st, evs) ->
  Forall (fun ta => draining ta.2 = true) acts' ->
  run k st acts' = Some (st', evs') ->
  Z.of_nat (length acts') <= 3 * Z.of_nat n * (Z.of_nat n + 1) + Z.of_nat n /\
  ((forall t a, draining a = true -> step k st' t a = None) ->
   forall t p, pcs st' !! t = Some p -> p = Idle).
Proof.
  intros H Hd H'. split.
  - pose proof (drain_bound _ _ _ _ _ Hd H') as Hb.
    pose proof (measure_bounds (pcs st)) as Hm. pose proof (measure_bounds (pcs st')) as Hm'.
    pose proof (run_length _ _ _ _ _ H) as Hl. cbn in Hl. rewrite replicate_length in Hl.
    rewrite Hl in Hm. lia.
  - apply inv_no_stuck. eapply run_inv; [|done]. eapply run_inv; [|done]. apply inv_init.
Qed.

Lemma is_in_use_rf_witness : exists n acts st evs t p,
  run ReaderFirst (init n) acts = Some (st, evs) /\
  pcs st !! t = Some p /\ uses_lock p = true /\ is_in_use st = false.
Proof.
  exists 2%nat, [(0, AWrite); (1, ARead); (0, ARelease)]%nat. do 2 eexists. exists 1%nat.
  eexists. split; [vm_compute; reflexivity|]. cbn. done.
Qed.

Lemma counters_lemma k n acts st evs :
  run k (init n) acts = Some (st, evs) ->
  0 <= num_readers (sh st) <= Z.of_nat n /\ 0 <= pending_readers (sh st) <= Z.of_nat n /\
  0 <= num_pending_writers (sh st) <= Z.of_nat n.
Proof.
  intros H. pose proof (run_inv _ _ _ _ _ (inv_init k n) H) as HI.
  pose proof (run_length _ _ _ _ _ H) as Hl. cbn in Hl. rewrite replicate_length in Hl.
  pose proof (cnt_le_length uses_lock (pcs st)) as Hc. rewrite cnt_uses_lock, Hl in Hc.
  destruct HI as [H1 H2 H3 H4 H5 _ _ _ _ _ _]. all_nonneg (pcs st).
  unfold n_rd, n_w1, n_w2, n_up in *. destruct k; lia.
Qed.
