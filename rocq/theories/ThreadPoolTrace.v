(** The history of a pool and its state. *)
From Coq Require Import ZArith Lia Bool ZifyBool.
From stdpp Require Import list gmap.
From Verif Require Import Counting ThreadPoolModel ThreadPoolSpec ThreadPoolProofs.
Open Scope Z_scope.

Local Arguments of_group : simpl never.

Lemma run_hist (P : list event -> state -> Prop) :
  (forall h st a st' es, P h st -> step st a = Some (st', es) -> P (h ++ es) st') ->
  forall acts st h st' es, P h st -> run st acts = Some (st', es) -> P (h ++ es) st'.
Proof.
  intros Hs. induction acts as [|a acts IH]; intros st h st' es HP Hr; cbn in Hr.
  - injection Hr as <- <-. by rewrite app_nil_r.
  - destruct (step st a) as [[st1 e1]|] eqn:E; [|done].
    destruct (run st1 acts) as [[st2 e2]|] eqn:Hr2; [|done]. injection Hr as <- <-.
    rewrite app_assoc. eapply IH; [|done]. by eapply Hs.
Qed.

Lemma run_inv acts st st' es : Inv st -> run st acts = Some (st', es) -> Inv st'.
Proof.
  intros HI Hr. refine (run_hist (fun _ => Inv) _ acts st [] st' es HI Hr).
  intros; by eapply step_inv.
Qed.

Definition exe (w : worker) : option task := match w with WRun t => Some t | _ => None end.

Lemma executing_def st : executing st = omap exe (workers st).
Proof. done. Qed.

Lemma omap_insert_perm (ws : list worker) (w : nat) x y :
  ws !! w = Some x ->
  omap exe (<[w := y]> ws) ++ option_list (exe x) ≡ₚ omap exe ws ++ option_list (exe y).
Proof.
  intros H. rewrite <- (take_drop_middle ws w x H) at 2.
  rewrite insert_take_drop by (by eapply lookup_lt_Some).
  rewrite !omap_app. cbn [omap list_omap]. 
  rewrite <- !app_assoc. f_equiv.
  destruct (exe x), (exe y); cbn; rewrite ?app_nil_r; try done.
  - rewrite <- !Permutation_cons_append. constructor.
  - by rewrite <- !Permutation_cons_append.
  - by rewrite <- !Permutation_cons_append.
Qed.

Lemma executing_wake (ws : list worker) : omap exe (wake_worker <$> ws) = omap exe ws.
Proof. induction ws as [|[] ws IH]; cbn; [done|..]; by rewrite <- IH. Qed.

Lemma inserted_app h es : inserted (h ++ es) = inserted h ++ inserted es.
Proof. apply omap_app. Qed.
Lemma started_app h es : started (h ++ es) = started h ++ started es.
Proof. apply omap_app. Qed.
Lemma finished_app h es : finished (h ++ es) = finished h ++ finished es.
Proof. apply omap_app. Qed.
Lemma of_group_app g l1 l2 : of_group g (l1 ++ l2) = of_group g l1 ++ of_group g l2.
Proof. apply filter_app. Qed.

Record Hist (h : list event) (st : state) : Prop := {
  h_inv : Inv st;
  h_order : forall g, of_group g (inserted h) = of_group g (started h) ++ of_group g (queue st);
  h_ids : tid <$> inserted h = seq 0 (next_id st);
  h_perm : inserted h ≡ₚ started h ++ queue st;
  h_run : started h ≡ₚ finished h ++ executing st }.

Lemma hist_init n m : Hist [] (init n m).
Proof.
  constructor; try done; [apply inv_init|]. unfold executing; cbn.
  induction n as [|n IH]; cbn; done.
Qed.

(** Steps without an event leave the books as they are. *)
Lemma hist_silent h st st' :
  Hist h st -> Inv st' -> queue st' = queue st -> next_id st' = next_id st ->
  executing st' = executing st -> Hist h st'.
Proof. intros [A B C D E] HI H1 H2 H3. constructor; [done|..]; by rewrite ?H1, ?H2, ?H3. Qed.

Lemma executing_set_worker st w x y :
  workers st !! w = Some x -> exe x = exe y ->
  executing (set_worker w y st) ≡ₚ executing st.
Proof.
  intros Hw He. pose proof (omap_insert_perm _ _ _ y Hw) as H. rewrite He in H.
  by apply Permutation_app_inv_r in H.
Qed.

Lemma omap_insert_same (ws : list worker) (w : nat) x y :
  ws !! w = Some x -> exe x = exe y -> omap exe (<[w := y]> ws) = omap exe ws.
Proof.
  revert w; induction ws as [|z ws IH]; intros [|w] H He; simpl in *; try done.
  - injection H as ->. by rewrite He.
  - specialize (IH _ H He). destruct (exe z); [f_equal|]; exact IH.
Qed.

Lemma step_hist h st a st' es : Hist h st -> step st a = Some (st', es) -> Hist (h ++ es) st'.
Proof.
  intros HH Hs. pose proof (h_inv _ _ HH) as HI. pose proof (step_inv _ _ _ _ HI Hs) as HI'.
  assert (Hsil : forall st'', st'' = st' -> es = [] -> queue st'' = queue st ->
     next_id st'' = next_id st -> executing st'' = executing st -> Hist (h ++ es) st').
  { intros ? -> -> ? ? ?. rewrite app_nil_r. by eapply hist_silent. }
  assert (Hext : forall e, es = [e] -> inserted [e] = [] -> started [e] = [] -> finished [e] = [] ->
    queue st' = queue st -> next_id st' = next_id st -> executing st' = executing st ->
    Hist (h ++ es) st').
  { intros e -> H1 H2 H3 H4 H5 H6. destruct HH as [A B C D E].
    constructor; rewrite ?inserted_app, ?started_app, ?finished_app, ?H1, ?H2, ?H3, ?app_nil_r,
      ?H4, ?H5, ?H6; done. }
  destruct a as [c g|c|c x|c|c|c|c|c|w|w|w|c]; cbn in Hs.
  - destruct (clients st !! c) as [[]|] eqn:Hc; try done.
    destruct (stop st); injection Hs as <- <-; [by eapply Hext|by eapply Hsil].
  - destruct (clients st !! c) as [[]|] eqn:Hc; try done.
    injection Hs as <- <-. destruct HH as [A B C D E]. constructor; cbn; try done.
    + intros g'. rewrite inserted_app, started_app. cbn. rewrite app_nil_r.
      rewrite !of_group_app, B. by rewrite app_assoc.
    + rewrite inserted_app, fmap_app, C.
      change (0%nat :: seq 1 (next_id st)) with (seq 0 (S (next_id st))). by rewrite seq_S.
    + rewrite inserted_app, started_app. cbn. rewrite app_nil_r, D. by rewrite app_assoc.
    + rewrite started_app, finished_app. cbn. by rewrite !app_nil_r, E.
  - destruct (clients st !! c) as [[]|] eqn:Hc; try done.
    destruct (notify_one x st) as [st1|] eqn:Hn; [|done]. injection Hs as <- <-.
    destruct x as [w|c'|]; cbn in Hn.
    + destruct (workers st !! w) as [[]|] eqn:Hw; try done. injection Hn as <-.
      eapply Hsil; try done. unfold executing; cbn. by eapply omap_insert_same.
    + destruct (clients st !! c') as [[]|] eqn:Hw; try done. injection Hn as <-. by eapply Hsil.
    + destruct (_ || _); [done|]. injection Hn as <-. by eapply Hsil.
  - destruct (clients st !! c) as [[]|] eqn:Hc; try done. injection Hs as <- <-. by eapply Hsil.
  - destruct (clients st !! c) as [[]|] eqn:Hc; try done.
    unfold wait_check in Hs. destruct (_ || _) eqn:Hx; injection Hs as <- <-;
     [by eapply Hsil|by eapply Hext].
  - destruct (clients st !! c) as [[]|] eqn:Hc; try done. injection Hs as <- <-. by eapply Hsil.
  - destruct (clients st !! c) as [[]|] eqn:Hc; try done. injection Hs as <- <-. by eapply Hsil.
  - destruct (clients st !! c) as [[]|] eqn:Hc; try done. injection Hs as <- <-.
    eapply Hsil; try done. unfold executing; cbn. apply executing_wake.
  - destruct (workers st !! w) as [[]|] eqn:Hw; try done. injection Hs as Hs.
    unfold select in Hs. fold (found st) in Hs.
    destruct (found st) as [[t q']|] eqn:Hf.
    + apply found_Some in Hf as (l & r & Hq & -> & Hb & Hl).
      assert (Hstart : forall gs n a,
        let st'' := State (l ++ r) gs n a (stop st) (next_id st) (<[w:=WRun t]> (workers st))
                          (clients st) in
        st'' = st' -> es = [EvStarted w t] -> Hist (h ++ es) st').
      { intros gs n a st'' <- ->. subst st''. destruct HH as [A B C D E]. constructor; cbn; try done.
        - intros g. rewrite inserted_app, started_app. cbn. rewrite app_nil_r, B, Hq.
          rewrite !of_group_app. rewrite <- app_assoc. f_equal.
          (* every task in l is in another group, unless the group of t is non-exclusive *)
          assert (Hlg : of_group (grp t) l = []).
          { destruct (of_group (grp t) l) as [|y l'] eqn:El; [done|exfalso].
            assert (y ∈ of_group (grp t) l) as Hy by (rewrite El; left).
            apply elem_of_list_filter in Hy as [Hg Hin].
            rewrite Forall_forall in Hl. specialize (Hl _ Hin).
            unfold blocked in Hl, Hb. unfold is_nonexcl in Hl, Hb. rewrite Hg in Hl.
            congruence. }
          unfold of_group in *. rewrite !filter_cons. cbn [filter list_filter].
          destruct (decide (grp t = g)) as [<-|Hn].
          + rewrite Hlg. done.
          + done.
        - rewrite inserted_app. cbn. by rewrite app_nil_r.
        - rewrite inserted_app, started_app. cbn. rewrite app_nil_r, D, Hq.
          rewrite <- app_assoc. f_equiv. cbn. by rewrite Permutation_middle.
        - rewrite started_app, finished_app. cbn. rewrite app_nil_r, E.
          unfold executing. cbn. pose proof (omap_insert_perm _ _ _ (WRun t) Hw) as HP.
          cbn [exe option_list] in HP. rewrite app_nil_r in HP. fold exe.
          rewrite HP. by rewrite app_assoc. }
      destruct (is_nonexcl t) eqn:Hne.
      * injection Hs as Hs <-. by eapply Hstart.
      * destruct (guards st !! grp t) as [[]|] eqn:Hg.
        -- exfalso. unfold blocked, guard_active in Hb. by rewrite Hne, Hg in Hb.
        -- injection Hs as Hs <-. by eapply Hstart.
        -- exfalso. eapply (i_q _ HI t); [|by apply is_nonexcl_false|done].
           rewrite Hq. apply elem_of_app. right. left.
    + destruct (stop st && _) eqn:Hst.
      * injection Hs as <- <-. eapply Hext; try done.
        unfold executing; cbn. by eapply omap_insert_same.
      * injection Hs as <- <-. eapply Hsil; try done.
        unfold executing; cbn. by eapply omap_insert_same.
  - destruct (workers st !! w) as [[]|] eqn:Hw; try done. injection Hs as Hs.
    assert (Hfin : forall gs a,
        let st'' := State (queue st) gs (num_nonexcl st) a (stop st) (next_id st)
              (<[w:=WReady]> (wake_worker <$> workers st)) (wake_client <$> clients st) in
        st'' = st' -> es = [EvFinished w t] -> Hist (h ++ es) st').
    { intros gs a st'' <- ->. subst st''. destruct HH as [A B C D E]. constructor; cbn; try done.
      - intros g. rewrite inserted_app, started_app. cbn. by rewrite !app_nil_r.
      - rewrite inserted_app. cbn. by rewrite app_nil_r.
      - rewrite inserted_app, started_app. cbn. by rewrite !app_nil_r.
      - rewrite started_app, finished_app. cbn. rewrite app_nil_r, E.
        unfold executing. cbn. fold exe.
        assert (Hw2 : (wake_worker <$> workers st) !! w = Some (WRun t)) by by apply wake_worker_run.
        pose proof (omap_insert_perm _ _ _ WReady Hw2) as HP. cbn [exe option_list] in HP.
        rewrite app_nil_r, executing_wake in HP. rewrite <- HP.
        rewrite <- app_assoc. f_equiv. by rewrite Permutation_app_comm. }
    unfold finish in Hs. destruct (is_nonexcl t) eqn:Hne.
    + injection Hs as Hs <-. by eapply Hfin.
    + assert (guards st !! grp t = Some true) as Hg.
      { apply (i_guard _ HI); [by apply is_nonexcl_false|]. by exists w, t. }
      rewrite Hg in Hs. injection Hs as Hs <-. by eapply Hfin.
  - destruct (workers st !! w) as [[]|] eqn:Hw; try done. injection Hs as <- <-.
    eapply Hsil; try done. unfold executing; cbn. by eapply omap_insert_same.
  - destruct (clients st !! c) as [[]|] eqn:Hc; try done. injection Hs as <- <-. by eapply Hsil.
Qed.

Lemma run_hist_init n m acts st evs :
  run (init n m) acts = Some (st, evs) -> Hist evs st.
Proof.
  intros H. refine (run_hist Hist step_hist acts (init n m) [] st evs (hist_init n m) H).
Qed.
