(** Property C40. *)
From Coq Require Import ZArith Bool Lia Relations.
From stdpp Require Import list.
From Verif Require Import TrackModel TrackSpec TrackProofs TrackHistory.
Local Open Scope nat_scope.

(** One call, whatever track ids the two frames have, as long as at most 2^31 ids have been issued:
    matched keypoints end with a common non-negative id, non-negative ids are never changed, and other
    keypoints are untouched. (Also if both frames are the same.) *)
Theorem kx_matches_partial w a b ms w' :
  (0 <= counter w)%Z -> (counter w + Z.of_nat (length ms) <= 2 ^ 31)%Z ->
  step w (AApply a b ms) = Some w' ->
  (forall i j, (i, j) ∈ ms -> exists t, (0 <= t)%Z /\
     id_at w' (a, Z.to_nat i) = Some t /\ id_at w' (b, Z.to_nat j) = Some t) /\
  (forall p t, id_at w p = Some t -> (0 <= t)%Z -> id_at w' p = Some t) /\
  (forall p, (forall i j, (i, j) ∈ ms -> p <> (a, Z.to_nat i) /\ p <> (b, Z.to_nat j)) -> id_at w' p = id_at w p).
Proof.
  intros H0 Hb H. apply apply_matches_after in H; [|done|done]. destruct H as [D K U C M]. split; [|split].
  - intros i j Hm. apply M. unfold edges_of. apply elem_of_list_fmap. by exists (i, j).
  - done.
  - intros p Hp. apply U. intros (e & He & Hor). unfold edges_of in He.
    apply elem_of_list_fmap in He as ([i j] & -> & Hm). cbn in Hor. destruct (Hp i j Hm). destruct Hor; congruence.
Qed.
Print Assumptions kx_matches_partial.

(** The call succeeds exactly if the matches are in range and exclusive and no match joins two different
    tracks. *)
Theorem kx_succeeds w a b ms : a <> b ->
  is_Some (step w (AApply a b ms)) <->
  is_Some (frames w !! a) /\ is_Some (frames w !! b) /\
  (forall i j, (i, j) ∈ ms -> (0 <= i)%Z /\ (0 <= j)%Z /\
     is_Some (id_at w (a, Z.to_nat i)) /\ is_Some (id_at w (b, Z.to_nat j)) /\
     forall s t, id_at w (a, Z.to_nat i) = Some s -> id_at w (b, Z.to_nat j) = Some t ->
       (0 <= s)%Z -> (0 <= t)%Z -> s = t) /\
  NoDup ms.*1 /\ NoDup ms.*2.
Proof. apply apply_matches_succeeds. Qed.
Print Assumptions kx_succeeds.

(** New ids of one call are not below the counter, below the new counter, and issued in increasing order
    along the list of matches; so they differ from each other. *)
Theorem kx_new_ids w a b ms w' : a <> b ->
  (0 <= counter w)%Z -> (counter w + Z.of_nat (length ms) <= 2 ^ 31)%Z ->
  step w (AApply a b ms) = Some w' ->
  exists new : nat -> Z, forall k i j s t, ms !! k = Some (i, j) ->
    id_at w (a, Z.to_nat i) = Some s -> id_at w (b, Z.to_nat j) = Some t -> (s < 0)%Z -> (t < 0)%Z ->
    id_at w' (a, Z.to_nat i) = Some (new k) /\ id_at w' (b, Z.to_nat j) = Some (new k) /\
    (counter w <= new k < counter w')%Z /\
    forall k' i' j' s' t', k < k' -> ms !! k' = Some (i', j') ->
      id_at w (a, Z.to_nat i') = Some s' -> id_at w (b, Z.to_nat j') = Some t' -> (s' < 0)%Z -> (t' < 0)%Z ->
      (new k < new k')%Z.
Proof.
  intros Nab H0 Hb H. pose proof (kx_matches_partial _ _ _ _ _ H0 Hb H) as (Hm & _ & _).
  cbn [step] in H. apply apply_matches_inv in H as (w2 & A & B & Hc & Hi & HA & HB & H).
  apply new_ids in H as [Hcount Hk]; [|done|lia|lia].
  exists (fun k => counter w2 + Z.of_nat (count_new w2 a b (take k ms)))%Z.
  assert (Hnew : forall i j s t, id_at w (a, Z.to_nat i) = Some s -> id_at w (b, Z.to_nat j) = Some t ->
    (s < 0)%Z -> (t < 0)%Z -> is_new w2 a b (i, j) = true).
  { intros i j s t Hs Ht Ls Lt. unfold is_new, pa, pb. cbn. rewrite !Hi, Hs, Ht.
    rewrite (proj2 (Z.ltb_lt s 0)), (proj2 (Z.ltb_lt t 0)) by done. done. }
  assert (Hlt : forall k k' i j, k < k' -> ms !! k = Some (i, j) -> is_new w2 a b (i, j) = true ->
    count_new w2 a b (take k ms) < count_new w2 a b (take k' ms)).
  { intros k k' i j L Hl Hn. unfold count_new.
    assert (E : take k' ms = take k ms ++ (i, j) :: drop (S k) (take k' ms)).
    { assert (Hl' : take k' ms !! k = Some (i, j)) by (by rewrite lookup_take).
      rewrite <- (take_drop_middle _ _ _ Hl') at 1. by rewrite take_take, Nat.min_l by lia. }
    rewrite E, List.filter_app, app_length. cbn. rewrite Hn. cbn. lia. }
  assert (Hall : forall k i j, ms !! k = Some (i, j) -> is_new w2 a b (i, j) = true ->
    count_new w2 a b (take k ms) < count_new w2 a b ms).
  { intros k i j Hl Hn. rewrite <- (take_ge ms (length ms)) at 2 by done. eapply Hlt; [|done|done].
    by eapply lookup_lt_Some. }
  intros k i j s t Hl Hs Ht Ls Lt. pose proof (Hnew _ _ _ _ Hs Ht Ls Lt) as Hn.
  pose proof (Hk k (i, j) Hl Hn) as Hid. unfold pa in Hid. cbn in Hid. split; [done|]. split.
  - destruct (Hm i j) as (x & _ & Hx & Hy); [by eapply elem_of_list_lookup_2|]. rewrite Hy, <- Hx. exact Hid.
  - split.
    + pose proof (Hall _ _ _ Hl Hn). rewrite Hcount, Hc. lia.
    + intros k' i' j' s' t' L Hl' Hs' Ht' Ls' Lt'. pose proof (Hlt _ _ _ _ L Hl Hn). lia.
Qed.
Print Assumptions kx_new_ids.

(** Whole histories of new frames and applied matches: two keypoints carry the same non-negative track
    id exactly if they are connected by matches; keypoints without match carry -1; ids are below the
    number of matches applied and below the next id to be issued. *)
Theorem kx_tracks_partial acts w :
  Forall no_reset acts -> (Z.of_nat (length (applied acts)) <= 2 ^ 31)%Z -> run init acts = Some w ->
  (forall p s, id_at w p = Some s ->
     (touched (applied acts) p /\ (0 <= s < counter w)%Z) \/ (~ touched (applied acts) p /\ s = (-1)%Z)) /\
  (forall p q s t, id_at w p = Some s -> id_at w q = Some t -> (0 <= s)%Z -> (0 <= t)%Z ->
     (s = t <-> connected (applied acts) p q)).
Proof.
  intros Hn Hb H. apply (inv_run _ _ []) in H; [|done|done|apply inv_init]. cbn in H.
  destruct H as [C R T D K]. split.
  - intros p s Hp. pose proof (R _ _ Hp) as [->|Hs].
    + right. split; [|done]. intros (e & He & Hor). destruct e as [x y]. destruct (D x y He) as (t & Ht & Hx & Hy).
      cbn in Hor. destruct Hor as [-> | ->]; [assert (t = -1)%Z by congruence|assert (t = -1)%Z by congruence]; lia.
    + left. split; [|done]. apply (T p s); [done|lia].
  - intros p q s t Hp Hq Ls Lt. split.
    + intros <-. by apply (K p q s).
    + intros Hc. assert (Hall : forall x y, connected (applied acts) x y -> forall u v, id_at w x = Some u -> id_at w y = Some v -> u = v).
      { clear p q s t Hp Hq Ls Lt Hc. intros x y Hc.
        assert (id_at w x = id_at w y); [|congruence].
        induction Hc as [x y Hxy|x|x y _ IH|x y z _ IH1 _ IH2]; [|done|done|congruence].
        destruct (D x y Hxy) as (u & _ & Hx & Hy). congruence. }
      by apply (Hall p q Hc).
Qed.
Print Assumptions kx_tracks_partial.

Example ex_tracks :
  let acts := [ANewFrame 3; ANewFrame 4; ANewFrame 2;
               AApply 0 1 [(0, 2); (2, 0)]%Z; AApply 1 2 [(1, 0); (2, 1)]%Z; AApply 0 2 [(0, 1)]%Z] in
  exists w, run init acts = Some w /\ Forall no_reset acts /\
    channel w 0 = Some [0; -1; 1]%Z /\ channel w 1 = Some [1; 2; 0; -1]%Z /\ channel w 2 = Some [2; 0]%Z /\ counter w = 3%Z /\
    step w (AApply 0 2 [(2, 1)]%Z) = None.
Proof.
  eexists. split; [vm_compute; reflexivity|]. split; [by repeat constructor|]. by vm_compute.
Qed.

(** After resetIdProvider two unrelated keypoints get the same track id. *)
Theorem kx_reset_refuted :
  exists acts w p q, run init acts = Some w /\ id_at w p = Some 0%Z /\ id_at w q = Some 0%Z /\
    ~ connected (applied acts) p q.
Proof.
  exists [ANewFrame 1; ANewFrame 1; AApply 0 1 [(0, 0)]%Z; AReset; ANewFrame 1; ANewFrame 1; AApply 2 3 [(0, 0)]%Z].
  eexists. exists (0, 0), (2, 0). split; [vm_compute; reflexivity|]. split; [done|]. split; [done|]. cbn.
  intros H. assert (Hi : forall x y : nat * nat, connected [((0, 0), (1, 0)); ((2, 0), (3, 0))] x y -> (x.1 < 2 <-> y.1 < 2)).
  { clear H. intros x y. induction 1 as [x y Hxy|x|x y _ IH|x y z _ IH1 _ IH2]; [|done|by symmetry|by rewrite IH1].
    apply elem_of_cons in Hxy as [Hxy|Hxy]; [injection Hxy as -> ->; cbn; lia|].
    apply elem_of_list_singleton in Hxy. injection Hxy as -> ->. cbn. lia. }
  apply Hi in H. cbn in H. lia.
Qed.
Print Assumptions kx_reset_refuted.

(** Every counter value is reached. *)
Lemma one_more w : exists w', run w [ANewFrame 1; ANewFrame 1; AApply (length (frames w)) (S (length (frames w))) [(0, 0)]%Z] = Some w' /\
  counter w' = next_counter (counter w) /\
  id_at w' (length (frames w), 0) = Some (int_of_size (counter w)) /\
  id_at w' (S (length (frames w)), 0) = Some (int_of_size (counter w)).
Proof.
  set (n := length (frames w)). cbn [run step mbind option_bind].
  set (w2 := World ((frames w ++ [Frame 1 None]) ++ [Frame 1 None]) (counter w)).
  assert (Ha : frames w2 !! n = Some (Frame 1 None)).
  { cbn [frames w2]. rewrite lookup_app_l by (rewrite app_length; cbn; unfold n; lia).
    rewrite lookup_app_r by (unfold n; lia). unfold n. by rewrite Nat.sub_diag. }
  assert (Hb : frames w2 !! S n = Some (Frame 1 None)).
  { cbn [frames w2]. rewrite lookup_app_r by (rewrite app_length; cbn; unfold n; lia). rewrite app_length. cbn [length].
    replace (S n - (length (frames w) + 1)) with 0 by (unfold n; lia). done. }
  assert (Ia : id_at w2 (n, 0) = Some (-1)%Z) by (unfold id_at; cbn [fst]; by rewrite Ha).
  assert (Ib : id_at w2 (S n, 0) = Some (-1)%Z) by (unfold id_at; cbn [fst]; by rewrite Hb).
  assert (Hs : is_Some (apply_matches w2 n (S n) [(0, 0)]%Z)).
  { apply apply_matches_succeeds; [lia|]. split; [by rewrite Ha|]. split; [by rewrite Hb|].
    split; [|split; repeat constructor; apply not_elem_of_nil].
    intros i j Hm. apply elem_of_list_singleton in Hm. injection Hm as -> ->. change (Z.to_nat 0) with 0.
    split; [lia|]. split; [lia|]. split; [by rewrite Ia|]. split; [by rewrite Ib|].
    intros s t Hs Ht Ls. rewrite Ia in Hs. injection Hs as <-. lia. }
  destruct Hs as [w' H]. exists w'. unfold w2 in H. cbn in H. fold w2 in H. split.
  { change (apply_matches w2 n (S n) [(0%Z, 0%Z)] ≫= (fun w' => Some w') = Some w'). rewrite H. done. }
  apply apply_matches_inv in H as (w3 & A & B & Hc & Hi & HA & HB & H).
  apply apply_loop_cons in H as (_ & _ & _ & _ & w4 & H1 & H2). cbn in H2. injection H2 as <-.
  apply apply_match_spec in H1 as [(s & t & Hs & Ht & He) _]. change (Z.to_nat 0) with 0 in *. rewrite Hi in Hs, Ht.
  rewrite Ia in Hs. rewrite Ib in Ht. injection Hs as <-. injection Ht as <-.
  destruct He as [_ _ Hn Hid| | | ]; [|lia|lia|lia].
  rewrite Hc in Hn, Hid. split; [done|]. rewrite !Hid, !decide_True by auto. done.
Qed.
Lemma run_app : forall l1 w l2, run w (l1 ++ l2) = run w l1 ≫= (fun w' => run w' l2).
Proof.
  induction l1 as [|x l1 IH]; intros w l2; [done|]. cbn. destruct (step w x) as [w1|]; cbn; [apply IH|done].
Qed.
Lemma reach_counter : forall n : N, (Z.of_N n < 2 ^ 64)%Z ->
  exists acts w, Forall no_reset acts /\ run init acts = Some w /\ counter w = Z.of_N n.
Proof.
  apply (N.peano_ind (fun n => (Z.of_N n < 2 ^ 64)%Z -> exists acts w, Forall no_reset acts /\ run init acts = Some w /\ counter w = Z.of_N n)).
  - intros _. by exists [], init.
  - intros n IH Hn. destruct IH as (acts & w & F & H & C); [lia|].
    destruct (one_more w) as (w' & H' & C' & _).
    eexists (acts ++ _), w'. split; [|split; [rewrite run_app, H; exact H'|]].
    + apply Forall_app. split; [done|]. by repeat constructor.
    + rewrite C', C. unfold next_counter. rewrite Z.mod_small; lia.
Qed.

(** After 2^31 ids the next "new track" gets a negative id: the matched keypoints stay untracked. *)
Theorem kx_overflow_refuted :
  exists acts w a b w' t, Forall no_reset acts /\ run init acts = Some w /\
    run w [ANewFrame 1; ANewFrame 1; AApply a b [(0, 0)]%Z] = Some w' /\
    id_at w' (a, 0) = Some t /\ (t < 0)%Z.
Proof.
  destruct (reach_counter (2 ^ 31)) as (acts & w & F & H & C); [done|].
  destruct (one_more w) as (w' & H' & _ & I & _).
  eexists acts, w, _, _, w', _. split; [done|]. split; [done|]. split; [exact H'|]. split; [exact I|].
  rewrite C. by vm_compute.
Qed.
Print Assumptions kx_overflow_refuted.
(** After 2^64 ids the numbers start again from 0. *)
Theorem kx_wrap_refuted :
  exists acts w a b w', Forall no_reset acts /\ run init acts = Some w /\ counter w = 18446744073709551615%Z /\
    run w [ANewFrame 1; ANewFrame 1; AApply a b [(0, 0)]%Z] = Some w' /\ counter w' = 0%Z.
Proof.
  destruct (reach_counter (2 ^ 64 - 1)) as (acts & w & F & H & C); [done|].
  destruct (one_more w) as (w' & H' & C' & _).
  eexists acts, w, _, _, w'. split; [done|]. split; [done|]. split; [by rewrite C|]. split; [exact H'|].
  rewrite C', C. by vm_compute.
Qed.
Print Assumptions kx_wrap_refuted.
