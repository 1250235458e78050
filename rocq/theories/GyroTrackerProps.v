(** Properties C41, C68, C69. *)
From Coq Require Import ZArith QArith Qround Bool Lia.
From stdpp Require Import list list_numbers sorting.
From Verif Require Import StlHelpersModel GyroTrackerModel GyroTrackerSpec GyroTrackerProofs.
Local Open Scope nat_scope.

(** ** C41 *)
Theorem yx_candidates s sd su n n_kp1 ms len st out : sorts sd ge -> sorts su le -> (0 <= ratio s)%Q ->
  lk_candidates s sd su n n_kp1 ms len st = Ok out ->
  NoDup out /\
  (forall i, i ∈ out -> i < n /\ ~ matched ms i /\
     exists x k, st !! i = Some x /\ len !! i = Some k /\ is_candidate s x k) /\
  (inject_Z (Z.of_nat (length out)) <= inject_Z (Z.of_nat n_kp1) * ratio s)%Q /\
  (forall i x k, i < n -> ~ matched ms i -> st !! i = Some x -> len !! i = Some k -> is_candidate s x k -> i ∉ out ->
     length out = max_candidates s n_kp1 /\
     forall j y l, j ∈ out -> st !! j = Some y -> len !! j = Some l -> better y l x k) /\
  (forall p q i j, p < q -> out !! p = Some i -> out !! q = Some j -> st !! i = Some LkTracked -> st !! j = Some LkTracked).
Proof.
  intros Hsd Hsu Hr H. destruct (candidates_shape _ _ _ _ _ _ _ _ _ Hsd Hsu H) as (u & e & d & f & Hu & He & Hl & Pd & Pf & -> & Hs).
  clear H. set (mx := max_candidates s n_kp1) in *.
  apply unmatched_ok in Hu as (_ & NDu & Eu). apply eligible_spec in He as (S1 & S2 & E1 & E2).
  assert (Ed : forall i k, (i, k) ∈ d <-> (i, k) ∈ e.1) by (intros; by rewrite Pd).
  assert (Ef : forall i k, (i, k) ∈ f <-> (i, k) ∈ e.2) by (intros; by rewrite Pf).
  assert (Hd1 : forall i, i ∈ d.*1 -> i ∈ u /\ st !! i = Some Detected /\ exists k, (i, k) ∈ d /\ len !! i = Some k /\ threshold s <= k).
  { intros i Hi. apply elem_of_list_fmap in Hi as ([i' k] & -> & Hi). pose proof (proj1 (Ed _ _) Hi) as Hi2.
    apply E1 in Hi2 as (? & ? & ? & ?). cbn. split; [done|]. split; [done|]. by exists k. }
  assert (Hf1 : forall i, i ∈ f.*1 -> i ∈ u /\ st !! i = Some LkTracked /\ exists k, (i, k) ∈ f /\ len !! i = Some k /\ k < max_len s).
  { intros i Hi. apply elem_of_list_fmap in Hi as ([i' k] & -> & Hi). pose proof (proj1 (Ef _ _) Hi) as Hi2.
    apply E2 in Hi2 as (? & ? & ? & ?). cbn. split; [done|]. split; [done|]. by exists k. }
  assert (NDd : NoDup d.*1). { rewrite Pd. by apply (sublist_NoDup _ u). }
  assert (NDf : NoDup f.*1). { rewrite Pf. by apply (sublist_NoDup _ u). }
  assert (ND : NoDup (d.*1 ++ f.*1)).
  { apply NoDup_app. split; [done|]. split; [|done]. intros i Hi Hi'.
    apply Hd1 in Hi as (_ & Hi & _). apply Hf1 in Hi' as (_ & Hi' & _). congruence. }
  assert (Hin : forall i, i ∈ take mx (d.*1 ++ f.*1) -> i ∈ d.*1 \/ i ∈ f.*1).
  { intros i Hi. apply elem_of_take in Hi as (p & Hp & _). apply elem_of_app. by eapply elem_of_list_lookup_2. }
  assert (Hlen : length (d.*1 ++ f.*1) = length d + length f) by (by rewrite app_length, !fmap_length).
  assert (Hpos : forall p i, (d.*1 ++ f.*1) !! p = Some i ->
    (p < length d /\ exists k, d !! p = Some (i, k)) \/ (length d <= p /\ exists k, f !! (p - length d) = Some (i, k))).
  { intros p i Hp. apply lookup_app_Some in Hp as [Hp|[L Hp]].
    - left. apply list_lookup_fmap_Some in Hp as ([i' k] & Hp & ->). split; [by eapply lookup_lt_Some|]. by exists k.
    - right. rewrite fmap_length in *. apply list_lookup_fmap_Some in Hp as ([i' k] & Hp & ->). split; [done|]. by exists k. }
  split; [|split; [|split; [|split]]].
  - eapply sublist_NoDup; [exact ND|]. apply sublist_take.
  - intros i Hi. apply Hin in Hi as [Hi|Hi].
    + apply Hd1 in Hi as (Hi & Hst & k & _ & Hk & Ht). apply Eu in Hi as [? ?]. split; [done|]. split; [done|].
      by exists Detected, k.
    + apply Hf1 in Hi as (Hi & Hst & k & _ & Hk & Ht). apply Eu in Hi as [? ?]. split; [done|]. split; [done|].
      by exists LkTracked, k.
  - eapply Qle_trans; [|by apply max_candidates_le]. rewrite <- Zle_Qle. rewrite take_length. unfold mx. lia.
  - intros i x k Li Hm Hst Hk Hc Hi.
    assert (Hall : i ∈ d.*1 ++ f.*1).
    { apply elem_of_app. assert (i ∈ u) by (by apply Eu). destruct x; cbn in Hc; [left|right].
      - apply elem_of_list_fmap. exists (i, k). split; [done|]. apply Ed. by apply E1.
      - apply elem_of_list_fmap. exists (i, k). split; [done|]. apply Ef. by apply E2. }
    apply elem_of_list_lookup in Hall as [q Hq].
    assert (Lq : mx <= q).
    { destruct (decide (mx <= q)) as [|N]; [done|]. exfalso. apply Hi. apply elem_of_take. exists q. split; [done|lia]. }
    pose proof (lookup_lt_Some _ _ _ Hq) as Lq'. split; [rewrite take_length; lia|].
    intros j y l Hj Hsj Hlj. apply elem_of_take in Hj as (p & Hp & Lp).
    destruct Hs as [Sd Sf]; [lia|].
    destruct (Hpos _ _ Hp) as [(Lp1 & kj & Hpd)|(Lp1 & kj & Hpf)]; destruct (Hpos _ _ Hq) as [(Lq1 & ki & Hqd)|(Lq1 & ki & Hqf)].
    + pose proof (sorted_lookup _ _ p q _ _ Sd ltac:(lia) Hpd Hqd) as HR. cbn in HR.
      apply elem_of_list_lookup_2 in Hpd, Hqd. apply Ed, E1 in Hpd as (_ & ? & ? & _). apply Ed, E1 in Hqd as (_ & ? & ? & _).
      assert (y = Detected) by congruence. assert (x = Detected) by congruence. assert (kj = l) by congruence. assert (ki = k) by congruence.
      subst. cbn. lia.
    + apply elem_of_list_lookup_2 in Hpd, Hqf. apply Ed, E1 in Hpd as (_ & ? & ? & _). apply Ef, E2 in Hqf as (_ & ? & ? & _).
      assert (y = Detected) by congruence. assert (x = LkTracked) by congruence. subst. done.
    + lia.
    + assert (Ld : length d < mx) by lia.
      pose proof (sorted_lookup _ _ (p - length d) (q - length d) _ _ (Sf Ld) ltac:(lia) Hpf Hqf) as HR. cbn in HR.
      apply elem_of_list_lookup_2 in Hpf, Hqf. apply Ef, E2 in Hpf as (_ & ? & ? & _). apply Ef, E2 in Hqf as (_ & ? & ? & _).
      assert (y = LkTracked) by congruence. assert (x = LkTracked) by congruence. assert (kj = l) by congruence. assert (ki = k) by congruence.
      subst. cbn. lia.
  - intros p q i j L Hp Hq Hi. apply lookup_take_Some in Hp as [Hp _]. apply lookup_take_Some in Hq as [Hq _].
    destruct (Hpos _ _ Hp) as [(Lp1 & kj & Hpd)|(Lp1 & kj & Hpf)].
    + apply elem_of_list_lookup_2 in Hpd. apply Ed, E1 in Hpd as (_ & ? & ? & _). congruence.
    + destruct (Hpos _ _ Hq) as [(Lq1 & ki & Hqd)|(Lq1 & ki & Hqf)]; [lia|].
      apply elem_of_list_lookup_2 in Hqf. by apply Ef, E2 in Hqf as (_ & ? & ? & _).
Qed.
Print Assumptions yx_candidates.

(** The selection succeeds exactly for one-to-one matches of keypoints that exist (given status and
    lengths for every keypoint). *)
Theorem yx_candidates_total s sd su n n_kp1 ms len st : length len = n -> length st = n ->
  (exists out, lk_candidates s sd su n n_kp1 ms len st = Ok out) <-> one_to_one n ms.
Proof.
  intros Hl Hs. unfold lk_candidates. rewrite Hl, Nat.eqb_refl. cbn [negb]. split.
  - intros [out H]. destruct (unmatched n ms) as [u| |] eqn:Hu; [|done|done]. by apply unmatched_ok in Hu as (? & _).
  - intros H. destruct (unmatched_total n ms H) as [u Hu]. rewrite Hu. cbn [rbind].
    apply unmatched_ok in Hu as (_ & _ & Eu).
    destruct (eligible_total s len st u) as [e ->]; [|cbn [rbind]; eauto].
    rewrite Forall_forall. intros i Hi. apply Eu in Hi. lia.
Qed.
Print Assumptions yx_candidates_total.

(** ** C68 *)
Theorem yx_flow_matches_partial s fl ext n n0 pred cand ms r :
  (forall pts, NoDup (ext pts) /\ Forall (fun c => c < length pts) (ext pts)) ->
  one_to_one n ms -> NoDup cand -> Forall (fun i => i < n /\ ~ matched ms i) cand ->
  lk_tracking s fl ext n0 pred cand = Ok r ->
  length r.1.1 = length r.1.2 /\
  one_to_one n (ms ++ r.1.1) /\
  (forall a m, r.1.1 !! a = Some m -> m.1 = Z.of_nat (n0 + a) /\
     exists i p d k, m.2 = Z.of_nat i /\ r.1.2 !! a = Some p /\ i ∈ cand /\ pred !! i = Some true /\
       d !! k = Some i /\ fl d !! k = Some (true, p)) /\
  ((0 <= border s)%Z -> (border s <= width s < 2 ^ 32)%Z -> (border s <= height s < 2 ^ 32)%Z ->
   forall p, p ∈ r.1.2 -> (border s <= p.1 < width s - border s)%Z /\ (border s <= p.2 < height s - border s)%Z) /\
  r.2 = replicate n0 Detected ++ replicate (length r.1.2) LkTracked.
Proof.
  intros Hext Hms NDc Fc. unfold lk_tracking. destruct (Nat.ltb_spec (length pred) (length cand)) as [|L]; [done|].
  destruct (definite pred cand) as [d| |] eqn:Hd; [|done|done]. cbn [rbind].
  pose proof (definite_spec _ _ _ Hd) as [Sd Ed].
  destruct (decide (d = [])) as [->|Nd].
  { intros [= <-]. cbn. rewrite !app_nil_r. split; [done|]. split; [done|]. split; [intros a m H; by rewrite lookup_nil in H|].
    split; [intros _ _ _ p Hp; by apply elem_of_nil in Hp|done]. }
  set (kept := keep_tracked s d (fl d)). set (surv := ext kept.*2).
  assert (Hm : forall X Y : result (list (Z * Z) * list (Z * Z) * list status), match d with [] => X | _ => Y end = Y) by (by destruct d).
  rewrite Hm. destruct (length (fl d) =? length d) eqn:El; [|done]. cbn [negb]. apply Nat.eqb_eq in El.
  destruct (new_matches n0 kept 0 surv) as [q| |] eqn:Hq; [|done|done]. cbn [rbind].
  apply new_matches_spec in Hq as (L1 & L2 & Hq). intros [= <-]. cbn [fst snd].
  destruct (Hext kept.*2) as [NDs Fs]. fold surv in NDs, Fs.
  assert (Hfull : forall a m, q.1 !! a = Some m -> exists c i p, surv !! a = Some c /\ kept !! c = Some (i, p) /\
    m = (Z.of_nat (n0 + a), Z.of_nat i) /\ q.2 !! a = Some p).
  { intros a m Ha. destruct (lookup_lt_is_Some_2 surv a) as [c Hc]; [rewrite <- L1; by eapply lookup_lt_Some|].
    destruct (Hq a c Hc) as ([i p] & Hk & H1 & H2). exists c, i, p. split; [done|]. split; [done|].
    rewrite Nat.add_0_r in H1. cbn in *. split; [congruence|done]. }
  assert (Hkc : forall c i p, kept !! c = Some (i, p) -> i ∈ cand /\ pred !! i = Some true).
  { intros c i p Hk. apply Ed. pose proof (keep_tracked_sub s d (fl d)) as Hsub.
    eapply sublist_elem; [exact Hsub|]. apply elem_of_list_fmap. exists (i, p). split; [done|]. by eapply elem_of_list_lookup_2. }
  assert (NDk : NoDup kept.*1).
  { eapply sublist_NoDup; [|apply keep_tracked_sub]. by apply (sublist_NoDup _ cand). }
  split; [congruence|]. split; [|split; [|split]].
  - destruct Hms as [N1 F1]. split.
    + rewrite fmap_app. apply NoDup_app. split; [done|]. split.
      * intros z Hz Hz'. apply elem_of_list_fmap in Hz as (m & -> & Hm').
        apply elem_of_list_fmap in Hz' as (m' & E & Hm''). apply elem_of_list_lookup in Hm'' as [a Ha].
        destruct (Hfull a m' Ha) as (c & i & p & _ & Hk & -> & _). cbn in E.
        apply Hkc in Hk as [Hi _]. rewrite Forall_forall in Fc. destruct (Fc i Hi) as [_ Hn]. apply Hn. by exists m.
      * apply NoDup_alt. intros a b z Ha Hb. apply list_lookup_fmap_Some in Ha as (m & Ha & ->).
        apply list_lookup_fmap_Some in Hb as (m' & Hb & E).
        destruct (Hfull a m Ha) as (c & i & p & Hc & Hk & -> & _). destruct (Hfull b m' Hb) as (c' & i' & p' & Hc' & Hk' & -> & _).
        cbn in E. assert (i = i') as <- by lia.
        assert (c = c') as <-.
        { eapply (NoDup_lookup kept.*1 c c' i NDk); apply list_lookup_fmap_Some; eauto. }
        exact (NoDup_lookup surv a b c NDs Hc Hc').
    + apply Forall_app. split; [done|]. rewrite Forall_forall. intros m Hm'. apply elem_of_list_lookup in Hm' as [a Ha].
      destruct (Hfull a m Ha) as (c & i & p & _ & Hk & -> & _). cbn. apply Hkc in Hk as [Hi _].
      rewrite Forall_forall in Fc. destruct (Fc i Hi). lia.
  - intros a m Ha. destruct (Hfull a m Ha) as (c & i & p & Hc & Hk & -> & Hp). cbn. split; [done|].
    destruct (Hkc _ _ _ Hk) as [Hi Hpr]. pose proof (elem_of_list_lookup_2 _ _ _ Hk) as Hk2.
    apply elem_of_keep_tracked in Hk2 as (_ & k & Hdk & Hfk). exists i, p, d, k. done.
  - intros Hb Hw Hh p Hp. apply elem_of_list_lookup in Hp as [a Ha].
    destruct (lookup_lt_is_Some_2 q.1 a) as [m Hm']; [rewrite L1, <- L2; by eapply lookup_lt_Some|].
    destruct (Hfull a m Hm') as (c & i & p' & Hc & Hk & -> & Hp). assert (p' = p) as -> by congruence.
    apply elem_of_list_lookup_2, elem_of_keep_tracked in Hk as (Ho & _).
    unfold outside, size_sub in Ho. rewrite !Z.mod_small in Ho by lia.
    apply orb_false_iff in Ho as [Ho H4]. apply orb_false_iff in Ho as [Ho H3]. apply orb_false_iff in Ho as [H1 H2].
    apply Z.ltb_ge in H1, H3. apply Z.leb_gt in H2, H4. lia.
  - do 2 f_equal. congruence.
Qed.
Print Assumptions yx_flow_matches_partial.

(** If the border is wider than the image, the unsigned difference wraps around and points far outside of
    the image are accepted. *)
Theorem yx_border_refuted : exists s p, (0 <= border s)%Z /\ (0 < width s < p.1)%Z /\ (0 < height s < p.2)%Z /\
  exists fl ext r, (forall l, length (fl l) = length l) /\
    (forall pts, NoDup (ext pts) /\ Forall (fun c => c < length pts) (ext pts)) /\
    lk_tracking s fl ext 0 [true] [0] = Ok r /\ r.1.2 = [p].
Proof.
  exists (Settings (1 # 2) 1 10 20 10 10), (100, 100)%Z. cbn. split; [lia|]. split; [lia|]. split; [lia|].
  exists (fun l => (fun _ => (true, (100, 100)%Z)) <$> l), (fun pts => seq 0 (length pts)), ([(0, 0)], [(100, 100)], [LkTracked])%Z.
  split; [intros l; apply fmap_length|]. split; [|by vm_compute].
  intros pts. split; [apply NoDup_seq|]. rewrite Forall_forall. intros c Hc. apply elem_of_seq in Hc. lia.
Qed.
Print Assumptions yx_border_refuted.

(** ** C69 *)
Definition invariant (s : settings) (t : tracker) (e : option nat) : Prop :=
  if Qle_bool (ratio s) 0 then True
  else match e with
       | None => t = init
       | Some n => inited t = true /\ exists k rest st_k st_km1,
           tids t = k :: rest /\ length rest <= 1 /\ stats t = [st_k; st_km1] /\
           length st_k = n /\ length st_km1 = length k /\ length (lens t) = length k
       end.
Lemma track_ok s t e x : (0 <= ratio s)%Q -> invariant s t e -> sane x -> (forall n, e = Some n -> length (ids_k x) = n) ->
  exists t' o, track s t x = Ok (t', o) /\ invariant s t' (Some (num_kp1 x + length (added o))) /\
    (if Qle_bool (ratio s) 0 then added o = [] else exists r, stats t' = (replicate (num_kp1 x) Detected ++ replicate (length (added o)) LkTracked) :: r).
Proof.
  intros Hr Hi Hx He. destruct Hx as [Hf Hp Hsd Hsu Hfl Hex]. unfold track, invariant in *.
  destruct (Qle_bool (ratio s) 0) eqn:Hq; [cbn [negb]; eauto|]. cbn [negb].
  set (n := length (ids_k x)) in *. set (ts := push (ids_k x) (tids t)).
  assert (Hst : exists st st_k, (if inited t then Ok (stats t)
             else if length ts =? 1 then Ok (push (replicate n Detected) (stats t)) else Abort) = Ok st /\
     st !! 0 = Some st_k /\ length st_k = n /\ length (push st_k st) >= 0 /\
     exists rest, ts = ids_k x :: rest /\ length rest <= 1 /\
     (exists len tm, tracked_matches (Tracker (inited t) ts st (lens t)) = Ok tm /\
        status_lengths (Tracker (inited t) ts st (lens t)) tm = Ok len /\ length len = n) /\
     forall y, exists z, push y st = [y; z] /\ length z = n).
  { destruct e as [n'|].
    - destruct Hi as (Hin & k & rest & st_k & st_km1 & Ht & Lr & Hs & L1 & L2 & L3). rewrite Hin.
      exists (stats t), st_k. rewrite Hs. split; [done|]. split; [done|].
      assert (length st_k = n) as Hn by (rewrite L1; symmetry; by apply He).
      split; [done|]. split; [lia|]. exists [k].
      assert (Hts : ts = [ids_k x; k]).
      { unfold ts, push. rewrite Ht. cbn. destruct rest as [|k' [|? ?]]; cbn; [done|done|cbn in Lr; lia]. }
      split; [done|]. split; [cbn; lia|]. split.
      + unfold tracked_matches, status_lengths. cbn. rewrite Hts. cbn.
        destruct (length_loop_total st_k st_km1 (lens t) (tracked_loop k 0 (ids_k x)) (replicate n 0)) as (len & Hlen & El).
        * eapply Forall_impl; [apply tracked_loop_range|]. cbn. intros m [Hm1 Hm2]. fold n in Hm1. lia.
        * exists len, (tracked_loop k 0 (ids_k x)). fold n. split; [done|]. split; [done|]. by rewrite El, replicate_length.
      + intros y. exists st_k. split; [done|done].
    - subst t. unfold ts. cbn. exists [replicate n Detected], (replicate n Detected).
      split; [done|]. split; [done|]. split; [apply replicate_length|]. split; [lia|]. exists [].
      split; [done|]. split; [cbn; lia|]. split.
      + unfold tracked_matches, status_lengths. cbn. fold n. exists (replicate n 0), []. split; [done|]. split; [done|]. apply replicate_length.
      + intros y. exists (replicate n Detected). split; [done|]. apply replicate_length. }
  destruct Hst as (st & st_k & -> & Hk & Lk & _ & rest & Hts & Lr & (len & tm & Htm & Hlen & Ll) & Hpush). cbn [rbind].
  rewrite Htm. cbn [rbind]. rewrite Hlen. cbn [rbind]. unfold at_ub at 1. rewrite Hk. cbn [rbind].
  destruct (proj2 (yx_candidates_total s (sort_down x) (sort_up x) n (num_kp1 x) (found x) len st_k Ll Lk) Hf) as [c Hc].
  rewrite Hc. cbn [rbind].
  pose proof (yx_candidates _ _ _ _ _ _ _ _ _ Hsd Hsu Hr Hc) as (NDc & Hcc & _).
  assert (Hlk : exists r, lk_tracking s (flow x) (extract x) (num_kp1 x) (pred x) c = Ok r).
  { unfold lk_tracking. rewrite (proj2 (Nat.ltb_ge _ _)).
    - destruct (definite_total (pred x) c) as [d Hd].
      { rewrite Forall_forall. intros i Hi'. apply Hcc in Hi' as (? & _). rewrite Hp. done. }
      rewrite Hd. cbn [rbind]. destruct d as [|d0 d]; [eauto|]. rewrite Hfl, Nat.eqb_refl. cbn [negb].
      set (kept := keep_tracked s (d0 :: d) (flow x (d0 :: d))).
      destruct (Hex kept.*2) as [_ Fs].
      destruct (new_matches_total (num_kp1 x) kept (extract x kept.*2) 0) as [q ->]; [|cbn [rbind]; eauto].
      eapply Forall_impl; [exact Fs|]. cbn. intros y. by rewrite fmap_length.
    - rewrite Hp. fold n. rewrite <- (seq_length n 0). apply submseteq_length.
      apply NoDup_submseteq; [done|]. intros i Hi'. apply Hcc in Hi' as (? & _). apply elem_of_seq. lia. }
  destruct Hlk as [r Hlk]. rewrite Hlk. cbn [rbind].
  destruct (Hpush r.2) as (z & Hz & Lz).
  pose proof (yx_flow_matches_partial s (flow x) (extract x) n (num_kp1 x) (pred x) c (found x) r Hex Hf NDc
    ltac:(rewrite Forall_forall; intros i Hi'; apply Hcc in Hi' as (? & ? & _); done) Hlk) as (E1 & _ & _ & _ & E2).
  eexists _, _. split; [reflexivity|]. cbn [inited tids stats lens added]. split.
  - split; [done|]. exists (ids_k x), rest, r.2, z. split; [done|]. split; [done|]. split; [done|].
    split; [rewrite E2, app_length, !replicate_length; done|]. split; [done|]. done.
  - exists [z]. by rewrite Hz, E2.
Qed.
Lemma history_invariant s t e : (0 <= ratio s)%Q -> history s t e -> invariant s t e.
Proof.
  intros Hr. induction 1 as [|t e x t' o _ IH Hx He H].
  - unfold invariant. by destruct (Qle_bool (ratio s) 0).
  - destruct (track_ok s t e x Hr IH Hx He) as (t'' & o' & H' & Hi & _). rewrite H in H'. by injection H' as <- <-.
Qed.
Theorem yx_history s t e x : (0 <= ratio s)%Q -> history s t e -> sane x -> (forall n, e = Some n -> length (ids_k x) = n) ->
  exists t' o, track s t x = Ok (t', o) /\
    ((0 < ratio s)%Q -> exists r, stats t' = (replicate (num_kp1 x) Detected ++ replicate (length (added o)) LkTracked) :: r).
Proof.
  intros Hr Hh Hx He. destruct (track_ok s t e x Hr (history_invariant s t e Hr Hh) Hx He) as (t' & o & H & _ & Hs).
  exists t', o. split; [done|]. intros Hpos. destruct (Qle_bool (ratio s) 0) eqn:Hq; [|done].
  apply Qle_bool_iff in Hq. by apply Qle_not_lt in Hq.
Qed.
Print Assumptions yx_history.

(** ** Examples *)
Definition Down (p q : nat * nat) : Prop := q.2 <= p.2.
Definition Up (p q : nat * nat) : Prop := p.2 <= q.2.
Global Instance Down_dec p q : Decision (Down p q) := le_dec _ _.
Global Instance Up_dec p q : Decision (Up p q) := le_dec _ _.
Definition down (l : list (nat * nat)) := merge_sort Down l.
Definition up (l : list (nat * nat)) := merge_sort Up l.
Lemma sorts_down : sorts down ge.
Proof.
  intros l. split; [apply merge_sort_Permutation|].
  assert (Ht : Transitive Down) by (unfold Down; intros p q r; lia).
  assert (Ho : Total Down) by (unfold Down; intros p q; lia).
  exact (StronglySorted_merge_sort Down l).
Qed.
Lemma sorts_up : sorts up le.
Proof.
  intros l. split; [apply merge_sort_Permutation|].
  assert (Ht : Transitive Up) by (unfold Up; intros p q r; lia).
  assert (Ho : Total Up) by (unfold Up; intros p q; lia).
  exact (StronglySorted_merge_sort Up l).
Qed.
Definition ex_settings := Settings (1 # 2) 1 10 5 100 100.
Definition ex_input (ids : list Z) (n : nat) (ms : list (Z * Z)) : input :=
  Input ids n ms (replicate (length ids) true) down up
    (fun l => (fun i => (true, (Z.of_nat i * 10 + 10, 20)%Z)) <$> l) (fun pts => seq 0 (length pts)).
Lemma ex_sane ids n ms : one_to_one (length ids) ms -> sane (ex_input ids n ms).
Proof.
  intros H. split; cbn; [done|apply replicate_length|apply sorts_down|apply sorts_up|intros l; apply fmap_length|].
  intros pts. split; [apply NoDup_seq|]. rewrite Forall_forall. intros c Hc. apply elem_of_seq in Hc. lia.
Qed.
(** The limit is 2: the detected keypoint with the longest track (4), then detected 0; flow-tracked 3 left out. *)
Example ex_candidates :
  lk_candidates ex_settings down up 6 4 [(0, 1)]%Z [2; 1; 0; 3; 7; 1]
    [Detected; Detected; Detected; LkTracked; Detected; LkTracked] = Ok [4; 0] /\
  lk_candidates ex_settings down up 6 8 [(0, 1)]%Z [2; 1; 0; 3; 7; 1]
    [Detected; Detected; Detected; LkTracked; Detected; LkTracked] = Ok [0; 4; 3; 5] /\
  lk_candidates ex_settings down up 2 8 [(0, 1); (1, 1)]%Z [2; 1] [Detected; Detected] = Abort.
Proof. by vm_compute. Qed.
(** Two calls; in the second keypoint 1, tracked before, has lost its match and is flow-tracked. *)
Example ex_history : exists t e o t', history ex_settings t e /\ e = Some 4 /\
  track ex_settings t (ex_input [7; 8; -1; -1]%Z 4 [(0, 0)]%Z) = Ok (t', o) /\
  candidates o = [1] /\ matches o = [(0, 0); (4, 1)]%Z /\ added o = [(20, 20)]%Z.
Proof.
  assert (H : exists t o, track ex_settings init (ex_input [7; 8; 9]%Z 4 [(0, 0); (1, 1)]%Z) = Ok (t, o) /\ added o = [] /\
    exists o' t', track ex_settings t (ex_input [7; 8; -1; -1]%Z 4 [(0, 0)]%Z) = Ok (t', o') /\
      candidates o' = [1] /\ matches o' = [(0, 0); (4, 1)]%Z /\ added o' = [(20, 20)]%Z).
  { do 2 eexists. split; [vm_compute; reflexivity|]. split; [done|]. do 2 eexists. split; [vm_compute; reflexivity|]. done. }
  destruct H as (t & o & H & Ho & o' & t' & H' & Hc & Hm & Ha).
  exists t, (Some 4), o', t'. split; [|done].
  assert (H1 : one_to_one (length [7; 8; 9]%Z) [(0, 0); (1, 1)]%Z).
  { split; [by apply (bool_decide_unpack _)|]. repeat constructor; cbn; lia. }
  pose proof (history_step ex_settings init None _ t o (history_init _) (ex_sane [7; 8; 9]%Z 4 [(0, 0); (1, 1)]%Z H1) ltac:(done) H) as Hh.
  rewrite Ho in Hh. cbn in Hh. apply Hh.
Qed.
(** If keypoints are added to a frame between the calls, the next call reads past the end of the status. *)
Example ex_grown : exists t o, track ex_settings init (ex_input [7; 8; 9]%Z 4 [(0, 0); (1, 1)]%Z) = Ok (t, o) /\
  track ex_settings t (ex_input [7; 8; -1; -1; -1]%Z 4 [(0, 0)]%Z) = Ub.
Proof. do 2 eexists. split; [vm_compute; reflexivity|]. by vm_compute. Qed.
