(** C133: status track lengths. *)
From Coq Require Import ZArith QArith Bool Lia.
From stdpp Require Import list list_numbers sorting.
From Verif Require Import StlHelpersModel GyroTrackerModel GyroTrackerSpec GyroTrackerProofs GyroTrackerProps GyroLenSpec.
Local Open Scope nat_scope.

Lemma find_first v : forall l j, find_index v l = Some j <-> l !! j = Some v /\ forall j', j' < j -> l !! j' <> Some v.
Proof.
  induction l as [|x l IH]; intros j; cbn [find_index]; [split; [done|intros [H _]; by rewrite lookup_nil in H]|].
  destruct (Z.eqb_spec x v) as [->|N].
  - split; [intros [= <-]; split; [done|intros; lia]|]. intros [_ H]. destruct j as [|j]; [done|]. by destruct (H 0); [lia|].
  - rewrite fmap_Some. split.
    + intros (j0 & H & ->). apply IH in H as [H1 H2]. split; [done|]. intros [|j'] L; cbn; [congruence|]. apply H2. lia.
    + intros [H1 H2]. destruct j as [|j]; cbn in H1; [congruence|]. exists j. split; [|done]. apply IH. split; [done|]. intros j' L. apply (H2 (S j')). lia.
Qed.
Lemma elem_of_tracked km1 : forall k i0 i j, (i, j) ∈ tracked_loop km1 i0 k <->
  exists id, i0 <= i /\ k !! (i - i0) = Some id /\ id <> (-1)%Z /\ find_index id km1 = Some j.
Proof.
  induction k as [|id k IH]; intros i0 i j; cbn [tracked_loop].
  - split; [intros H; by apply elem_of_nil in H|]. intros (id & _ & H & _). by rewrite lookup_nil in H.
  - rewrite elem_of_app, IH. split.
    + intros [H|(id' & L & H & R)].
      * exists id. destruct (Z.eqb_spec id (-1)) as [|N]; [by apply elem_of_nil in H|]. destruct (find_index id km1) as [j'|] eqn:E; [|by apply elem_of_nil in H].
        apply elem_of_list_singleton in H. injection H as -> ->. rewrite Nat.sub_diag. done.
      * exists id'. split; [lia|]. replace (i - i0) with (S (i - S i0)) by lia. done.
    + intros (id' & L & H & N & F). destruct (decide (i = i0)) as [->|Ni].
      * left. rewrite Nat.sub_diag in H. injection H as ->. destruct (Z.eqb_spec id' (-1)); [done|]. rewrite F. by apply elem_of_list_singleton.
      * right. exists id'. split; [lia|]. replace (i - i0) with (S (i - S i0)) in H by lia. done.
Qed.
(** The value that the loop writes for a match. *)
Definition written (st_k st_km1 : list status) (prev : list nat) (i j v : nat) : Prop :=
  (st_km1 !! j = st_k !! i /\ exists p, prev !! j = Some p /\ v = S p) \/ (st_km1 !! j <> st_k !! i /\ v = 1).
Lemma length_loop_spec st_k st_km1 prev : forall ms len len', (forall i j j', (i, j) ∈ ms -> (i, j') ∈ ms -> j = j') -> length_loop st_k st_km1 prev ms len = Ok len' ->
  length len' = length len /\ forall i v, len' !! i = Some v -> (exists j, (i, j) ∈ ms /\ written st_k st_km1 prev i j v) \/ ((forall j, (i, j) ∉ ms) /\ len !! i = Some v).
Proof.
  induction ms as [|[k km1] ms IH]; intros len len' Hf; cbn [length_loop].
  - intros [= <-]. split; [done|]. intros i v H. right. split; [|done]. intros j Hj. by apply elem_of_nil in Hj.
  - destruct (at_ub st_km1 km1) as [a| |] eqn:Ha; [|done|done]. destruct (at_ub st_k k) as [b| |] eqn:Hb; [|done|done]. cbn [rbind]. apply at_ub_ok in Ha, Hb.
    destruct (if bool_decide (a = b) then _ else _) as [v0| |] eqn:Hv; [|done|done]. cbn [rbind]. intros H. apply IH in H as [L H].
    2:{ intros i j j' H1 H2. eapply Hf; right; eassumption. }
    assert (W : written st_k st_km1 prev k km1 v0).
    { unfold written. rewrite Ha, Hb. destruct (bool_decide_reflect (a = b)) as [->|N]; [left|right].
      - split; [done|]. destruct (at_ub prev km1) as [p| |] eqn:Hp; [|done|done]. apply at_ub_ok in Hp. cbn in Hv. injection Hv as <-. by exists p.
      - injection Hv as <-. split; [congruence|done]. }
    split; [by rewrite L, insert_length|]. intros i v Hi. destruct (H i v Hi) as [(j & Hj & Wj)|[Hn Hl]].
    + left. exists j. split; [by right|done].
    + destruct (decide (i = k)) as [->|N].
      * destruct (decide (k < length len)) as [Lk|Lk]; [|rewrite list_insert_ge in Hl by lia; apply lookup_lt_Some in Hl; lia].
        rewrite list_lookup_insert in Hl by done. injection Hl as <-. left. exists km1. split; [left|done].
      * rewrite list_lookup_insert_ne in Hl by done. right. split; [|done]. intros j Hj. apply elem_of_cons in Hj as [[= -> _]|Hj]; [done|]. by apply (Hn j).
Qed.

Lemma continues_unique f g i j j' : continues f g i j -> continues f g i j' -> j = j'.
Proof.
  intros (id & _ & H1 & H2 & H3) (id' & _ & G1 & G2 & G3). rewrite H1 in G1. injection G1 as <-.
  destruct (Nat.lt_trichotomy j j') as [L|[L|L]]; [by destruct (G3 j L)|done|by destruct (H3 j' L)].
Qed.
(** One step of the definition. *)
Lemma length_new fs f i : (forall g fs', fs = g :: fs' -> forall j, ~ continues f g i j) -> status_length (f :: fs) i 0.
Proof. intros H. split; [constructor|]. intros m Hm. inversion Hm; subst; [lia|..]; by (edestruct H). Qed.
Lemma length_changed fs f g i j : continues f g i j -> g.2 !! j <> f.2 !! i -> status_length (f :: g :: fs) i 1.
Proof.
  intros C N. split; [by eapply followed_1|]. intros m Hm. inversion Hm as [| |? ? ? ? j' n C' E F]; subst; [lia|lia|].
  rewrite (continues_unique _ _ _ _ _ C C') in N. by rewrite E in N.
Qed.
Lemma length_kept fs f g i j n : continues f g i j -> g.2 !! j = f.2 !! i -> status_length (g :: fs) j n -> status_length (f :: g :: fs) i (S n).
Proof.
  intros C N [F M]. split; [eapply followed_S; eauto|]. intros m Hm. inversion Hm as [| |? ? ? ? j' n' C' E F']; subst; [lia|lia|].
  rewrite (continues_unique _ _ _ _ _ C' C) in F'. apply M in F'. lia.
Qed.

(** The tracker after a history. *)
Definition holds (t : tracker) (fs : list seen) (e : option (nat * nat)) : Prop :=
  match e with
  | None => t = init /\ fs = []
  | Some (d, a) => inited t = true /\ exists f rest r, fs = f :: rest /\ tids t = f.1 :: r /\ length r <= 1 /\ stats t = [replicate d Detected ++ replicate a LkTracked; f.2] /\
      length f.2 = length f.1 /\ length (lens t) = length f.1 /\ forall i n, lens t !! i = Some n -> status_length fs i n
  end.
Lemma recorded_history s t fs e : recorded s t fs e -> history s t ((fun p => p.1 + p.2) <$> e).
Proof.
  induction 1 as [|t fs e x t' o H IH Hx He Ht]; [constructor|]. cbn. eapply (history_step s t _ x); eauto.
  intros n En. destruct e as [[d a]|]; [|done]. cbn in En. injection En as <-. by apply He.
Qed.
Lemma track_lengths s t fs e x t' o : (0 < ratio s)%Q -> history s t ((fun p => p.1 + p.2) <$> e) -> holds t fs e -> sane x -> (forall d a, e = Some (d, a) -> length (ids_k x) = d + a) -> track s t x = Ok (t', o) ->
  holds t' ((ids_k x, status_of e (length (ids_k x))) :: fs) (Some (num_kp1 x, length (added o))) /\
  lk_candidates s (sort_down x) (sort_up x) (length (ids_k x)) (num_kp1 x) (found x) (lens t') (status_of e (length (ids_k x))) = Ok (candidates o).
Proof.
  intros Hr Hh Hi Hx He Ht. assert (Hr0 : (0 <= ratio s)%Q) by (apply Qlt_le_weak; exact Hr).
  destruct (yx_history s t _ x Hr0 Hh Hx) as (t'' & o'' & Ht' & Hst).
  { intros n En. destruct e as [[d a]|]; [|done]. cbn in En. injection En as <-. by apply He. }
  rewrite Ht in Ht'. injection Ht' as <- <-. destruct (Hst Hr) as [r0 Hs]. clear Hst.
  unfold track in Ht. assert (Hq : Qle_bool (ratio s) 0 = false). { destruct (Qle_bool (ratio s) 0) eqn:Q; [|done]. apply Qle_bool_iff in Q. by apply Qle_not_lt in Q. }
  rewrite Hq in Ht. cbn [negb] in Ht. set (n := length (ids_k x)) in *.
  assert (Hst : exists ts st, push (ids_k x) (tids t) = ts /\
    (if inited t then Ok (stats t) else if length (push (ids_k x) (tids t)) =? 1 then Ok (push (replicate n Detected) (stats t)) else Abort) = Ok st /\
    (exists r, ts = ids_k x :: r /\ length r <= 1) /\ st !! 0 = Some (status_of e n) /\ length (status_of e n) = n /\ (forall y, push y st = [y; status_of e n]) /\
    forall tm len, tracked_matches (Tracker (inited t) ts st (lens t)) = Ok tm -> status_lengths (Tracker (inited t) ts st (lens t)) tm = Ok len ->
      length len = n /\ forall i v, len !! i = Some v -> status_length ((ids_k x, status_of e n) :: fs) i v).
  { destruct e as [[d a]|].
    - destruct Hi as (Hin & f & rest & r & -> & Htid & Lr & Hstat & Lf & Ll & Hlen). rewrite Hin, Htid, Hstat. exists [ids_k x; f.1]. eexists.
      split. { unfold push. destruct r as [|? [|? ?]]; cbn; [done|done|cbn in Lr; lia]. }
      split; [done|]. split; [exists [f.1]; split; [done|cbn; lia]|]. split; [done|]. split; [cbn; rewrite app_length, !replicate_length; symmetry; by apply He|]. split; [done|].
      intros tm len Htm Hl. unfold tracked_matches, status_lengths in *. cbn [inited tids stats lens negb] in *. assert (tm = tracked_loop f.1 0 (ids_k x)) as -> by congruence. fold n in Hl.
      apply length_loop_spec in Hl as [L Hl].
      2:{ intros i j j' H1 H2. apply elem_of_tracked in H1 as (id & _ & H1 & _ & F1), H2 as (id' & _ & H2 & _ & F2). congruence. }
      split; [by rewrite L, replicate_length|]. intros i v Hv. set (cur := (ids_k x, status_of (Some (d, a)) n) : seen).
      assert (Hc : forall j, (i, j) ∈ tracked_loop f.1 0 (ids_k x) <-> continues cur f i j).
      { intros j. rewrite elem_of_tracked. unfold continues. cbn. rewrite Nat.sub_0_r. split.
        - intros (id & _ & H1 & H2 & H3). apply find_first in H3 as [H3 H4]. by exists id.
        - intros (id & H1 & H2 & H3 & H4). exists id. split; [lia|]. split; [done|]. split; [done|]. by apply find_first. }
      destruct (Hl i v Hv) as [(j & Hj & [(E & p & Hp & ->)|(E & ->)])|[Hn H0]].
      + apply Hc in Hj. apply (length_kept rest cur f i j p); [done|done|]. by apply Hlen.
      + apply Hc in Hj. by apply (length_changed rest cur f i j).
      + apply lookup_replicate in H0 as [-> _]. apply length_new. intros g fs' [= <- <-] j Hj. apply Hc in Hj. by apply (Hn j).
    - destruct Hi as [-> ->]. cbn [inited tids stats init]. exists [ids_k x], [replicate n Detected]. split; [done|]. split; [done|]. split; [exists []; split; [done|cbn; lia]|].
      split; [done|]. split; [apply replicate_length|]. split; [done|]. intros tm len _ Hl. unfold status_lengths in Hl. cbn [inited tids negb] in Hl. injection Hl as <-. fold n. split; [apply replicate_length|].
      intros i v Hv. apply lookup_replicate in Hv as [-> _]. apply length_new. intros g fs' [=]. }
  destruct Hst as (ts & st & Ets & Est & (r & Er & Lr) & H0 & Lst & Hp & HL). rewrite Ets in Ht. rewrite Ets in Est. rewrite Est in Ht. cbn [rbind] in Ht.
  destruct (tracked_matches _) as [tm| |] eqn:Htm; [|done|done]. cbn [rbind] in Ht. destruct (status_lengths _ tm) as [len| |] eqn:Hlen; [|done|done]. cbn [rbind] in Ht. destruct (HL tm len eq_refl Hlen) as [Ln Hv].
  rewrite (proj2 (at_ub_ok _ _ _) H0) in Ht. cbn [rbind] in Ht. destruct (lk_candidates _ _ _ _ _ _ _ _) as [c| |] eqn:Hc; [|done|done]. cbn [rbind] in Ht.
  destruct (lk_tracking _ _ _ _ _ _) as [r2| |]; [|done|done]. cbn [rbind] in Ht. injection Ht as <- <-. cbn [stats lens tids inited candidates added] in *. split; [|done].
  split; [done|]. eexists _, fs, r. split; [done|]. cbn [fst snd]. split; [done|]. split; [done|]. rewrite Hp in Hs |- *. injection Hs as -> <-. done.
Qed.
Lemma recorded_holds s t fs e : (0 < ratio s)%Q -> recorded s t fs e -> holds t fs e.
Proof.
  intros Hr. induction 1 as [|t fs e x t' o H IH Hx He Ht]; [done|]. eapply track_lengths; eauto. by apply recorded_history in H.
Qed.

(** After every call the tracker knows for each keypoint of frame k how often its track was continued with its present status. *)
Theorem glx_lengths s t fs e : (0 < ratio s)%Q -> recorded s t fs e -> e <> None ->
  exists f rest, fs = f :: rest /\ length (lens t) = length f.1 /\ forall i n, i < length f.1 -> lens t !! i = Some n <-> status_length fs i n.
Proof.
  intros Hr H He. apply recorded_holds in H; [|done]. destruct e as [[d a]|]; [|done]. destruct H as (_ & f & rest & r & -> & _ & _ & _ & _ & L & Hl). exists f, rest. split; [done|]. split; [done|].
  intros i n Hi. split; [apply Hl|]. intros [F M]. destruct (lookup_lt_is_Some_2 (lens t) i) as [v Hv]; [lia|]. rewrite Hv. destruct (Hl i v Hv) as [F' M']. f_equal. apply M in F'. apply M' in F. lia.
Qed.
Print Assumptions glx_lengths.
(** The call never fails, and the keypoints handed to optical flow have no match, and are either detected ones continued often enough or flow-tracked ones not continued too often. *)
Theorem glx_candidates s t fs e x : (0 < ratio s)%Q -> recorded s t fs e -> sane x -> (forall d a, e = Some (d, a) -> length (ids_k x) = d + a) ->
  exists t' o, track s t x = Ok (t', o) /\ NoDup (candidates o) /\
    let f := (ids_k x, status_of e (length (ids_k x))) in
    forall i, i ∈ candidates o -> ~ matched (found x) i /\
      exists n, status_length (f :: fs) i n /\ ((f.2 !! i = Some Detected /\ threshold s <= n) \/ (f.2 !! i = Some LkTracked /\ n < max_len s)).
Proof.
  intros Hr H Hx He. assert (Hr0 : (0 <= ratio s)%Q) by (apply Qlt_le_weak; exact Hr). pose proof (recorded_history _ _ _ _ H) as Hh.
  destruct (yx_history s t _ x Hr0 Hh Hx) as (t' & o & Ht & _).
  { intros n En. destruct e as [[d a]|]; [|done]. cbn in En. injection En as <-. by apply He. }
  exists t', o. split; [done|]. destruct (track_lengths s t fs e x t' o Hr Hh (recorded_holds _ _ _ _ Hr H) Hx He Ht) as [Hi Hc].
  destruct (yx_candidates _ _ _ _ _ _ _ _ _ (sane_down x Hx) (sane_up x Hx) Hr0 Hc) as (Hn & Hin & _). split; [done|]. cbv zeta. intros i Hi'. destruct (Hin i Hi') as (_ & Hm & st & k & Hst & Hk & Hcan). split; [done|].
  exists k. destruct Hi as (_ & f & rest & r & [= <- <-] & _ & _ & _ & _ & _ & Hl). split; [by apply Hl|]. destruct st; [left|right]; done.
Qed.
Print Assumptions glx_candidates.
(** A keypoint followed through two frames, and a new one. *)
Example glx_ex : exists t fs, recorded ex_settings t fs (Some (4, 1)) /\ lens t = [1; 1; 0; 0] /\ status_length fs 0 1 /\ status_length fs 2 0.
Proof.
  assert (exists t o, track ex_settings init (ex_input [7; 8; 9]%Z 4 [(0, 0); (1, 1)]%Z) = Ok (t, o) /\ added o = [] /\
    exists o' t', track ex_settings t (ex_input [7; 8; -1; -1]%Z 4 [(0, 0)]%Z) = Ok (t', o') /\ length (added o') = 1 /\ lens t' = [1; 1; 0; 0]) as (t & o & H & Ho & o' & t' & H' & Ha & Hl).
  { do 2 eexists. split; [vm_compute; reflexivity|]. split; [done|]. do 2 eexists. split; [vm_compute; reflexivity|]. done. }
  assert (H1 : one_to_one (length [7; 8; 9]%Z) [(0, 0); (1, 1)]%Z). { split; [by apply (bool_decide_unpack _)|]. repeat constructor; cbn; lia. }
  assert (H2 : one_to_one (length [7; 8; -1; -1]%Z) [(0, 0)]%Z). { split; [by apply (bool_decide_unpack _)|]. repeat constructor; cbn; lia. }
  pose proof (recorded_step ex_settings init [] None _ t o (recorded_init _) (ex_sane [7; 8; 9]%Z 4 _ H1) ltac:(done) H) as R1. rewrite Ho in R1.
  pose proof (recorded_step ex_settings t _ _ _ t' o' R1 (ex_sane [7; 8; -1; -1]%Z 4 _ H2) ltac:(by intros d a [= <- <-]) H') as R2. rewrite Ha in R2.
  eexists t', _. split; [exact R2|]. split; [done|]. assert (Hq : (0 < ratio ex_settings)%Q) by done.
  destruct (glx_lengths _ _ _ _ Hq R2) as (f & rest & [= <- <-] & _ & G); [done|].
  split; apply G; try (cbn; lia); by rewrite Hl.
Qed.
