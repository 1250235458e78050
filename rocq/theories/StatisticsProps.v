(** C29, C30 and C65: windowed statistics, the registry of statistics, and the timers. *)
From Coq Require Import ZArith QArith Bool Lia.
From stdpp Require Import list gmap strings.
From Verif Require Import StatisticsModel StatisticsSpec AccumulatorProofs StatisticsProofs.
Open Scope Z_scope.

(** ** C29.  Full statement: after any number of samples the accumulator reports the exact figures.
    Missing: the int counters overflow at sample 2^31 ([ax_accumulator_overflow_refuted]). *)
Theorem ax_accumulator_exact_partial lo hi w l :
  0 < w <= int_max -> Forall (fun x => lo <= x <= hi) l -> l <> [] -> Z.of_nat (length l) <= 2 ^ 31 - 1 ->
  exists a, acc_adds w (acc_new lo hi) l = Some a /\
    total_samples a = Z.of_nat (length l) /\ sum a = total l /\
    is_min l (minv a) /\ is_max l (maxv a) /\ Some (most_recent a) = last l /\
    (acc_mean a == mean l)%Q /\
    samples a ≡ₚ last_samples (Z.to_nat w) l /\
    (exists m, acc_rolling_mean w a = Some m /\ (m == mean (last_samples (Z.to_nat w) l))%Q) /\
    ((2 <= length (last_samples (Z.to_nat w) l))%nat ->
     exists v, acc_variance w a = Some v /\ (v == sample_variance (last_samples (Z.to_nat w) l))%Q).
Proof.
  intros Hw HF Hne Hn.
  destruct (inv_adds lo hi w [] l (acc_new lo hi)) as (a & E & I);
    [lia|cbn; unfold int_max; lia|apply inv_new|].
  cbn [app] in I. exists a. split; [exact E|].
  split; [apply (inv_tot _ _ _ _ _ I)|]. split; [apply (inv_sum _ _ _ _ _ I)|].
  split. { rewrite (inv_min _ _ _ _ _ I). apply foldr_min_is_min; [done|].
    eapply Forall_impl; [exact HF|]. intros; cbn in *; lia. }
  split. { rewrite (inv_max _ _ _ _ _ I). apply foldr_max_is_max; [done|].
    eapply Forall_impl; [exact HF|]. intros; cbn in *; lia. }
  split. { rewrite (inv_recent _ _ _ _ _ I). destruct (last l) eqn:El; [done|].
    by apply last_None in El. }
  split. { unfold acc_mean, mean. rewrite (inv_tot _ _ _ _ _ I), (inv_sum _ _ _ _ _ I).
    destruct (Z.ltb_spec (Z.of_nat (length l)) 1); [|reflexivity]. destruct l; [done|]. cbn in *. lia. }
  split; [apply (inv_perm _ _ _ _ _ I)|].
  split. { apply (inv_rolling lo hi w l a); [done|unfold int_max; lia|done|done]. }
  apply (inv_variance lo hi w l a); [done|unfold int_max; lia|done].
Qed.
Print Assumptions ax_accumulator_exact_partial.
Example ax_accumulator_exact_ex :
  let l := [5; -2; 7; 1; 4] in
  Forall (fun x => -100 <= x <= 100) l /\
  exists a, acc_adds 3 (acc_new (-100) 100) l = Some a /\
    samples a = [1; 4; 7] /\ sum a = 15 /\ minv a = -2 /\ maxv a = 7 /\
    acc_rolling_mean 3 a = Some (inject_Z 12 / inject_Z 3)%Q.
Proof.
  cbn zeta. split; [repeat (constructor; [lia|]); constructor|].
  eexists. split; [vm_compute; reflexivity|]. repeat split.
Qed.

(** The accumulator never fails otherwise: it fails exactly at the 2^31-th sample. *)
Theorem ax_accumulator_fails_iff lo hi w l : 0 < w ->
  (acc_adds w (acc_new lo hi) l = None <-> 2 ^ 31 <= Z.of_nat (length l)).
Proof.
  intros Hw. split.
  - intros E. destruct (decide (Z.of_nat (length l) <= int_max)) as [Hle|]; [|unfold int_max in *; lia].
    destruct (inv_adds lo hi w [] l (acc_new lo hi)) as (a & E' & _); [done|done|apply inv_new|congruence].
  - intros Hn. apply (adds_overflow lo hi w [] l); [done|done| |apply inv_new].
    cbn [app]. unfold int_max. lia.
Qed.
Print Assumptions ax_accumulator_fails_iff.
Example ax_accumulator_fails_iff_ex : acc_adds 3 (acc_new (-9) 9) [5; -2; 7; 1] <> None.
Proof. vm_compute. done. Qed.

(** The full statement is false: [++sample_index_] overflows an int. *)
Theorem ax_accumulator_overflow_refuted :
  exists l, Forall (fun x => -1 <= x <= 1) l /\ acc_adds 100 (acc_new (-1) 1) l = None.
Proof.
  destruct (Z_of_nat_complete (2 ^ 31)) as [n Hn]; [lia|].
  exists (replicate n 0). split.
  - apply Forall_replicate. lia.
  - apply ax_accumulator_fails_iff; [lia|]. rewrite replicate_length. lia.
Qed.
Print Assumptions ax_accumulator_overflow_refuted.

(** Before the first sample the rolling mean of a finite window is 0/0, although Mean() reports 0. *)
Theorem ax_rolling_mean_empty_refuted :
  exists w lo hi, 0 < w /\ acc_rolling_mean w (acc_new lo hi) = None /\ acc_mean (acc_new lo hi) = 0%Q.
Proof. by exists 100, (-1), 1. Qed.
Print Assumptions ax_rolling_mean_empty_refuted.

(** ** C30. *)
(** Two calls that return a handle return the same one iff they name the same tag and there was no
    Reset in between. *)
Theorem rx_handles_iff acts s e1 t h e2 t' h' e3 :
  run init acts = Some (s, e1 ++ EvHandle t h :: e2 ++ EvHandle t' h' :: e3) ->
  (h = h' <-> t = t' /\ EvReset ∉ e2).
Proof. apply handles_iff. Qed.
Print Assumptions rx_handles_iff.
Example rx_handles_iff_ex :
  exists s, run init [AGetHandle "a"; ASample 0 5 7; AGetHandle "b"; AReset; AGetHandle "a"]
    = Some (s, [EvHandle "a" 0; EvSample None 0 7; EvHandle "b" 1; EvReset; EvHandle "a" 2]).
Proof. eexists. vm_compute. reflexivity. Qed.

(** The statistics of a handle are those of the samples added under it, and of no others. *)
Theorem rx_statistics_of_own_samples acts s evs h c :
  run init acts = Some (s, evs) -> collectors s !! h = Some c ->
  acc_adds window (acc_new limits.1 limits.2) (samples_under h evs) = Some (values c) /\
  total_samples (values c) = Z.of_nat (length (samples_under h evs)) /\
  sum (values c) = total (samples_under h evs) /\
  samples (values c) ≡ₚ last_samples 100 (samples_under h evs) /\
  (samples_under h evs <> [] -> Forall (fun x => - 2 ^ 2098 < x < 2 ^ 2098) (samples_under h evs) ->
   is_min (samples_under h evs) (minv (values c)) /\ is_max (samples_under h evs) (maxv (values c))).
Proof.
  intros R Hc. pose proof (wf_col _ _ (wf_reach _ _ _ R) _ _ Hc) as E.
  split; [exact E|].
  destruct (decide (Z.of_nat (length (samples_under h evs)) <= int_max)) as [Hle|Hgt].
  - destruct (inv_adds limits.1 limits.2 window [] (samples_under h evs) (acc_new limits.1 limits.2))
      as (a & E' & I); [done|done|apply inv_new|].
    rewrite E in E'. injection E' as <-. cbn [app] in I.
    split; [apply (inv_tot _ _ _ _ _ I)|]. split; [apply (inv_sum _ _ _ _ _ I)|]. split; [apply (inv_perm _ _ _ _ _ I)|].
    intros Hne HF. rewrite (inv_min _ _ _ _ _ I), (inv_max _ _ _ _ _ I).
    split; [apply foldr_min_is_min|apply foldr_max_is_max]; try done;
      (eapply Forall_impl; [exact HF|]); intros x Hx; cbv beta in Hx |- *; unfold limits; cbn [fst snd]; lia.
  - rewrite (adds_overflow limits.1 limits.2 window [] (samples_under h evs)) in E; [done|done|done| |apply inv_new].
    cbn [app]. lia.
Qed.
Print Assumptions rx_statistics_of_own_samples.
Example rx_statistics_of_own_samples_ex :
  exists s evs c, run init [AGetHandle "a"; AGetHandle "b"; ASample 0 5 7; ASample 1 6 8; ASample 0 9 3]
    = Some (s, evs) /\ collectors s !! 0%nat = Some c /\ samples_under 0 evs = [7; 3] /\ sum (values c) = 10.
Proof. eexists _, _, _. split; [vm_compute; reflexivity|]. split; [reflexivity|]. by split. Qed.

(** Consequently a sample under one handle changes no other handle's statistics, nor any tag. *)
Theorem rx_sample_isolated h now x s s' : add_sample h now x s = Some s' ->
  tag_map s' = tag_map s /\ forall h', h' <> h -> collectors s' !! h' = collectors s !! h'.
Proof.
  unfold add_sample. intros E. destruct (collectors s !! h); [|done].
  destruct (add_value c now x); [|done]. injection E as <-. split; [done|].
  intros h' Hne. cbn. by rewrite list_lookup_insert_ne.
Qed.
Print Assumptions rx_sample_isolated.
Example rx_sample_isolated_ex :
  exists s', add_sample 1 5 7 (State [collector_new; collector_new] ∅ []) = Some s'.
Proof. eexists. vm_compute. reflexivity. Qed.

(** The first handle a tag gets after a Reset has no samples. *)
Theorem rx_reset_starts_afresh acts s e1 e2 t h e3 :
  run init acts = Some (s, e1 ++ EvReset :: e2 ++ EvHandle t h :: e3) ->
  (forall h', EvHandle t h' ∉ e2) -> samples_under h (e1 ++ EvReset :: e2) = [].
Proof. apply fresh_after_reset. Qed.
Print Assumptions rx_reset_starts_afresh.
Example rx_reset_starts_afresh_ex :
  exists s, run init [AGetHandle "a"; ASample 0 5 7; AReset; AGetHandle "b"; AGetHandle "a"]
    = Some (s, [EvHandle "a" 0; EvSample None 0 7] ++ EvReset :: [EvHandle "b" 1] ++ EvHandle "a" 2 :: [])
  /\ forall h', EvHandle "a" h' ∉ [EvHandle "b" 1].
Proof. eexists. split; [vm_compute; reflexivity|]. intros h' H%elem_of_list_singleton. done. Qed.

(** GetTag inverts GetHandle. *)
Theorem rx_get_tag acts s evs t h :
  run init acts = Some (s, evs) -> tag_map s !! t = Some h -> get_tag h s = t.
Proof. intros R. apply (get_tag_ok s evs), (wf_reach _ _ _ R). Qed.
Print Assumptions rx_get_tag.
Example rx_get_tag_ex :
  exists s evs, run init [AGetHandle "a"; AGetHandle "b"] = Some (s, evs) /\ tag_map s !! "b" = Some 1%nat.
Proof. eexists _, _. split; vm_compute; reflexivity. Qed.

(** Not claimed by C30, but easily assumed: a collector made for a tag before a Reset keeps adding to
    the old accumulator, so its samples do not show up under the tag. *)
Theorem rx_stale_collector_refuted :
  exists acts s evs t h h' c,
    run init acts = Some (s, evs) /\ evs = [EvHandle t h; EvReset; EvSample None h 7; EvHandle t h'] /\
    collectors s !! h' = Some c /\ total_samples (values c) = 0.
Proof.
  exists [AGetHandle "a"; AReset; ASample 0 5 7; AGetHandle "a"].
  eexists _, _, "a"%string, 0%nat, 1%nat, _. split; [vm_compute; reflexivity|]. by repeat split.
Qed.
Print Assumptions rx_stale_collector_refuted.

(** ** C65: a timer contributes exactly its completed laps, all to the handle of its tag. *)
Theorem tx_timer_contributes_its_laps a1 tag stopped now a2 s evs :
  run init (a1 ++ ATimerNew tag stopped now :: a2) = Some (s, evs) ->
  exists s1 e1 h e2, run init a1 = Some (s1, e1) /\ evs = e1 ++ EvHandle tag h :: e2 /\
    by_timer (timers_created a1) evs
    = map (pair h) (laps (timers_created a1) (if stopped then None else Some now) a2).
Proof. apply timer_total. Qed.
Print Assumptions tx_timer_contributes_its_laps.
Example tx_timer_contributes_its_laps_ex :
  let a2 := [ATimerStop 0 12; ATimerStop 0 13; ATimerStart 0 20; ATimerDiscard 0; ATimerStart 0 30;
             ATimerDestroy 0 37] in
  exists s evs, run init (ATimerNew "x" false 10 :: a2) = Some (s, evs) /\
    laps 0 (Some 10) a2 = [2; 7] /\ by_timer 0 evs = [(0%nat, 2); (0%nat, 7)].
Proof. eexists _, _. split; [vm_compute; reflexivity|]. by split. Qed.
