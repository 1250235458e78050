(** Proofs about GyroTracker. *)
From Coq Require Import ZArith QArith Qround Bool Lia.
From stdpp Require Import list list_numbers sorting.
From Verif Require Import StlHelpersModel GyroTrackerModel GyroTrackerSpec.
Local Open Scope nat_scope.

Lemma at_ub_ok {A} (l : list A) i x : at_ub l i = Ok x <-> l !! i = Some x.
Proof. unfold at_ub. destruct (l !! i); split; congruence. Qed.

Lemma sublist_elem {A} (l k : list A) x : l `sublist_of` k -> x ∈ l -> x ∈ k.
Proof. intros H Hx. eapply elem_of_submseteq; [exact Hx|]. by apply sublist_submseteq. Qed.
Lemma sublist_NoDup {A} (l k : list A) : NoDup k -> l `sublist_of` k -> NoDup l.
Proof.
  intros Hn H. induction H as [|x l k H IH|x l k H IH]; [constructor| |].
  - inversion Hn; subst. constructor; [|by apply IH]. intros Hx. by eapply sublist_elem in Hx.
  - inversion Hn; subst. by apply IH.
Qed.

(** ** Unmatched keypoints *)
Lemma clear_flags_spec : forall ms flags flags', clear_flags flags ms = Ok flags' ->
  length flags' = length flags /\ Forall (fun m : Z * Z => (0 <= m.2 < Z.of_nat (length flags))%Z) ms /\
  forall i, (matched ms i -> i < length flags -> flags' !! i = Some false) /\ (~ matched ms i -> flags' !! i = flags !! i).
Proof.
  induction ms as [|m ms IH]; intros flags flags'; cbn [clear_flags].
  - intros [= ->]. split; [done|]. split; [constructor|]. intros i. split; [|done].
    intros (m & Hm & _). by apply elem_of_nil in Hm.
  - destruct (Z.leb_spec 0 m.2) as [L0|L0]; [|done]. destruct (Z.ltb_spec m.2 (Z.of_nat (length flags))) as [L1|L1]; [|done].
    cbn [andb]. intros H. apply IH in H as (Hl & Hf & Hi). rewrite insert_length in *.
    split; [done|]. split; [by constructor|]. intros i. destruct (Hi i) as [H1 H2]. split.
    + intros (m' & Hm' & E) Li. destruct (decide (Exists (fun m : Z * Z => m.2 = Z.of_nat i) ms)) as [Ex|Nx].
      * apply H1; [|done]. apply Exists_exists in Ex as (m'' & ? & ?). by exists m''.
      * rewrite H2. 2:{ intros (m'' & ? & ?). apply Nx. apply Exists_exists. by exists m''. }
        apply elem_of_cons in Hm' as [->|Hm'].
        -- rewrite E, Nat2Z.id. by apply list_lookup_insert.
        -- exfalso. apply Nx. apply Exists_exists. by exists m'.
    + intros Hn. rewrite H2. 2:{ intros (m'' & ? & ?). apply Hn. exists m''. split; [by right|done]. }
      apply list_lookup_insert_ne. intros E. apply Hn. exists m. split; [by left|]. lia.
Qed.
Lemma clear_flags_total : forall ms flags, Forall (fun m : Z * Z => (0 <= m.2 < Z.of_nat (length flags))%Z) ms ->
  exists flags', clear_flags flags ms = Ok flags'.
Proof.
  induction ms as [|m ms IH]; intros flags Hf; cbn [clear_flags]; [eauto|].
  inversion Hf as [|? ? Hm Hf']; subst.
  rewrite (proj2 (Z.leb_le 0 m.2)), (proj2 (Z.ltb_lt m.2 _)) by lia. cbn [andb]. apply IH. by rewrite insert_length.
Qed.
Lemma elem_of_flagged : forall flags k i, i ∈ flagged k flags <-> k <= i /\ flags !! (i - k) = Some true.
Proof.
  induction flags as [|b flags IH]; intros k i; cbn [flagged].
  - rewrite lookup_nil. split; [intros H; by apply elem_of_nil in H|by intros []].
  - rewrite elem_of_app, IH. destruct (decide (i = k)) as [->|N].
    + rewrite Nat.sub_diag. cbn. destruct b; split.
      * intros _. split; [lia|done].
      * intros _. left. by apply elem_of_list_singleton.
      * intros [H|[H _]]; [by apply elem_of_nil in H|lia].
      * by intros [].
    + split.
      * intros [H|[H1 H2]].
        -- destruct b; [apply elem_of_list_singleton in H; lia|by apply elem_of_nil in H].
        -- split; [lia|]. destruct (i - k) as [|d] eqn:E; [lia|]. cbn. by replace d with (i - S k) by lia.
      * intros [H1 H2]. right. split; [lia|]. destruct (i - k) as [|d] eqn:E; [lia|]. cbn in H2. by replace (i - S k) with d by lia.
Qed.
Lemma NoDup_flagged : forall flags k, NoDup (flagged k flags).
Proof.
  induction flags as [|b flags IH]; intros k; cbn [flagged]; [constructor|].
  apply NoDup_app. split; [destruct b; repeat constructor; by apply not_elem_of_nil|]. split; [|apply IH].
  intros i Hi Hi'. apply elem_of_flagged in Hi' as [L _]. destruct b; [apply elem_of_list_singleton in Hi; lia|by apply elem_of_nil in Hi].
Qed.
Lemma matched_index n (ms : list (Z * Z)) i : Forall (fun m : Z * Z => (0 <= m.2 < Z.of_nat n)%Z) ms ->
  matched ms i <-> i ∈ Z.to_nat <$> ms.*2.
Proof.
  intros Hf. rewrite Forall_forall in Hf. unfold matched. rewrite elem_of_list_fmap. split.
  - intros (m & Hm & E). exists m.2. split; [lia|]. by apply elem_of_list_fmap_1.
  - intros (z & E & Hz). apply elem_of_list_fmap in Hz as (m & -> & Hm). exists m. split; [done|]. pose proof (Hf m Hm). cbn in *. lia.
Qed.
Lemma matched_dec ms i : Decision (matched ms i).
Proof.
  destruct (decide (Exists (fun m : Z * Z => m.2 = Z.of_nat i) ms)) as [E|E].
  - left. apply Exists_exists in E as (m & ? & ?). by exists m.
  - right. intros (m & ? & ?). apply E. apply Exists_exists. by exists m.
Qed.

Lemma NoDup_index n (ms : list (Z * Z)) : Forall (fun m : Z * Z => (0 <= m.2 < Z.of_nat n)%Z) ms ->
  NoDup (Z.to_nat <$> ms.*2) <-> NoDup ms.*2.
Proof.
  intros Hf. split; [apply NoDup_fmap_1|]. induction ms as [|m ms IH]; intros H; [constructor|].
  inversion Hf as [|? ? Hm Hf']; subst. cbn in H. inversion H as [|? ? Hn H']; subst. cbn. constructor; [|by apply IH].
  intros Hi. apply elem_of_list_fmap in Hi as (z & E & Hz). apply Hn.
  assert (m.2 = z) as ->; [|done]. apply elem_of_list_fmap in Hz as (m' & -> & Hm').
  rewrite Forall_forall in Hf'. pose proof (Hf' m' Hm'). cbn in *. lia.
Qed.

Lemma unmatched_aux n ms flags : clear_flags (replicate n true) ms = Ok flags ->
  Forall (fun m : Z * Z => (0 <= m.2 < Z.of_nat n)%Z) ms /\
  (forall i, i ∈ flagged 0 flags <-> i < n /\ ~ matched ms i) /\
  length (flagged 0 flags) + length (remove_dups (Z.to_nat <$> ms.*2)) = n.
Proof.
  intros H. apply clear_flags_spec in H as (Hl & Hf & Hi). rewrite replicate_length in *.
  assert (He : forall i, i ∈ flagged 0 flags <-> i < n /\ ~ matched ms i).
  { intros i. rewrite elem_of_flagged, Nat.sub_0_r. destruct (Hi i) as [H1 H2]. split.
    - intros [_ H]. pose proof (lookup_lt_Some _ _ _ H) as L. rewrite Hl in L. split; [done|].
      intros Hm. rewrite H1 in H by done. done.
    - intros [L Hm]. split; [lia|]. rewrite H2 by done. by apply lookup_replicate_2. }
  split; [done|]. split; [done|].
  rewrite <- app_length. rewrite <- (seq_length n 0). apply Permutation_length.
  apply NoDup_Permutation.
  - apply NoDup_app. split; [apply NoDup_flagged|]. split; [|apply NoDup_remove_dups].
    intros i Hif Hid. apply He in Hif as [_ Hm]. rewrite elem_of_remove_dups in Hid. apply Hm. exact (proj2 (matched_index n ms i Hf) Hid).
  - apply NoDup_seq.
  - intros i. rewrite elem_of_app, He, elem_of_remove_dups. rewrite <- (matched_index n ms i Hf). rewrite elem_of_seq.
    split.
    + intros [[L _]|(m & Hm & E)]; [lia|]. rewrite Forall_forall in Hf. pose proof (Hf m Hm). cbn in *. lia.
    + intros L. destruct (matched_dec ms i); [by right|left; split; [lia|done]].
Qed.
Lemma unmatched_ok n ms l : unmatched n ms = Ok l ->
  one_to_one n ms /\ NoDup l /\ forall i, i ∈ l <-> i < n /\ ~ matched ms i.
Proof.
  unfold unmatched. destruct (Nat.ltb_spec n (length ms)) as [|L]; [done|].
  destruct (clear_flags (replicate n true) ms) as [flags| |] eqn:Hc; [|done|done]. cbn [rbind].
  destruct (length (flagged 0 flags) =? n - length ms) eqn:E; [|done]. intros [= <-].
  apply Nat.eqb_eq in E. apply unmatched_aux in Hc as (Hf & He & Hlen).
  split; [|split; [apply NoDup_flagged|done]]. split; [|done].
  apply (NoDup_index n); [done|]. apply NoDup_ListNoDup.
  apply (@NoDup_incl_NoDup _ (remove_dups (Z.to_nat <$> ms.*2))).
  - apply NoDup_ListNoDup. apply NoDup_remove_dups.
  - rewrite !fmap_length. lia.
  - intros i. rewrite <- !elem_of_list_In, elem_of_remove_dups. done.
Qed.
Lemma remove_dups_NoDup {A} `{EqDecision A} (l : list A) : NoDup l -> length (remove_dups l) = length l.
Proof.
  intros H. apply Permutation_length. apply NoDup_Permutation; [apply NoDup_remove_dups|done|].
  intros x. by rewrite elem_of_remove_dups.
Qed.
Lemma unmatched_total n ms : one_to_one n ms -> exists l, unmatched n ms = Ok l.
Proof.
  intros [Hn Hf]. destruct (clear_flags_total ms (replicate n true)) as [flags Hc]; [by rewrite replicate_length|].
  pose proof (unmatched_aux _ _ _ Hc) as (_ & _ & Hlen). unfold unmatched.
  apply (NoDup_index n) in Hn; [|done]. rewrite remove_dups_NoDup in Hlen by done. rewrite !fmap_length in Hlen.
  rewrite (proj2 (Nat.ltb_ge n (length ms))) by lia. rewrite Hc. cbn [rbind].
  rewrite (proj2 (Nat.eqb_eq _ _)); [eauto|lia].
Qed.

(** ** Candidates *)
Lemma eligible_spec s len st : forall l e, eligible s len st l = Ok e ->
  e.1.*1 `sublist_of` l /\ e.2.*1 `sublist_of` l /\
  (forall i k, (i, k) ∈ e.1 <-> i ∈ l /\ len !! i = Some k /\ st !! i = Some Detected /\ threshold s <= k) /\
  (forall i k, (i, k) ∈ e.2 <-> i ∈ l /\ len !! i = Some k /\ st !! i = Some LkTracked /\ k < max_len s).
Proof.
  induction l as [|i l IH]; intros e; cbn [eligible].
  - intros [= <-]. cbn. split; [constructor|]. split; [constructor|].
    split; intros i k; (split; [intros H; by apply elem_of_nil in H|intros [H _]; by apply elem_of_nil in H]).
  - destruct (at_ub len i) as [k| |] eqn:Hk; [|done|done]. cbn [rbind]. apply at_ub_ok in Hk.
    destruct (at_ub st i) as [x| |] eqn:Hx; [|done|done]. cbn [rbind]. apply at_ub_ok in Hx.
    destruct (eligible s len st l) as [r| |]; [|done|done]. cbn [rbind].
    destruct (IH r eq_refl) as (S1 & S2 & E1 & E2). intros [= <-]. clear IH.
    assert (Hc1 : forall j y, j ∈ i :: l /\ len !! j = Some y /\ st !! j = Some Detected /\ threshold s <= y <->
      (j = i /\ y = k /\ x = Detected /\ threshold s <= k) \/ (j, y) ∈ r.1).
    { intros j y. rewrite E1, elem_of_cons. split.
      - intros ([->|Hj] & ? & ? & ?); [left; assert (y = k) as -> by congruence; split; [done|]; split; [done|]; split; [congruence|done]|right; done].
      - intros [(-> & -> & -> & ?)|(? & ? & ? & ?)]; [split; [by left|done]|split; [by right|done]]. }
    assert (Hc2 : forall j y, j ∈ i :: l /\ len !! j = Some y /\ st !! j = Some LkTracked /\ y < max_len s <->
      (j = i /\ y = k /\ x = LkTracked /\ k < max_len s) \/ (j, y) ∈ r.2).
    { intros j y. rewrite E2, elem_of_cons. split.
      - intros ([->|Hj] & ? & ? & ?); [left; assert (y = k) as -> by congruence; split; [done|]; split; [done|]; split; [congruence|done]|right; done].
      - intros [(-> & -> & -> & ?)|(? & ? & ? & ?)]; [split; [by left|done]|split; [by right|done]]. }
    destruct x.
    + destruct (Nat.leb_spec (threshold s) k) as [L|L]; cbn [fst snd].
      * split; [cbn; by constructor|]. split; [by constructor|]. split; intros j y.
        -- rewrite Hc1, elem_of_cons. split; [intros [[= -> ->]|?]; [left; done|by right]|].
           intros [(-> & -> & _ & _)|?]; [by left|by right].
        -- rewrite Hc2. split; [by right|]. intros [(_ & _ & ? & _)|?]; done.
      * split; [by constructor|]. split; [by constructor|]. split; intros j y.
        -- rewrite Hc1. split; [by right|]. intros [(_ & _ & _ & ?)|?]; [lia|done].
        -- rewrite Hc2. split; [by right|]. intros [(_ & _ & ? & _)|?]; done.
    + destruct (Nat.ltb_spec k (max_len s)) as [L|L]; cbn [fst snd].
      * split; [by constructor|]. split; [cbn; by constructor|]. split; intros j y.
        -- rewrite Hc1. split; [by right|]. intros [(_ & _ & ? & _)|?]; done.
        -- rewrite Hc2, elem_of_cons. split; [intros [[= -> ->]|?]; [left; done|by right]|].
           intros [(-> & -> & _ & _)|?]; [by left|by right].
      * split; [by constructor|]. split; [by constructor|]. split; intros j y.
        -- rewrite Hc1. split; [by right|]. intros [(_ & _ & ? & _)|?]; done.
        -- rewrite Hc2. split; [by right|]. intros [(_ & _ & _ & ?)|?]; [lia|done].
Qed.
Lemma eligible_total s len st : forall l, Forall (fun i => i < length len /\ i < length st) l ->
  exists e, eligible s len st l = Ok e.
Proof.
  induction l as [|i l IH]; intros Hf; cbn [eligible]; [eauto|]. inversion Hf as [|? ? [L1 L2] Hf']; subst.
  destruct (lookup_lt_is_Some_2 len i L1) as [k Hk]. destruct (lookup_lt_is_Some_2 st i L2) as [x Hx].
  rewrite (proj2 (at_ub_ok _ _ _) Hk), (proj2 (at_ub_ok _ _ _) Hx). cbn [rbind].
  destruct (IH Hf') as [r ->]. cbn [rbind]. eauto.
Qed.
Lemma push_until_spec mx : forall l out, length out <= mx -> push_until mx out l = out ++ take (mx - length out) l.*1.
Proof.
  induction l as [|p l IH]; intros out L; cbn [push_until].
  - cbn. rewrite take_nil. by rewrite app_nil_r.
  - destruct (Nat.eqb_spec (length out) mx) as [E|N].
    + rewrite E, Nat.sub_diag. cbn. by rewrite app_nil_r.
    + rewrite IH by (rewrite app_length; cbn; lia). rewrite <- app_assoc, app_length. cbn.
      destruct (mx - length out) as [|d] eqn:E; [lia|]. cbn. by replace (mx - (length out + 1)) with d by lia.
Qed.
Lemma push_both mx d f : push_until mx (push_until mx [] d) f = take mx (d.*1 ++ f.*1).
Proof.
  rewrite (push_until_spec mx d []) by (cbn; lia). cbn. rewrite Nat.sub_0_r.
  rewrite push_until_spec by (rewrite take_length; lia). rewrite take_length.
  destruct (decide (mx <= length d.*1)) as [L|L].
  - rewrite take_app_le by done. rewrite Nat.min_l by done. rewrite Nat.sub_diag. cbn. by rewrite app_nil_r.
  - rewrite take_app_ge by lia. rewrite Nat.min_r by lia. by rewrite (take_ge d.*1) by lia.
Qed.
Lemma max_candidates_le s n : (0 <= ratio s)%Q -> (inject_Z (Z.of_nat (max_candidates s n)) <= inject_Z (Z.of_nat n) * ratio s)%Q.
Proof.
  intros H. unfold max_candidates.
  assert (0 <= Qfloor (inject_Z (Z.of_nat n) * ratio s))%Z as H0.
  { change 0%Z with (Qfloor (inject_Z 0)). apply Qfloor_resp_le. apply Qmult_le_0_compat; [|done].
    change 0%Q with (inject_Z 0). rewrite <- Zle_Qle. lia. }
  rewrite Z2Nat.id by done. apply Qfloor_le.
Qed.

Lemma sorted_lookup {A} (R : A -> A -> Prop) l p q x y : StronglySorted R l -> p < q -> l !! p = Some x -> l !! q = Some y -> R x y.
Proof.
  intros H. revert p q. induction H as [|z l _ IH Hf]; intros p q L Hp Hq; [by rewrite lookup_nil in Hp|].
  destruct q as [|q]; [lia|]. destruct p as [|p]; cbn in *.
  - injection Hp as <-. rewrite Forall_forall in Hf. apply Hf. by eapply elem_of_list_lookup_2.
  - apply (IH p q); [lia|done|done].
Qed.

Lemma candidates_shape s sd su n n_kp1 ms len st out : sorts sd ge -> sorts su le ->
  lk_candidates s sd su n n_kp1 ms len st = Ok out ->
  let mx := max_candidates s n_kp1 in
  exists u e d f, unmatched n ms = Ok u /\ eligible s len st u = Ok e /\ length len = n /\
    d ≡ₚ e.1 /\ f ≡ₚ e.2 /\ out = take mx (d.*1 ++ f.*1) /\
    (mx < length d + length f -> StronglySorted (fun p q => p.2 >= q.2) d /\
       (length d < mx -> StronglySorted (fun p q => p.2 <= q.2) f)).
Proof.
  intros Hd Hu. unfold lk_candidates. destruct (length len =? n) eqn:El; [|done]. cbn [negb]. apply Nat.eqb_eq in El.
  destruct (unmatched n ms) as [u| |] eqn:Hun; [|done|done]. cbn [rbind].
  destruct (eligible s len st u) as [e| |] eqn:He; [|done|done]. cbn [rbind]. intros [= <-]. cbn zeta.
  set (mx := max_candidates s n_kp1).
  set (d := if mx <? length e.1 + length e.2 then sd e.1 else e.1).
  set (f := if (mx <? length e.1 + length e.2) && (length e.1 <? mx) then su e.2 else e.2).
  assert (Pd : d ≡ₚ e.1) by (unfold d; destruct (mx <? _); [apply Hd|done]).
  assert (Pf : f ≡ₚ e.2) by (unfold f; destruct (_ && _); [apply Hu|done]).
  exists u, e, d, f. split; [done|]. split; [done|]. split; [done|]. split; [done|]. split; [done|].
  split; [apply push_both|]. rewrite (Permutation_length Pd), (Permutation_length Pf). intros L.
  unfold d, f. rewrite (proj2 (Nat.ltb_lt _ _) L). cbn [andb]. split; [apply Hd|].
  intros L2. rewrite (proj2 (Nat.ltb_lt _ _) L2). apply Hu.
Qed.

(** ** Track lengths *)
Lemma find_index_spec v : forall l j, find_index v l = Some j -> l !! j = Some v.
Proof.
  induction l as [|x l IH]; intros j; cbn [find_index]; [done|].
  destruct (Z.eqb_spec x v) as [->|N]; [intros [= <-]; done|].
  destruct (find_index v l) as [k|]; [|done]. cbn. intros [= <-]. cbn. by apply IH.
Qed.
Lemma tracked_loop_range km1 : forall k i, Forall (fun m : nat * nat => i <= m.1 < i + length k /\ m.2 < length km1) (tracked_loop km1 i k).
Proof.
  induction k as [|id k IH]; intros i; cbn [tracked_loop]; [constructor|].
  apply Forall_app. split.
  - destruct (id =? -1)%Z; [constructor|]. destruct (find_index id km1) as [j|] eqn:E; [|constructor].
    apply find_index_spec, lookup_lt_Some in E. constructor; [cbn; lia|constructor].
  - eapply Forall_impl; [apply IH|]. cbn. intros m H. lia.
Qed.
Lemma length_loop_total st_k st_km1 prev : forall ms len,
  Forall (fun m : nat * nat => m.1 < length st_k /\ m.2 < length st_km1 /\ m.2 < length prev) ms ->
  exists len', length_loop st_k st_km1 prev ms len = Ok len' /\ length len' = length len.
Proof.
  induction ms as [|[k km1] ms IH]; intros len Hf; cbn [length_loop]; [eauto|].
  inversion Hf as [|? ? (L1 & L2 & L3) Hf']; subst. cbn in *.
  destruct (lookup_lt_is_Some_2 st_km1 km1 L2) as [a Ha]. destruct (lookup_lt_is_Some_2 st_k k L1) as [b Hb].
  destruct (lookup_lt_is_Some_2 prev km1 L3) as [p Hp].
  rewrite (proj2 (at_ub_ok _ _ _) Ha), (proj2 (at_ub_ok _ _ _) Hb), (proj2 (at_ub_ok _ _ _) Hp). cbn [rbind].
  destruct (bool_decide (a = b)); cbn [rbind]; (edestruct IH as (len' & -> & E); [done|]; exists len'; split; [done|]; by rewrite E, insert_length).
Qed.

(** ** Optical flow *)
Lemma definite_spec pred : forall cand d, definite pred cand = Ok d ->
  d `sublist_of` cand /\ (forall i, i ∈ d <-> i ∈ cand /\ pred !! i = Some true).
Proof.
  induction cand as [|i cand IH]; intros d; cbn [definite].
  - intros [= <-]. split; [constructor|]. intros i. split; [intros H; by apply elem_of_nil in H|by intros []].
  - destruct (at_ub pred i) as [b| |] eqn:Hb; [|done|done]. cbn [rbind]. apply at_ub_ok in Hb.
    destruct (definite pred cand) as [r| |]; [|done|done]. cbn [rbind]. destruct (IH r eq_refl) as [Hs Hi].
    intros [= <-]. destruct b.
    + split; [by constructor|]. intros j. rewrite !elem_of_cons, Hi. split; [intros [->|[? ?]]; auto|].
      intros [[->|?] ?]; auto.
    + split; [by constructor|]. intros j. rewrite elem_of_cons, Hi. split; [intros [? ?]; auto|].
      intros [[->|?] ?]; [congruence|done].
Qed.
Lemma definite_total pred : forall cand, Forall (fun i => i < length pred) cand -> exists d, definite pred cand = Ok d.
Proof.
  induction cand as [|i cand IH]; intros Hf; cbn [definite]; [eauto|]. inversion Hf as [|? ? L Hf']; subst.
  destruct (lookup_lt_is_Some_2 pred i L) as [b Hb]. rewrite (proj2 (at_ub_ok _ _ _) Hb). cbn [rbind].
  destruct (IH Hf') as [r ->]. cbn [rbind]. eauto.
Qed.
Lemma keep_tracked_sub s : forall idx fl, (keep_tracked s idx fl).*1 `sublist_of` idx.
Proof.
  induction idx as [|i idx IH]; intros fl; cbn [keep_tracked]; [constructor|].
  destruct fl as [|[ok p] fl]; [apply sublist_nil_l|]. rewrite fmap_app. cbn.
  destruct (negb ok || outside s p); cbn; by constructor.
Qed.
Lemma elem_of_keep_tracked s : forall idx fl i p, (i, p) ∈ keep_tracked s idx fl ->
  outside s p = false /\ exists k, idx !! k = Some i /\ fl !! k = Some (true, p).
Proof.
  induction idx as [|j idx IH]; intros fl i p; cbn [keep_tracked]; [intros H; by apply elem_of_nil in H|].
  destruct fl as [|[ok q] fl]; [intros H; by apply elem_of_nil in H|]. rewrite elem_of_app. intros [H|H].
  - destruct ok; cbn in H; [|by apply elem_of_nil in H].
    destruct (outside s q) eqn:Ho; [by apply elem_of_nil in H|]. apply elem_of_list_singleton in H. injection H as -> ->.
    split; [done|]. by exists 0.
  - apply IH in H as (Ho & k & H1 & H2). split; [done|]. by exists (S k).
Qed.
Lemma new_matches_spec n0 kept : forall surv i r, new_matches n0 kept i surv = Ok r ->
  length r.1 = length surv /\ length r.2 = length surv /\
  forall k c, surv !! k = Some c -> exists x, kept !! c = Some x /\
    r.1 !! k = Some (Z.of_nat (n0 + i + k), Z.of_nat x.1) /\ r.2 !! k = Some x.2.
Proof.
  induction surv as [|c surv IH]; intros i r; cbn [new_matches].
  - intros [= <-]. split; [done|]. split; [done|]. intros k c H. by rewrite lookup_nil in H.
  - destruct (at_ub kept c) as [x| |] eqn:Hx; [|done|done]. cbn [rbind]. apply at_ub_ok in Hx.
    destruct (new_matches n0 kept (S i) surv) as [q| |] eqn:Hq; [|done|done]. cbn [rbind]. apply IH in Hq as (L1 & L2 & H).
    intros [= <-]. cbn. split; [congruence|]. split; [congruence|]. intros [|k] c' Hc; cbn in *.
    + injection Hc as <-. exists x. rewrite Nat.add_0_r. done.
    + destruct (H k c' Hc) as (y & Hy & H1 & H2). exists y. split; [done|]. split; [|done]. replace (n0 + i + S k) with (n0 + S i + k) by lia. exact H1.
Qed.
Lemma new_matches_total n0 kept : forall surv i, Forall (fun c => c < length kept) surv ->
  exists r, new_matches n0 kept i surv = Ok r.
Proof.
  induction surv as [|c surv IH]; intros i Hf; cbn [new_matches]; [eauto|]. inversion Hf as [|? ? L Hf']; subst.
  destruct (lookup_lt_is_Some_2 kept c L) as [x Hx]. rewrite (proj2 (at_ub_ok _ _ _) Hx). cbn [rbind].
  destruct (IH (S i) Hf') as [r ->]. cbn [rbind]. eauto.
Qed.
