(** Proofs about addPointOrReplaceWeakestNearestPoints. *)
From Coq Require Import ZArith Bool Lia.
From stdpp Require Import list list_numbers.
From Verif Require Import StlHelpersModel StlHelpersSpec StlHelpersProofs OccupancyGridModel
  OccupancyGridSpec OccupancyGridProofs.
Open Scope Z_scope.

(** ** Picking elements by index *)
Lemma eq_perm {A} (l l' : list A) : l = l' -> l ≡ₚ l'.
Proof. by intros ->. Qed.
Lemma omap_ext_Forall {A B} (f g : A -> option B) l : Forall (fun x => f x = g x) l -> omap f l = omap g l.
Proof. induction 1 as [|x l E _ IH]; [done|]. cbn. rewrite E, IH. done. Qed.

Lemma pick_without {A} (l : list A) k idx :
  NoDup idx -> Forall (fun i => k <= i < k + length l)%nat idx ->
  without_from k idx l ++ omap (fun i => l !! (i - k)%nat) idx ≡ₚ l.
Proof.
  revert k idx; induction l as [|x l IH]; intros k idx HN HF.
  - destruct idx as [|i idx]; [done|]. inversion HF; subst. simpl in *. lia.
  - rewrite without_from_cons. destruct (decide (k ∈ idx)) as [Hk|Hk].
    + apply elem_of_Permutation in Hk as [idx' P].
      assert (HN' : NoDup (k :: idx')) by (by rewrite <- P). apply NoDup_cons in HN' as [Hk' HN'].
      rewrite P in HF. inversion HF as [|? ? _ HF']; subst.
      assert (HF2 : Forall (fun i => S k <= i < S k + length l)%nat idx').
      { rewrite Forall_forall in *. intros i Hi. specialize (HF' i Hi).
        assert (i <> k) by (intros ->; done). simpl in HF'. lia. }
      rewrite (without_from_ext (S k) idx idx').
      2:{ intros i Hi. rewrite P, elem_of_cons. split; [intros [->|]; [lia|done]|by right]. }
      rewrite (omap_Permutation _ _ _ P). cbn [omap list_omap]. rewrite Nat.sub_diag. simpl lookup. cbv iota beta.
      simpl app. rewrite <- Permutation_middle. f_equiv.
      rewrite <- (IH (S k) idx' HN' HF2) at 2. f_equiv.
      apply eq_perm, omap_ext_Forall. eapply Forall_impl; [exact HF2|]. intros i Hi. cbv beta in *.
      replace (i - k)%nat with (S (i - S k)) by lia. done.
    + assert (HF2 : Forall (fun i => S k <= i < S k + length l)%nat idx).
      { rewrite Forall_forall in *. intros i Hi. specialize (HF i Hi).
        assert (i <> k) by (intros ->; done). simpl in HF. lia. }
      simpl. f_equiv. rewrite <- (IH (S k) idx HN HF2) at 2. f_equiv.
      apply eq_perm, omap_ext_Forall. eapply Forall_impl; [exact HF2|]. intros i Hi. cbv beta in *.
      replace (i - k)%nat with (S (i - S k)) by lia. done.
Qed.
Lemma pick_without0 {A} (l : list A) idx :
  NoDup idx -> Forall (fun i => i < length l)%nat idx -> without idx l ++ omap (fun i => l !! i) idx ≡ₚ l.
Proof.
  intros HN HF. rewrite without_alt. etransitivity; [|apply (pick_without l 0 idx HN)].
  - f_equiv. apply eq_perm, omap_ext_Forall. apply Forall_true. intros i. by rewrite Nat.sub_0_r.
  - eapply Forall_impl; [exact HF|]. simpl; lia.
Qed.
Lemma omap_in_range {A} (l : list A) idx : Forall (fun i => i < length l)%nat idx ->
  length (omap (fun i => l !! i) idx) = length idx.
Proof.
  induction 1 as [|i idx Hi HF IH]; [done|]. destruct (lookup_lt_is_Some_2 l i Hi) as [x Hx].
  cbn. rewrite Hx. cbn. by f_equal.
Qed.

(** ** Entries *)
Definition pick (cs : list (list point)) (e : entry) : list point :=
  omap (fun i => default [] (cs !! e.1) !! i) e.2.
Definition picked (cs : list (list point)) (es : list entry) : list point := es ≫= pick cs.

Definition good_entry (cs : list (list point)) (e : entry) : Prop :=
  exists cell, cs !! e.1 = Some cell /\ NoDup e.2 /\ Forall (fun i => i < length cell)%nat e.2.
Definition good (cs : list (list point)) (es : list entry) : Prop :=
  NoDup es.*1 /\ Forall (good_entry cs) es.

Lemma picked_cons cs e es : picked cs (e :: es) = pick cs e ++ picked cs es.
Proof. done. Qed.
Lemma pick_length cs e : good_entry cs e -> length (pick cs e) = length e.2.
Proof. intros (cell & Hk & _ & HF). unfold pick. rewrite Hk. by apply omap_in_range. Qed.

Lemma picked_other cs cs' es :
  (forall k, k ∈ es.*1 -> cs !! k = cs' !! k) -> picked cs es = picked cs' es.
Proof.
  induction es as [|e es IH]; intros H; [done|]. rewrite !picked_cons, IH by (intros; apply H; by right).
  f_equal. unfold pick. by rewrite (H e.1) by (by left).
Qed.

Lemma remove_entries_ok cs n es :
  good cs es ->
  exists g', remove_entries cs n es = Ok g' /\
    concat (cells g') ++ picked cs es ≡ₚ concat cs /\
    num_points g' = n - Z.of_nat (length (picked cs es)) /\
    length (cells g') = length cs /\
    (forall k cell', cells g' !! k = Some cell' -> exists cell, cs !! k = Some cell /\ cell' ⊆ cell).
Proof.
  revert cs n; induction es as [|[k is] es IH]; intros cs n [HN HF]; cbn [remove_entries].
  { eexists. split; [done|]. simpl. rewrite app_nil_r. repeat split; auto; [lia|]. intros k cell' H. eauto. }
  apply NoDup_cons in HN as [Hk HN]. simpl in Hk.
  inversion HF as [|? ? HG HF']; subst. destruct HG as (cell & Hc & HNi & HFi). simpl in Hc, HNi, HFi.
  rewrite Hc, erase_vector_ok by done.
  assert (Lk : (k < length cs)%nat) by (by eapply lookup_lt_Some).
  assert (Hoth : forall j, j ∈ es.*1 -> <[k:=without is cell]> cs !! j = cs !! j).
  { intros j Hj. apply list_lookup_insert_ne. intros ->. done. }
  destruct (IH (<[k := without is cell]> cs) (n - Z.of_nat (length is))) as (g' & E & P & N & L & S).
  { split; [done|]. rewrite Forall_forall in *. intros e He. destruct (HF' e He) as (c' & Hc' & H1 & H2).
    exists c'. split; [|done]. rewrite Hoth; [done|]. apply elem_of_list_fmap. eauto. }
  exists g'. split; [done|].
  rewrite (picked_other _ cs es Hoth) in P, N.
  assert (Epick : pick cs (k, is) = omap (fun i => cell !! i) is) by (unfold pick; simpl; by rewrite Hc).
  split; [|split; [|split]].
  - rewrite picked_cons, Epick. apply (Permutation_app_inv_r (without is cell)).
    rewrite <- (concat_insert cs k cell (without is cell) Hc), <- P.
    rewrite <- (pick_without0 cell is HNi HFi) at 2.
    rewrite <- !app_assoc. f_equiv.
    rewrite (Permutation_app_comm (omap _ _)). rewrite <- !app_assoc. done.
  - rewrite N, picked_cons, app_length, Epick, omap_in_range by done. lia.
  - by rewrite L, insert_length.
  - intros j cell' Hj. destruct (S j cell' Hj) as (c0 & Hc0 & Hsub).
    destruct (decide (k = j)) as [<-|Hne].
    + rewrite list_lookup_insert in Hc0 by done. injection Hc0 as <-. exists cell. split; [done|].
      intros x Hx. apply Hsub in Hx. rewrite <- (pick_without0 cell is HNi HFi). apply elem_of_app. by left.
    + rewrite list_lookup_insert_ne in Hc0 by done. eauto.
Qed.

(** ** Scanning for the strongest *)
Definition best_ok (cs : list (list point)) (es : list entry) (lw : Z) (b : Z * option (nat * nat)) : Prop :=
  match b.2 with
  | None => b.1 = lw
  | Some (k, pos) => lw < b.1 /\ exists is i cell q, (k, is) ∈ es /\ is !! pos = Some i /\
      cs !! k = Some cell /\ cell !! i = Some q /\ weight q = b.1
  end.

Lemma scan_entry_ok cs es lw k is cell :
  (k, is) ∈ es -> cs !! k = Some cell ->
  forall is2 is1 b, is = is1 ++ is2 -> Forall (fun i => i < length cell)%nat is2 -> best_ok cs es lw b -> lw <= b.1 ->
  exists b', scan_entry cell k (length is1) is2 b = Ok b' /\ best_ok cs es lw b' /\ b.1 <= b'.1 /\
    Forall (fun x => weight x <= b'.1) (omap (fun i => cell !! i) is2).
Proof.
  intros He Hk. induction is2 as [|i is2 IH]; intros is1 b E HF HB Hle; cbn [scan_entry].
  { exists b. repeat split; auto; [lia|constructor]. }
  inversion HF as [|? ? Hi HF']; subst. destruct (lookup_lt_is_Some_2 cell i Hi) as [q Hq]. rewrite Hq.
  assert (Hit : is1 ++ i :: is2 = (is1 ++ [i]) ++ is2) by (by rewrite <- app_assoc).
  assert (Hlen : S (length is1) = length (is1 ++ [i])) by (rewrite app_length; simpl; lia).
  rewrite Hlen.
  destruct (Z.ltb_spec b.1 (weight q)) as [Hlt|Hge].
  - destruct (IH (is1 ++ [i]) (weight q, Some (k, length is1)) Hit HF') as (b' & E' & HB' & Hle' & HA).
    + unfold best_ok; simpl. split; [lia|]. exists (is1 ++ i :: is2), i, cell, q. repeat split; auto.
      by apply list_lookup_middle.
    + simpl. lia.
    + exists b'. simpl in Hle'. repeat split; auto; [lia|]. cbn. rewrite Hq. cbn. constructor; [lia|done].
  - destruct (IH (is1 ++ [i]) b Hit HF' HB Hle) as (b' & E' & HB' & Hle' & HA).
    exists b'. repeat split; auto. cbn. rewrite Hq. cbn. constructor; [lia|done].
Qed.

Lemma scan_ok cs es0 lw es b :
  (forall e, e ∈ es -> e ∈ es0) -> Forall (good_entry cs) es -> best_ok cs es0 lw b -> lw <= b.1 ->
  exists b', scan cs es b = Ok b' /\ best_ok cs es0 lw b' /\ b.1 <= b'.1 /\
    Forall (fun x => weight x <= b'.1) (picked cs es).
Proof.
  revert b; induction es as [|[k is] es IH]; intros b Hsub HF HB Hle; cbn [scan].
  { exists b. repeat split; auto; [lia|constructor]. }
  inversion HF as [|? ? HG HF']; subst. destruct HG as (cell & Hc & HNi & HFi). simpl in Hc, HNi, HFi. rewrite Hc.
  destruct (scan_entry_ok cs es0 lw k is cell ltac:(apply Hsub; by left) Hc is [] b eq_refl HFi HB Hle)
    as (b1 & E1 & HB1 & L1 & A1). simpl in E1. rewrite E1.
  destruct (IH b1) as (b2 & E2 & HB2 & L2 & A2); auto; [intros; apply Hsub; by right|lia|].
  exists b2. repeat split; auto; [lia|].
  rewrite picked_cons. apply Forall_app. split; [|done]. unfold pick; simpl. rewrite Hc. simpl.
  eapply Forall_impl; [exact A1|]. simpl; lia.
Qed.

(** ** Excluding the strongest *)
Lemma exclude_keys k pos es : (exclude k pos es).*1 = es.*1.
Proof.
  unfold exclude. rewrite <- list_fmap_compose. apply list_fmap_ext. intros i [k' is] _. simpl.
  by destruct (k' =? k)%nat.
Qed.
Lemma exclude_notin k pos es : k ∉ es.*1 -> exclude k pos es = es.
Proof.
  induction es as [|[k' is] es IH]; intros H; [done|]. simpl in H. apply not_elem_of_cons in H as [H1 H2].
  change (exclude k pos ((k', is) :: es))
    with ((if (k' =? k)%nat then (k', delete pos is) else (k', is)) :: exclude k pos es).
  rewrite IH by done. destruct (Nat.eqb_spec k' k); [congruence|done].
Qed.
Lemma NoDup_delete {A} (l : list A) i : NoDup l -> NoDup (delete i l).
Proof.
  intros H. destruct (l !! i) as [x|] eqn:E.
  - rewrite (delete_Permutation l i x E) in H. by apply NoDup_cons in H as [_ H].
  - revert i E. induction H as [|y l Hy HN IH]; intros [|i] E; simpl in *; try done.
    + constructor.
    + constructor.
    + constructor; [|by apply IH]. intros Hin. apply Hy.
      clear -Hin. revert i Hin. induction l as [|z l IH]; intros [|i] Hin; simpl in *; auto.
      * by right.
      * apply elem_of_cons in Hin as [->|Hin]; [by left|right; by eapply IH].
Qed.
Lemma exclude_ok cs es k pos is i cell q :
  good cs es -> (k, is) ∈ es -> is !! pos = Some i -> cs !! k = Some cell -> cell !! i = Some q ->
  good cs (exclude k pos es) /\ picked cs es ≡ₚ q :: picked cs (exclude k pos es).
Proof.
  intros [HN HF] He Hi Hc Hq. split.
  - split; [by rewrite exclude_keys|]. unfold exclude. rewrite Forall_fmap. eapply Forall_impl; [exact HF|].
    intros [k' is'] (c' & Hc' & H1 & H2). simpl in *. destruct (Nat.eqb_spec k' k) as [->|]; [|by exists c'].
    exists c'. simpl. split; [done|]. split; [by apply NoDup_delete|].
    rewrite Forall_forall in *. intros j Hj. apply H2.
    destruct (is' !! pos) as [z|] eqn:Ez.
    + rewrite (delete_Permutation is' pos z Ez). by right.
    + clear -Hj. revert pos Hj. induction is' as [|z l IH]; intros [|pos] Hin; simpl in *; auto.
      * by right.
      * apply elem_of_cons in Hin as [->|Hin]; [by left|right; by eapply IH].
  - induction es as [|[k' is'] es IH]; [by apply elem_of_nil in He|].
    apply NoDup_cons in HN as [Hk' HN]. inversion HF; subst. simpl in Hk'.
    apply elem_of_cons in He as [[= <- <-]|He].
    + change (exclude k pos ((k, is) :: es))
        with ((if (k =? k)%nat then (k, delete pos is) else (k, is)) :: exclude k pos es).
      rewrite Nat.eqb_refl, exclude_notin by done. rewrite !picked_cons.
      unfold pick at 1 2; cbn [fst snd]. rewrite Hc; cbn [default].
      rewrite (omap_Permutation _ _ _ (delete_Permutation is pos i Hi)). cbn. by rewrite Hq.
    + assert (k' <> k).
      { intros ->. apply Hk'. apply elem_of_list_fmap. by exists (k, is). }
      change (exclude k pos ((k', is') :: es))
        with ((if (k' =? k)%nat then (k', delete pos is') else (k', is')) :: exclude k pos es).
      destruct (Nat.eqb_spec k' k); [done|]. rewrite !picked_cons, IH by done. by rewrite <- Permutation_middle.
Qed.

(** ** Collecting violations *)
Lemma violating_ok p d cell : forall pos,
  NoDup (violating_indices p d cell pos) /\
  Forall (fun i => pos <= i < pos + length cell)%nat (violating_indices p d cell pos) /\
  omap (fun i => cell !! (i - pos)%nat) (violating_indices p d cell pos) = filter (fun q => too_close p d q = true) cell.
Proof.
  induction cell as [|q cell IH]; intros pos; [by repeat constructor|].
  destruct (IH (S pos)) as (H1 & H2 & H3). cbn [violating_indices length].
  assert (H2' : Forall (fun i => pos <= i < pos + S (length cell))%nat (violating_indices p d cell (S pos))).
  { eapply Forall_impl; [exact H2|]. simpl; lia. }
  assert (H3' : omap (fun i => (q :: cell) !! (i - pos)%nat) (violating_indices p d cell (S pos)) =
                filter (fun q => too_close p d q = true) cell).
  { rewrite <- H3. apply omap_ext_Forall. eapply Forall_impl; [exact H2|]. simpl. intros i Hi.
    replace (i - pos)%nat with (S (i - S pos)) by lia. done. }
  rewrite filter_cons. destruct (too_close p d q).
  - rewrite decide_True by done. split; [|split].
    + constructor; [|done]. intros Hin. rewrite Forall_forall in H2. specialize (H2 _ Hin). lia.
    + constructor; [lia|done].
    + cbn [omap list_omap]. rewrite Nat.sub_diag. simpl lookup. cbv iota beta. by f_equal.
  - rewrite decide_False by done. done.
Qed.

Definition violating0 p d cell := violating_ok p d cell 0.

Lemma violations_keys p d cs nb : forall k, k ∈ (violations p d cs nb).*1 -> k ∈ nb.
Proof.
  intros k Hk. apply elem_of_list_fmap in Hk as ([k' is] & -> & H).
  unfold violations in H. apply elem_of_list_filter in H as [_ H].
  apply elem_of_list_fmap in H as (k & [= -> ->] & H). done.
Qed.
Lemma violations_good p d cs nb :
  NoDup nb -> Forall (fun k => k < length cs)%nat nb -> good cs (violations p d cs nb).
Proof.
  intros HN HF. split.
  - induction HN as [|k nb Hk HN IH]; [constructor|]. inversion HF; subst.
    unfold violations. rewrite fmap_cons, filter_cons. destruct (decide _); [|by apply IH].
    simpl. constructor; [|by apply IH]. intros Hin. apply Hk. by eapply violations_keys.
  - rewrite Forall_forall in HF. rewrite Forall_forall. intros [k is] H. unfold violations in H.
    apply elem_of_list_filter in H as [_ H]. apply elem_of_list_fmap in H as (k' & [= <- ->] & H).
    destruct (lookup_lt_is_Some_2 cs k (HF k H)) as [cell Hc]. exists cell. simpl. rewrite Hc. simpl.
    destruct (violating0 p d cell) as (H1 & H2 & _). split; [done|]. split; [done|].
    eapply Forall_impl; [exact H2|]. simpl; lia.
Qed.
Lemma violations_picked p d cs nb :
  picked cs (violations p d cs nb) = nb ≫= (fun k => filter (fun q => too_close p d q = true) (default [] (cs !! k))).
Proof.
  induction nb as [|k nb IH]; [done|].
  assert (E : pick cs (k, violating_indices p d (default [] (cs !! k)) 0) =
     filter (fun q => too_close p d q = true) (default [] (cs !! k))).
  { destruct (violating0 p d (default [] (cs !! k))) as (_ & _ & H3). rewrite <- H3. unfold pick. simpl.
    apply omap_ext_Forall, Forall_true. intros i. by rewrite Nat.sub_0_r. }
  rewrite bind_cons. unfold violations. rewrite fmap_cons, filter_cons.
  destruct (decide _) as [Hd|Hd].
  - rewrite picked_cons, E. f_equal. apply IH.
  - rewrite <- E. unfold pick. simpl in *. destruct (violating_indices _ _ _ _); [apply IH|].
    exfalso. by apply Hd.
Qed.

Lemma append_entry_keys k i es : forall k', k' ∈ (append_entry k i es).*1 <-> k' = k \/ k' ∈ es.*1.
Proof.
  intros k'. induction es as [|[k0 is] es IH]; simpl.
  - rewrite elem_of_list_singleton. split; [auto|]. intros [|H]; [done|]. by apply elem_of_nil in H.
  - destruct (Nat.eqb_spec k k0) as [->|Hne]; simpl; rewrite !elem_of_cons; [|rewrite IH]; naive_solver.
Qed.

(** Appending the new point at the end of its cell. *)
Lemma append_entry_ok cs k cell p es :
  cs !! k = Some cell -> good cs es ->
  let cs' := <[k := cell ++ [p]]> cs in
  good cs' (append_entry k (length cell) es) /\
  picked cs' (append_entry k (length cell) es) ≡ₚ p :: picked cs es.
Proof.
  intros Hc [HN HF] cs'.
  assert (Lk : (k < length cs)%nat) by (by eapply lookup_lt_Some).
  assert (Hk' : cs' !! k = Some (cell ++ [p])) by (by apply list_lookup_insert).
  assert (Hoth : forall e, good_entry cs e -> good_entry cs' e /\ pick cs' e = pick cs e).
  { intros [j is] (c' & Hc' & H1 & H2). simpl in *. destruct (decide (k = j)) as [<-|Hne].
    - rewrite Hc in Hc'. injection Hc' as <-. split.
      + exists (cell ++ [p]). simpl. split; [done|]. split; [done|]. eapply Forall_impl; [exact H2|].
        simpl. rewrite app_length. lia.
      + unfold pick; simpl. rewrite Hk', Hc. simpl. apply omap_ext_Forall.
        eapply Forall_impl; [exact H2|]. intros i Hi. by apply lookup_app_l.
    - assert (E : cs' !! j = cs !! j) by (by apply list_lookup_insert_ne). split.
      + exists c'. simpl. by rewrite E.
      + unfold pick; simpl. by rewrite E. }
  assert (Hlast : (cell ++ [p]) !! length cell = Some p) by (by apply list_lookup_middle).
  induction es as [|[j is] es IH]; cbn [append_entry].
  - split.
    + split; [simpl; apply NoDup_singleton|]. constructor; [|constructor]. exists (cell ++ [p]).
      simpl. split; [done|]. split; [apply NoDup_singleton|]. constructor; [rewrite app_length; simpl; lia|constructor].
    + unfold picked, pick; simpl. rewrite Hk'. simpl. rewrite Hlast. done.
  - apply NoDup_cons in HN as [Hj HN]. inversion HF as [|? ? HG HF']; subst. simpl in Hj.
    destruct (IH HN HF') as [[HN1 HF1] P1]. destruct (Nat.eqb_spec k j) as [->|Hne].
    + destruct HG as (c' & Hc' & H1 & H2). simpl in Hc', H1, H2. rewrite Hc in Hc'. injection Hc' as <-. split.
      * split; [simpl; by constructor|]. constructor.
        -- exists (cell ++ [p]). simpl. split; [done|]. split.
           ++ apply NoDup_app. split; [done|]. split; [|apply NoDup_singleton]. intros i Hi.
              rewrite elem_of_list_singleton. intros ->. rewrite Forall_forall in H2. specialize (H2 _ Hi). lia.
           ++ apply Forall_app. split; [eapply Forall_impl; [exact H2|]; simpl; rewrite app_length; lia|].
              constructor; [rewrite app_length; simpl; lia|constructor].
        -- rewrite Forall_forall in *. intros e He. by apply Hoth, HF'.
      * rewrite !picked_cons.
        assert (E1 : pick cs' (j, is ++ [length cell]) = pick cs (j, is) ++ [p]).
        { unfold pick; simpl. rewrite Hk', Hc. simpl. rewrite omap_app. cbn. rewrite Hlast. f_equal.
          apply omap_ext_Forall. eapply Forall_impl; [exact H2|]. intros i Hi. by apply lookup_app_l. }
        assert (E2 : picked cs' es = picked cs es).
        { apply picked_other. intros i Hi. apply list_lookup_insert_ne. intros ->. done. }
        rewrite E1, E2, <- app_assoc. simpl. by rewrite <- Permutation_middle.
    + split.
      * split; [simpl; constructor; [|done]|].
        -- rewrite append_entry_keys. intros [->|]; [by apply Hne|done].
        -- constructor; [|done]. by apply Hoth.
      * rewrite !picked_cons, P1. rewrite (proj2 (Hoth _ HG)). by rewrite <- Permutation_middle.
Qed.

(** ** Neighbouring cells suffice *)
Lemma around_spec i n k : (i < n)%nat -> k ∈ around i n <-> (k < n /\ i - 1 <= k <= i + 1)%nat.
Proof. intros Hi. unfold around. rewrite elem_of_seq. lia. Qed.

Lemma neighbours_spec c p k :
  (grid_row c p < num_rows c)%nat -> (grid_col c p < num_cols c)%nat ->
  k ∈ neighbours c p <-> exists i j, k = flat c i j /\ i ∈ around (grid_row c p) (num_rows c) /\
    j ∈ around (grid_col c p) (num_cols c).
Proof.
  intros H1 H2. unfold neighbours. rewrite elem_of_list_bind. setoid_rewrite elem_of_list_bind.
  setoid_rewrite elem_of_list_singleton. naive_solver.
Qed.

Lemma NoDup_neighbours c p :
  (grid_row c p < num_rows c)%nat -> (grid_col c p < num_cols c)%nat -> NoDup (neighbours c p).
Proof.
  intros H1 H2. unfold neighbours.
  assert (Hcol : forall j, j ∈ around (grid_col c p) (num_cols c) -> (j < num_cols c)%nat).
  { intros j Hj. apply around_spec in Hj; [lia|done]. }
  assert (NC : NoDup (around (grid_col c p) (num_cols c))) by apply NoDup_seq.
  assert (NR : NoDup (around (grid_row c p) (num_rows c))) by apply NoDup_seq.
  revert Hcol NC. generalize (around (grid_col c p) (num_cols c)) as cols. intros cols Hcol NC.
  induction NR as [|i rows Hi NR IH]; [constructor|]. rewrite bind_cons. apply NoDup_app. split; [|split].
  - clear IH. assert (Hall : Forall (fun j => j < num_cols c)%nat cols) by (by rewrite Forall_forall).
    clear Hcol. induction NC as [|j cols Hj NC IH]; [constructor|]. inversion Hall; subst. cbn.
    constructor; [|by apply IH]. intros Hin. apply elem_of_list_bind in Hin as (j' & Hin & Hj').
    apply elem_of_list_singleton in Hin. rewrite Forall_forall in *.
    apply flat_inj in Hin as [_ ->]; auto.
  - intros k Hk Hk'. apply elem_of_list_bind in Hk as (j & Hk & Hj). apply elem_of_list_singleton in Hk as ->.
    apply elem_of_list_bind in Hk' as (i' & Hk' & Hi'). apply elem_of_list_bind in Hk' as (j' & Hk' & Hj').
    apply elem_of_list_singleton in Hk'. apply flat_inj in Hk' as [-> _]; auto.
  - done.
Qed.

Lemma div_close a b s d : 0 < s -> 0 <= a -> 0 <= b -> d <= s -> Z.abs (a - b) < d ->
  (Z.to_nat (a / s) - 1 <= Z.to_nat (b / s) <= Z.to_nat (a / s) + 1)%nat.
Proof.
  intros Hs Ha Hb Hd Hab.
  assert (0 <= a / s) by (apply Z.div_pos; lia). assert (0 <= b / s) by (apply Z.div_pos; lia).
  pose proof (Z.div_mod a s ltac:(lia)). pose proof (Z.mod_pos_bound a s ltac:(lia)).
  pose proof (Z.div_mod b s ltac:(lia)). pose proof (Z.mod_pos_bound b s ltac:(lia)).
  assert (b / s <= a / s + 1) by nia. assert (a / s <= b / s + 1) by nia. lia.
Qed.
Lemma sq_lt_abs x y d : 0 < d -> x * x + y * y < d * d -> Z.abs x < d.
Proof. intros. nia. Qed.

Lemma too_close_neighbour c p q d kq :
  wf c -> 0 < d -> d <= Z.min (cell_cols c) (cell_rows c) ->
  (exists kp, cell_of c p = Some kp) -> cell_of c q = Some kq ->
  too_close p d q = true -> kq ∈ neighbours c p.
Proof.
  intros (W1 & W2 & W3 & W4) Hd Hd2 [kp Hp] Hq HC.
  apply cell_of_inv in Hp as (Vp & Rp & Cp & _). apply cell_of_inv in Hq as (Vq & Rq & Cq & ->).
  unfold too_close in HC. apply Z.ltb_lt in HC.
  unfold valid_input in Vp, Vq.
  repeat (apply andb_true_iff in Vp as [Vp ?]). repeat (apply andb_true_iff in Vq as [Vq ?]).
  apply neighbours_spec; [done|done|]. exists (grid_row c q), (grid_col c q). split; [done|].
  split; apply around_spec; auto; (split; [done|]).
  - apply (div_close _ _ _ d); try lia. eapply sq_lt_abs; [done|exact HC].
  - apply (div_close _ _ _ d); try lia. rewrite Z.add_comm in HC. eapply sq_lt_abs; [done|exact HC].
Qed.

Lemma concat_seq {A} (cs : list (list A)) : concat cs = seq 0 (length cs) ≫= (fun k => default [] (cs !! k)).
Proof.
  induction cs as [|x cs IH]; [done|]. cbn [concat length seq]. rewrite bind_cons. simpl. f_equal.
  rewrite IH, <- fmap_S_seq.
  generalize (seq 0 (length cs)). intros l. induction l as [|k l IHl]; [done|]. cbn. by rewrite IHl.
Qed.
Lemma filter_bind {A B} (P : B -> Prop) `{!forall x, Decision (P x)} (f : A -> list B) l :
  filter P (l ≫= f) = l ≫= (fun x => filter P (f x)).
Proof. induction l as [|x l IH]; [done|]. rewrite !bind_cons, filter_app. by rewrite IH. Qed.

Lemma close_neighbours c p d g :
  wf c -> inv c g -> 0 < d -> d <= Z.min (cell_cols c) (cell_rows c) -> (exists kp, cell_of c p = Some kp) ->
  filter (fun q => too_close p d q = true) (concat (cells g)) ≡ₚ
  neighbours c p ≫= (fun k => filter (fun q => too_close p d q = true) (default [] (cells g !! k))).
Proof.
  intros W I Hd Hd2 Hp. rewrite concat_seq, filter_bind.
  assert (Hp' := Hp). destruct Hp' as [kp Hkp]. apply cell_of_inv in Hkp as (_ & Rp & Cp & _).
  assert (Hsub : neighbours c p ⊆+ seq 0 (length (cells g))).
  { apply NoDup_submseteq; [by apply NoDup_neighbours|]. intros k Hk.
    apply neighbours_spec in Hk as (i & j & -> & Hi & Hj); [|done|done].
    apply around_spec in Hi, Hj; auto. apply elem_of_seq. rewrite (inv_len _ _ I).
    pose proof (flat_lt c i j). lia. }
  destruct (submseteq_Permutation _ _ Hsub) as [rest P].
  rewrite (bind_Permutation _ _ _ P), bind_app.
  assert (Hrest : forall k, k ∈ rest -> k ∉ neighbours c p).
  { intros k Hk Hn. assert (HN : NoDup (neighbours c p ++ rest)) by (rewrite <- P; apply NoDup_seq).
    apply NoDup_app in HN as (_ & HN & _). by eapply HN. }
  assert (E : rest ≫= (fun k => filter (fun q => too_close p d q = true) (default [] (cells g !! k))) = []).
  { clear P Hsub. induction rest as [|k rest IH]; [done|]. rewrite bind_cons, IH by (intros; apply Hrest; by right).
    rewrite app_nil_r. destruct (filter _ _) as [|q l] eqn:E; [done|]. exfalso.
    assert (Hq : q ∈ filter (fun q => too_close p d q = true) (default [] (cells g !! k))) by (rewrite E; by left).
    apply elem_of_list_filter in Hq as [HC Hq]. destruct (cells g !! k) as [cell|] eqn:Ek; [|by apply elem_of_nil in Hq].
    apply (Hrest k ltac:(by left)). eapply too_close_neighbour; eauto. eapply inv_pos; eauto. }
  by rewrite E, app_nil_r.
Qed.

Lemma filter_split p d (l : list point) :
  filter (fun q => too_close p d q = true) l ++ filter (fun q => too_close p d q = false) l ≡ₚ l.
Proof.
  induction l as [|q l IH]; [done|]. rewrite !filter_cons. destruct (too_close p d q).
  - rewrite decide_True, decide_False by done. simpl. by f_equiv.
  - rewrite decide_False, decide_True by done. rewrite <- Permutation_middle. by f_equiv.
Qed.

(** ** The whole function *)
Lemma add_near_ok c p d order g g' :
  wf c -> inv c g -> (forall es, order es ≡ₚ es) -> add_near c p d order g = Ok g' ->
  inv c g' /\ exists best,
    contents g' ≡ₚ best :: filter (fun q => too_close p d q = false) (contents g) /\
    best ∈ p :: filter (fun q => too_close p d q = true) (contents g) /\
    (forall q, q ∈ p :: filter (fun q => too_close p d q = true) (contents g) -> weight q <= weight best).
Proof.
  intros W I Hord. unfold add_near.
  destruct (Z.ltb_spec 0 d) as [Hd|]; [|done]. destruct (Z.leb_spec d (Z.min (cell_cols c) (cell_rows c))) as [Hd2|]; [|done].
  cbn [negb orb]. destruct (cell_of c p) as [k|] eqn:Ek; [|done]. cbv zeta.
  destruct (inv_cell c g p k I Ek) as [cell Hk].
  rewrite (alter_insert _ _ _ _ Hk). set (cs := <[k:=cell ++ [p]]> (cells g)).
  set (cl := filter (fun q => too_close p d q = true) (contents g)).
  set (far := filter (fun q => too_close p d q = false) (contents g)).
  assert (Psplit : cl ++ far ≡ₚ contents g) by apply filter_split.
  assert (Lk : (k < length (cells g))%nat) by (by eapply lookup_lt_Some).
  assert (Hcsk : cs !! k = Some (cell ++ [p])) by (by apply list_lookup_insert).
  assert (Pcs : concat cs ≡ₚ p :: contents g).
  { apply (Permutation_app_inv_r cell). unfold cs. rewrite (concat_insert _ _ _ _ Hk).
    rewrite app_assoc. rewrite <- Permutation_cons_append. done. }
  apply cell_of_inv in Ek as HV. destruct HV as (_ & Rp & Cp & _).
  assert (Hgood : good (cells g) (violations p d (cells g) (neighbours c p))).
  { apply violations_good; [by apply NoDup_neighbours|]. rewrite Forall_forall. intros j Hj.
    apply neighbours_spec in Hj as (a & b & -> & Ha & Hb); [|done|done]. apply around_spec in Ha, Hb; auto.
    rewrite (inv_len _ _ I). apply flat_lt; lia. }
  assert (Ppick : picked (cells g) (violations p d (cells g) (neighbours c p)) ≡ₚ cl).
  { rewrite violations_picked. symmetry. apply close_neighbours; eauto. }
  assert (Hpos : forall j cell' q, cs !! j = Some cell' -> q ∈ cell' -> cell_of c q = Some j).
  { intros j cell' q Hj Hq. destruct (decide (k = j)) as [<-|Hne].
    - rewrite Hcsk in Hj. injection Hj as <-. apply elem_of_app in Hq as [Hq|Hq%elem_of_list_singleton]; [by eapply inv_pos|by subst].
    - unfold cs in Hj. rewrite list_lookup_insert_ne in Hj by done. by eapply inv_pos. }
  destruct (violations p d (cells g) (neighbours c p)) as [|e0 es0] eqn:EV.
  - intros [= <-]. assert (Ecl : cl = []) by (by apply Permutation_nil; rewrite <- Ppick).
    split.
    + constructor; simpl; [unfold cs; by rewrite insert_length, (inv_len _ _ I)| |exact Hpos].
      rewrite Pcs. cbn [length]. rewrite (inv_num _ _ I). unfold contents. lia.
    + exists p. unfold contents at 1; simpl. rewrite Ecl in *. simpl in Psplit. split; [by rewrite Pcs, Psplit|].
      split; [by left|]. intros q [->|Hq]%elem_of_cons; [lia|by apply elem_of_nil in Hq].
  - rewrite <- EV in *. clear EV e0 es0. set (viol := violations p d (cells g) (neighbours c p)) in *.
    rewrite Hcsk. rewrite app_length. cbn [length]. replace (length cell + 1 - 1)%nat with (length cell) by lia.
    destruct (append_entry_ok (cells g) k cell p viol Hk Hgood) as [Hg1 P1].
    fold cs in Hg1, P1. set (es1 := append_entry k (length cell) viol) in *.
    assert (Hg2 : good cs (order es1)).
    { destruct Hg1 as [HN HF]. split; [by rewrite (Hord es1)|by rewrite (Hord es1)]. }
    assert (P2 : picked cs (order es1) ≡ₚ p :: cl).
    { unfold picked. rewrite (bind_Permutation _ _ _ (Hord es1)). by rewrite P1, Ppick. }
    destruct (scan_ok cs (order es1) (lowest c) (order es1) (lowest c, None)) as (b & Eb & HB & _ & HA);
      [done|by destruct Hg2|done|simpl; lia|].
    rewrite Eb. destruct b as [bw [[kb pos]|]]; [|done]. unfold best_ok in HB; simpl in HB, HA.
    destruct HB as (_ & is & i & cb & q & He & Hi & Hcb & Hq & Hw).
    destruct (exclude_ok cs (order es1) kb pos is i cb q Hg2 He Hi Hcb Hq) as [Hg3 P3].
    destruct (remove_entries_ok cs (num_points g + 1) _ Hg3) as (g2 & E2 & P4 & N4 & L4 & S4).
    rewrite E2. intros [= <-].
    set (rem := picked cs (exclude kb pos (order es1))) in *.
    assert (Pq : q :: rem ≡ₚ p :: cl) by (by rewrite <- P3).
    assert (Pfin : concat (cells g2) ≡ₚ q :: far).
    { apply (Permutation_app_inv_r rem). rewrite P4, Pcs, <- Psplit.
      change (p :: cl ++ far) with ((p :: cl) ++ far). rewrite <- Pq. simpl. f_equiv. apply Permutation_app_comm. }
    split.
    + constructor.
      * rewrite L4. unfold cs. by rewrite insert_length, (inv_len _ _ I).
      * rewrite N4, (inv_num _ _ I). pose proof (Permutation_length P4) as E4. rewrite app_length in E4.
        pose proof (Permutation_length Pcs) as E5. unfold contents in E5. simpl in E5. lia.
      * intros j cell' x Hj Hx. destruct (S4 j cell' Hj) as (c0 & Hc0 & Hsub). apply Hsub in Hx. eauto.
    + exists q. split; [done|]. split.
      * rewrite <- Pq. by left.
      * intros x Hx. rewrite <- P2 in Hx. rewrite Forall_forall in HA. rewrite Hw. by apply HA.
Qed.

(** When it succeeds. *)
Lemma add_near_succeeds c p d order g :
  wf c -> inv c g -> (forall es, order es ≡ₚ es) ->
  0 < d -> d <= Z.min (cell_cols c) (cell_rows c) -> valid_input c p = true -> lowest c < weight p ->
  exists g', add_near c p d order g = Ok g'.
Proof.
  intros W I Hord Hd Hd2 HV Hw. unfold add_near.
  rewrite (proj2 (Z.ltb_lt _ _) Hd), (proj2 (Z.leb_le _ _) Hd2). cbn [negb orb].
  destruct (cell_of c p) as [k|] eqn:Ek; [|by rewrite (cell_of_valid c p W HV) in Ek]. cbv zeta.
  destruct (inv_cell c g p k I Ek) as [cell Hk].
  rewrite (alter_insert _ _ _ _ Hk). set (cs := <[k:=cell ++ [p]]> (cells g)).
  assert (Lk : (k < length (cells g))%nat) by (by eapply lookup_lt_Some).
  assert (Hcsk : cs !! k = Some (cell ++ [p])) by (by apply list_lookup_insert).
  apply cell_of_inv in Ek as HV'. destruct HV' as (_ & Rp & Cp & _).
  assert (Hgood : good (cells g) (violations p d (cells g) (neighbours c p))).
  { apply violations_good; [by apply NoDup_neighbours|]. rewrite Forall_forall. intros j Hj.
    apply neighbours_spec in Hj as (a & b & -> & Ha & Hb); [|done|done]. apply around_spec in Ha, Hb; auto.
    rewrite (inv_len _ _ I). apply flat_lt; lia. }
  destruct (violations p d (cells g) (neighbours c p)) as [|e0 es0]; [eauto|].
  set (viol := e0 :: es0) in *.
  rewrite Hcsk, app_length. cbn [length]. replace (length cell + 1 - 1)%nat with (length cell) by lia.
  destruct (append_entry_ok (cells g) k cell p viol Hk Hgood) as [Hg1 P1].
  fold cs in Hg1, P1. set (es1 := append_entry k (length cell) viol) in *.
  assert (Hg2 : good cs (order es1)).
  { destruct Hg1 as [HN HF]. split; [by rewrite (Hord es1)|by rewrite (Hord es1)]. }
  assert (P2 : p ∈ picked cs (order es1)).
  { unfold picked. rewrite (bind_Permutation _ _ _ (Hord es1)). fold (picked cs es1). rewrite P1. by left. }
  destruct (scan_ok cs (order es1) (lowest c) (order es1) (lowest c, None)) as (b & Eb & HB & _ & HA);
    [done|by destruct Hg2|done|simpl; lia|].
  rewrite Eb. destruct b as [bw [[kb pos]|]]; unfold best_ok in HB; simpl in HB, HA.
  - destruct HB as (_ & is & i & cb & q & He & Hi & Hcb & Hq & _).
    destruct (exclude_ok cs (order es1) kb pos is i cb q Hg2 He Hi Hcb Hq) as [Hg3 P3].
    destruct (remove_entries_ok cs (num_points g + 1) _ Hg3) as (g2 & E2 & _). eauto.
  - rewrite Forall_forall in HA. specialize (HA p P2). lia.
Qed.
