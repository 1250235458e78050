(** Proofs about the removal functions and about histories. *)
From Coq Require Import ZArith Bool Lia.
From stdpp Require Import list list_numbers.
From Verif Require Import StlHelpersModel StlHelpersSpec StlHelpersProofs OccupancyGridModel
  OccupancyGridSpec OccupancyGridProofs OccupancyGridNear.
Open Scope Z_scope.

Definition good_ps (ps : nat -> list point -> list point) : Prop :=
  forall n l, partial_sorted stronger n l (ps n l).

(** [kept] are the strongest points of [all], as many as there are. *)
Definition weaker_gone (all kept dropped : list point) : Prop :=
  kept ++ dropped ≡ₚ all /\ forall x y, x ∈ kept -> y ∈ dropped -> weight y <= weight x.

Lemma weaker_gone_refl l : weaker_gone l l [].
Proof. split; [by rewrite app_nil_r|]. intros x y _ H. by apply elem_of_nil in H. Qed.
Lemma weaker_gone_trans a b c d1 d2 : weaker_gone a b d1 -> weaker_gone b c d2 -> weaker_gone a c (d2 ++ d1).
Proof.
  intros [P1 W1] [P2 W2]. split.
  - by rewrite app_assoc, P2, P1.
  - intros x y Hx [Hy|Hy]%elem_of_app; [by apply W2|]. apply W1; [|done].
    rewrite <- P2. apply elem_of_app. by left.
Qed.

Lemma ps_weaker ps m l : good_ps ps -> (m < length l)%nat ->
  weaker_gone l (take m (ps (m + 1)%nat l)) (drop m (ps (m + 1)%nat l)).
Proof.
  intros Hps Hm. destruct (Hps (m + 1)%nat l) as (P & S1 & S2). split; [by rewrite take_drop|].
  intros x y (i & Hi)%elem_of_list_lookup (j & Hj)%elem_of_list_lookup.
  rewrite lookup_drop in Hj. apply lookup_take_Some in Hi as [Hi Him].
  assert (H : stronger y x = false).
  { destruct (decide (j = 0)%nat) as [->|].
    - apply (S1 i (m + 0)%nat); auto; lia.
    - apply (S2 i (m + j)%nat); auto; lia. }
  unfold stronger in H. apply Z.ltb_ge in H. done.
Qed.

Lemma remove_overfull_ok c ps k m g g' r :
  inv c g -> good_ps ps -> remove_overfull ps k m g = Ok (g', r) ->
  inv c g' /\ exists cell cell' dropped, cells g !! k = Some cell /\ cells g' = <[k := cell']> (cells g) /\
    weaker_gone cell cell' dropped /\ length cell' = Nat.min m (length cell) /\ r = length dropped /\
    num_points g' = num_points g - Z.of_nat r /\ (0 < m)%nat.
Proof.
  intros I Hps. unfold remove_overfull. destruct (Nat.eqb_spec m 0) as [|Hm]; [done|].
  destruct (cells g !! k) as [cell|] eqn:Hk; [|done].
  destruct (Nat.leb_spec (length cell) m) as [Hle|Hgt].
  - intros [= <- <-]. split; [done|]. exists cell, cell, []. split; [done|].
    split; [symmetry; by apply list_insert_id|]. split; [apply weaker_gone_refl|].
    split; [lia|]. split; [done|]. split; lia.
  - intros [= <- <-]. pose proof (ps_weaker ps m cell Hps Hgt) as W.
    set (l' := ps (m + 1)%nat cell) in *.
    assert (L : length l' = length cell) by (apply Permutation_length, Hps).
    assert (L1 : length (take m l') = m) by (rewrite take_length; lia).
    split.
    + eapply inv_set; eauto; [|rewrite L1; lia].
      intros p Hp. eapply inv_pos; eauto. destruct W as [P _]. rewrite <- P. apply elem_of_app. by left.
    + exists cell, (take m l'), (drop m l'). split; [done|]. split; [done|]. split; [done|].
      split; [lia|]. split; [rewrite drop_length; lia|]. simpl. split; lia.
Qed.

Lemma contents_insert_sub g k cell cell' dropped :
  cells g !! k = Some cell -> weaker_gone cell cell' dropped ->
  concat (<[k := cell']> (cells g)) ++ dropped ≡ₚ contents g.
Proof.
  intros Hk [P _]. apply (Permutation_app_inv_r cell). rewrite <- app_assoc, (Permutation_app_comm dropped), app_assoc.
  rewrite (concat_insert _ _ _ _ Hk). unfold contents. rewrite <- app_assoc. by rewrite P.
Qed.

(** Effect of a removal on all cells. *)
Definition shrunk (g g' : grid) : Prop :=
  length (cells g') = length (cells g) /\
  forall k cell, cells g !! k = Some cell ->
    exists cell' dropped, cells g' !! k = Some cell' /\ weaker_gone cell cell' dropped.

Lemma shrunk_refl g : shrunk g g.
Proof. split; [done|]. intros k cell H. exists cell, []. split; [done|apply weaker_gone_refl]. Qed.
Lemma shrunk_trans g1 g2 g3 : shrunk g1 g2 -> shrunk g2 g3 -> shrunk g1 g3.
Proof.
  intros [L1 S1] [L2 S2]. split; [lia|]. intros k cell H.
  destruct (S1 k cell H) as (c1 & d1 & H1 & W1). destruct (S2 k c1 H1) as (c2 & d2 & H2 & W2).
  exists c2, (d2 ++ d1). split; [done|]. by eapply weaker_gone_trans.
Qed.
Lemma shrunk_one g g' k cell cell' dropped :
  cells g !! k = Some cell -> cells g' = <[k := cell']> (cells g) -> weaker_gone cell cell' dropped -> shrunk g g'.
Proof.
  intros Hk E W. split; [by rewrite E, insert_length|]. intros j c Hj. rewrite E.
  destruct (decide (k = j)) as [<-|Hne].
  - rewrite Hk in Hj. injection Hj as <-. exists cell', dropped. split; [|done].
    apply list_lookup_insert. by eapply lookup_lt_Some.
  - exists c, []. rewrite list_lookup_insert_ne by done. split; [done|apply weaker_gone_refl].
Qed.

Lemma remove_overfull_list_ok c ps ks m g g' r0 r :
  inv c g -> good_ps ps -> NoDup ks -> remove_overfull_list ps ks m g r0 = Ok (g', r) ->
  inv c g' /\ shrunk g g' /\ num_points g' = num_points g - Z.of_nat (r - r0) /\ (r0 <= r)%nat /\
  (exists gone, contents g' ++ gone ≡ₚ contents g /\ length gone = (r - r0)%nat) /\
  (forall k cell, cells g !! k = Some cell -> exists cell', cells g' !! k = Some cell' /\
     length cell' = if decide (k ∈ ks) then Nat.min m (length cell) else length cell).
Proof.
  revert g r0. induction ks as [|k ks IH]; intros g r0 I Hps HN; cbn [remove_overfull_list].
  { intros [= <- <-]. rewrite Nat.sub_diag. split; [done|]. split; [apply shrunk_refl|]. split; [lia|]. split; [lia|].
    split; [exists []; by rewrite app_nil_r|].
    intros k cell H. exists cell. split; [done|]. rewrite decide_False; [done|]. intros Hk. by apply elem_of_nil in Hk. }
  destruct (remove_overfull ps k m g) as [[g1 r1]| |] eqn:E; [|done|done].
  apply (remove_overfull_ok c) in E as (I1 & cell & cell' & dropped & Hk & Ec & W & L & -> & N & _); [|done|done].
  intros H. apply NoDup_cons in HN as [Hk' HN].
  destruct (IH g1 _ I1 Hps HN H) as (I2 & S2 & N2 & Hle & (gone & P2 & L2) & Hall).
  split; [done|]. split; [by eapply shrunk_trans; [eapply shrunk_one|]|]. split; [lia|]. split; [lia|]. split.
  - exists (gone ++ dropped). split; [|rewrite app_length; lia].
    rewrite app_assoc, P2. unfold contents at 1. rewrite Ec. by eapply contents_insert_sub.
  - intros j c0 Hj. destruct (decide (k = j)) as [<-|Hne].
    + rewrite Hk in Hj. injection Hj as <-. destruct (Hall k cell') as (c2 & Hc2 & L').
      { rewrite Ec. apply list_lookup_insert. by eapply lookup_lt_Some. }
      exists c2. split; [done|]. rewrite decide_True by (by left). rewrite decide_False in L' by done. lia.
    + destruct (Hall j c0) as (c2 & Hc2 & L').
      { rewrite Ec. by rewrite list_lookup_insert_ne. }
      exists c2. split; [done|]. rewrite L'. destruct (decide (j ∈ ks)) as [Hj'|Hj'].
      * rewrite decide_True by (by right). done.
      * rewrite decide_False; [done|]. intros [->|]%elem_of_cons; done.
Qed.

Lemma remove_overfull_list_succeeds ps ks m g r0 :
  (0 < m)%nat -> Forall (fun k => k < length (cells g))%nat ks ->
  exists g' r, remove_overfull_list ps ks m g r0 = Ok (g', r).
Proof.
  intros Hm. revert g r0. induction ks as [|k ks IH]; intros g r0 HF; cbn [remove_overfull_list]; [eauto|].
  inversion HF as [|? ? Hk HF']; subst. unfold remove_overfull. destruct (Nat.eqb_spec m 0); [lia|].
  destruct (lookup_lt_is_Some_2 _ _ Hk) as [cell ->]. destruct (length cell <=? m)%nat; [by apply IH|].
  apply IH. cbn [cells]. by rewrite insert_length.
Qed.

(** ** The fullest cell *)
Lemma fullest_from_ok cs pos best size (P : nat -> nat -> Prop) :
  (size = 0 \/ P best size)%nat -> (forall i cell, cs !! i = Some cell -> P (pos + i)%nat (length cell)) ->
  exists s, (s = 0 /\ size = 0 /\ fullest_from cs pos best size = best \/ P (fullest_from cs pos best size) s)%nat /\ (size <= s)%nat /\
    forall i cell, cs !! i = Some cell -> (length cell <= s)%nat.
Proof.
  revert pos best size. induction cs as [|x cs IH]; intros pos best size HB HP; cbn [fullest_from].
  { exists size. split; [|split; [lia|]]; [destruct HB; [left|right]; auto|]. intros i cell H. by rewrite lookup_nil in H. }
  assert (HP' : forall i cell, cs !! i = Some cell -> P (S pos + i)%nat (length cell)).
  { intros i cell H. specialize (HP (S i) cell H). by rewrite Nat.add_succ_r in HP. }
  destruct (Nat.ltb_spec size (length x)).
  - destruct (IH (S pos) pos (length x)) as (s & Hs & Hle & Hall); [|exact HP'|].
    { right. specialize (HP 0%nat x eq_refl). by rewrite Nat.add_0_r in HP. }
    exists s. split; [|split; [lia|]].
    + destruct Hs as [(-> & E & _)|Hs]; [lia|by right].
    + intros [|i] cell Hc; [injection Hc as <-; lia|by eapply Hall].
  - destruct (IH (S pos) best size HB HP') as (s & Hs & Hle & Hall).
    exists s. split; [done|]. split; [done|]. intros [|i] cell Hc; [injection Hc as <-; lia|by eapply Hall].
Qed.
Lemma fullest_ok g : concat (cells g) <> [] ->
  exists cell, cells g !! fullest g = Some cell /\ cell <> [] /\
    forall k cell', cells g !! k = Some cell' -> (length cell' <= length cell)%nat.
Proof.
  intros Hne. unfold fullest.
  destruct (fullest_from_ok (cells g) 0 0 0 (fun i n => exists cell, cells g !! i = Some cell /\ length cell = n))
    as (s & Hs & _ & Hall).
  - by left.
  - intros i cell H. by exists cell.
  - assert (s <> 0)%nat.
    { intros ->. apply Hne. destruct (concat (cells g)) as [|p l] eqn:E; [done|]. exfalso.
      assert (Hp : p ∈ concat (cells g)) by (rewrite E; by left).
      apply concat_elem in Hp as (k & cell & Hk & Hp). specialize (Hall k cell Hk).
      destruct cell; [by apply elem_of_nil in Hp|simpl in Hall; lia]. }
    destruct Hs as [(-> & _)|(cell & Hc & <-)]; [done|]. exists cell. split; [done|]. split; [|done].
    intros ->. done.
Qed.

(** ** Removing until the total is met *)
Definition nonempty (g : grid) : nat := length (filter (fun cell : list point => cell <> []) (cells g)).

Lemma nonempty_insert g k cell cell' : cells g !! k = Some cell -> cell <> [] -> cell' <> [] ->
  forall n, nonempty (Grid (<[k := cell']> (cells g)) n) = nonempty g.
Proof.
  intros Hk H1 H2 n. unfold nonempty. simpl. revert k Hk. induction (cells g) as [|x l IH]; intros [|k] Hk; simplify_eq/=.
  - rewrite !filter_cons. by rewrite !decide_True by done.
  - rewrite !filter_cons. destruct (decide _); simpl; by rewrite (IH k).
Qed.
Lemma nonempty_le (cs : list (list point)) :
  (length (filter (fun cell : list point => cell <> []) cs) <= length (concat cs))%nat.
Proof.
  induction cs as [|x cs IH]; [done|]. rewrite filter_cons. cbn [concat]. rewrite app_length.
  destruct (decide _) as [H|H]; simpl; [destruct x; [done|simpl; lia]|lia].
Qed.
Lemma nonempty_lt (cs : list (list point)) k cell :
  cs !! k = Some cell -> (2 <= length cell)%nat ->
  (length (filter (fun cell : list point => cell <> []) cs) < length (concat cs))%nat.
Proof.
  revert k; induction cs as [|x cs IH]; intros [|k] H L; simplify_eq/=.
  - rewrite filter_cons. rewrite app_length. pose proof (nonempty_le cs).
    destruct (decide _) as [H'|H']; simpl; lia.
  - rewrite filter_cons, app_length. specialize (IH k H L).
    destruct (decide _) as [H'|H']; simpl; [destruct x; [done|simpl; lia]|lia].
Qed.
Lemma all_small (cs : list (list point)) :
  (forall k cell, cs !! k = Some cell -> (length cell <= 1)%nat) ->
  length (filter (fun cell : list point => cell <> []) cs) = length (concat cs).
Proof.
  induction cs as [|x cs IH]; intros H; [done|]. rewrite filter_cons. cbn [concat]. rewrite app_length.
  assert (Hx : (length x <= 1)%nat) by (by apply (H 0%nat)).
  assert (IH' := IH (fun k c E => H (S k) c E)).
  destruct (decide _) as [H'|H']; simpl; rewrite IH'.
  - destruct x; [done|simpl in *; lia].
  - destruct x; [done|]. exfalso. by apply H'.
Qed.

(** Cells that lost points are at most one point below the fullest one. *)
Definition balanced (g0 g : grid) : Prop :=
  forall k c0 ck j cj, cells g0 !! k = Some c0 -> cells g !! k = Some ck -> cells g !! j = Some cj ->
    length ck <> length c0 -> (length cj <= length ck + 1)%nat.

Lemma until_loop_ok c ps n g0 : good_ps ps -> 0 < n ->
  forall fuel g, inv c g -> (Z.to_nat (num_points g) <= fuel)%nat -> shrunk g0 g -> balanced g0 g ->
  (Z.of_nat (nonempty g) <= n \/ num_points g <= n ->
   exists g', until_loop ps fuel n g = Ok g' /\ inv c g' /\ shrunk g0 g' /\ balanced g0 g' /\
     num_points g' = Z.min n (num_points g) /\
     exists gone, contents g' ++ gone ≡ₚ contents g) /\
  (n < Z.of_nat (nonempty g) -> n < num_points g -> until_loop ps fuel n g = Abort).
Proof.
  intros Hps Hn. induction fuel as [|fuel IH]; intros g I Hf Hs Hb; cbn [until_loop].
  { destruct (Z.ltb_spec n (num_points g)); [lia|]. cbn [negb]. split; [|lia].
    intros _. exists g. split; [done|]. split; [done|]. split; [done|]. split; [done|]. split; [lia|].
    exists []. by rewrite app_nil_r. }
  destruct (Z.ltb_spec n (num_points g)) as [Hgt|]; cbn [negb].
  2:{ split; [|lia]. intros _. exists g. split; [done|]. split; [done|]. split; [done|]. split; [done|]. split; [lia|].
      exists []. by rewrite app_nil_r. }
  destruct (fullest_ok g) as (cell & Hk & Hne & Hmax).
  { intros E. pose proof (inv_num _ _ I) as E2. rewrite E in E2. simpl in E2. lia. }
  rewrite Hk.
  assert (Hpos : (1 <= length cell)%nat) by (destruct cell; [done|simpl; lia]).
  destruct (decide (length cell = 1)%nat) as [E1|E1].
  - (* only single points are left *)
    assert (Hns : nonempty g = length (concat (cells g))).
    { apply all_small. intros k c' H. specialize (Hmax k c' H). lia. }
    pose proof (inv_num _ _ I) as EN. rewrite <- Hns in EN. split; [intros [H|H]; lia|]. intros _ _.
    unfold remove_overfull. rewrite E1. done.
  - destruct (remove_overfull ps (fullest g) (length cell - 1) g) as [[g1 r]| |] eqn:E.
    2:{ exfalso. unfold remove_overfull in E. rewrite Hk in E. destruct (Nat.eqb_spec (length cell - 1) 0); [lia|].
        by destruct (_ <=? _)%nat. }
    2:{ exfalso. unfold remove_overfull in E. rewrite Hk in E. destruct (Nat.eqb_spec (length cell - 1) 0); [lia|].
        by destruct (_ <=? _)%nat. }
    apply (remove_overfull_ok c) in E as (I1 & cell0 & cell' & dropped & Hk0 & Ec & W & L & -> & N & _); [|done|done].
    rewrite Hk in Hk0. injection Hk0 as <-.
    assert (L' : length cell' = (length cell - 1)%nat) by lia.
    assert (Ld : length dropped = 1%nat).
    { destruct W as [P _]. apply Permutation_length in P. rewrite app_length in P. lia. }
    assert (Hne' : cell' <> []) by (intros ->; simpl in *; lia).
    assert (Hnon : nonempty g1 = nonempty g).
    { destruct g1 as [cs1 n1]; simpl in Ec. subst cs1. by eapply nonempty_insert. }
    assert (Lk : (fullest g < length (cells g))%nat) by (by eapply lookup_lt_Some).
    assert (Hk1 : cells g1 !! fullest g = Some cell') by (rewrite Ec; by apply list_lookup_insert).
    assert (Hmax1 : forall j cj, cells g1 !! j = Some cj -> (length cj <= length cell)%nat).
    { intros j cj Hj. rewrite Ec in Hj. destruct (decide (fullest g = j)) as [<-|Hne2].
      - rewrite list_lookup_insert in Hj by done. injection Hj as <-. lia.
      - rewrite list_lookup_insert_ne in Hj by done. eauto. }
    destruct (IH g1 I1) as [IH1 IH2].
    + lia.
    + eapply shrunk_trans; [done|]. by eapply shrunk_one.
    + intros k c0 ck j cj H0 H1 H2 Hneq. specialize (Hmax1 j cj H2).
      destruct (decide (fullest g = k)) as [<-|Hne2].
      * rewrite Hk1 in H1. injection H1 as <-. lia.
      * rewrite Ec, list_lookup_insert_ne in H1 by done.
        pose proof (Hb k c0 ck (fullest g) cell H0 H1 Hk Hneq). lia.
    + split.
      * intros HC. destruct IH1 as (g' & E' & I' & S' & B' & N' & gone & P'); [rewrite Hnon; lia|].
        exists g'. split; [done|]. split; [done|]. split; [done|]. split; [done|]. split; [lia|].
        exists (gone ++ dropped). rewrite app_assoc, P'. unfold contents at 1. rewrite Ec. by eapply contents_insert_sub.
      * intros HA HB. apply IH2; [lia|].
        pose proof (inv_num _ _ I1). pose proof (nonempty_le (cells g1)). unfold nonempty in *. lia.
Qed.

Lemma balanced_refl g : balanced g g.
Proof. intros k c0 ck j cj H1 H2 _ H. rewrite H1 in H2. injection H2 as <-. done. Qed.

Lemma remove_until_ok c ps n g : good_ps ps -> 0 < n -> inv c g ->
  (Z.of_nat (nonempty g) <= n \/ num_points g <= n ->
   exists g', remove_until ps n g = Ok g' /\ inv c g' /\ shrunk g g' /\ balanced g g' /\
     num_points g' = Z.min n (num_points g) /\
     exists gone, contents g' ++ gone ≡ₚ contents g) /\
  (n < Z.of_nat (nonempty g) -> n < num_points g -> remove_until ps n g = Abort).
Proof.
  intros Hps Hn I. unfold remove_until. rewrite (proj2 (Z.ltb_lt _ _) Hn). cbn [negb].
  apply (until_loop_ok c ps n g); auto; [apply shrunk_refl|apply balanced_refl].
Qed.

(** ** Histories *)
Lemma set_weight_inv c x g : inv c g ->
  inv c (set_constant_weight x g) /\ contents (set_constant_weight x g) = set_weight x <$> contents g.
Proof.
  intros [L N P].
  assert (E : contents (set_constant_weight x g) = set_weight x <$> contents g).
  { unfold contents, set_constant_weight; simpl. clear. induction (cells g) as [|y l IH]; [done|].
    rewrite fmap_cons. cbn [concat]. by rewrite IH, fmap_app. }
  split; [|done]. constructor; simpl.
  - by rewrite fmap_length.
  - unfold contents, set_constant_weight in E; simpl in E. rewrite E, fmap_length. done.
  - intros k cell p H Hp. rewrite list_lookup_fmap in H. destruct (cells g !! k) as [c0|] eqn:Ek; [|done].
    injection H as <-. apply elem_of_list_fmap in Hp as (q & -> & Hq).
    assert (cell_of c (set_weight x q) = cell_of c q) as -> by done. by eapply P.
Qed.

Lemma step_inv c g o g' : wf c -> inv c g -> good_op o -> step c g o = Ok g' -> inv c g'.
Proof.
  intros W I HG. destruct o as [|p|p m|p d order|x|m ps|n ps]; cbn [step].
  - intros [= <-]. by apply reset_inv.
  - intros H. by eapply add_unconditional_ok.
  - destruct (add_cell c p m g) as [[g1 b]| |] eqn:E; [|done|done]. intros [= <-]. by eapply add_cell_inv.
  - intros H. by eapply add_near_ok.
  - intros [= <-]. by apply set_weight_inv.
  - destruct (remove_overfull_all ps m g) as [[g1 b]| |] eqn:E; [|done|done]. intros [= <-].
    unfold remove_overfull_all in E. destruct (m =? 0)%nat; [done|].
    eapply remove_overfull_list_ok; eauto. apply NoDup_seq.
  - intros H. destruct (Z.ltb_spec 0 n) as [Hn|Hn].
    + destruct (remove_until_ok c ps n g HG Hn I) as [H1 H2].
      destruct (decide (Z.of_nat (nonempty g) <= n \/ num_points g <= n)) as [D|D].
      * destruct (H1 D) as (g1 & E & I1 & _). rewrite H in E. by injection E as ->.
      * rewrite H2 in H by lia. done.
    + unfold remove_until in H. destruct (Z.ltb_spec 0 n); [lia|]. done.
Qed.

Lemma step_contents c g o g' acc : wf c -> inv c g -> good_op o -> step c g o = Ok g' ->
  contents g ⊆+ acc -> contents g' ⊆+ offered_from acc [o].
Proof.
  intros W I HG H Hsub. destruct o as [|p|p m|p d order|x|m ps|n ps]; cbn [step offered_from] in *.
  - injection H as <-. destruct (reset_inv c g I) as [_ ->]. apply submseteq_nil_l.
  - apply (add_unconditional_ok c) in H as [_ P]; [|done]. rewrite P. by apply submseteq_skip.
  - destruct (add_cell c p m g) as [[g1 b]| |] eqn:E; [|done|done]. injection H as <-.
    apply add_cell_inv in E as [_ E]; [|done]. etransitivity; [exact E|]. by apply submseteq_skip.
  - apply add_near_ok in H as [_ (best & P & Hb & _)]; [|done|done|done].
    etransitivity; [|apply submseteq_skip, Hsub]. rewrite P.
    rewrite <- (filter_split p d (contents g)) at 2.
    apply elem_of_cons in Hb as [->|Hb].
    + apply submseteq_skip. by apply submseteq_inserts_l.
    + apply submseteq_cons. apply elem_of_Permutation in Hb as [l' Hl']. rewrite Hl'. simpl.
      apply submseteq_skip. by apply submseteq_inserts_l.
  - injection H as <-. destruct (set_weight_inv c x g I) as [_ ->].
    apply submseteq_Permutation in Hsub as [k P]. rewrite P, fmap_app. by apply submseteq_inserts_r.
  - destruct (remove_overfull_all ps m g) as [[g1 b]| |] eqn:E; [|done|done]. injection H as <-.
    unfold remove_overfull_all in E. destruct (m =? 0)%nat; [done|].
    eapply remove_overfull_list_ok in E as (_ & _ & _ & _ & (gone & P & _) & _); eauto; [|apply NoDup_seq].
    etransitivity; [|exact Hsub]. rewrite <- P. by apply submseteq_inserts_r.
  - destruct (Z.ltb_spec 0 n) as [Hn|Hn].
    + destruct (remove_until_ok c ps n g HG Hn I) as [H1 H2].
      destruct (decide (Z.of_nat (nonempty g) <= n \/ num_points g <= n)) as [D|D].
      * destruct (H1 D) as (g1 & E & _ & _ & _ & _ & gone & P). rewrite H in E. injection E as <-.
        etransitivity; [|exact Hsub]. rewrite <- P. by apply submseteq_inserts_r.
      * rewrite H2 in H by lia. done.
    + unfold remove_until in H. destruct (Z.ltb_spec 0 n); [lia|]. done.
Qed.

Lemma offered_cons acc o os : offered_from acc (o :: os) = offered_from (offered_from acc [o]) os.
Proof. by destruct o. Qed.

Lemma run_ok c os : forall g g' acc, wf c -> inv c g -> Forall good_op os -> run c g os = Ok g' ->
  contents g ⊆+ acc -> inv c g' /\ contents g' ⊆+ offered_from acc os.
Proof.
  induction os as [|o os IH]; intros g g' acc W I HG; cbn [run].
  { intros [= <-] H. done. }
  inversion HG as [|? ? HGo HG']; subst. destruct (step c g o) as [g1| |] eqn:E; [|done|done]. intros H Hsub.
  rewrite offered_cons. apply (IH g1); auto.
  - by eapply step_inv.
  - by eapply step_contents.
Qed.

(** ** Minimum distance *)
Definition apart (d : Z) (l : list point) : Prop :=
  forall i j p q, i <> j -> l !! i = Some p -> l !! j = Some q -> d ^ 2 <= dist2 p q.

Definition apart' (d : Z) : list point -> Prop :=
  ForallOrdPairs (fun p q => too_close p d q = false).

Lemma too_close_sym p d q : too_close p d q = too_close q d p.
Proof. unfold too_close. f_equal. ring. Qed.
Lemma too_close_dist p d q : too_close p d q = false <-> d ^ 2 <= dist2 p q.
Proof. unfold too_close, dist2. rewrite Z.ltb_ge. rewrite !Z.pow_2_r. done. Qed.

Lemma apart'_perm d l l' : l ≡ₚ l' -> apart' d l -> apart' d l'.
Proof.
  induction 1 as [|x l l' P IH|x y l|l1 l2 l3 P1 IH1 P2 IH2]; auto.
  - intros H. inversion H; subst. constructor; [|by apply IH]. by rewrite <- P.
  - intros H. inversion H as [|? ? F1 H1]; subst. inversion H1 as [|? ? F2 H2]; subst.
    inversion F1; subst. constructor; [constructor; [by rewrite too_close_sym|done]|by constructor].
Qed.
Lemma apart'_apart d l : apart' d l -> apart d l.
Proof.
  induction 1 as [|x l F _ IH]; intros i j p q Hne Hi Hj; [by rewrite lookup_nil in Hi|].
  rewrite Forall_forall in F. destruct i as [|i], j as [|j]; simplify_eq/=.
  - apply too_close_dist, F. apply elem_of_list_lookup. eauto.
  - assert (H : d ^ 2 <= dist2 q p) by (apply too_close_dist, F; apply elem_of_list_lookup; eauto).
    unfold dist2 in *. rewrite !Z.pow_2_r in *. lia.
  - apply (IH i j); auto.
Qed.
Lemma apart'_filter d (P : point -> Prop) `{!forall x, Decision (P x)} l : apart' d l -> apart' d (filter P l).
Proof.
  induction 1 as [|x l F _ IH]; [constructor|]. rewrite filter_cons. destruct (decide _); [|done].
  constructor; [|done]. rewrite Forall_forall in *. intros y Hy. apply elem_of_list_filter in Hy as [_ Hy]. auto.
Qed.
Lemma apart'_app_r d l1 l2 : apart' d (l1 ++ l2) -> apart' d l2.
Proof. induction l1 as [|x l1 IH]; [done|]. intros H. inversion H; subst. auto. Qed.

Lemma near_step_apart c p d order g g' :
  wf c -> inv c g -> (forall es, order es ≡ₚ es) -> add_near c p d order g = Ok g' ->
  apart' d (contents g) -> apart' d (contents g').
Proof.
  intros W I Ho H HA. apply add_near_ok in H as [_ (best & P & Hb & _)]; [|done|done|done].
  eapply apart'_perm; [symmetry; exact P|]. apply elem_of_cons in Hb as [->|Hb].
  - constructor; [|by apply apart'_filter]. rewrite Forall_forall. intros q Hq.
    by apply elem_of_list_filter in Hq as [Hq _].
  - apply elem_of_Permutation in Hb as [l' Hl'].
    assert (HA2 : apart' d (filter (fun q => too_close p d q = true) (contents g) ++
                            filter (fun q => too_close p d q = false) (contents g))).
    { eapply apart'_perm; [symmetry; apply filter_split|done]. }
    apply (apart'_app_r d l'). eapply apart'_perm; [|exact HA2]. rewrite Hl'. simpl. by rewrite Permutation_middle.
Qed.

Definition near_op (d : Z) (o : op) : Prop :=
  match o with OAddNear _ d' order => d' = d /\ (forall es, order es ≡ₚ es) | OReset => True | _ => False end.
Lemma near_run c d os : forall g g', wf c -> inv c g -> Forall (near_op d) os -> run c g os = Ok g' ->
  apart' d (contents g) -> apart' d (contents g').
Proof.
  induction os as [|o os IH]; intros g g' W I HF; cbn [run]; [by intros [= <-]|].
  inversion HF as [|? ? Ho HF']; subst. destruct (step c g o) as [g1| |] eqn:E; [|done|done]. intros H HA.
  assert (I1 : inv c g1).
  { eapply step_inv; eauto. destruct o; simpl in *; try done. by destruct Ho. }
  apply (IH g1); auto. destruct o as [|p|p m|p d' order|x|m ps|n ps]; simpl in Ho, E; try done.
  - injection E as <-. rewrite (proj2 (reset_inv c g I)). constructor.
  - destruct Ho as [-> Ho]. exact (near_step_apart c p d order g g1 W I Ho E HA).
Qed.

(** ** Strongest points per cell *)
Lemma strongest_add m all cell p :
  strongest m all cell -> (length cell < m)%nat -> strongest m (p :: all) (cell ++ [p]).
Proof.
  intros (dropped & P & L & D & Wk) Hlt. exists []. 
  assert (dropped = []) as -> by (destruct dropped; [done|]; specialize (D ltac:(done)); lia).
  rewrite app_nil_r in *. split; [by rewrite <- Permutation_cons_append, P|]. split; [rewrite app_length; simpl; lia|].
  split; [done|]. intros x y _ Hy. by apply elem_of_nil in Hy.
Qed.
Lemma strongest_replace m all cell cell' p q :
  strongest m all cell -> (m <= length cell)%nat -> q ∈ cell -> q :: cell' ≡ₚ p :: cell -> weight q < weight p ->
  (forall x, x ∈ cell -> weight q <= weight x) -> strongest m (p :: all) cell'.
Proof.
  intros (dropped & P & L & D & Wk) Hge Hq Pq Hlt Hmin. exists (q :: dropped).
  pose proof (Permutation_length Pq) as Lq. simpl in Lq.
  split; [|split; [lia|split; [lia|]]].
  - rewrite <- Permutation_middle. change (q :: cell' ++ dropped) with ((q :: cell') ++ dropped).
    rewrite Pq. simpl. by rewrite P.
  - intros x y Hx Hy.
    assert (Hx' : x ∈ p :: cell) by (rewrite <- Pq; by right).
    apply elem_of_cons in Hy as [->|Hy]; apply elem_of_cons in Hx' as [->|Hx']; auto; [lia|].
    specialize (Wk q y Hq Hy). lia.
Qed.
Lemma strongest_reject m all cell p :
  strongest m all cell -> (m <= length cell)%nat -> (forall x, x ∈ cell -> weight p <= weight x) ->
  strongest m (p :: all) cell.
Proof.
  intros (dropped & P & L & D & Wk) Hge Hmin. exists (p :: dropped).
  split; [by rewrite <- Permutation_middle, P|]. split; [lia|]. split; [lia|].
  intros x y Hx [->|Hy]%elem_of_cons; auto.
Qed.

Definition cell_op (m : nat) (o : op) : Prop :=
  match o with OAddCell _ m' => m' = m | OReset => True | _ => False end.
Lemma cell_run c m os : forall g g' acc, wf c -> inv c g -> Forall (cell_op m) os -> run c g os = Ok g' ->
  (forall k cell, cells g !! k = Some cell -> strongest m (filter (fun p => cell_of c p = Some k) acc) cell) ->
  (forall k cell, cells g' !! k = Some cell ->
     strongest m (filter (fun p => cell_of c p = Some k) (offered_from acc os)) cell).
Proof.
  induction os as [|o os IH]; intros g g' acc W I HF; cbn [run]; [by intros [= <-]|].
  inversion HF as [|? ? Ho HF']; subst. destruct (step c g o) as [g1| |] eqn:E; [|done|done]. intros H HA.
  assert (I1 : inv c g1).
  { eapply step_inv; eauto. by destruct o. }
  rewrite offered_cons. apply (IH g1); auto. clear IH H.
  destruct o as [|p|p m'|p d' order|x|m' ps|n ps]; simpl in Ho, E; try done.
  - injection E as <-. intros k cell Hk. simpl in *. rewrite list_lookup_fmap in Hk.
    destruct (cells g !! k); [|done]. injection Hk as <-. exists []. split; [done|]. split; [simpl; lia|]. split; [done|].
    intros x y _ Hy. by apply elem_of_nil in Hy.
  - subst m'. destruct (add_cell c p m g) as [[g2 b]| |] eqn:E'; [|done|done]. injection E as ->.
    apply add_cell_ok in E' as (k & cell & cell' & Ek & Hk & Ec & Hm & HC & _); [|done].
    intros j cj Hj. rewrite Ec in Hj. cbn [offered_from]. rewrite filter_cons.
    destruct (decide (k = j)) as [<-|Hne].
    + rewrite list_lookup_insert in Hj by (by eapply lookup_lt_Some). injection Hj as <-.
      rewrite decide_True by done. specialize (HA k cell Hk).
      destruct HC as [(HL & -> & _)|[(HL & (q & Hq & Pq & Hw & Hmin) & _)|(HL & -> & _ & Hmin)]].
      * by apply strongest_add.
      * by eapply strongest_replace.
      * by apply strongest_reject.
    + rewrite list_lookup_insert_ne in Hj by done. rewrite decide_False by (by rewrite Ek; intros [= ->]). auto.
Qed.
