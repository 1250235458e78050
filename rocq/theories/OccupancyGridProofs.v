(** Proofs about the occupancy grid. *)
From Coq Require Import ZArith Bool Lia.
From stdpp Require Import list list_numbers.
From Verif Require Import StlHelpersModel StlHelpersSpec StlHelpersProofs OccupancyGridModel OccupancyGridSpec.
Open Scope Z_scope.

(** ** Geometry *)
Definition wf (c : config) : Prop :=
  0 < cell_rows c /\ 0 < cell_cols c /\ cell_rows c <= max_rows c /\ cell_cols c <= max_cols c.

Lemma create_wf c g : create c = Some g ->
  wf c /\ g = Grid (replicate (num_rows c * num_cols c) []) 0.
Proof.
  unfold create, wf. destruct (_ && _) eqn:E; [|done]. intros [= <-].
  repeat (apply andb_true_iff in E as [E ?]). split; [lia|done].
Qed.

Lemma ceil_lt u m s : 0 < s -> 0 <= u < m -> (Z.to_nat (u / s) < Z.to_nat ((m + s - 1) / s))%nat.
Proof.
  intros Hs Hu. assert (0 <= u / s) by (apply Z.div_pos; lia).
  assert (u / s < (m + s - 1) / s).
  { apply Z.lt_le_trans with (u / s + 1); [lia|].
    apply Z.div_le_lower_bound; [lia|]. pose proof (Z.mul_div_le u s Hs). nia. }
  lia.
Qed.

Lemma cell_of_valid c p : wf c -> valid_input c p = true ->
  cell_of c p = Some (flat c (grid_row c p) (grid_col c p)).
Proof.
  intros (H1 & H2 & H3 & H4) HV. unfold cell_of. rewrite HV. unfold valid_cell.
  unfold valid_input in HV. repeat (apply andb_true_iff in HV as [HV ?]).
  assert (grid_row c p < num_rows c)%nat by (apply ceil_lt; lia).
  assert (grid_col c p < num_cols c)%nat by (apply ceil_lt; lia).
  rewrite !(proj2 (Nat.ltb_lt _ _)) by done. done.
Qed.
Lemma cell_of_inv c p k : cell_of c p = Some k ->
  valid_input c p = true /\ (grid_row c p < num_rows c)%nat /\ (grid_col c p < num_cols c)%nat /\
  k = flat c (grid_row c p) (grid_col c p).
Proof.
  unfold cell_of. destruct (_ && _) eqn:E; [|done]. intros [= <-].
  apply andb_true_iff in E as [E1 E2]. unfold valid_cell in E2. apply andb_true_iff in E2 as [E2 E3].
  apply Nat.ltb_lt in E2, E3. auto.
Qed.
Lemma flat_lt c i j : (i < num_rows c)%nat -> (j < num_cols c)%nat -> (flat c i j < num_rows c * num_cols c)%nat.
Proof. unfold flat. nia. Qed.
Lemma flat_inj c i j i' j' : (j < num_cols c)%nat -> (j' < num_cols c)%nat ->
  flat c i j = flat c i' j' -> i = i' /\ j = j'.
Proof. unfold flat. intros. assert (i = i') by nia. subst. split; [done|]. lia. Qed.
Lemma cell_of_lt c p k : cell_of c p = Some k -> (k < num_rows c * num_cols c)%nat.
Proof. intros (_ & H1 & H2 & ->)%cell_of_inv. by apply flat_lt. Qed.

(** ** Lists of cells *)
Lemma concat_insert {A} (cs : list (list A)) k cell cell' :
  cs !! k = Some cell -> concat (<[k := cell']> cs) ++ cell ≡ₚ concat cs ++ cell'.
Proof.
  revert k; induction cs as [|x cs IH]; intros [|k] H; simplify_eq/=.
  - rewrite <- !app_assoc. rewrite (Permutation_app_comm cell'), (Permutation_app_comm cell).
    rewrite <- !app_assoc. f_equiv. apply Permutation_app_comm.
  - rewrite <- !app_assoc. f_equiv. by apply IH.
Qed.
Lemma concat_elem {A} (cs : list (list A)) x : x ∈ concat cs <-> exists k cell, cs !! k = Some cell /\ x ∈ cell.
Proof.
  rewrite elem_of_list_In, in_concat. split.
  - intros (cell & H1 & H2). apply elem_of_list_In, elem_of_list_lookup in H1 as [k Hk].
    exists k, cell. by rewrite elem_of_list_In.
  - intros (k & cell & H1 & H2). exists cell. split; [|by apply elem_of_list_In].
    apply elem_of_list_In, elem_of_list_lookup. eauto.
Qed.
Lemma alter_insert {A} (f : A -> A) (l : list A) k x : l !! k = Some x -> alter f k l = <[k := f x]> l.
Proof.
  intros H. apply list_eq. intros i. destruct (decide (i = k)) as [->|Hne].
  - rewrite list_lookup_alter, H. simpl. rewrite list_lookup_insert; [done|]. by eapply lookup_lt_Some.
  - by rewrite list_lookup_alter_ne, list_lookup_insert_ne by done.
Qed.

(** ** Invariant *)
Record inv (c : config) (g : grid) : Prop := {
  inv_len : length (cells g) = (num_rows c * num_cols c)%nat;
  inv_num : num_points g = Z.of_nat (length (concat (cells g)));
  inv_pos : forall k cell p, cells g !! k = Some cell -> p ∈ cell -> cell_of c p = Some k }.

Lemma inv_set c g k cell cell' n :
  inv c g -> cells g !! k = Some cell ->
  (forall p, p ∈ cell' -> cell_of c p = Some k) ->
  n = num_points g - Z.of_nat (length cell) + Z.of_nat (length cell') ->
  inv c (Grid (<[k := cell']> (cells g)) n).
Proof.
  intros [L N P] Hk Hc Hn. constructor; simpl.
  - by rewrite insert_length.
  - pose proof (Permutation_length (concat_insert (cells g) k cell cell' Hk)) as E.
    rewrite !app_length in E. lia.
  - intros k' cell0 p H Hp. destruct (decide (k = k')) as [<-|Hne].
    + rewrite list_lookup_insert in H by (by eapply lookup_lt_Some). injection H as <-. auto.
    + rewrite list_lookup_insert_ne in H by done. by eapply P.
Qed.

Lemma init_inv c : inv c (Grid (replicate (num_rows c * num_cols c) []) 0).
Proof.
  assert (E : forall n, concat (replicate n ([] : list point)) = []).
  { induction n as [|n IH]; simpl; auto. }
  constructor; simpl.
  - apply replicate_length.
  - by rewrite E.
  - intros k cell p H Hp. apply lookup_replicate in H as [-> _]. by apply elem_of_nil in Hp.
Qed.
Lemma reset_inv c g : inv c g -> inv c (reset g) /\ contents (reset g) = [].
Proof.
  intros [L N P].
  assert (E : concat ((fun _ : list point => [] : list point) <$> cells g) = []).
  { clear. induction (cells g) as [|x l IH]; simpl; auto. }
  split; [|done]. constructor; simpl.
  - by rewrite fmap_length.
  - by rewrite E.
  - intros k cell p H Hp. rewrite list_lookup_fmap in H. destruct (cells g !! k); [|done].
    injection H as <-. by apply elem_of_nil in Hp.
Qed.

Lemma inv_cell c g p k : inv c g -> cell_of c p = Some k -> exists cell, cells g !! k = Some cell.
Proof. intros [L _ _] H%cell_of_lt. rewrite <- L in H. by apply lookup_lt_is_Some_2 in H. Qed.

Lemma add_unconditional_ok c p g g' : inv c g -> add_unconditional c p g = Ok g' ->
  inv c g' /\ contents g' ≡ₚ p :: contents g.
Proof.
  intros I. unfold add_unconditional. destruct (cell_of c p) as [k|] eqn:E; [|done]. intros [= <-].
  destruct (inv_cell c g p k I E) as [cell Hk].
  rewrite (alter_insert _ _ _ _ Hk). split.
  - eapply inv_set; eauto; [|rewrite app_length; simpl; lia].
    intros q [Hq|Hq%elem_of_list_singleton]%elem_of_app; [by eapply inv_pos|by subst].
  - unfold contents; simpl. apply (Permutation_app_inv_r cell). rewrite concat_insert by done.
    rewrite app_assoc. rewrite <- Permutation_cons_append. done.
Qed.

(** ** min_element *)
Lemma min_from_ok l pos best bw (P : nat -> Z -> Prop) :
  P best bw -> (forall i p, l !! i = Some p -> P (pos + i)%nat (weight p)) ->
  exists w, P (min_from l pos best bw) w /\ w <= bw /\ (forall i p, l !! i = Some p -> w <= weight p).
Proof.
  revert pos best bw. induction l as [|p l IH]; intros pos best bw HB HP; simpl.
  - exists bw. split; [done|]. split; [lia|]. intros i p H. by rewrite lookup_nil in H.
  - assert (HP' : forall i q, l !! i = Some q -> P (S pos + i)%nat (weight q)).
    { intros i q H. specialize (HP (S i) q H). by rewrite Nat.add_succ_r in HP. }
    destruct (Z.ltb_spec (weight p) bw) as [Hlt|Hge].
    + destruct (IH (S pos) pos (weight p)) as (w & Hw & Hle & Hall).
      * specialize (HP 0%nat p eq_refl). by rewrite Nat.add_0_r in HP.
      * exact HP'.
      * exists w. split; [done|]. split; [lia|]. intros [|i] q H; [injection H as <-; done|by eapply Hall].
    + destruct (IH (S pos) best bw) as (w & Hw & Hle & Hall); [done|exact HP'|].
      exists w. split; [done|]. split; [lia|]. intros [|i] q H; [injection H as <-; lia|by eapply Hall].
Qed.
Lemma min_element_ok l : l <> [] ->
  exists q, l !! min_element l = Some q /\ forall p, p ∈ l -> weight q <= weight p.
Proof.
  destruct l as [|p0 l]; [done|]. intros _. simpl.
  destruct (min_from_ok l 1 0 (weight p0) (fun i w => exists q, (p0 :: l) !! i = Some q /\ weight q = w))
    as (w & (q & Hq & Ew) & Hle & Hall).
  - by exists p0.
  - intros i p H. by exists p.
  - exists q. split; [done|]. rewrite Ew. intros p [->|Hp]%elem_of_cons; [done|].
    apply elem_of_list_lookup in Hp as [i Hi]. by eapply Hall.
Qed.

(** One call of add_cell: what happens to the cell. *)
Lemma add_cell_ok c p m g g' b : inv c g -> add_cell c p m g = Ok (g', b) ->
  exists k cell cell', cell_of c p = Some k /\ cells g !! k = Some cell /\
    cells g' = <[k := cell']> (cells g) /\ (0 < m)%nat /\
    ((length cell < m)%nat /\ cell' = cell ++ [p] /\ b = true \/
     (m <= length cell)%nat /\ (exists q, q ∈ cell /\ q :: cell' ≡ₚ p :: cell /\ weight q < weight p /\
        (forall x, x ∈ cell -> weight q <= weight x)) /\ b = true \/
     (m <= length cell)%nat /\ cell' = cell /\ b = false /\ (forall x, x ∈ cell -> weight p <= weight x)) /\
    num_points g' = num_points g - Z.of_nat (length cell) + Z.of_nat (length cell').
Proof.
  intros I. unfold add_cell. destruct (Nat.eqb_spec m 0) as [|Hm]; [done|].
  destruct (cell_of c p) as [k|] eqn:E; [|done].
  destruct (cells g !! k) as [cell|] eqn:Hk; [|done].
  destruct (Nat.ltb_spec (length cell) m) as [Hlt|Hge].
  - intros [= <- <-]. exists k, cell, (cell ++ [p]). simpl. repeat split; auto; [lia|].
    rewrite app_length; simpl; lia.
  - destruct (min_element_ok cell) as (q & Hq & Hmin); [by intros ->; simpl in *; lia|].
    rewrite Hq. destruct (Z.ltb_spec (weight q) (weight p)) as [Hw|Hw].
    + intros [= <- <-]. exists k, cell, (<[min_element cell := p]> cell). simpl.
      repeat split; auto; [lia| |rewrite insert_length; lia].
      right; left. split; [done|]. split; [|done]. exists q.
      split; [by apply elem_of_list_lookup; eexists|]. split; [|auto].
      rewrite (insert_take_drop cell (min_element cell) p) by (by eapply lookup_lt_Some).
      transitivity (p :: take (min_element cell) cell ++ q :: drop (S (min_element cell)) cell).
      { rewrite <- !Permutation_middle. apply perm_swap. }
      by rewrite (take_drop_middle _ _ _ Hq).
    + intros [= <- <-]. exists k, cell, cell. repeat split; auto; [|lia| |lia].
      * symmetry. by apply list_insert_id.
      * right; right. repeat split; auto. intros x Hx. specialize (Hmin x Hx). lia.
Qed.

Lemma add_cell_inv c p m g g' b : inv c g -> add_cell c p m g = Ok (g', b) ->
  inv c g' /\ contents g' ⊆+ p :: contents g.
Proof.
  intros I H. apply add_cell_ok in H as (k & cell & cell' & E & Hk & Ec & Hm & HC & Hn); [|done].
  assert (Hsub : cell' ⊆+ p :: cell).
  { destruct HC as [(_ & -> & _)|[(_ & (q & _ & HP & _) & _)|(_ & -> & _)]].
    - rewrite <- Permutation_cons_append. done.
    - rewrite <- HP. apply submseteq_cons. done.
    - apply submseteq_cons. done. }
  destruct g' as [cs' n']; simpl in *; subst cs'. split.
  - eapply inv_set; eauto. intros q Hq. pose proof (elem_of_submseteq _ _ _ Hq Hsub) as Hs.
    apply elem_of_cons in Hs as [->|Hq']; [done|]. by eapply inv_pos.
  - unfold contents; simpl. pose proof (concat_insert (cells g) k cell cell' Hk) as P.
    destruct (submseteq_Permutation _ _ Hsub) as [r Hr].
    assert (E2 : concat (<[k:=cell']> (cells g)) ++ r ≡ₚ p :: concat (cells g)).
    { apply (Permutation_app_inv_r cell). rewrite <- app_assoc, (Permutation_app_comm r), app_assoc, P.
      rewrite <- app_assoc, <- Hr. simpl. by rewrite <- Permutation_middle. }
    rewrite <- E2. by apply submseteq_inserts_r.
Qed.
