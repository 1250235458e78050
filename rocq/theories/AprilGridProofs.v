(** Lemmas for C50. *)
From Coq Require Import Reals ZArith List Bool Arith Lia Lra Permutation Sorted.
From Verif Require Import StlHelpersModel AprilGridModel AprilGridSpec.
Import ListNotations.
Local Open Scope nat_scope.

Lemma nth_error_rows {A} (f : nat -> list A) m n s r c : (forall i, length (f i) = m) -> c < m -> r < n ->
  nth_error (flat_map f (seq s n)) (r * m + c) = nth_error (f (s + r)) c.
Proof.
  intros HL Hc. revert s r. induction n as [|n IH]; intros s r Hr; [lia|]. simpl. destruct r as [|r].
  - rewrite Nat.add_0_r. simpl. apply nth_error_app1. rewrite HL. exact Hc.
  - rewrite nth_error_app2 by (rewrite HL; simpl; lia). rewrite HL. replace (S r * m + c - m) with (r * m + c) by (simpl; lia).
    rewrite IH by lia. f_equal. f_equal. lia.
Qed.
Lemma length_rows {A} (f : nat -> list A) m n s : (forall i, length (f i) = m) -> length (flat_map f (seq s n)) = n * m.
Proof. intros HL. revert s. induction n as [|n IH]; intros s; [reflexivity|]. simpl. rewrite app_length, HL, IH. reflexivity. Qed.
Lemma april_length c : length (april_grid_points c) = 2 * tag_rows c * (2 * tag_cols c).
Proof. unfold april_grid_points. apply length_rows. intros i. rewrite map_length, seq_length. reflexivity. Qed.
Lemma april_nth c row col : row < 2 * tag_rows c -> col < 2 * tag_cols c ->
  nth_error (april_grid_points c) (row * (2 * tag_cols c) + col) = Some (grid_point c row col).
Proof.
  intros Hr Hc. unfold april_grid_points. rewrite (nth_error_rows _ (2 * tag_cols c)); [|intros i; rewrite map_length, seq_length; reflexivity|exact Hc|exact Hr].
  simpl (0 + row). rewrite nth_error_map. rewrite (nth_error_nth' _ 0) by (rewrite seq_length; exact Hc). rewrite seq_nth by exact Hc. reflexivity.
Qed.
Lemma make_target_ok c t : make_target c = Ok t <->
  (0 < tag_size c)%R /\ (0 < tag_space c)%R /\ 0 < tag_rows c /\ 0 < tag_cols c /\ t = {| rows := 2 * tag_rows c; cols := 2 * tag_cols c; points := april_grid_points c |}.
Proof.
  unfold make_target. destruct (Rlt_dec 0 (tag_size c)) as [A|A]; [|split; [discriminate|tauto]]. destruct (Rlt_dec 0 (tag_space c)) as [B|B]; [|split; [discriminate|tauto]].
  unfold size. cbn [rows cols points]. rewrite april_length. destruct (Nat.ltb_spec 0 (2 * tag_rows c)) as [E1|E1]; destruct (Nat.ltb_spec 0 (2 * tag_cols c)) as [E2|E2]; cbn [andb];
    try rewrite Nat.eqb_refl; (split; [intros H; try discriminate; injection H as <-; repeat split; try assumption; lia|intros (_ & _ & H1 & H2 & ->); try lia; reflexivity]).
Qed.

(** ** Corner indices *)
(** The index without wrap-around. *)
Definition plain_index (columns tag k : nat) : nat :=
  let base := tag * 2 + tag / columns * (2 * columns) in
  match k with 0 => base | 1 => base + 1 | 2 => base + (2 * columns + 1) | _ => base + 2 * columns end.
(** Row and column of the corner in the grid of points. *)
Definition corner_row (columns tag k : nat) : nat := 2 * (tag / columns) + (if 2 <=? k then 1 else 0).
Definition corner_col (columns tag k : nat) : nat := 2 * (tag mod columns) + (if (k =? 1) || (k =? 2) then 1 else 0).
Lemma plain_index_grid columns tag k : 0 < columns -> k < 4 -> plain_index columns tag k = corner_row columns tag k * (2 * columns) + corner_col columns tag k.
Proof.
  intros Hc Hk. unfold plain_index, corner_row, corner_col. pose proof (Nat.div_mod tag columns ltac:(lia)) as E. set (q := tag / columns) in *. set (r := tag mod columns) in *.
  destruct k as [|[|[|[|k]]]]; [| | | |lia]; cbn [Nat.leb Nat.eqb orb]; nia.
Qed.
Lemma corner_in_grid rws columns tag k : 0 < columns -> tag < rws * columns -> corner_row columns tag k < 2 * rws /\ corner_col columns tag k < 2 * columns.
Proof.
  intros Hc Ht. unfold corner_row, corner_col. pose proof (Nat.mod_upper_bound tag columns ltac:(lia)). assert (tag / columns < rws) by (apply Nat.div_lt_upper_bound; lia).
  split; [destruct (2 <=? k)|destruct (_ || _)]; lia.
Qed.
Lemma plain_index_bound rws columns tag k : 0 < columns -> k < 4 -> tag < rws * columns -> plain_index columns tag k < 2 * rws * (2 * columns).
Proof. intros Hc Hk Ht. rewrite plain_index_grid by assumption. destruct (corner_in_grid rws columns tag k Hc Ht) as [A B]. nia. Qed.
Lemma plain_index_inj columns tag k tag' k' : 0 < columns -> k < 4 -> k' < 4 -> plain_index columns tag k = plain_index columns tag' k' -> tag = tag' /\ k = k'.
Proof.
  intros Hc Hk Hk' E. rewrite !plain_index_grid in E by assumption.
  assert (B : forall t j, corner_col columns t j < 2 * columns). { intros t j. unfold corner_col. pose proof (Nat.mod_upper_bound t columns ltac:(lia)). destruct (_ || _); lia. }
  assert (ER : corner_row columns tag k = corner_row columns tag' k' /\ corner_col columns tag k = corner_col columns tag' k').
  { pose proof (B tag k). pose proof (B tag' k'). apply (Nat.div_mod_unique (2 * columns)); lia. }
  destruct ER as [ER EC]. unfold corner_row, corner_col in *.
  pose proof (Nat.div_mod tag columns ltac:(lia)) as D. pose proof (Nat.div_mod tag' columns ltac:(lia)) as D'.
  destruct k as [|[|[|[|k]]]]; destruct k' as [|[|[|[|k']]]]; try lia; cbn [Nat.leb Nat.eqb orb] in ER, EC; try lia; (split; [|reflexivity]);
    replace (tag / columns) with (tag' / columns) in D by lia; replace (tag mod columns) with (tag' mod columns) in D by lia; lia.
Qed.
Lemma plain_index_surj rws columns i : 0 < columns -> i < 2 * rws * (2 * columns) -> exists tag k, tag < rws * columns /\ k < 4 /\ plain_index columns tag k = i.
Proof.
  intros Hc Hi. set (r := i / (2 * columns)). set (c := i mod (2 * columns)).
  assert (Er : r < 2 * rws) by (apply Nat.div_lt_upper_bound; lia). assert (Ec : c < 2 * columns) by (apply Nat.mod_upper_bound; lia).
  pose proof (Nat.div_mod i (2 * columns) ltac:(lia)) as Ei. fold r c in Ei.
  pose proof (Nat.div_mod r 2 ltac:(lia)) as Dr. pose proof (Nat.div_mod c 2 ltac:(lia)) as Dc. pose proof (Nat.mod_upper_bound r 2 ltac:(lia)) as Mr. pose proof (Nat.mod_upper_bound c 2 ltac:(lia)) as Mc.
  set (tr := r / 2) in *. set (tc := c / 2) in *. assert (Htc : tc < columns) by lia. assert (Htr : tr < rws) by lia.
  assert (Q : (tr * columns + tc) / columns = tr) by (symmetry; apply (Nat.div_unique _ _ _ tc); lia). assert (M : (tr * columns + tc) mod columns = tc) by (symmetry; apply (Nat.mod_unique _ _ tr); lia).
  exists (tr * columns + tc), (match r mod 2, c mod 2 with 0, 0 => 0 | 0, _ => 1 | _, 0 => 3 | _, _ => 2 end).
  split; [nia|]. split; [destruct (r mod 2) as [|[|]]; destruct (c mod 2) as [|[|]]; lia|].
  rewrite plain_index_grid by (try assumption; destruct (r mod 2) as [|[|]]; destruct (c mod 2) as [|[|]]; lia).
  unfold corner_row, corner_col. rewrite Q, M. rewrite Ei.
  destruct (r mod 2) as [|[|]]; destruct (c mod 2) as [|[|]]; try lia; cbn [Nat.leb Nat.eqb orb]; rewrite Dr at 1; rewrite Dc at 1; lia.
Qed.
(** The index computed in 32-bit arithmetic. *)
Lemma corner_index_plain rws columns tag k : 0 < columns -> k < 4 -> tag < rws * columns -> (Z.of_nat (2 * rws * (2 * columns)) < 2 ^ 31)%Z ->
  corner_index (2 * columns) (Z.of_nat tag) k = Z.of_nat (plain_index columns tag k).
Proof.
  intros Hc Hk Ht Hs. pose proof (plain_index_bound rws columns tag k Hc Hk Ht) as B. pose proof (plain_index_bound rws columns tag 0 Hc ltac:(lia) Ht) as B0.
  pose proof (plain_index_bound rws columns tag 2 Hc ltac:(lia) Ht) as B2.
  assert (W : forall z, (0 <= z < 2 ^ 31)%Z -> to_u32 z = z) by (intros z Hz; unfold to_u32; apply Z.mod_small; lia).
  unfold corner_index. assert (T0 : (0 <= Z.of_nat tag < 2 ^ 31)%Z) by nia. rewrite (W (Z.of_nat tag)) by exact T0.
  assert (C2 : (Z.of_nat (2 * columns) / 2 = Z.of_nat columns)%Z) by (rewrite Nat2Z.inj_mul, Z.mul_comm; apply Z.div_mul; lia). rewrite C2.
  assert (E : (Z.of_nat tag * 2 + Z.of_nat tag / Z.of_nat columns * Z.of_nat (2 * columns))%Z = Z.of_nat (plain_index columns tag 0)).
  { unfold plain_index. rewrite <- Nat2Z.inj_div, Nat2Z.inj_add, !Nat2Z.inj_mul. lia. }
  rewrite E, (W (Z.of_nat (plain_index columns tag 0))) by lia.
  assert (CB : (0 <= Z.of_nat (2 * columns) /\ Z.of_nat (2 * columns) + 1 < 2 ^ 31)%Z). { split; [lia|]. unfold plain_index in B2. lia. }
  assert (I : forall z, (0 <= z < 2 ^ 31)%Z -> to_i32 z = z). { intros z Hz. unfold to_i32. rewrite Z.mod_small by lia. destruct (Z.ltb_spec z (2 ^ 31)); lia. }
  rewrite !(W (Z.of_nat (2 * columns) + 1)%Z), (W (Z.of_nat (2 * columns))) by lia.
  unfold plain_index in *. destruct k as [|[|[|[|k]]]]; [| | | |lia]; rewrite ?W by lia; rewrite I by lia; lia.
Qed.

(** ** Sorting *)
Lemma insert_perm d l : Permutation (d :: l) (insert d l).
Proof. induction l as [|e l IH]; [reflexivity|]. simpl. destruct (id d <=? id e)%Z; [reflexivity|]. rewrite perm_swap. apply perm_skip, IH. Qed.
Lemma sort_perm l : Permutation l (sort l).
Proof. induction l as [|d l IH]; [reflexivity|]. simpl. rewrite <- insert_perm. apply perm_skip, IH. Qed.
Definition id_le (d e : detection) : Prop := (id d <= id e)%Z.
Lemma insert_sorted' d l : StronglySorted id_le l -> StronglySorted id_le (insert d l).
Proof.
  induction 1 as [|e l S IH F]; [repeat constructor|]. simpl. destruct (Z.leb_spec (id d) (id e)) as [A|A].
  - constructor; [constructor; assumption|]. constructor; [exact A|]. eapply Forall_impl; [|exact F]. unfold id_le. intros. cbv beta in *. lia.
  - constructor; [exact IH|]. apply (Permutation_Forall (insert_perm d l)). constructor; [unfold id_le; lia|exact F].
Qed.
Lemma sort_sorted l : StronglySorted id_le (sort l).
Proof. induction l as [|d l IH]; [constructor|]. apply insert_sorted', IH. Qed.
Lemma duplicates_sorted l : StronglySorted id_le l -> duplicates l = false <-> NoDup (map id l).
Proof.
  induction 1 as [|d l S IH F]; [split; [constructor|reflexivity]|]. destruct l as [|e l].
  - split; [intros _; repeat constructor; intros []|reflexivity].
  - change (duplicates (d :: e :: l)) with ((id d =? id e)%Z || duplicates (e :: l)). rewrite orb_false_iff, IH, Z.eqb_neq. cbn [map]. split.
    + intros [N D]. constructor; [|exact D]. intros H. apply (in_map_iff id (e :: l)) in H. destruct H as (x & Hx & Hin). 
      assert (L1 : (id d <= id e)%Z) by (inversion F; assumption).
      assert (L2 : (id e <= id x)%Z). { destruct Hin as [<-|Hin]; [lia|]. inversion S as [|? ? ? F']; subst. rewrite Forall_forall in F'. apply F' in Hin. exact Hin. } lia.
    + intros D. inversion D as [|? ? N D']; subst. split; [|exact D']. intros E. apply N. left. congruence.
Qed.
(** Position in a list sorted without duplicates. *)
Lemma sorted_rank l i d : StronglySorted id_le l -> NoDup (map id l) -> nth_error l i = Some d -> length (filter (fun e => (id e <? id d)%Z) l) = i.
Proof.
  intros S. revert i. induction S as [|e l S IH F]; intros i N H; [destruct i; discriminate|]. inversion N as [|? ? N1 N2]; subst. destruct i as [|i].
  - injection H as ->. simpl. rewrite Z.ltb_irrefl.
    assert (Z : forall m, Forall (id_le d) m -> filter (fun e => (id e <? id d)%Z) m = []).
    { induction 1 as [|x m Hx _ IHm]; [reflexivity|]. simpl. unfold id_le in Hx. destruct (Z.ltb_spec (id x) (id d)); [lia|exact IHm]. }
    rewrite Z by exact F. reflexivity.
  - simpl in H. simpl. pose proof (nth_error_In _ _ H) as Hin. assert (L : (id e < id d)%Z).
    { rewrite Forall_forall in F. apply F in Hin as L. unfold id_le in L. assert (id e <> id d); [|lia]. intros E. apply N1. rewrite E. apply in_map, Hin. }
    destruct (Z.ltb_spec (id e) (id d)); [|lia]. simpl. f_equal. apply IH; assumption.
Qed.
Lemma filter_perm {A} (f : A -> bool) l l' : Permutation l l' -> Permutation (filter f l) (filter f l').
Proof.
  induction 1 as [|x l l' P IH|x y l|l1 l2 l3 P1 IH1 P2 IH2]; simpl; [reflexivity| | |etransitivity; eassumption].
  - destruct (f x); [apply perm_skip|]; exact IH.
  - destruct (f x), (f y); try reflexivity. apply perm_swap.
Qed.

(** ** The corner list *)
Section Emission.
  Context (k : detector) (refine : nat -> point2 -> point2) (n columns : nat).
  (** Refined position and whether it is accepted. *)
  Definition refined (i : nat) (d : detection) (j : nat) : point2 := if refine_corners k then refine (4 * i + j) (corner d j) else corner d j.
  Definition accepted (i : nat) (d : detection) (j : nat) : bool := if Rle_dec (distance_sq (refined i d j) (corner d j)) (max_displacement_sq k) then true else false.
  Definition tag_obs (i : nat) (d : detection) (js : list nat) : list corner_observation :=
    map (fun j => (corner_index columns (id d) j, refined i d j)) (filter (accepted i d) js).
  Fixpoint all_obs (i : nat) (ds : list detection) : list corner_observation :=
    match ds with [] => [] | d :: ds' => tag_obs i d (seq 0 4) ++ all_obs (S i) ds' end.
  Lemma add_corners_ok i d js obs : length obs + length js <= n -> add_corners k refine n columns i d js obs = Ok (obs ++ tag_obs i d js).
  Proof.
    revert obs. induction js as [|j js IH]; intros obs HL; [unfold tag_obs; simpl; rewrite app_nil_r; reflexivity|]. cbn [length] in HL.
    cbn [add_corners]. unfold add_corner. unfold tag_obs. cbn [filter]. unfold accepted at 1, refined at 1. destruct (Rle_dec _ _) as [A|A].
    - destruct (Nat.ltb_spec (length obs) n) as [L|L]; [|lia]. rewrite IH by (rewrite app_length; simpl; lia). rewrite <- app_assoc. reflexivity.
    - apply IH. lia.
  Qed.
  Lemma tag_obs_length i d js : length (tag_obs i d js) <= length js.
  Proof. unfold tag_obs. rewrite map_length. induction js as [|j js IH]; [reflexivity|]. simpl. destruct (accepted i d j); simpl; lia. Qed.
  Lemma add_tags_ok i ds obs : length obs + 4 * length ds <= n -> add_tags k refine n columns i ds obs = Ok (obs ++ all_obs i ds).
  Proof.
    revert i obs. induction ds as [|d ds IH]; intros i obs HL; [simpl; rewrite app_nil_r; reflexivity|]. cbn [length] in HL. cbn [add_tags all_obs].
    rewrite add_corners_ok by (rewrite seq_length; lia). rewrite IH; [rewrite <- app_assoc; reflexivity|].
    rewrite app_length. pose proof (tag_obs_length i d (seq 0 4)) as T. rewrite seq_length in T. lia.
  Qed.
  Lemma in_all_obs i ds o : In o (all_obs i ds) <-> exists p d j, nth_error ds p = Some d /\ j < 4 /\ accepted (i + p) d j = true /\ o = (corner_index columns (id d) j, refined (i + p) d j).
  Proof.
    revert i. induction ds as [|d ds IH]; intros i; cbn [all_obs].
    - split; [intros []|intros (p & d & j & H & _); destruct p; discriminate].
    - rewrite in_app_iff, IH. unfold tag_obs. rewrite in_map_iff. split.
      + intros [(j & <- & Hj)|(p & e & j & H & Hj & A & E)].
        * apply filter_In in Hj. destruct Hj as [Hj A]. apply in_seq in Hj. exists 0, d, j. rewrite Nat.add_0_r. repeat split; [lia|exact A].
        * exists (S p), e, j. rewrite Nat.add_succ_r. tauto.
      + intros ([|p] & e & j & H & Hj & A & E).
        * left. injection H as <-. rewrite Nat.add_0_r in *. exists j. split; [congruence|]. apply filter_In. split; [apply in_seq; lia|exact A].
        * right. exists p, e, j. rewrite Nat.add_succ_r in *. tauto.
  Qed.
End Emission.
