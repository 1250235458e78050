(** C24-C26, C64: the occupancy grid. *)
From Coq Require Import ZArith Bool Lia.
From stdpp Require Import list list_numbers sorting.
From Verif Require Import StlHelpersModel OccupancyGridModel OccupancyGridSpec OccupancyGridProofs
  OccupancyGridNear OccupancyGridRemove.
Open Scope Z_scope.

(** Example data: a 10 x 10 image with 4 x 4 cells (3 x 3 cells). *)
Definition ex_cfg := Config 10 10 4 4 (-1000).
Definition ex_a := Pt 1 1 5 0.
Definition ex_b := Pt 2 2 7 1.
Definition ex_c := Pt 9 9 1 2.
Definition ex_d := Pt 5 3 6 3.

(** An implementation of partial_sort (insertion sort by decreasing weight). *)
Fixpoint ins (p : point) (l : list point) : list point :=
  match l with
  | [] => [p]
  | q :: l' => if stronger q p then q :: ins p l' else p :: l
  end.
Definition full_sort (n : nat) (l : list point) : list point := foldr ins [] l.
Lemma full_sort_good : forall n l, partial_sorted stronger n l (full_sort n l).
Proof.
  assert (Hins : forall p l, ins p l ≡ₚ p :: l).
  { intros p l. induction l as [|q l IH]; [done|]. simpl. destruct (stronger q p); [|done].
    rewrite IH. apply perm_swap. }
  assert (Hperm : forall l, foldr ins [] l ≡ₚ l).
  { induction l as [|p l IH]; [done|]. simpl. rewrite Hins. by f_equiv. }
  assert (Hs : forall l, StronglySorted (fun a b => weight b <= weight a) (foldr ins [] l)).
  { induction l as [|p l IH]; [constructor|]. simpl. revert IH. generalize (foldr ins [] l) as s.
    induction s as [|q s IHs]; intros H; [repeat constructor|]. simpl.
    apply StronglySorted_inv in H as [H1 H2]. unfold stronger. destruct (Z.ltb_spec (weight p) (weight q)).
    - constructor; [by apply IHs|]. rewrite Hins. constructor; [lia|done].
    - constructor; [by constructor|]. constructor; [lia|]. eapply Forall_impl; [exact H2|]. simpl; lia. }
  assert (Hlk : forall l i j x y, StronglySorted (fun a b => weight b <= weight a) l -> (i < j)%nat ->
    l !! i = Some x -> l !! j = Some y -> stronger y x = false).
  { intros l i j x y H. revert i j. induction H as [|z l H IH HF]; intros i j Hij Hi Hj; [by rewrite lookup_nil in Hi|].
    destruct j as [|j]; [lia|]. destruct i as [|i]; simpl in *.
    - injection Hi as ->. rewrite Forall_forall in HF. unfold stronger. apply Z.ltb_ge. apply HF.
      apply elem_of_list_lookup. eauto.
    - apply (IH i j); auto. lia. }
  intros n l. split; [apply Hperm|]. split; intros i j x y H1; [intros Hi Hj|intros H2 Hi Hj];
    (eapply (Hlk _ i j); [apply Hs|lia|exact Hi|exact Hj]).
Qed.

(** ** C24 *)
Theorem gx_accounting : forall c g0 os g,
  create c = Some g0 -> Forall good_op os -> run c g0 os = Ok g ->
  num_points g = Z.of_nat (length (contents g)) /\
  get_all g = Ok (contents g) /\
  contents g ⊆+ offered os /\
  length (cells g) = (num_rows c * num_cols c)%nat /\
  (forall k cell p, cells g !! k = Some cell -> p ∈ cell ->
     in_rect c (Z.of_nat k / Z.of_nat (num_cols c)) (Z.of_nat k mod Z.of_nat (num_cols c)) p).
Proof.
  intros c g0 os g Hc HG HR. apply create_wf in Hc as [W ->].
  destruct (run_ok c os _ g [] W (init_inv c) HG HR) as [I Hsub].
  { unfold contents; simpl. assert (E : forall n, concat (replicate n ([] : list point)) = []).
    { induction n as [|n IH]; simpl; auto. } by rewrite E. }
  split; [apply (inv_num _ _ I)|]. split.
  { unfold get_all. rewrite (inv_num _ _ I). rewrite Z.eqb_refl. done. }
  split; [done|]. split; [apply (inv_len _ _ I)|].
  intros k cell p Hk Hp. apply (inv_pos _ _ I k cell p Hk) in Hp. apply cell_of_inv in Hp as (V & R & C & ->).
  destruct W as (W1 & W2 & _ & _). unfold valid_input in V. repeat (apply andb_true_iff in V as [V ?]).
  unfold flat. rewrite Nat2Z.inj_add, Nat2Z.inj_mul.
  rewrite Z.div_add_l by lia. rewrite (Z.add_comm (_ * _)), Z.mod_add by lia.
  rewrite Z.mod_small, Z.div_small by lia.
  unfold in_rect, grid_row, grid_col.
  assert (0 <= u_rows p / cell_rows c) by (apply Z.div_pos; lia).
  assert (0 <= v_cols p / cell_cols c) by (apply Z.div_pos; lia).
  rewrite !Z2Nat.id by lia. rewrite Z.add_0_r.
  pose proof (Z.div_mod (u_rows p) (cell_rows c) ltac:(lia)). pose proof (Z.mod_pos_bound (u_rows p) (cell_rows c) W1).
  pose proof (Z.div_mod (v_cols p) (cell_cols c) ltac:(lia)). pose proof (Z.mod_pos_bound (v_cols p) (cell_cols c) W2).
  split; nia.
Qed.
Print Assumptions gx_accounting.
Definition ex_ops : list op :=
  [OAdd ex_a; OAddCell ex_b 1; OAddNear ex_d 4 id; OAdd ex_c; OAdd ex_b; ORemoveOverfull 1 full_sort; OSetWeight 3;
   ORemoveUntil 3 full_sort].
Example gx_accounting_ex : exists g0 g, create ex_cfg = Some g0 /\ Forall good_op ex_ops /\
  run ex_cfg g0 ex_ops = Ok g /\ contents g = [set_weight 3 ex_b; set_weight 3 ex_c].
Proof.
  eexists. eexists. split; [reflexivity|]. split; [|split; reflexivity].
  unfold ex_ops. repeat (apply Forall_cons; split; [first [exact I | exact full_sort_good | intros es; apply Permutation_refl]|]). apply Forall_nil. done.
Qed.
(** Adding a point with valid coordinates never fails, and really adds it. *)
Theorem gx_add : forall c g0 os g p,
  create c = Some g0 -> Forall good_op os -> run c g0 os = Ok g ->
  0 <= u_rows p < max_rows c -> 0 <= v_cols p < max_cols c ->
  exists g', run c g0 (os ++ [OAdd p]) = Ok g' /\ contents g' ≡ₚ p :: contents g.
Proof.
  intros c g0 os g p Hc HG HR Hu Hv. apply create_wf in Hc as [W ->].
  destruct (run_ok c os _ g (offered os) W (init_inv c) HG HR) as [I _].
  { unfold contents; simpl. assert (E : forall n, concat (replicate n ([] : list point)) = []).
    { induction n as [|n IH]; simpl; auto. } rewrite E. apply submseteq_nil_l. }
  assert (Happ : forall os g1, run c g1 (os ++ [OAdd p]) =
    match run c g1 os with Ok g2 => add_unconditional c p g2 | Abort => Abort | Ub => Ub end).
  { clear. induction os as [|o os IH]; intros g1; cbn [run app].
    - cbn [step]. by destruct (add_unconditional c p g1).
    - destruct (step c g1 o); auto. }
  rewrite Happ, HR.
  assert (V : valid_input c p = true) by (unfold valid_input; rewrite !andb_true_iff; lia).
  destruct (add_unconditional c p g) as [g'| |] eqn:E.
  - exists g'. split; [done|]. by eapply add_unconditional_ok.
  - unfold add_unconditional in E. by rewrite (cell_of_valid c p W V) in E.
  - unfold add_unconditional in E. by rewrite (cell_of_valid c p W V) in E.
Qed.
Print Assumptions gx_add.

(** ** C25 *)
Theorem gx_min_distance : forall c g0 d os g,
  create c = Some g0 ->
  Forall (fun o => match o with
                   | OAddNear _ d' order => d' = d /\ (forall es, order es ≡ₚ es)
                   | OReset => True | _ => False end) os ->
  run c g0 os = Ok g ->
  forall i j p q, i <> j -> contents g !! i = Some p -> contents g !! j = Some q -> d ^ 2 <= dist2 p q.
Proof.
  intros c g0 d os g Hc HF HR. apply create_wf in Hc as [W ->]. apply apart'_apart.
  eapply near_run; [exact W|apply init_inv|exact HF|exact HR|].
  unfold contents; simpl. assert (E : forall n, concat (replicate n ([] : list point)) = []).
  { induction n as [|n IH]; simpl; auto. } rewrite E. constructor.
Qed.
Print Assumptions gx_min_distance.
(** What one such insertion does, in any state: exactly the points closer than [d] are removed, and
    the strongest among them and the new point is kept. *)
Theorem gx_near_exact : forall c g0 os g p d order,
  create c = Some g0 -> Forall good_op os -> run c g0 os = Ok g -> (forall es, order es ≡ₚ es) ->
  0 < d -> d <= cell_rows c -> d <= cell_cols c ->
  0 <= u_rows p < max_rows c -> 0 <= v_cols p < max_cols c -> lowest c < weight p ->
  exists g' best, add_near c p d order g = Ok g' /\
    contents g' ≡ₚ best :: filter (fun q => d ^ 2 <= dist2 p q) (contents g) /\
    (best = p \/ (best ∈ contents g /\ dist2 p best < d ^ 2)) /\
    weight p <= weight best /\
    (forall q, q ∈ contents g -> dist2 p q < d ^ 2 -> weight q <= weight best).
Proof.
  intros c g0 os g p d order Hc HG HR Ho Hd Hd1 Hd2 Hu Hv Hw. apply create_wf in Hc as [W ->].
  destruct (run_ok c os _ g (offered os) W (init_inv c) HG HR) as [I _].
  { unfold contents; simpl. assert (E : forall n, concat (replicate n ([] : list point)) = []).
    { induction n as [|n IH]; simpl; auto. } rewrite E. apply submseteq_nil_l. }
  assert (V : valid_input c p = true) by (unfold valid_input; rewrite !andb_true_iff; lia).
  destruct (add_near_succeeds c p d order g W I Ho Hd ltac:(lia) V Hw) as [g' E].
  destruct (add_near_ok c p d order g g' W I Ho E) as (_ & best & P & Hb & Hmax).
  exists g', best. split; [done|].
  assert (Hclose : forall q, too_close p d q = true <-> dist2 p q < d ^ 2).
  { intros q. pose proof (too_close_dist p d q) as [H1 H2]. destruct (too_close p d q); split; try done; intros; [|].
    - destruct (Z.lt_ge_cases (dist2 p q) (d ^ 2)) as [|Hge]; [done|]. specialize (H2 Hge). done.
    - specialize (H1 eq_refl). lia. }
  split; [|split; [|split]].
  - rewrite P. f_equiv. apply eq_perm. apply list_filter_iff. intros q. by rewrite too_close_dist.
  - apply elem_of_cons in Hb as [->|Hb]; [by left|right]. apply elem_of_list_filter in Hb as [H1 H2].
    apply Hclose in H1. done.
  - apply Hmax. by left.
  - intros q Hq Hqd. apply Hmax. right. apply elem_of_list_filter. by rewrite Hclose.
Qed.
Print Assumptions gx_near_exact.
Example gx_near_ex : exists g0 g, create ex_cfg = Some g0 /\
  run ex_cfg g0 [OAddNear ex_a 4 id; OAddNear ex_c 4 id; OAddNear ex_b 4 reverse; OAddNear ex_d 4 id] = Ok g /\
  contents g = [ex_b; ex_c] /\ dist2 ex_b ex_d < 4 ^ 2.
Proof. eexists. eexists. split; [reflexivity|]. split; [reflexivity|]. done. Qed.

(** ** C26 *)
Theorem gx_strongest : forall c g0 m os g,
  create c = Some g0 ->
  Forall (fun o => match o with OAddCell _ m' => m' = m | OReset => True | _ => False end) os ->
  run c g0 os = Ok g ->
  forall k cell, cells g !! k = Some cell ->
    strongest m (filter (fun p => cell_of c p = Some k) (offered os)) cell.
Proof.
  intros c g0 m os g Hc HF HR. apply create_wf in Hc as [W ->].
  eapply cell_run; [exact W|apply init_inv|exact HF|exact HR|].
  intros k cell Hk. apply lookup_replicate in Hk as [-> _]. exists []. split; [done|]. split; [simpl; lia|].
  split; [done|]. intros x y _ Hy. by apply elem_of_nil in Hy.
Qed.
Print Assumptions gx_strongest.
Example gx_strongest_ex : exists g0 g, create ex_cfg = Some g0 /\
  run ex_cfg g0 [OAddCell ex_a 1; OAddCell ex_b 1; OAddCell ex_a 1; OAddCell ex_c 1] = Ok g /\
  contents g = [ex_b; ex_c].
Proof. eexists. eexists. split; [reflexivity|]. split; reflexivity. Qed.

(** removeWeightedPointsFromOverfullCells: succeeds for a positive limit; every cell keeps its [m]
    strongest points; the returned number is the number of removed points. *)
Theorem gx_overfull : forall c g0 os g m ps,
  create c = Some g0 -> Forall good_op os -> run c g0 os = Ok g -> (0 < m)%nat ->
  (forall n l, partial_sorted stronger n l (ps n l)) ->
  exists g' r, remove_overfull_all ps m g = Ok (g', r) /\
    length (contents g) = (length (contents g') + r)%nat /\
    forall k cell, cells g !! k = Some cell -> exists cell', cells g' !! k = Some cell' /\ strongest m cell cell'.
Proof.
  intros c g0 os g m ps Hc HG HR Hm Hps. apply create_wf in Hc as [W ->].
  destruct (run_ok c os _ g (offered os) W (init_inv c) HG HR) as [I _].
  { unfold contents; simpl. assert (E : forall n, concat (replicate n ([] : list point)) = []).
    { induction n as [|n IH]; simpl; auto. } rewrite E. apply submseteq_nil_l. }
  unfold remove_overfull_all. destruct (Nat.eqb_spec m 0); [lia|].
  destruct (remove_overfull_list_succeeds ps (seq 0 (length (cells g))) m g 0 Hm) as (g' & r & E).
  { rewrite Forall_forall. intros k Hk. apply elem_of_seq in Hk. lia. }
  exists g', r. split; [done|].
  destruct (remove_overfull_list_ok c ps _ m g g' 0 r I Hps (NoDup_seq _ _) E) as (I' & [_ S] & N & _ & (gone & P & L) & Hall).
  split.
  - apply Permutation_length in P. rewrite app_length in P. lia.
  - intros k cell Hk. destruct (S k cell Hk) as (cell' & dropped & Hk' & P' & Wk). exists cell'. split; [done|].
    destruct (Hall k cell Hk) as (c2 & Hc2 & L2). rewrite Hk' in Hc2. injection Hc2 as <-.
    rewrite decide_True in L2. 2:{ apply elem_of_seq. apply lookup_lt_Some in Hk. lia. }
    exists dropped. split; [done|]. split; [lia|]. split; [|done].
    intros Hd. apply Permutation_length in P'. rewrite app_length in P'.
    assert (length dropped <> 0)%nat by (by destruct dropped). lia.
Qed.
Print Assumptions gx_overfull.

(** ** C64 and the last part of C26 *)
(** removePointsFromFullestCellsUntilSize: whenever the limit is at least the number of occupied
    cells, exactly min(limit, current) points remain, each cell keeps its strongest ones, and cells
    that lost points are at most one point smaller than the fullest cell. *)
Theorem gx_until_partial : forall c g0 os g n ps,
  create c = Some g0 -> Forall good_op os -> run c g0 os = Ok g -> 0 < n ->
  (forall n l, partial_sorted stronger n l (ps n l)) ->
  Z.of_nat (length (filter (fun cell : list point => cell <> []) (cells g))) <= n \/ Z.of_nat (length (contents g)) <= n ->
  exists g', remove_until ps n g = Ok g' /\
    Z.of_nat (length (contents g')) = Z.min n (Z.of_nat (length (contents g))) /\
    (forall k cell, cells g !! k = Some cell -> exists cell', cells g' !! k = Some cell' /\
       strongest (length cell') cell cell' /\
       (length cell' <> length cell -> forall j other, cells g' !! j = Some other -> (length other <= length cell' + 1)%nat)).
Proof.
  intros c g0 os g n ps Hc HG HR Hn Hps HC. apply create_wf in Hc as [W ->].
  destruct (run_ok c os _ g (offered os) W (init_inv c) HG HR) as [I _].
  { unfold contents; simpl. assert (E : forall n, concat (replicate n ([] : list point)) = []).
    { induction n0 as [|n0 IH]; simpl; auto. } rewrite E. apply submseteq_nil_l. }
  destruct (remove_until_ok c ps n g Hps Hn I) as [H1 _].
  pose proof (inv_num _ _ I) as N0. unfold contents in HC.
  destruct H1 as (g' & E & I' & [_ S] & B & N & _); [unfold nonempty; lia|].
  exists g'. split; [done|]. unfold contents. rewrite <- (inv_num _ _ I'), <- N0. split; [done|].
  intros k cell Hk. destruct (S k cell Hk) as (cell' & dropped & Hk' & P' & Wk). exists cell'.
  split; [done|]. split; [by exists dropped|]. intros Hne j other Hj. by eapply B.
Qed.
Print Assumptions gx_until_partial.
Example gx_until_ex : exists g0 g g', create ex_cfg = Some g0 /\
  run ex_cfg g0 [OAdd ex_a; OAdd ex_b; OAdd ex_c] = Ok g /\
  Z.of_nat (length (filter (fun cell : list point => cell <> []) (cells g))) <= 2 /\
  remove_until full_sort 2 g = Ok g' /\ contents g' = [ex_b; ex_c].
Proof. eexists. eexists. eexists. split; [reflexivity|]. split; [reflexivity|]. split; [vm_compute; done|]. split; reflexivity. Qed.
(** Otherwise it always aborts: fewer points requested than cells occupied. *)
Theorem gx_until_aborts : forall c g0 os g n ps,
  create c = Some g0 -> Forall good_op os -> run c g0 os = Ok g -> 0 < n ->
  (forall n l, partial_sorted stronger n l (ps n l)) ->
  n < Z.of_nat (length (filter (fun cell : list point => cell <> []) (cells g))) ->
  remove_until ps n g = Abort.
Proof.
  intros c g0 os g n ps Hc HG HR Hn Hps HC. apply create_wf in Hc as [W ->].
  destruct (run_ok c os _ g (offered os) W (init_inv c) HG HR) as [I _].
  { unfold contents; simpl. assert (E : forall n, concat (replicate n ([] : list point)) = []).
    { induction n0 as [|n0 IH]; simpl; auto. } rewrite E. apply submseteq_nil_l. }
  destruct (remove_until_ok c ps n g Hps Hn I) as [_ H2]. apply H2; [done|].
  pose proof (inv_num _ _ I). pose proof (nonempty_le (cells g)). lia.
Qed.
Print Assumptions gx_until_aborts.
(** So the total is not always met. *)
Theorem gx_until_refuted : exists c g0 os g n,
  create c = Some g0 /\ Forall good_op os /\ run c g0 os = Ok g /\ 0 < n /\
  forall ps, remove_until ps n g = Abort.
Proof.
  exists ex_cfg. eexists. exists [OAdd ex_a; OAdd ex_c]. eexists. exists 1.
  split; [reflexivity|]. split; [by repeat constructor|]. split; [reflexivity|]. split; [lia|]. intros ps. reflexivity.
Qed.
Print Assumptions gx_until_refuted.
