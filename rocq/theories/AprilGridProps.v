(** Properties C50, C74 and C75: april grid, grid coordinates and target observations. *)
From Coq Require Import Reals ZArith List Bool Arith Lia Lra Permutation Sorted.
From Verif Require Import StlHelpersModel AprilGridModel AprilGridSpec AprilGridProofs.
Import ListNotations.
Local Open Scope nat_scope.

Lemma even_div n : (2 * n) / 2 = n /\ (2 * n) mod 2 = 0 /\ (2 * n + 1) / 2 = n /\ (2 * n + 1) mod 2 = 1.
Proof.
  repeat split; [symmetry; apply (Nat.div_unique _ _ _ 0)|symmetry; apply (Nat.mod_unique _ _ n)|symmetry; apply (Nat.div_unique _ _ _ 1)|symmetry; apply (Nat.mod_unique _ _ n)]; lia.
Qed.
Lemma grid_point_corner c tag k : 0 < tag_cols c -> k < 4 ->
  grid_point c (corner_row (tag_cols c) tag k) (corner_col (tag_cols c) tag k) = tag_corner (tag_size c) (tag_space c) (tag / tag_cols c) (tag mod tag_cols c) k.
Proof.
  intros Hc Hk. unfold grid_point, corner_row, corner_col, tag_corner. destruct (even_div (tag / tag_cols c)) as (R1 & R2 & R3 & R4). destruct (even_div (tag mod tag_cols c)) as (C1 & C2 & C3 & C4).
  destruct k as [|[|[|[|k]]]]; [| | | |lia]; cbn [Nat.leb Nat.eqb orb]; rewrite ?Nat.add_0_r, ?R1, ?R2, ?R3, ?R4, ?C1, ?C2, ?C3, ?C4; f_equal; try f_equal; simpl; ring.
Qed.
Lemma size_target c t : make_target c = Ok t -> size t = 2 * tag_rows c * (2 * tag_cols c).
Proof. intros H. apply make_target_ok in H. destruct H as (_ & _ & _ & _ & ->). reflexivity. Qed.

(** ** C50 *)
(** The four indices of a tag are valid, and the target has the corners of that tag there. *)
Theorem ex_corner_position c t tag k : make_target c = Ok t -> (Z.of_nat (size t) < 2 ^ 31)%Z -> tag < tag_rows c * tag_cols c -> k < 4 ->
  exists i, corner_index (cols t) (Z.of_nat tag) k = Z.of_nat i /\ i < size t /\
    target_point t i = Ok (tag_corner (tag_size c) (tag_space c) (tag / tag_cols c) (tag mod tag_cols c) k).
Proof.
  intros HT HS Ht Hk. pose proof (size_target c t HT) as ES. rewrite ES in *. apply make_target_ok in HT. destruct HT as (_ & _ & Hr & Hc & ->).
  exists (plain_index (tag_cols c) tag k). cbn [cols]. rewrite (corner_index_plain (tag_rows c)) by assumption. split; [reflexivity|].
  pose proof (plain_index_bound (tag_rows c) (tag_cols c) tag k Hc Hk Ht) as B. split; [exact B|].
  unfold target_point. rewrite ES. destruct (Nat.ltb_spec (plain_index (tag_cols c) tag k) (2 * tag_rows c * (2 * tag_cols c))) as [_|A]; [|lia].
  cbn [points]. destruct (corner_in_grid (tag_rows c) (tag_cols c) tag k Hc Ht) as [R C]. rewrite plain_index_grid, april_nth, grid_point_corner by assumption. reflexivity.
Qed.
Print Assumptions ex_corner_position.
(** Different corners, of the same or of different tags, have different indices. *)
Theorem ex_corner_disjoint c t tag k tag' k' : make_target c = Ok t -> (Z.of_nat (size t) < 2 ^ 31)%Z -> tag < tag_rows c * tag_cols c -> tag' < tag_rows c * tag_cols c -> k < 4 -> k' < 4 ->
  corner_index (cols t) (Z.of_nat tag) k = corner_index (cols t) (Z.of_nat tag') k' -> tag = tag' /\ k = k'.
Proof.
  intros HT HS Ht Ht' Hk Hk' E. rewrite (size_target c t HT) in HS. apply make_target_ok in HT. destruct HT as (_ & _ & Hr & Hc & ->). cbn [cols] in E.
  rewrite !(corner_index_plain (tag_rows c)) in E by assumption. apply Nat2Z.inj in E. eapply plain_index_inj; eassumption.
Qed.
Print Assumptions ex_corner_disjoint.
(** Every point of the target is a corner of a tag. *)
Theorem ex_corner_cover c t i : make_target c = Ok t -> (Z.of_nat (size t) < 2 ^ 31)%Z -> i < size t ->
  exists tag k, tag < tag_rows c * tag_cols c /\ k < 4 /\ corner_index (cols t) (Z.of_nat tag) k = Z.of_nat i.
Proof.
  intros HT HS Hi. rewrite (size_target c t HT) in *. apply make_target_ok in HT. destruct HT as (_ & _ & Hr & Hc & ->).
  destruct (plain_index_surj (tag_rows c) (tag_cols c) i Hc Hi) as (tag & k & H1 & H2 & <-). exists tag, k. split; [exact H1|]. split; [exact H2|]. apply (corner_index_plain (tag_rows c)); assumption.
Qed.
Print Assumptions ex_corner_cover.
Definition six_by_six : configuration := {| tag_rows := 6; tag_cols := 6; tag_size := 88 / 1000; tag_space := 264 / 10000 |}.
Example ex_corner_case : (exists t, make_target six_by_six = Ok t /\ (Z.of_nat (size t) < 2 ^ 31)%Z /\ size t = 144) /\ 17 < tag_rows six_by_six * tag_cols six_by_six.
Proof.
  split; [|simpl; lia]. eexists. split; [apply make_target_ok; cbn; repeat split; try lra; lia|]. unfold size. cbn. split; [lia|reflexivity].
Qed.

(** The detection that survive the checks (ag 104-140), in words: four corners away from the border, marked good, id of the grid. *)
Definition valid_detection (k : detector) (n : nat) (w h : R) (d : detection) : Prop :=
  (forall j, j < 4 -> let '(x, y) := corner d j in (min_border k <= x <= w - min_border k)%R /\ (min_border k <= y <= h - min_border k)%R) /\
  good d = true /\ (id d < Z.of_nat (n / 4))%Z.
Lemma keep_spec k n w h d : keep k n w h d = true <-> valid_detection k n w h d.
Proof.
  unfold keep, valid_detection. rewrite !andb_true_iff, negb_true_iff, Z.leb_gt, forallb_forall.
  assert (Q : forall p, corner_inside k w h p = true <-> let '(x, y) := p in (min_border k <= x <= w - min_border k)%R /\ (min_border k <= y <= h - min_border k)%R).
  { intros [x y]. unfold corner_inside. cbn [fst snd]. repeat match goal with |- context [Rlt_dec ?a ?b] => destruct (Rlt_dec a b) end; split; try discriminate; try tauto; intros; try lra. }
  split.
  - intros [[A B] C]. split; [|split; assumption]. intros j Hj. apply Q, A, in_seq. lia.
  - intros (A & B & C). split; [split; [|exact B]|exact C]. intros j Hj. apply in_seq in Hj. apply Q, A. lia.
Qed.
(** The place of a detection in the corner list: the number of valid detections with a smaller id. *)
Definition rank (k : detector) (n : nat) (w h : R) (ds : list detection) (d : detection) : nat :=
  length (filter (fun e => keep k n w h e && (id e <? id d)%Z) ds).
Lemma filter_and {A} (f g : A -> bool) l : filter (fun x => f x && g x) l = filter g (filter f l).
Proof. induction l as [|x l IH]; [reflexivity|]. simpl. destruct (f x); simpl; [destruct (g x)|]; rewrite IH; reflexivity. Qed.
Lemma rank_sorted k n w h ds d i : NoDup (map id (sort (filter (keep k n w h) ds))) -> nth_error (sort (filter (keep k n w h) ds)) i = Some d -> rank k n w h ds d = i.
Proof.
  intros N H. rewrite <- (sorted_rank _ _ _ (sort_sorted _) N H). unfold rank. rewrite filter_and. apply Permutation_length, filter_perm, sort_perm.
Qed.
Lemma bounded_nodup (l : list Z) (m : nat) : NoDup l -> (forall z, In z l -> (0 <= z < Z.of_nat m)%Z) -> length l <= m.
Proof.
  intros N B. rewrite <- (seq_length m 0), <- (map_length Z.of_nat). apply NoDup_incl_length; [exact N|]. intros z Hz. specialize (B z Hz).
  apply in_map_iff. exists (Z.to_nat z). split; [lia|]. apply in_seq. lia.
Qed.
(** Detection in an image. The detector answers nothing exactly if too few valid tags were found or two of them have the same id. Otherwise
    the observations are exactly the accepted corners of the valid detections: each with the index of that corner in the target and its
    refined position. No index occurs twice, and no access is out of bounds. *)
Theorem ex_detection c t k w h refine ds : make_target c = Ok t -> (Z.of_nat (size t) < 2 ^ 31)%Z -> (forall d, In d ds -> (0 <= id d)%Z) ->
  let valid := filter (keep k (size t) w h) ds in
  (detect t k w h refine ds = Ok None /\ (length valid < min_tags k \/ ~ NoDup (map id valid))) \/
  (exists obs, detect t k w h refine ds = Ok (Some obs) /\ min_tags k <= length valid /\ NoDup (map id valid) /\ NoDup (map fst obs) /\
    forall index p, In (index, p) obs <-> exists d j, In d ds /\ valid_detection k (size t) w h d /\ j < 4 /\ index = corner_index (cols t) (id d) j /\
      p = (if refine_corners k then refine (4 * rank k (size t) w h ds d + j) (corner d j) else corner d j) /\ (distance_squared p (corner d j) <= max_displacement_sq k)%R).
Proof.
  intros HT HS HI. cbv zeta. set (valid := filter (keep k (size t) w h) ds). unfold detect. fold valid.
  destruct (Nat.ltb_spec (length valid) (min_tags k)) as [L|L]; [left; split; [reflexivity|left; exact L]|].
  pose proof (sort_perm valid) as PM. pose proof (Permutation_map id PM) as PI.
  destruct (duplicates (sort valid)) eqn:D.
  { left. split; [reflexivity|]. right. intros N. apply (Permutation_NoDup PI) in N. apply (duplicates_sorted _ (sort_sorted valid)) in N. congruence. }
  right. apply (duplicates_sorted _ (sort_sorted valid)) in D as ND.
  assert (RG : forall d, In d (sort valid) -> exists tag, id d = Z.of_nat tag /\ tag < tag_rows c * tag_cols c).
  { intros d Hd. apply (Permutation_in _ (Permutation_sym PM)) in Hd. unfold valid in Hd. apply filter_In in Hd. destruct Hd as [Hin K]. apply keep_spec in K. destruct K as (_ & _ & K).
    exists (Z.to_nat (id d)). specialize (HI d Hin). split; [lia|]. rewrite (size_target c t HT) in K. replace (2 * tag_rows c * (2 * tag_cols c)) with (tag_rows c * tag_cols c * 4) in K by lia.
    rewrite Nat.div_mul in K by lia. lia. }
  assert (LN : 4 * length (sort valid) <= size t).
  { rewrite (size_target c t HT). assert (length (map id (sort valid)) <= tag_rows c * tag_cols c); [|rewrite map_length in *; nia].
    apply bounded_nodup; [exact ND|]. intros z Hz. apply in_map_iff in Hz. destruct Hz as (d & <- & Hd). destruct (RG d Hd) as (tag & -> & B). lia. }
  exists (all_obs k refine (cols t) 0 (sort valid)). rewrite add_tags_ok by (simpl; lia). split; [reflexivity|]. split; [exact L|].
  split; [apply (Permutation_NoDup (Permutation_sym PI)); exact ND|]. split.
  - clear D LN L PM PI. assert (G : forall i l, (forall d, In d l -> In d (sort valid)) -> NoDup (map id l) -> NoDup (map fst (all_obs k refine (cols t) i l))).
    { intros i l. revert i. induction l as [|d l IH]; intros i SB N; [constructor|]. cbn [all_obs]. rewrite map_app. inversion N as [|? ? N1 N2]; subst.
      destruct (RG d (SB d (or_introl eq_refl))) as (tag & ET & BT).
      assert (DISJ : forall a b, NoDup a -> NoDup b -> (forall x : Z, In x a -> ~ In x b) -> NoDup (a ++ b)).
      { intros a b Na Nb H. induction Na as [|x a Hx Na IHa]; [exact Nb|]. simpl. constructor; [rewrite in_app_iff; intros [F|F]; [contradiction|exact (H x (or_introl eq_refl) F)]|]. apply IHa. intros y Hy. apply H. right. exact Hy. }
      apply DISJ; [|apply IH; [intros e He; apply SB; right; exact He|exact N2]|].
      - unfold tag_obs. rewrite map_map. cbn [fst]. assert (G : forall js, NoDup js -> (forall j, In j js -> j < 4) -> NoDup (map (fun j => corner_index (cols t) (id d) j) js)).
        { induction 1 as [|j js Hj _ IHj]; intros B; [constructor|]. cbn [map]. constructor; [|apply IHj; intros; apply B; right; assumption]. intros F. apply in_map_iff in F. destruct F as (j' & E & Hj').
          rewrite ET in E. apply (ex_corner_disjoint c t) in E; try assumption; [|apply B; right; assumption|apply B; left; reflexivity]. destruct E as [_ ->]. contradiction. }
        apply G; [apply NoDup_filter, seq_NoDup|]. intros j Hj. apply filter_In in Hj. destruct Hj as [Hj _]. apply in_seq in Hj. lia.
      - intros x Hx Hy. unfold tag_obs in Hx. rewrite map_map in Hx. cbn [fst] in Hx. apply in_map_iff in Hx. destruct Hx as (j & <- & Hj). apply filter_In in Hj. destruct Hj as [Hj _]. apply in_seq in Hj.
        apply in_map_iff in Hy. destruct Hy as ([x' q] & E & Hy). apply in_all_obs in Hy. destruct Hy as (p & e & j' & He & Hj' & _ & Eo). injection Eo as -> _. cbn [fst] in E. apply nth_error_In in He.
        destruct (RG e (SB e (or_intror He))) as (tag' & ET' & BT'). rewrite ET, ET' in E. apply (ex_corner_disjoint c t) in E; try assumption; [|lia]. destruct E as [E _]. subst tag'.
        apply N1. rewrite ET, <- ET'. apply in_map, He. }
    apply G; [intros d Hd; exact Hd|exact ND].
  - intros index p. rewrite in_all_obs. split.
    + intros (i & d & j & Hn & Hj & A & E). injection E as -> ->. pose proof (nth_error_In _ _ Hn) as Hd. apply (Permutation_in _ (Permutation_sym PM)) in Hd. unfold valid in Hd. apply filter_In in Hd. destruct Hd as [Hin K].
      exists d, j. split; [exact Hin|]. split; [apply keep_spec, K|]. split; [exact Hj|]. split; [reflexivity|]. rewrite (rank_sorted k (size t) w h ds d i ND Hn). unfold accepted, refined in *. simpl (0 + i) in *.
      destruct (Rle_dec _ _) as [B|B]; [|discriminate]. split; [reflexivity|exact B].
    + intros (d & j & Hin & K & Hj & -> & Ep & B). assert (Hd : In d (sort valid)). { apply (Permutation_in _ PM). unfold valid. apply filter_In. split; [exact Hin|apply keep_spec, K]. }
      apply In_nth_error in Hd. destruct Hd as [i Hn]. rewrite (rank_sorted k (size t) w h ds d i ND Hn) in Ep. exists i, d, j. split; [exact Hn|]. split; [exact Hj|]. unfold accepted, refined. simpl (0 + i). subst p. split; [|reflexivity].
      destruct (Rle_dec _ _) as [_|C]; [reflexivity|exact (False_ind _ (C B))].
Qed.
Print Assumptions ex_detection.
(** Image corners and target points correspond: getCorrespondingTargetPoints lists for every observation the corner of the printed tag whose
    image position is observed. *)
Theorem ex_correspondence c t k w h refine ds obs : make_target c = Ok t -> (Z.of_nat (size t) < 2 ^ 31)%Z -> (forall d, In d ds -> (0 <= id d)%Z) ->
  detect t k w h refine ds = Ok (Some obs) ->
  exists ps, corresponding_points t obs = Ok ps /\ Forall2 (fun o q => exists d j, In d ds /\ good d = true /\ j < 4 /\
    (distance_squared (snd o) (corner d j) <= max_displacement_sq k)%R /\
    q = tag_corner (tag_size c) (tag_space c) (Z.to_nat (id d) / tag_cols c) (Z.to_nat (id d) mod tag_cols c) j) obs ps.
Proof.
  intros HT HS HI HD. destruct (ex_detection c t k w h refine ds HT HS HI) as [[E _]|(obs' & E & _ & _ & _ & SP)]; [congruence|]. rewrite HD in E. injection E as <-.
  assert (G : forall l, (forall o, In o l -> In o obs) -> exists ps, corresponding_points t l = Ok ps /\ Forall2 (fun o q => exists d j, In d ds /\ good d = true /\ j < 4 /\
    (distance_squared (snd o) (corner d j) <= max_displacement_sq k)%R /\ q = tag_corner (tag_size c) (tag_space c) (Z.to_nat (id d) / tag_cols c) (Z.to_nat (id d) mod tag_cols c) j) l ps).
  { induction l as [|[i p] l IH]; intros SB; [exists []; split; [reflexivity|constructor]|]. destruct IH as (ps & EP & FP). { intros o Ho. apply SB. right. exact Ho. }
    destruct (proj1 (SP i p) (SB _ (or_introl eq_refl))) as (d & j & Hin & (_ & Hg & Hid) & Hj & Ei & _ & Hp). specialize (HI d Hin).
    assert (B : Z.to_nat (id d) < tag_rows c * tag_cols c).
    { rewrite (size_target c t HT) in Hid. replace (2 * tag_rows c * (2 * tag_cols c)) with (tag_rows c * tag_cols c * 4) in Hid by lia. rewrite Nat.div_mul in Hid by lia. lia. }
    destruct (ex_corner_position c t (Z.to_nat (id d)) j HT HS B Hj) as (x & Ex & _ & Ep). rewrite Z2Nat.id in Ex by exact HI. rewrite <- Ei in Ex. subst i.
    eexists. cbn [corresponding_points]. rewrite Ex, (proj2 (Z.leb_le 0 (Z.of_nat x))) by lia. rewrite Nat2Z.id, Ep, EP. split; [reflexivity|]. constructor; [|exact FP]. exists d, j. cbn [snd]. tauto. }
  apply G. intros o Ho. exact Ho.
Qed.
Print Assumptions ex_correspondence.
(** Two good tags, away from the border, without refinement: eight observations. *)
Definition square_at (x y : R) : nat -> point2 := fun j => match j with 0 => (x, y) | 1 => (x + 10, y) | 2 => (x + 10, y + 10) | _ => (x, y + 10) end%R.
Definition tag_at (i : Z) (x y : R) : detection := {| id := i; good := true; corner := square_at x y |}.
Definition plain_detector : detector := {| refine_corners := false; max_displacement_sq := 3 / 2; min_tags := 2; min_border := 4 |}.
Example ex_detection_case : exists t, make_target six_by_six = Ok t /\ (Z.of_nat (size t) < 2 ^ 31)%Z /\
  exists obs, detect t plain_detector 640 480 (fun _ p => p) [tag_at 7 100 100; tag_at 5 300 200] = Ok (Some obs) /\ map fst obs = [10; 11; 23; 22; 26; 27; 39; 38]%Z.
Proof.
  assert (H : exists t, make_target six_by_six = Ok t) by (eexists; apply make_target_ok; cbn; repeat split; try lra; lia).
  destruct H as [t HT]. exists t. split; [exact HT|]. apply make_target_ok in HT. destruct HT as (_ & _ & _ & _ & ->).
  set (t := Build_target _ _ _). assert (SZ : size t = 144) by reflexivity. split; [rewrite SZ; lia|].
  assert (K : forall i x y, (4 <= x <= 600)%R -> (4 <= y <= 400)%R -> (i < 36)%Z -> keep plain_detector (size t) 640 480 (tag_at i x y) = true).
  { intros i x y Hx Hy Hi. apply keep_spec. rewrite SZ. split; [|split; [reflexivity|exact Hi]]. intros j Hj. unfold tag_at, square_at, plain_detector. cbn [corner min_border]. destruct j as [|[|[|[|]]]]; try lia; lra. }
  unfold detect. cbn [filter]. rewrite !K by (try lra; lia). cbn [length min_tags plain_detector Nat.ltb Nat.leb].
  replace (sort _) with [tag_at 5 300 200; tag_at 7 100 100] by reflexivity. replace (duplicates _) with false by reflexivity.
  rewrite add_tags_ok by (rewrite SZ; simpl; lia). eexists. split; [reflexivity|].
  assert (AC : forall i d j, accepted plain_detector (fun _ p => p) i d j = true).
  { intros i d j. unfold accepted, refined, distance_sq. cbn. destruct (Rle_dec _ _) as [_|B]; [reflexivity|]. exfalso. apply B. rewrite !Rminus_diag_eq by reflexivity. lra. }
  cbn [app all_obs]. unfold tag_obs. cbn [seq filter]. rewrite !AC. vm_compute. reflexivity.
Qed.
(** A negative id would pass the range check (ag 125) and give two negative indices and two indices of tag 0. *)
Theorem ex_negative_id : exists t, make_target six_by_six = Ok t /\ keep plain_detector (size t) 640 480 (tag_at (-1) 100 100) = true /\
  map (corner_index (cols t) (-1)) [0; 1; 2; 3] = [-10; -9; 3; 2]%Z.
Proof.
  assert (H : exists t, make_target six_by_six = Ok t) by (eexists; apply make_target_ok; cbn; repeat split; try lra; lia).
  destruct H as [t HT]. exists t. split; [exact HT|]. apply make_target_ok in HT. destruct HT as (_ & _ & _ & _ & ->). split.
  - apply keep_spec. split; [|split; [reflexivity|cbn; lia]]. intros j Hj. unfold tag_at, square_at, plain_detector. cbn [corner min_border]. destruct j as [|[|[|[|]]]]; try lia; lra.
  - change (cols _) with 12. vm_compute. reflexivity.
Qed.
Print Assumptions ex_negative_id.

(** ** C74: observations by corner id *)
(** Whether a corner was observed is answered correctly for every id of the target. *)
Theorem ex_observed t (obs : list corner_observation) c : c < size t -> observed_corner_id t obs c = Ok true <-> exists p, In (Z.of_nat c, p) obs.
Proof.
  intros Hc. unfold observed_corner_id. destruct (Nat.ltb_spec c (size t)) as [_|B]; [|lia]. split.
  - intros E. injection E as E. apply existsb_exists in E. destruct E as ([z p] & Hin & Hz). apply Z.eqb_eq in Hz. cbn [fst] in Hz. subst z. exists p. exact Hin.
  - intros [p Hin]. f_equal. apply existsb_exists. exists (Z.of_nat c, p). split; [exact Hin|]. cbn [fst]. apply Z.eqb_refl.
Qed.
Print Assumptions ex_observed.
(** The image position of an observed corner is found, if the id is below the number of observations. *)
Theorem ex_corner_by_id_partial (obs : list corner_observation) c p : NoDup (map fst obs) -> (c < Z.of_nat (length obs))%Z -> corner_by_id obs c = Ok (Some p) <-> In (c, p) obs.
Proof.
  intros N Hc. unfold corner_by_id. rewrite (proj2 (Z.ltb_lt _ _) Hc). clear Hc. induction obs as [|[z q] obs IH]; [split; [discriminate|intros []]|].
  cbn [find fst]. inversion N as [|? ? N1 N2]; subst. destruct (Z.eqb_spec c z) as [->|D].
  - cbn [option_map snd]. split; [intros E; injection E as ->; left; reflexivity|]. intros [E|Hin]; [injection E as ->; reflexivity|]. exfalso. apply N1. cbn [fst]. apply (in_map fst) in Hin. exact Hin.
  - rewrite (IH N2). split; [intros H; right; exact H|]. intros [E|H]; [injection E as -> _; contradiction|exact H].
Qed.
Print Assumptions ex_corner_by_id_partial.
(** Otherwise the process is aborted, also for observed corners: from a detection of two tags of the grid, with their eight corners, all. *)
Theorem ex_corner_by_id_refuted : exists t obs c p, make_target six_by_six = Ok t /\
  detect t plain_detector 640 480 (fun _ p => p) [tag_at 7 100 100; tag_at 5 300 200] = Ok (Some obs) /\
  In (c, p) obs /\ observed_corner_id t obs (Z.to_nat c) = Ok true /\ corner_by_id obs c = Abort.
Proof.
  destruct ex_detection_case as (t & HT & HS & obs & HD & HM). exists t, obs. destruct obs as [|[c p] obs]; [discriminate|]. cbn [map fst] in HM. injection HM as -> HM.
  exists 10%Z, p. split; [exact HT|]. split; [exact HD|]. split; [left; reflexivity|]. split.
  - apply ex_observed; [rewrite (size_target _ _ HT); cbn; lia|]. exists p. left. reflexivity.
  - unfold corner_by_id. assert (L : length (map fst obs) = 7) by (rewrite HM; reflexivity). rewrite map_length in L. unfold corner_observation in *. cbn [length]. rewrite L. reflexivity.
Qed.
Print Assumptions ex_corner_by_id_refuted.
(** All corners are observed exactly if every point of the target is in the list. *)
Theorem ex_all_observed t (obs : list corner_observation) : NoDup (map fst obs) -> (forall o, In o obs -> (0 <= fst o < Z.of_nat (size t))%Z) ->
  all_observed t obs = true <-> forall i, i < size t -> exists p, In (Z.of_nat i, p) obs.
Proof.
  unfold corner_observation in *. intros N B. unfold all_observed, corner_observation. rewrite Nat.eqb_eq. split.
  - intros E i Hi. assert (I : incl (map Z.of_nat (seq 0 (size t))) (map fst obs)).
    { apply NoDup_length_incl; [exact N|rewrite !map_length, seq_length; lia|]. intros z Hz. apply in_map_iff in Hz. destruct Hz as (o & <- & Ho). specialize (B o Ho). apply in_map_iff. exists (Z.to_nat (fst o)). split; [lia|apply in_seq; lia]. }
    specialize (I (Z.of_nat i)). rewrite (in_map_iff fst) in I. destruct I as ([z p] & E' & Hin). { apply in_map, in_seq. lia. } cbn [fst] in E'. subst z. exists p. exact Hin.
  - intros H. apply Nat.le_antisymm.
    + rewrite <- (seq_length (size t) 0), <- (map_length Z.of_nat), <- (map_length fst obs). apply NoDup_incl_length.
      * apply FinFun.Injective_map_NoDup; [intros a b; apply Nat2Z.inj|apply seq_NoDup].
      * intros z Hz. apply in_map_iff in Hz. destruct Hz as (i & <- & Hi). apply in_seq in Hi. destruct (H i ltac:(lia)) as [p Hp]. apply (in_map fst) in Hp. exact Hp.
    + rewrite <- (map_length fst). apply bounded_nodup; [exact N|]. intros z Hz. apply in_map_iff in Hz. destruct Hz as (o & <- & Ho). apply B, Ho.
Qed.
Print Assumptions ex_all_observed.
Example ex_observation_case : let obs := map (fun o => (Z.of_nat (fst o), snd o)) [(2, (1, 1)%R); (0, (5, 6)%R); (1, (2, 8)%R)] in
  NoDup (map fst obs) /\ (2 < Z.of_nat (length obs))%Z /\ (forall o, In o obs -> (0 <= fst o < 4)%Z).
Proof.
  cbn. split; [repeat constructor; cbn; intuition discriminate|]. split; [lia|]. intros o [<-|[<-|[<-|[]]]]; cbn; lia.
Qed.

(** ** C75: grid coordinates *)
(** The index of the point in a row and column, and back: the coordinates come back as (column, row). *)
Theorem ex_grid_roundtrip t row col : row < rows t -> col < cols t -> exists i, grid_to_point t row col = Ok i /\ i < size t /\ point_to_grid t i = (col, row).
Proof.
  intros Hr Hc. exists (cols t * row + col). unfold grid_to_point, point_to_grid, size. rewrite (proj2 (Nat.ltb_lt _ _) Hr), (proj2 (Nat.ltb_lt _ _) Hc). cbn [andb].
  assert (L : cols t * row + col < rows t * cols t) by nia. rewrite (proj2 (Nat.ltb_lt _ _) L). split; [reflexivity|]. split; [exact L|]. f_equal; symmetry; [apply (Nat.mod_unique _ _ row)|apply (Nat.div_unique _ _ _ col)]; lia.
Qed.
Print Assumptions ex_grid_roundtrip.
Theorem ex_index_roundtrip t i : i < size t -> grid_to_point t (snd (point_to_grid t i)) (fst (point_to_grid t i)) = Ok i.
Proof.
  intros Hi. unfold size in Hi. assert (C0 : cols t <> 0) by (intros Z; rewrite Z in Hi; lia). unfold point_to_grid. cbn [fst snd].
  pose proof (Nat.mod_upper_bound i (cols t) C0). assert (i / cols t < rows t) by (apply Nat.div_lt_upper_bound; lia). pose proof (Nat.div_mod i (cols t) C0) as D.
  unfold grid_to_point, size. rewrite !(proj2 (Nat.ltb_lt _ _)) by assumption. cbn [andb]. rewrite <- D, (proj2 (Nat.ltb_lt _ _) Hi). reflexivity.
Qed.
Print Assumptions ex_index_roundtrip.
Example ex_grid_case : let t := {| rows := 4; cols := 6; points := [] |} in 3 < rows t /\ 5 < cols t /\ 23 < size t /\ 0 < rows t < cols t.
Proof. cbn. lia. Qed.
(** Read as (row, column), like the arguments of gridCoordinatesToPoint, they are wrong: another point, or an abort. *)
Theorem ex_grid_order_refuted : exists t i j, make_target six_by_six = Ok t /\ i < size t /\ grid_to_point t (fst (point_to_grid t i)) (snd (point_to_grid t i)) = Ok j /\ i <> j.
Proof.
  assert (H : exists t, make_target six_by_six = Ok t) by (eexists; apply make_target_ok; cbn; repeat split; try lra; lia).
  destruct H as [t HT]. exists t, 1, 12. split; [exact HT|]. apply make_target_ok in HT. destruct HT as (_ & _ & _ & _ & ->). unfold size. cbn. repeat split; lia.
Qed.
Print Assumptions ex_grid_order_refuted.
Theorem ex_grid_order_abort_refuted t : 0 < rows t < cols t -> exists i, i < size t /\ grid_to_point t (fst (point_to_grid t i)) (snd (point_to_grid t i)) = Abort.
Proof.
  intros H. exists (cols t - 1). split; [unfold size; nia|]. unfold point_to_grid. cbn [fst snd]. rewrite Nat.mod_small by lia. unfold grid_to_point. rewrite (proj2 (Nat.ltb_ge (cols t - 1) (rows t))) by lia. reflexivity.
Qed.
Print Assumptions ex_grid_order_abort_refuted.
(** Width and height of an april grid are those of the printed tags. *)
Theorem ex_extent c t : make_target c = Ok t ->
  target_width t = Ok (INR (tag_cols c) * tag_size c + INR (tag_cols c - 1) * tag_space c)%R /\
  target_height t = Ok (INR (tag_rows c) * tag_size c + INR (tag_rows c - 1) * tag_space c)%R.
Proof.
  intros HT. apply make_target_ok in HT. destruct HT as (Hs & Hg & Hr & Hc & ->).
  assert (P : forall row col, row < 2 * tag_rows c -> col < 2 * tag_cols c ->
    target_grid_point {| rows := 2 * tag_rows c; cols := 2 * tag_cols c; points := april_grid_points c |} row col = Ok (grid_point c row col)).
  { intros row col R C. unfold target_grid_point, grid_to_point, size. cbn [rows cols points]. rewrite (proj2 (Nat.ltb_lt _ _) R), (proj2 (Nat.ltb_lt _ _) C). cbn [andb].
    rewrite (proj2 (Nat.ltb_lt _ _)) by nia. rewrite Nat.mul_comm, april_nth by assumption. reflexivity. }
  assert (E : forall n, 0 < n -> (2 * n - 1) / 2 = n - 1 /\ (2 * n - 1) mod 2 = 1). { intros n Hn. destruct (even_div (n - 1)) as (_ & _ & A & B). replace (2 * n - 1) with (2 * (n - 1) + 1) by lia. split; assumption. }
  assert (V : forall n, 0 < n -> Rabs (INR (n - 1) * (tag_size c + tag_space c) + INR 1 * tag_size c - (INR 0 * (tag_size c + tag_space c) + INR 0 * tag_size c)) = (INR n * tag_size c + INR (n - 1) * tag_space c)%R).
  { intros n Hn. rewrite Rabs_right; [|pose proof (pos_INR (n - 1)); cbn [INR]; nra]. replace (INR n) with (INR (n - 1) + 1)%R by (rewrite <- S_INR; f_equal; lia). cbn [INR]. ring. }
  unfold target_width, target_height. cbn [rows cols]. rewrite !P by lia. unfold grid_point. destruct (E _ Hr) as [-> ->]. destruct (E _ Hc) as [-> ->]. change (0 / 2) with 0. change (0 mod 2) with 0. rewrite !V by assumption. split; reflexivity.
Qed.
Print Assumptions ex_extent.
