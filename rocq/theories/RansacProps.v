(** Properties C53, C78, C79: 3-D RANSAC and pixel thresholds. *)
From Coq Require Import Reals ZArith Lia Lra.
From Coq Require Import List Permutation Arith Sorted Bool.
From Verif Require Import StlHelpersModel GyroTrackerModel TriangulationModel TriangulationProps RansacModel RansacSpec.
Import ListNotations.
Local Open Scope R_scope.

(** ** Inliers *)
Lemma norm3_nonneg v : 0 <= norm3 v. Proof. apply sqrt_pos. Qed.
Lemma is_outlier_spec thr T p1 p2 : 0 < thr -> is_outlier thr T p1 p2 = false <-> agrees thr T p1 p2.
Proof.
  intros H. unfold is_outlier, agrees, squared. fold (norm3 (sub3 (transform T p1) p2)) (norm3 p2). pose proof (norm3_nonneg p2) as N2. pose proof (norm3_nonneg (sub3 (transform T p1) p2)) as NE.
  set (e := norm3 (sub3 (transform T p1) p2)) in *. set (m := norm3 p2) in *. clearbody e m. cbv zeta.
  destruct (Req_EM_T m 0) as [->|M].
  - rewrite Rmult_0_r. destruct (Req_EM_T e 0) as [->|E]; split; intros A; try lra; try discriminate A; reflexivity.
  - assert (P : 0 < m) by lra. destruct (Rlt_dec thr (e / m)) as [L|L]; split; intros A; try discriminate A; try reflexivity.
    + exfalso. apply (Rmult_lt_compat_r m) in L; [|exact P]. unfold Rdiv in L. rewrite Rmult_assoc, Rinv_l, Rmult_1_r in L by exact M. lra.
    + apply Rnot_lt_le in L. apply (Rmult_le_compat_r m) in L; [|exact N2]. unfold Rdiv in L. rewrite Rmult_assoc, Rinv_l, Rmult_1_r in L by exact M. lra.
Qed.
Lemma split_points_spec thr T : 0 < thr -> forall ps1 ps2 i, let '(ins, outs) := split_points thr T i ps1 ps2 in
  StronglySorted lt ins /\ StronglySorted lt outs /\
  (forall k, In k ins <-> (i <= k)%nat /\ exists p1 p2, nth_error ps1 (k - i) = Some p1 /\ nth_error ps2 (k - i) = Some p2 /\ agrees thr T p1 p2) /\
  (forall k, In k outs <-> (i <= k)%nat /\ exists p1 p2, nth_error ps1 (k - i) = Some p1 /\ nth_error ps2 (k - i) = Some p2 /\ ~ agrees thr T p1 p2).
Proof.
  intros H. induction ps1 as [|a ps1 IH]; intros ps2 i.
  { cbn. split; [constructor|]. split; [constructor|]. split; intros k; (split; [intros []|]); intros (_ & p1 & p2 & E & _); destruct (k - i)%nat; discriminate E. }
  destruct ps2 as [|b ps2].
  { cbn. split; [constructor|]. split; [constructor|]. split; intros k; (split; [intros []|]); intros (_ & p1 & p2 & _ & E & _); destruct (k - i)%nat; discriminate E. }
  cbn [split_points]. specialize (IH ps2 (S i)). destruct (split_points thr T (S i) ps1 ps2) as [ins outs]. destruct IH as (S1 & S2 & HI & HO).
  assert (SH : forall k (Q : vec3 -> vec3 -> Prop), ((i <= k)%nat /\ exists p1 p2, nth_error (a :: ps1) (k - i) = Some p1 /\ nth_error (b :: ps2) (k - i) = Some p2 /\ Q p1 p2) <->
     (k = i /\ Q a b) \/ ((S i <= k)%nat /\ exists p1 p2, nth_error ps1 (k - S i) = Some p1 /\ nth_error ps2 (k - S i) = Some p2 /\ Q p1 p2)).
  { intros k Q. split.
    - intros (L & p1 & p2 & E1 & E2 & HQ). destruct (Nat.eq_dec k i) as [->|N].
      + left. rewrite Nat.sub_diag in E1, E2. cbn in E1, E2. split; [reflexivity|]. congruence.
      + right. split; [lia|]. replace (k - i)%nat with (S (k - S i)) in E1, E2 by lia. exists p1, p2. cbn in E1, E2. tauto.
    - intros [[-> HQ]|(L & p1 & p2 & E1 & E2 & HQ)].
      + split; [lia|]. rewrite Nat.sub_diag. exists a, b. cbn. tauto.
      + split; [lia|]. replace (k - i)%nat with (S (k - S i)) by lia. exists p1, p2. cbn. tauto. }
  assert (LB : Forall (lt i) ins /\ Forall (lt i) outs) by (split; apply Forall_forall; intros k Hk; [apply HI in Hk|apply HO in Hk]; lia).
  pose proof (is_outlier_spec thr T a b H) as OS. destruct (is_outlier thr T a b) eqn:EO.
  - assert (NA : ~ agrees thr T a b) by (intros C; apply OS in C; discriminate C).
    split; [exact S1|]. split; [constructor; [exact S2|apply LB]|]. split; intros k; rewrite SH.
    + rewrite HI. split; [tauto|]. intros [[-> C]|C]; [tauto|exact C].
    + cbn [In]. rewrite HO. split; [intros [->|C]; tauto|]. intros [[-> C]|C]; [left; reflexivity|right; exact C].
  - assert (A : agrees thr T a b) by (apply OS; reflexivity).
    split; [constructor; [exact S1|apply LB]|]. split; [exact S2|]. split; intros k; rewrite SH.
    + cbn [In]. rewrite HI. split; [intros [->|C]; tauto|]. intros [[-> C]|C]; [left; reflexivity|right; exact C].
    + rewrite HO. split; [tauto|]. intros [[-> C]|C]; [tauto|exact C].
Qed.
Lemma split_points_agreeing thr T ps1 ps2 : 0 < thr -> agreeing thr T ps1 ps2 (fst (split_points thr T 0 ps1 ps2)).
Proof.
  intros H. pose proof (split_points_spec thr T H ps1 ps2 0) as S. destruct (split_points thr T 0 ps1 ps2) as [ins outs]. destruct S as (S1 & _ & HI & _). split; [exact S1|].
  intros i. cbn [fst]. rewrite HI, Nat.sub_0_r. split; [tauto|]. intros C. split; [lia|exact C].
Qed.
Lemma split_points_length thr T : forall ps1 ps2 i, length ps1 = length ps2 -> (length (fst (split_points thr T i ps1 ps2)) + length (snd (split_points thr T i ps1 ps2)) = length ps1)%nat.
Proof.
  induction ps1 as [|a ps1 IH]; intros [|b ps2] i E; try discriminate E; [reflexivity|]. injection E as E. specialize (IH ps2 (S i) E). cbn [split_points]. destruct (split_points thr T (S i) ps1 ps2) as [ins outs].
  cbn [fst snd] in IH. destruct (is_outlier thr T a b); cbn [fst snd length]; lia.
Qed.

(** ** C53: the code as it is *)
(** Every admissible call runs into the overfull comma initialiser in its first iteration. *)
Definition shuffles (g : generator) : Prop := forall s n, Permutation (fst (shuffled g s n)) (seq 0 n).
Definition admissible (ps1 ps2 : list vec3) (threshold : R) (max_iterations : nat) : Prop :=
  0 < threshold /\ (0 < max_iterations)%nat /\ length ps1 = length ps2 /\ (6 < length ps2)%nat.
Theorem rax_ransac_refuted g random_seed rotation_of ps1 ps2 threshold max_iterations ratio state out :
  shuffles g -> admissible ps1 ps2 threshold max_iterations -> ransac g random_seed rotation_of ps1 ps2 threshold max_iterations ratio state out = Ub.
Proof.
  intros P (H1 & H2 & H3 & H4). unfold ransac, ransac_with. destruct (Rlt_dec 0 threshold) as [_|C]; [|contradiction]. destruct max_iterations as [|m]; [lia|]. cbn [Nat.eqb].
  rewrite (proj2 (Nat.eqb_eq _ _) H3). cbn [negb]. rewrite (proj2 (Nat.ltb_lt _ _) H4). cbn [ransac_loop].
  set (s1 := if random_seed then state else seeded g (clock g 0)). pose proof (Permutation_length (P s1 (length ps1))) as L. destruct (shuffled g s1 (length ps1)) as [idx s2]. cbn [fst] in L. rewrite seq_length in L.
  unfold ransac_iteration, sample_model, comma_initialise. rewrite map_length, firstn_length. replace (Nat.min 6 (length idx)) with 6%nat by lia. reflexivity.
Qed.
(** The pose estimator built on it never reports a pose: fewer than two measurements give false, two to six abort, more are undefined. *)
Theorem rax_multi_pose_refuted g random_seed rotation_of ms ls cams T_C0_B threshold max_iterations ratio state T_G_I :
  shuffles g -> 0 < threshold -> (0 < max_iterations)%nat -> length ms = length ls ->
  multi_pose g random_seed rotation_of ms ls cams T_C0_B threshold max_iterations ratio state T_G_I =
  if (length ms <? 2)%nat then Ok {| found := false; pose := T_G_I; pose_inliers := []; pose_distances := [] |} else if (length ms <? 7)%nat then Abort else Ub.
Proof.
  intros P H1 H2 H3. unfold multi_pose, multi_pose_with. rewrite (proj2 (Nat.eqb_eq _ _) H3). cbn [negb]. replace (3 * length ms <? 6)%nat with (length ms <? 2)%nat by (destruct (Nat.ltb_spec (length ms) 2), (Nat.ltb_spec (3 * length ms) 6); try reflexivity; lia).
  destruct (Nat.ltb_spec (length ms) 2) as [_|L2]; [reflexivity|]. destruct (Nat.ltb_spec (length ms) 7) as [L7|L7].
  - unfold ransac_with. destruct (Rlt_dec 0 threshold) as [_|C]; [|contradiction]. destruct max_iterations as [|m]; [lia|]. cbn [Nat.eqb]. rewrite map_length, H3, Nat.eqb_refl. cbn [negb].
    destruct (Nat.ltb_spec 6 (length ls)) as [C|_]; [lia|]. reflexivity.
  - change (ransac_with g random_seed (sample_model rotation_of)) with (ransac g random_seed rotation_of). rewrite rax_ransac_refuted; [reflexivity|exact P|]. split; [exact H1|]. split; [exact H2|]. rewrite map_length. split; lia.
Qed.

(** ** C53: with a working model fit *)
(** What is left once the sampled model can be computed: the inliers are those of the model fitted last, rotation, translation and outliers
    are never written. *)
Definition fits (fit : list vec3 -> list vec3 -> result transformation) : Prop := forall xs ys, exists T, fit xs ys = Ok T.
Lemma iteration_spec fit thr ps1 ps2 idx out : fits fit -> exists T,
  fit (map (fun i => nth i ps1 (0, 0, 0)) (firstn 6 idx)) (map (fun i => nth i ps2 (0, 0, 0)) (firstn 6 idx)) = Ok T /\
  ransac_iteration fit thr ps1 ps2 idx out = Ok ({| best_rotation := best_rotation out; best_translation := best_translation out; best_inliers := fst (split_points thr T 0 ps1 ps2); best_outliers := best_outliers out |},
     INR (length (fst (split_points thr T 0 ps1 ps2)) / (length (fst (split_points thr T 0 ps1 ps2)) + length (snd (split_points thr T 0 ps1 ps2))))).
Proof.
  intros F. destruct (F (map (fun i => nth i ps1 (0, 0, 0)) (firstn 6 idx)) (map (fun i => nth i ps2 (0, 0, 0)) (firstn 6 idx))) as [T E]. exists T. split; [exact E|].
  unfold ransac_iteration. cbv zeta. rewrite E. cbn [rbind]. destruct (split_points thr T 0 ps1 ps2) as [ins outs]. cbn [fst snd best_inliers]. rewrite Nat.ltb_irrefl. reflexivity.
Qed.
Lemma loop_spec g random_seed fit thr ratio ps1 ps2 : fits fit -> 0 < thr -> forall fuel j state out, exists out',
  ransac_loop g random_seed fit thr ratio ps1 ps2 fuel j state out = Ok out' /\ best_rotation out' = best_rotation out /\ best_translation out' = best_translation out /\ best_outliers out' = best_outliers out /\
  ((0 < fuel)%nat -> exists s T idx, idx = fst (shuffled g s (length ps1)) /\ fit (map (fun i => nth i ps1 (0, 0, 0)) (firstn 6 idx)) (map (fun i => nth i ps2 (0, 0, 0)) (firstn 6 idx)) = Ok T /\ agreeing thr T ps1 ps2 (best_inliers out')).
Proof.
  intros F H. induction fuel as [|fuel IH]; intros j state out; cbn [ransac_loop].
  { exists out. repeat split. lia. }
  set (s1 := if random_seed then state else seeded g (clock g j)). destruct (shuffled g s1 (length ps1)) as [idx s2] eqn:ES. destruct (iteration_spec fit thr ps1 ps2 idx out F) as (T & ET & EI). rewrite EI. cbn [rbind].
  set (out1 := {| best_rotation := best_rotation out; best_translation := best_translation out; best_inliers := fst (split_points thr T 0 ps1 ps2); best_outliers := best_outliers out |}).
  assert (G : exists s T idx, idx = fst (shuffled g s (length ps1)) /\ fit (map (fun i => nth i ps1 (0, 0, 0)) (firstn 6 idx)) (map (fun i => nth i ps2 (0, 0, 0)) (firstn 6 idx)) = Ok T /\ agreeing thr T ps1 ps2 (best_inliers out1)).
  { exists s1, T, idx. rewrite ES. split; [reflexivity|]. split; [exact ET|]. apply split_points_agreeing, H. }
  match goal with |- context [Rlt_dec ratio ?x] => destruct (Rlt_dec ratio x) as [_|_] end.
  - exists out1. repeat split. intros _. exact G.
  - destruct (IH (S j) s2 out1) as (out' & E & E1 & E2 & E3 & E4). exists out'. split; [exact E|]. split; [rewrite E1; reflexivity|]. split; [rewrite E2; reflexivity|]. split; [rewrite E3; reflexivity|].
    intros _. destruct fuel as [|fuel]; [|apply E4; lia]. cbn [ransac_loop] in E. injection E as <-. exact G.
Qed.
Theorem rax_inliers_partial g random_seed fit ps1 ps2 threshold max_iterations ratio state out : fits fit -> admissible ps1 ps2 threshold max_iterations -> exists out',
  ransac_with g random_seed fit ps1 ps2 threshold max_iterations ratio state out = Ok out' /\
  best_rotation out' = best_rotation out /\ best_translation out' = best_translation out /\ best_outliers out' = best_outliers out /\
  exists s T idx, idx = fst (shuffled g s (length ps1)) /\ fit (map (fun i => nth i ps1 (0, 0, 0)) (firstn 6 idx)) (map (fun i => nth i ps2 (0, 0, 0)) (firstn 6 idx)) = Ok T /\
    agreeing threshold T ps1 ps2 (best_inliers out').
Proof.
  intros F (H1 & H2 & H3 & H4). unfold ransac_with. destruct (Rlt_dec 0 threshold) as [_|C]; [|contradiction]. destruct max_iterations as [|m]; [lia|]. cbn [Nat.eqb].
  rewrite (proj2 (Nat.eqb_eq _ _) H3). cbn [negb]. rewrite (proj2 (Nat.ltb_lt _ _) H4). destruct (loop_spec g random_seed fit threshold ratio ps1 ps2 F H1 (S m) 0 state out) as (out' & E & E1 & E2 & E3 & E4). exists out'. repeat split; try assumption. apply E4. lia.
Qed.
(** The loop ends early only if every pair is an inlier: the ratio is an integer division. *)
Lemma ratio_cases a b : INR (a / (a + b)) = if (0 <? a)%nat && (b =? 0)%nat then 1 else 0.
Proof.
  destruct a as [|a].
  - cbn [Nat.ltb Nat.leb andb]. destruct b as [|b]; [reflexivity|]. rewrite Nat.div_0_l by lia. reflexivity.
  - cbn [Nat.ltb Nat.leb andb]. destruct b as [|b]; cbn [Nat.eqb]; [rewrite Nat.add_0_r, Nat.div_same by lia; reflexivity|]. rewrite Nat.div_small by lia. reflexivity.
Qed.
Theorem rax_outlier_continues g (random_seed : bool) fit ps1 ps2 threshold ratio m state out : fits fit -> admissible ps1 ps2 threshold (S m) -> 0 <= ratio ->
  (forall xs ys T, fit xs ys = Ok T -> exists p : vec3 * vec3, In p (combine ps1 ps2) /\ ~ agrees threshold T (fst p) (snd p)) ->
  forall (idx : list nat) (s2 : rng g), shuffled g (if random_seed then state else seeded g (clock g 0)) (length ps1) = (idx, s2) ->
  exists out1, ransac_with g random_seed fit ps1 ps2 threshold (S m) ratio state out = ransac_loop g random_seed fit threshold ratio ps1 ps2 m 1 s2 out1.
Proof.
  intros F (H1 & H2 & H3 & H4) HR HO idx s2 ES. unfold ransac_with. destruct (Rlt_dec 0 threshold) as [_|C]; [|contradiction]. cbn [Nat.eqb].
  rewrite (proj2 (Nat.eqb_eq _ _) H3). cbn [negb]. rewrite (proj2 (Nat.ltb_lt _ _) H4). cbn [ransac_loop]. rewrite ES. destruct (iteration_spec fit threshold ps1 ps2 idx out F) as (T & ET & EI). rewrite EI. cbn [rbind].
  destruct (HO _ _ _ ET) as ([p1 p2] & Hp & NA). rewrite ratio_cases.
  assert (NZ : length (snd (split_points threshold T 0 ps1 ps2)) <> 0%nat).
  { pose proof (split_points_spec threshold T H1 ps1 ps2 0) as S. destruct (split_points threshold T 0 ps1 ps2) as [ins outs]. destruct S as (_ & _ & _ & HOut). cbn [snd]. intros Z. destruct outs; [|discriminate Z].
    apply In_nth_error in Hp. destruct Hp as [k Hk]. apply (HOut k). split; [lia|]. rewrite Nat.sub_0_r. exists p1, p2. split; [|split; [|exact NA]].
    - clear - Hk. revert ps2 k Hk. induction ps1 as [|a l IH]; intros [|b r] [|k] Hk; try discriminate Hk; cbn in *; [congruence|apply (IH r), Hk].
    - clear - Hk. revert ps2 k Hk. induction ps1 as [|a l IH]; intros [|b r] [|k] Hk; try discriminate Hk; cbn in *; [congruence|apply (IH r), Hk]. }
  rewrite (proj2 (Nat.eqb_neq _ _) NZ), Bool.andb_false_r. destruct (Rlt_dec ratio 0) as [C|_]; [lra|]. eexists. reflexivity.
Qed.

(** The result is not the best sampled model: seven pairs, the first model agrees with six of them, the second with one. *)
Lemma agrees_squares thr T p1 p2 : 0 < thr -> agrees thr T p1 p2 <-> squared (sub3 (transform T p1) p2) <= thr * thr * squared p2.
Proof.
  intros H. unfold agrees. assert (N : forall v, 0 <= squared v) by (intros [[x y] z]; unfold squared; cbn; pose proof (Rle_0_sqr x); pose proof (Rle_0_sqr y); pose proof (Rle_0_sqr z); unfold Rsqr in *; lra).
  replace (thr * sqrt (squared p2)) with (sqrt (thr * thr * squared p2)) by (rewrite sqrt_mult, sqrt_square; try lra; try apply N; apply Rmult_le_pos; lra).
  split; intros A; [apply sqrt_le_0 in A; try apply N; [exact A|apply Rmult_le_pos; [apply Rmult_le_pos; lra|apply N]]|apply sqrt_le_1; try apply N; [apply Rmult_le_pos; [apply Rmult_le_pos; lra|apply N]|exact A]].
Qed.
Lemma is_outlier_dec thr T p1 p2 : 0 < thr -> is_outlier thr T p1 p2 = if Rle_dec (squared (sub3 (transform T p1) p2)) (thr * thr * squared p2) then false else true.
Proof.
  intros H. destruct (Rle_dec _ _) as [L|L]; [apply is_outlier_spec, agrees_squares; assumption|]. destruct (is_outlier thr T p1 p2) eqn:E; [reflexivity|]. exfalso. apply L, agrees_squares, is_outlier_spec; assumption.
Qed.
Definition first_difference (xs ys : list vec3) : result transformation := Ok (move (sub3 (hd (0, 0, 0) ys) (hd (0, 0, 0) xs))).
Definition flip_flop : generator := {| rng := nat; seeded := fun _ => 0%nat; shuffled := fun s n => (if (s =? 0)%nat then seq 0 n else rev (seq 0 n), S s); clock := fun _ => 0%Z |}.
Lemma flip_flop_shuffles : shuffles flip_flop.
Proof. intros s n. cbn. destruct s; cbn; [reflexivity|]. apply Permutation_sym, Permutation_rev. Qed.
Lemma first_difference_fits : fits first_difference. Proof. intros xs ys. eexists. reflexivity. Qed.
Definition six : list vec3 := [(1, 0, 0); (0, 1, 0); (0, 0, 1); (2, 0, 0); (0, 2, 0); (0, 0, 2)].
Definition left_set : list vec3 := six ++ [(1, 1, 1)].
Definition right_set : list vec3 := six ++ [(11, 1, 1)].
Lemma split_first : split_points (1 / 2) (move (sub3 (1, 0, 0) (1, 0, 0))) 0 left_set right_set = ([0; 1; 2; 3; 4; 5], [6])%nat.
Proof. unfold left_set, right_set, six. cbn [app split_points]. rewrite !is_outlier_dec by lra. unfold squared. cbn. repeat match goal with |- context [Rle_dec ?a ?b] => destruct (Rle_dec a b) as [?|?]; try (exfalso; lra) end. reflexivity. Qed.
Lemma split_second : split_points (1 / 2) (move (sub3 (11, 1, 1) (1, 1, 1))) 0 left_set right_set = ([6], [0; 1; 2; 3; 4; 5])%nat.
Proof. unfold left_set, right_set, six. cbn [app split_points]. rewrite !is_outlier_dec by lra. unfold squared. cbn. repeat match goal with |- context [Rle_dec ?a ?b] => destruct (Rle_dec a b) as [?|?]; try (exfalso; lra) end. reflexivity. Qed.
Lemma sets_admissible : admissible left_set right_set (1 / 2) 2.
Proof. split; [lra|]. split; [lia|]. split; [reflexivity|cbn; lia]. Qed.
Lemma flip_flop_first out : ransac_iteration first_difference (1 / 2) left_set right_set (seq 0 7) out = Ok ({| best_rotation := best_rotation out; best_translation := best_translation out; best_inliers := [0; 1; 2; 3; 4; 5]%nat; best_outliers := best_outliers out |}, INR 0).
Proof. unfold ransac_iteration. change (first_difference (map (fun i => nth i left_set (0, 0, 0)) (firstn 6 (seq 0 7))) (map (fun i => nth i right_set (0, 0, 0)) (firstn 6 (seq 0 7)))) with (Ok (move (sub3 (1, 0, 0) (1, 0, 0)))). cbn [rbind]. rewrite split_first. reflexivity. Qed.
Lemma flip_flop_second out : ransac_iteration first_difference (1 / 2) left_set right_set (rev (seq 0 7)) out = Ok ({| best_rotation := best_rotation out; best_translation := best_translation out; best_inliers := [6]%nat; best_outliers := best_outliers out |}, INR 0).
Proof. unfold ransac_iteration. change (first_difference (map (fun i => nth i left_set (0, 0, 0)) (firstn 6 (rev (seq 0 7)))) (map (fun i => nth i right_set (0, 0, 0)) (firstn 6 (rev (seq 0 7))))) with (Ok (move (sub3 (11, 1, 1) (1, 1, 1)))). cbn [rbind]. rewrite split_second. reflexivity. Qed.
Lemma flip_flop_two : ransac_with flip_flop true first_difference left_set right_set (1 / 2) 2 (1 / 2) 0%nat no_output = Ok {| best_rotation := None; best_translation := None; best_inliers := [6%nat]; best_outliers := [] |}.
Proof.
  unfold ransac_with. destruct (Rlt_dec 0 (1 / 2)) as [_|C]; [|exfalso; lra].
  change (ransac_loop flip_flop true first_difference (1 / 2) (1 / 2) left_set right_set 2 0 0%nat no_output = Ok {| best_rotation := None; best_translation := None; best_inliers := [6%nat]; best_outliers := [] |}).
  cbn [ransac_loop shuffled flip_flop Nat.eqb]. change (length left_set) with 7%nat. rewrite flip_flop_first. cbn [rbind]. destruct (Rlt_dec (1 / 2) (INR 0)) as [C|_]; [cbn in C; exfalso; lra|]. rewrite flip_flop_second. cbn [rbind]. destruct (Rlt_dec (1 / 2) (INR 0)) as [C|_]; [cbn in C; exfalso; lra|]. reflexivity.
Qed.
Lemma flip_flop_one : ransac_with flip_flop true first_difference left_set right_set (1 / 2) 1 (1 / 2) 0%nat no_output = Ok {| best_rotation := None; best_translation := None; best_inliers := [0; 1; 2; 3; 4; 5]%nat; best_outliers := [] |}.
Proof.
  unfold ransac_with. destruct (Rlt_dec 0 (1 / 2)) as [_|C]; [|exfalso; lra].
  change (ransac_loop flip_flop true first_difference (1 / 2) (1 / 2) left_set right_set 1 0 0%nat no_output = Ok {| best_rotation := None; best_translation := None; best_inliers := [0; 1; 2; 3; 4; 5]%nat; best_outliers := [] |}).
  cbn [ransac_loop shuffled flip_flop Nat.eqb]. change (length left_set) with 7%nat. rewrite flip_flop_first. cbn [rbind]. destruct (Rlt_dec (1 / 2) (INR 0)) as [C|_]; [cbn in C; exfalso; lra|]. reflexivity.
Qed.
Theorem rax_best_refuted : exists g fit ps1 ps2 threshold ratio state out out' T1 ins1,
  shuffles g /\ fits fit /\ admissible ps1 ps2 threshold 2 /\ 0 < ratio < 1 /\
  (let idx := fst (shuffled g state (length ps1)) in fit (map (fun i => nth i ps1 (0, 0, 0)) (firstn 6 idx)) (map (fun i => nth i ps2 (0, 0, 0)) (firstn 6 idx)) = Ok T1) /\
  agreeing threshold T1 ps1 ps2 ins1 /\
  ransac_with g true fit ps1 ps2 threshold 2 ratio state out = Ok out' /\ (length (best_inliers out') < length ins1)%nat.
Proof.
  exists flip_flop, first_difference, left_set, right_set, (1 / 2), (1 / 2), 0%nat, no_output, {| best_rotation := None; best_translation := None; best_inliers := [6%nat]; best_outliers := [] |}, (move (sub3 (1, 0, 0) (1, 0, 0))), [0; 1; 2; 3; 4; 5]%nat.
  split; [apply flip_flop_shuffles|]. split; [apply first_difference_fits|]. split; [apply sets_admissible|]. split; [lra|]. split; [reflexivity|]. split.
  - pose proof (split_points_agreeing (1 / 2) (move (sub3 (1, 0, 0) (1, 0, 0))) left_set right_set ltac:(lra)) as A. rewrite split_first in A. exact A.
  - split; [|cbn; lia]. apply flip_flop_two.
Qed.

(** The inlier share exceeds the stopping ratio in the first iteration, and the search goes on. *)
Theorem rax_stop_refuted : exists g fit ps1 ps2 threshold ratio state out T1 ins1,
  shuffles g /\ fits fit /\ admissible ps1 ps2 threshold 2 /\
  (let idx := fst (shuffled g state (length ps1)) in fit (map (fun i => nth i ps1 (0, 0, 0)) (firstn 6 idx)) (map (fun i => nth i ps2 (0, 0, 0)) (firstn 6 idx)) = Ok T1) /\
  agreeing threshold T1 ps1 ps2 ins1 /\ ratio < INR (length ins1) / INR (length ps1) /\
  ransac_with g true fit ps1 ps2 threshold 2 ratio state out <> ransac_with g true fit ps1 ps2 threshold 1 ratio state out.
Proof.
  exists flip_flop, first_difference, left_set, right_set, (1 / 2), (1 / 2), 0%nat, no_output, (move (sub3 (1, 0, 0) (1, 0, 0))), [0; 1; 2; 3; 4; 5]%nat.
  split; [apply flip_flop_shuffles|]. split; [apply first_difference_fits|]. split; [apply sets_admissible|]. split; [reflexivity|]. split; [|split].
  - pose proof (split_points_agreeing (1 / 2) (move (sub3 (1, 0, 0) (1, 0, 0))) left_set right_set ltac:(lra)) as A. rewrite split_first in A. exact A.
  - change (length left_set) with 7%nat. cbn [length INR]. lra.
  - rewrite flip_flop_two, flip_flop_one. intros E. injection E. discriminate.
Qed.
(** The search stops when every pair agrees. *)
Theorem rax_stop_all g (random_seed : bool) fit ps1 ps2 threshold ratio m state out T : fits fit -> admissible ps1 ps2 threshold (S m) -> ratio < 1 ->
  (let idx := fst (shuffled g (if random_seed then state else seeded g (clock g 0)) (length ps1)) in
   fit (map (fun i => nth i ps1 (0, 0, 0)) (firstn 6 idx)) (map (fun i => nth i ps2 (0, 0, 0)) (firstn 6 idx)) = Ok T) ->
  (forall p, In p (combine ps1 ps2) -> agrees threshold T (fst p) (snd p)) ->
  exists out', ransac_with g random_seed fit ps1 ps2 threshold (S m) ratio state out = Ok out' /\ best_inliers out' = seq 0 (length ps1).
Proof.
  intros F (H1 & H2 & H3 & H4) HR ET HA. unfold ransac_with. destruct (Rlt_dec 0 threshold) as [_|C]; [|contradiction]. cbn [Nat.eqb].
  rewrite (proj2 (Nat.eqb_eq _ _) H3). cbn [negb]. rewrite (proj2 (Nat.ltb_lt _ _) H4). cbn [ransac_loop]. cbv zeta in ET. destruct (shuffled g (if random_seed then state else seeded g (clock g 0)) (length ps1)) as [idx s2]. cbn [fst] in ET.
  destruct (iteration_spec fit threshold ps1 ps2 idx out F) as (T' & ET' & EI). rewrite EI. cbn [rbind]. assert (QT : Ok T' = Ok T) by exact (eq_trans (eq_sym ET') ET). injection QT as ->.
  assert (ES : forall i, split_points threshold T i ps1 ps2 = (seq i (length ps1), [])).
  { clear - HA H1 H3. revert ps2 H3 HA. induction ps1 as [|a l IH]; intros [|b r] E HA i; try discriminate E; [reflexivity|]. cbn [split_points]. rewrite IH; [|cbn [length] in E; lia|intros p Hp; apply HA; right; exact Hp].
    rewrite (proj2 (is_outlier_spec threshold T a b H1)); [reflexivity|]. apply (HA (a, b)). left. reflexivity. }
  rewrite ES. cbn [fst snd length]. rewrite ratio_cases. rewrite seq_length. cbn [Nat.eqb]. rewrite andb_true_r. replace (0 <? length ps1)%nat with true by (symmetry; apply Nat.ltb_lt; lia). destruct (Rlt_dec ratio 1) as [_|C]; [|contradiction]. eexists. split; reflexivity.
Qed.

(** ** C79: seeds *)
(** With random_seed false, where the seed is documented to be set from outside, the generator state set from outside has no effect. *)
Theorem rax_seed_refuted g fit ps1 ps2 threshold m ratio state1 state2 out :
  ransac_with g false fit ps1 ps2 threshold (S m) ratio state1 out = ransac_with g false fit ps1 ps2 threshold (S m) ratio state2 out.
Proof. reflexivity. Qed.
(** Within one second every iteration then draws the same sample: further iterations do not change the result. *)
Theorem rax_same_second_refuted g fit ps1 ps2 threshold m ratio state out : fits fit -> (forall i j, clock g i = clock g j) ->
  ransac_with g false fit ps1 ps2 threshold (S m) ratio state out = ransac_with g false fit ps1 ps2 threshold 1 ratio state out.
Proof.
  intros F HC. unfold ransac_with. destruct (Rlt_dec 0 threshold) as [_|_]; [|reflexivity]. cbn [Nat.eqb]. destruct (length ps1 =? length ps2)%nat; [|reflexivity]. cbn [negb]. destruct (6 <? length ps2)%nat; [|reflexivity].
  assert (G : forall k j j' s s' out1, best_rotation out1 = best_rotation out -> best_translation out1 = best_translation out -> best_outliers out1 = best_outliers out ->
    ransac_loop g false fit threshold ratio ps1 ps2 (S k) j s out1 = ransac_loop g false fit threshold ratio ps1 ps2 1 j' s' out); [|apply G; reflexivity].
  induction k as [|k IH]; intros j j' s s' out1 E1 E2 E3.
  - cbn [ransac_loop]. rewrite (HC j j'). destruct (shuffled g (seeded g (clock g j')) (length ps1)) as [idx s2]. destruct (iteration_spec fit threshold ps1 ps2 idx out F) as (T & ET & EI). destruct (iteration_spec fit threshold ps1 ps2 idx out1 F) as (T' & ET' & EI').
    rewrite EI, EI'. assert (T' = T) by congruence. subst T'. rewrite E1, E2, E3. cbn [rbind]. reflexivity.
  - cbn [ransac_loop]. cbn [ransac_loop] in IH. rewrite (HC j j'). specialize (IH (S j) j'). destruct (shuffled g (seeded g (clock g j')) (length ps1)) as [idx s2] eqn:ES. destruct (iteration_spec fit threshold ps1 ps2 idx out F) as (T & ET & EI). destruct (iteration_spec fit threshold ps1 ps2 idx out1 F) as (T' & ET' & EI').
    assert (T' = T) by congruence. subst T'. rewrite EI, EI' in *. rewrite E1, E2, E3 in *. cbn [rbind] in *. match goal with |- context [Rlt_dec ratio ?x] => destruct (Rlt_dec ratio x) as [_|_] end; [reflexivity|]. apply (IH s2 s'); reflexivity.
Qed.
(** With random_seed true the result is determined by the generator state, whatever the time. *)
Theorem rax_state_determines R seed1 seed2 shuffle clock1 clock2 fit ps1 ps2 threshold m ratio (state : R) out :
  ransac_with {| rng := R; seeded := seed1; shuffled := shuffle; clock := clock1 |} true fit ps1 ps2 threshold m ratio state out =
  ransac_with {| rng := R; seeded := seed2; shuffled := shuffle; clock := clock2 |} true fit ps1 ps2 threshold m ratio state out.
Proof.
  unfold ransac_with. destruct (Rlt_dec 0 threshold) as [_|_]; [|reflexivity]. destruct (m =? 0)%nat; [reflexivity|]. destruct (negb _); [reflexivity|]. destruct (6 <? length ps2)%nat; [|reflexivity].
  generalize 0%nat as j. revert state out. induction m as [|m IH]; intros state out j; [reflexivity|]. cbn [ransac_loop shuffled]. destruct (shuffle state (length ps1)) as [idx s2]. destruct (ransac_iteration fit threshold ps1 ps2 idx out) as [[out' r]| |]; [|reflexivity|reflexivity]. cbn [rbind]. destruct (Rlt_dec ratio r); [reflexivity|]. apply IH.
Qed.

(** ** C78: pixel thresholds *)
(** For equal focal lengths the threshold separates the pixels within pixel_sigma of the principal point from the others. *)
Theorem rax_pixel_threshold f sigma dx dy : 0 < f -> 0 <= sigma -> axis_error f dx dy <= camera_threshold sigma f f <-> dx * dx + dy * dy <= sigma * sigma.
Proof.
  intros F S. unfold axis_error, camera_threshold, pixel_threshold. replace ((f + f) / 2) with f by field. rewrite cos_atan.
  assert (FF : 0 < f * f) by (apply Rmult_lt_0_compat; exact F).
  assert (A : dx / f * (dx / f) + dy / f * (dy / f) + 1 = (dx * dx + dy * dy + f * f) / (f * f)) by (field; lra).
  assert (B : 1 + (sigma / f)² = (sigma * sigma + f * f) / (f * f)) by (unfold Rsqr; field; lra).
  rewrite A, B. pose proof (Rle_0_sqr dx) as X. pose proof (Rle_0_sqr dy) as Y. pose proof (Rle_0_sqr sigma) as Z. unfold Rsqr in X, Y, Z.
  assert (PA : 0 < (dx * dx + dy * dy + f * f) / (f * f)) by (apply Rdiv_lt_0_compat; lra). assert (PB : 0 < (sigma * sigma + f * f) / (f * f)) by (apply Rdiv_lt_0_compat; lra).
  assert (M : (dx * dx + dy * dy + f * f) / (f * f) <= (sigma * sigma + f * f) / (f * f) <-> dx * dx + dy * dy <= sigma * sigma).
  { split; intros L; [apply (Rmult_le_compat_r (f * f)) in L; [|lra]; unfold Rdiv in L; rewrite !Rmult_assoc, !Rinv_l, !Rmult_1_r in L by lra; lra|]. unfold Rdiv. apply Rmult_le_compat_r; [left; apply Rinv_0_lt_compat, FF|lra]. }
  rewrite <- M. clear M. set (a := (dx * dx + dy * dy + f * f) / (f * f)) in *. set (b := (sigma * sigma + f * f) / (f * f)) in *. clearbody a b.
  pose proof (sqrt_lt_R0 a PA) as SA. pose proof (sqrt_lt_R0 b PB) as SB. unfold Rdiv. rewrite !Rmult_1_l. split; intros L.
  - apply sqrt_le_0; [lra|lra|]. apply Rnot_lt_le. intros C. assert (/ sqrt a < / sqrt b) by (apply Rinv_lt_contravar; [apply Rmult_lt_0_compat; assumption|exact C]). lra.
  - assert (/ sqrt b <= / sqrt a) by (apply Rinv_le_contravar; [exact SA|apply sqrt_le_1; lra]). lra.
Qed.
(** The threshold shrinks with the focal length, and the threshold of a rig lies between those of its extreme focal lengths. *)
Lemma threshold_decreasing sigma f g : 0 <= sigma -> 0 < f -> f <= g -> pixel_threshold sigma g <= pixel_threshold sigma f.
Proof.
  intros S F L. unfold pixel_threshold. rewrite !cos_atan. assert (Q : 0 <= sigma / g <= sigma / f).
  { split; [unfold Rdiv; apply Rmult_le_pos; [exact S|left; apply Rinv_0_lt_compat; lra]|]. unfold Rdiv. apply Rmult_le_compat_l; [exact S|]. apply Rinv_le_contravar; assumption. }
  assert (QQ : (sigma / g)² <= (sigma / f)²) by (apply Rsqr_incr_1; lra). pose proof (Rle_0_sqr (sigma / g)). pose proof (Rle_0_sqr (sigma / f)). unfold Rdiv at 1 3. rewrite !Rmult_1_l.
  assert (/ sqrt (1 + (sigma / f)²) <= / sqrt (1 + (sigma / g)²)) by (apply Rinv_le_contravar; [apply sqrt_lt_R0; lra|apply sqrt_le_1; lra]). lra.
Qed.
Theorem rax_rig_threshold sigma lo hi focals : 0 <= sigma -> 0 < lo -> focals <> [] -> Forall (fun f => lo <= fst f <= hi /\ lo <= snd f <= hi) focals ->
  pixel_threshold sigma hi <= rig_threshold sigma focals <= pixel_threshold sigma lo.
Proof.
  intros S L NE H. unfold rig_threshold.
  assert (SUM : forall fs s, Forall (fun f => lo <= fst f <= hi /\ lo <= snd f <= hi) fs -> s + 2 * INR (length fs) * lo <= fold_left (fun s f => s + (fst f + snd f)) fs s <= s + 2 * INR (length fs) * hi).
  { induction fs as [|f fs IH]; intros s HF; [cbn; lra|]. inversion HF as [|? ? Hf HF']; subst. cbn [fold_left]. specialize (IH (s + (fst f + snd f)) HF'). cbn [length]. rewrite S_INR. lra. }
  specialize (SUM focals 0 H). set (t := fold_left (fun s f => s + (fst f + snd f)) focals 0) in *. clearbody t.
  assert (N : 0 < INR (length focals)) by (destruct focals as [|f fs]; [contradiction|]; cbn [length]; apply lt_0_INR; lia).
  assert (D : lo <= t / (2 * INR (length focals)) <= hi).
  { split; apply (Rmult_le_reg_r (2 * INR (length focals))); try lra; unfold Rdiv; rewrite Rmult_assoc, Rinv_l, Rmult_1_r by lra; lra. }
  split; apply threshold_decreasing; lra.
Qed.
Theorem rax_rig_single sigma fu fv : rig_threshold sigma [(fu, fv)] = camera_threshold sigma fu fv.
Proof. unfold rig_threshold, camera_threshold. cbn. f_equal. field. Qed.

(** ** Examples *)
Example rax_admissible_example : shuffles flip_flop /\ fits first_difference /\ admissible left_set right_set (1 / 2) 2.
Proof. split; [apply flip_flop_shuffles|]. split; [apply first_difference_fits|apply sets_admissible]. Qed.
Example rax_two_measurements : multi_pose flip_flop true (fun _ _ => identity3) [(1, 0, 0); (0, 1, 0)] [(1, 0, 0); (0, 1, 0)] [0; 0]%nat (move (0, 0, 0)) (1 / 2) 1 (1 / 2) 0%nat (move (0, 0, 0)) = Abort.
Proof. rewrite rax_multi_pose_refuted; [reflexivity|apply flip_flop_shuffles|lra|lia|reflexivity]. Qed.
Example rax_outlier_example : forall xs ys T, (fun _ _ : list vec3 => Ok (move (0, 0, 0))) xs ys = Ok T -> exists p : vec3 * vec3, In p (combine left_set right_set) /\ ~ agrees (1 / 2) T (fst p) (snd p).
Proof. intros xs ys T E. injection E as <-. exists ((1, 1, 1), (11, 1, 1)). split; [do 6 right; left; reflexivity|]. rewrite agrees_squares by lra. cbn. unfold squared. cbn. lra. Qed.
Example rax_all_agree_example : forall p, In p (combine left_set left_set) -> agrees (1 / 2) (move (0, 0, 0)) (fst p) (snd p).
Proof. intros p Hp. rewrite agrees_squares by lra. repeat (destruct Hp as [<-|Hp]; [cbn; unfold squared; cbn; lra|]). destruct Hp. Qed.
Example rax_pixel_example : axis_error 400 3 4 <= camera_threshold 5 400 400 /\ ~ axis_error 400 4 4 <= camera_threshold 5 400 400.
Proof. rewrite !rax_pixel_threshold by lra. lra. Qed.
Example rax_rig_example : Forall (fun f => 300 <= fst f <= 500 /\ 300 <= snd f <= 500) [(400, 410); (300, 500)].
Proof. repeat constructor; cbn; lra. Qed.

Print Assumptions rax_ransac_refuted.
Print Assumptions rax_multi_pose_refuted.
Print Assumptions rax_inliers_partial.
Print Assumptions rax_best_refuted.
Print Assumptions rax_stop_refuted.
Print Assumptions rax_stop_all.
Print Assumptions rax_outlier_continues.
Print Assumptions rax_seed_refuted.
Print Assumptions rax_same_second_refuted.
Print Assumptions rax_state_determines.
Print Assumptions rax_pixel_threshold.
Print Assumptions rax_rig_threshold.
Print Assumptions rax_rig_single.
