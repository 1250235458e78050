(** Property C123: random keypoints and points of cameras, parameters of cameras. *)
From Coq Require Import Reals ZArith List Bool Arith Lia Lra Psatz.
From Verif Require Import DistortionModel CameraModel CameraSpec CameraProofs CameraProps LidarModel LidarProps RandPtModel RandPtSpec.
Import ListNotations.
Local Open Scope R_scope.

Lemma tenth_eq s : IZR (Z.min (width s) (height s)) * (1 / 10) = tenth s. Proof. unfold tenth. lra. Qed.
Lemma tenth_bounds s : nonempty s -> 0 < tenth s /\ 10 * tenth s <= IZR (width s) /\ 10 * tenth s <= IZR (height s).
Proof.
  intros [W H]. unfold tenth. assert (M : (0 < Z.min (width s) (height s))%Z) by lia. apply IZR_lt in M. pose proof (IZR_le _ _ (Z.le_min_l (width s) (height s))). pose proof (IZR_le _ _ (Z.le_min_r (width s) (height s))). lra.
Qed.
Lemma abs_draw x : unit_draw x -> 0 <= Rabs x <= 1.
Proof. intros [A B]. split; [apply Rabs_pos|]. apply Rabs_le. lra. Qed.
Lemma inside_image s kp : nonempty s -> inside s (tenth s) kp -> in_image (width s) (height s) kp.
Proof. intros N [A B]. pose proof (tenth_bounds s N). split; lra. Qed.

(** ** Pinhole cameras and lidars *)
(** The keypoints are in the image, at least a tenth of the smaller side away from its border; every such keypoint is possible. *)
Theorem rpx_box s : nonempty s ->
  (forall x y, unit_draw x -> unit_draw y -> inside s (tenth s) (box_keypoint s x y) /\ in_image (width s) (height s) (box_keypoint s x y)) /\
  (forall kp, inside s (tenth s) kp -> exists x y, unit_draw x /\ unit_draw y /\ box_keypoint s x y = kp).
Proof.
  intros N. pose proof (tenth_bounds s N) as (T0 & T1 & T2). split.
  - intros x y X Y. apply abs_draw in X. apply abs_draw in Y.
    assert (I : inside s (tenth s) (box_keypoint s x y)). { unfold box_keypoint, inside. rewrite !tenth_eq. cbn [fst snd]. split; split; nra. }
    split; [exact I|apply inside_image; assumption].
  - intros [u v] [U V]. cbn [fst snd] in *.
    assert (D : forall w a, 10 * tenth s <= w -> tenth s <= a <= w - tenth s -> exists x, unit_draw x /\ tenth s + Rabs x * (w - tenth s * 2) = a).
    { intros w a W A. assert (P : 0 < w - tenth s * 2) by lra. exists ((a - tenth s) / (w - tenth s * 2)).
      assert (Q : 0 <= (a - tenth s) / (w - tenth s * 2) <= 1). { split; [apply Rmult_le_pos; [lra|apply Rlt_le, Rinv_0_lt_compat, P]|]. apply (Rmult_le_reg_r (w - tenth s * 2)); [exact P|]. unfold Rdiv. rewrite Rmult_assoc, Rinv_l by lra. lra. }
      split; [unfold unit_draw; lra|]. rewrite Rabs_right by lra. field. lra. }
    destruct (D _ _ T1 U) as (x & X & EX). destruct (D _ _ T2 V) as (y & Y & EY). exists x, y. split; [exact X|]. split; [exact Y|].
    unfold box_keypoint. rewrite !tenth_eq, EX, EY. reflexivity.
Qed.
Print Assumptions rpx_box.
Lemma at_depth_scale ray d : at_depth ray d = scale (d / norm3 ray) ray.
Proof. destruct ray as [[x y] z]. unfold at_depth, scale. f_equal; [f_equal|]; unfold Rdiv; ring. Qed.
Lemma at_depth_norm ray d : 0 < norm3 ray -> 0 < d -> norm3 (at_depth ray d) = d.
Proof. intros N D. rewrite at_depth_scale, norm3_scale by (apply Rlt_le, Rdiv_lt_0_compat; assumption). field. lra. Qed.
Lemma pinhole_ray_norm D c kp : 1 <= norm3 (fst (pinhole_back_project D c kp)).
Proof.
  unfold pinhole_back_project. cbn [fst]. destruct (undistort D _) as [a b]. cbn [fst snd]. unfold norm3. rewrite <- sqrt_1 at 1. apply sqrt_le_1; nra.
Qed.
(** A random point of a pinhole camera has the given distance and is projected to the random keypoint; it is visible if the distance is larger than the
    smallest depth by the length of the ray. *)
Theorem rpx_pinhole D c s x y depth : nonempty s -> pinhole_valid c -> proper_lens D -> unit_draw x -> unit_draw y -> 0 < depth ->
  exists p st, pinhole_point D c s x y depth = Done p /\ norm3 p = depth /\ pinhole_project D c s p = (Some (box_keypoint s x y), st) /\
    (st = KeypointVisible <-> minimum_depth < snd p) /\ (minimum_depth * norm3 (fst (pinhole_back_project D c (box_keypoint s x y))) < depth -> st = KeypointVisible).
Proof.
  intros N V L X Y DP. set (kp := box_keypoint s x y). pose proof (pinhole_ray_norm D c kp) as RN. set (ray := fst (pinhole_back_project D c kp)) in *.
  assert (LP : 0 < depth / norm3 ray) by (apply Rdiv_lt_0_compat; lra).
  destruct (px_project_back_projection D c s kp (depth / norm3 ray) V LP (proj1 L _)) as (st & E & _ & S). exists (at_depth ray depth), st.
  split; [unfold pinhole_point; destruct (Rlt_dec 0 depth) as [_|C]; [reflexivity|contradiction]|]. split; [apply at_depth_norm; lra|]. rewrite at_depth_scale. split; [exact E|].
  assert (Z : snd (scale (depth / norm3 ray) ray) = depth / norm3 ray) by (unfold ray, pinhole_back_project, scale; cbn [fst snd]; ring).
  assert (I : in_image (width s) (height s) kp) by (apply (proj1 (rpx_box s N) x y X Y)). split.
  - rewrite Z. rewrite S. split; [intros [_ H]; exact H|intros H; split; assumption].
  - intros H. apply S. split; [exact I|]. apply (Rmult_lt_reg_r (norm3 ray)); [lra|]. unfold Rdiv. rewrite Rmult_assoc, Rinv_l by lra. lra.
Qed.
Print Assumptions rpx_pinhole.
(** Very near points are created but not visible. *)
Theorem rpx_near_refuted D c s x y depth : nonempty s -> pinhole_valid c -> proper_lens D -> unit_draw x -> unit_draw y -> 0 < depth <= minimum_depth ->
  exists p, pinhole_point D c s x y depth = Done p /\ snd (pinhole_project D c s p) <> KeypointVisible.
Proof.
  intros N V L X Y [D0 D1]. destruct (rpx_pinhole D c s x y depth N V L X Y D0) as (p & st & E & E1 & E2 & S & _). exists p. split; [exact E|]. rewrite E2. cbn [snd]. rewrite S. intros H.
  assert (A : snd p <= norm3 p). { destruct p as [[a b] z]. cbn [snd]. unfold norm3. destruct (Rle_lt_dec z 0) as [Z|Z]; [eapply Rle_trans; [exact Z|apply sqrt_pos]|]. rewrite <- (sqrt_square z) at 1 by lra. apply sqrt_le_1; nra. }
  lra.
Qed.
Print Assumptions rpx_near_refuted.
(** The documentation of createRandomVisiblePoint promises a random depth for negative ones; all cameras abort. *)
Theorem rpx_negative_refuted depth : depth < 0 ->
  (forall D c s x y, pinhole_point D c s x y depth = Aborted) /\ (forall D c s draws, unified_point D c s draws depth = Aborted) /\ (forall c s x y, lidar_point c s x y depth = Aborted).
Proof. intros H. unfold pinhole_point, unified_point, lidar_point. destruct (Rlt_dec 0 depth) as [C|_]; [exfalso; lra|]. repeat split; reflexivity. Qed.
Print Assumptions rpx_negative_refuted.
(** A random point of a lidar has the given distance; if the image covers the full circle it is visible at the random keypoint. *)
Theorem rpx_lidar c s x y depth : nonempty s -> unit_draw x -> unit_draw y -> 0 < depth ->
  exists p, lidar_point c s x y depth = Done p /\ norm3 p = depth /\
    (lidar_valid c -> IZR (width s) * h_res c = 2 * PI -> - PI <= h_centre c < PI -> - (PI / 2) < v_centre c - snd (box_keypoint s x y) * v_res c < PI / 2 -> 1 / 100 < depth ->
     lidar_project c s None p = (box_keypoint s x y, KeypointVisible)).
Proof.
  intros N X Y DP. eexists. split; [unfold lidar_point; destruct (Rlt_dec 0 depth) as [_|C]; [reflexivity|contradiction]|]. set (kp := box_keypoint s x y). pose proof (nx_unit c kp) as U. split; [apply at_depth_norm; lra|].
  intros V F H1 H2 H3. rewrite at_depth_scale, U. replace (depth / 1) with depth by field. pose proof (proj1 (rpx_box s N) x y X Y) as [_ I].
  apply (nx_project_back_projection_partial c s None kp depth V); [apply IZR_lt; exact (proj1 N)|exact F|exact H1|exact I|exact H2|]. simpl. lra.
Qed.
Print Assumptions rpx_lidar.

(** ** The unified camera *)
Definition centre (c : unified) : vec2 := (u_cu c, u_cv c).
Lemma search_step D c s draws n i u : search D c s draws (S n) i u = if good D c s u then u else if (n <? 1)%nat then Some (u_cu c, u_cv c) else search D c s draws n (S i) (sample D c (draws i)).
Proof. reflexivity. Qed.
Lemma search_spec D c s draws n : forall i u, good D c s u = false ->
  (exists k, (k < n)%nat /\ good D c s (sample D c (draws (i + k)%nat)) = true /\ (forall j, (j < k)%nat -> good D c s (sample D c (draws (i + j)%nat)) = false) /\ search D c s draws (S n) i u = sample D c (draws (i + k)%nat)) \/
  ((forall k, (k < n)%nat -> good D c s (sample D c (draws (i + k)%nat)) = false) /\ search D c s draws (S n) i u = Some (centre c)).
Proof.
  induction n as [|n IH]; intros i u G; rewrite search_step, G.
  - right. split; [intros k K; lia|reflexivity].
  - change (S n <? 1)%nat with false. cbv iota. destruct (good D c s (sample D c (draws i))) eqn:E.
    + left. exists 0%nat. rewrite Nat.add_0_r. split; [lia|]. split; [exact E|]. split; [intros j J; lia|]. rewrite search_step, E. reflexivity.
    + destruct (IH (S i) _ E) as [(k & K & A & B & C)|[A C]].
      * left. exists (S k). rewrite Nat.add_succ_r. split; [lia|]. split; [exact A|]. split; [|exact C]. intros [|j] J; [rewrite Nat.add_0_r; exact E|]. rewrite Nat.add_succ_r. apply (B j). lia.
      * right. split; [|exact C]. intros [|k] K; [rewrite Nat.add_0_r; exact E|]. rewrite Nat.add_succ_r. apply (A k). lia.
Qed.
Lemma first_bad D c s : good D c s (Some (IZR (width s) + 1, IZR (height s) + 1)) = false.
Proof.
  cbn [good]. destruct (keypoint_visible s _) eqn:E; [|apply andb_false_r]. apply keypoint_visible_spec in E. destruct E as [[_ E] _]. cbn [fst] in E. lra.
Qed.
Lemma good_spec D c s kp : good D c s (Some kp) = true <-> unified_liftable D c kp = true /\ in_image (width s) (height s) kp.
Proof. cbn [good]. rewrite andb_true_iff, keypoint_visible_spec. reflexivity. Qed.
(** The keypoint is the first of nineteen draws that is liftable and in the image; if there is none, the image centre. *)
Theorem rpx_tries D c s draws :
  (exists k kp, (k < 19)%nat /\ sample D c (draws k) = Some kp /\ unified_random D c s draws = Some kp /\ unified_liftable D c kp = true /\ in_image (width s) (height s) kp /\
    forall j kp', (j < k)%nat -> sample D c (draws j) = Some kp' -> ~ (unified_liftable D c kp' = true /\ in_image (width s) (height s) kp')) \/
  ((forall k kp, (k < 19)%nat -> sample D c (draws k) = Some kp -> ~ (unified_liftable D c kp = true /\ in_image (width s) (height s) kp)) /\ unified_random D c s draws = Some (centre c)).
Proof.
  unfold unified_random. destruct (search_spec D c s draws 19 0 _ (first_bad D c s)) as [(k & K & A & B & C)|[A C]]; cbn [Nat.add] in *.
  - left. destruct (sample D c (draws k)) as [kp|] eqn:E; [|discriminate]. exists k, kp. split; [exact K|]. split; [exact E|]. split; [exact C|]. apply good_spec in A. split; [exact (proj1 A)|]. split; [exact (proj2 A)|].
    intros j kp' J E' G. apply good_spec in G. rewrite <- E', (B j J) in G. discriminate.
  - right. split; [|exact C]. intros k kp K E G. apply good_spec in G. rewrite <- E, (A k K) in G. discriminate.
Qed.
Print Assumptions rpx_tries.
Lemma centre_liftable D c : undistort D (0, 0) = (0, 0) -> unified_liftable D c (centre c) = true.
Proof.
  intros U. unfold unified_liftable, centre. cbn [fst snd]. replace (1 / u_fu c * (u_cu c - u_cu c)) with 0 by ring. replace (1 / u_fv c * (u_cv c - u_cv c)) with 0 by ring. rewrite U. cbn [fst snd].
  unfold liftable. destruct (Rle_dec (u_xi c) 1) as [_|X]; [reflexivity|]. destruct (Rle_dec _ _) as [_|C]; [reflexivity|]. exfalso. apply C. replace (0 * 0 + 0 * 0) with 0 by ring. apply Rlt_le, Rdiv_lt_0_compat; nra.
Qed.
(** If the image centre is in the image, the keypoint always can be lifted and is in the image. *)
Theorem rpx_unified D c s draws : undistort D (0, 0) = (0, 0) -> in_image (width s) (height s) (centre c) ->
  exists kp, unified_random D c s draws = Some kp /\ unified_liftable D c kp = true /\ in_image (width s) (height s) kp.
Proof.
  intros U I. destruct (rpx_tries D c s draws) as [(k & kp & _ & _ & E & L & J & _)|[_ E]]; [exists kp; auto|]. exists (centre c). split; [exact E|]. split; [apply centre_liftable, U|exact I].
Qed.
Print Assumptions rpx_unified.
(** The draws of a camera without lens stay within 0.8 / |xi^2 - 1| of the centre, in the normalised image. *)
Theorem rpx_reach c s draws kp : unified_valid c -> u_xi c * u_xi c <> 1 -> fair draws -> unified_random null_lens c s draws = Some kp ->
  Rabs ((fst kp - u_cu c) / u_fu c) <= 8 / 10 / Rabs (u_xi c * u_xi c - 1) /\ Rabs ((snd kp - u_cv c) / u_fv c) <= 8 / 10 / Rabs (u_xi c * u_xi c - 1).
Proof.
  intros (_ & Fu & Fv & _) X F E. set (m := u_xi c * u_xi c - 1). assert (M : 0 < Rabs m) by (apply Rabs_pos_lt; unfold m; lra). assert (B0 : 0 <= 8 / 10 / Rabs m) by (apply Rlt_le, Rdiv_lt_0_compat; lra).
  destruct (rpx_tries null_lens c s draws) as [(k & kp' & _ & S & E' & _)|[_ E']]; rewrite E in E'; injection E' as E'; subst kp.
  - unfold sample in S. specialize (F k). destruct (draws k) as [[x y] r]. destruct (Req_EM_T _ 1) as [C|_]; [contradiction|]. injection S as <-. destruct F as (FX & FY & FR). cbn [null_lens distort null_distort fst snd]. fold m.
    assert (G : forall f a z, 0 < f -> unit_draw z -> Rabs ((f * (z * (r * (1 / m) * (8 / 10))) + a - a) / f) <= 8 / 10 / Rabs m).
    { intros f a z FP Z. replace ((f * (z * (r * (1 / m) * (8 / 10))) + a - a) / f) with (z * r * (8 / 10) * / m) by (field; split; [unfold m; lra|lra]). rewrite Rabs_mult, Rabs_inv. unfold Rdiv at 2. apply Rmult_le_compat_r; [apply Rlt_le, Rinv_0_lt_compat, M|].
      apply Rabs_le. destruct Z as [Z1 Z2]. split; nra. }
    split; apply G; assumption.
  - unfold centre. cbn [fst snd]. replace ((u_cu c - u_cu c) / u_fu c) with 0 by (field; lra). replace ((u_cv c - u_cv c) / u_fv c) with 0 by (field; lra). rewrite Rabs_R0. split; exact B0.
Qed.
Print Assumptions rpx_reach.
(** The bound lacks a square root: keypoints that can be lifted are never drawn. *)
Theorem rpx_reach_refuted : exists c s kp, unified_valid c /\ unified_liftable null_lens c kp = true /\ in_image (width s) (height s) kp /\ forall draws, fair draws -> unified_random null_lens c s draws <> Some kp.
Proof.
  pose (c := {| u_xi := 3; u_fu := 400; u_fv := 400; u_cu := 320; u_cv := 240 |}). assert (V : unified_valid c) by (unfold unified_valid; cbn; lra).
  exists c, vga, (440, 240). split; [exact V|]. split; [|split].
  - unfold unified_liftable, liftable, c. cbn [u_xi u_fu u_fv u_cu u_cv null_lens undistort null_undistort fst snd]. destruct (Rle_dec 3 1) as [_|_]; [reflexivity|]. destruct (Rle_dec _ _) as [_|C]; [reflexivity|]. exfalso. apply C. lra.
  - unfold in_image. cbn. lra.
  - intros draws F E. destruct (rpx_reach c vga draws _ V ltac:(cbn; lra) F E) as [B _]. cbn [c u_xi u_fu u_cu fst] in B. rewrite !Rabs_right in B by lra. lra.
Qed.
Print Assumptions rpx_reach_refuted.
(** With xi = 1, a parabolic mirror, the random keypoint is the image centre whatever is drawn. *)
Theorem rpx_parabolic_refuted D c s draws : u_xi c = 1 -> unified_random D c s draws = Some (centre c).
Proof.
  intros X. destruct (rpx_tries D c s draws) as [(k & kp & _ & S & _)|[_ E]]; [|exact E]. exfalso. unfold sample in S. destruct (draws k) as [[x y] r]. rewrite X in S. destruct (Req_EM_T (1 * 1) 1) as [_|C]; [discriminate|apply C; ring].
Qed.
Print Assumptions rpx_parabolic_refuted.
(** The twentieth draw is thrown away although it is liftable and in the image. *)
Theorem rpx_twentieth_refuted : exists c s draws kp, unified_valid c /\ fair draws /\ sample null_lens c (draws 19%nat) = Some kp /\ unified_liftable null_lens c kp = true /\ in_image (width s) (height s) kp /\
  kp <> centre c /\ unified_random null_lens c s draws = Some (centre c).
Proof.
  pose (c := {| u_xi := 0; u_fu := 1000; u_fv := 1000; u_cu := 320; u_cv := 240 |}).
  assert (SM : forall r, sample null_lens c (1, 1, r) = Some (320 - 800 * r, 240 - 800 * r)).
  { intros r. unfold sample, c. cbn [u_xi u_fu u_fv u_cu u_cv null_lens distort null_distort fst snd]. destruct (Req_EM_T (0 * 0) 1) as [C|_]; [exfalso; lra|]. f_equal. f_equal; field. }
  exists c, vga, (fun i => if Nat.eqb i 19 then (1, 1, 1 / 100) else (1, 1, 1)), (312, 232). split; [unfold unified_valid; cbn; lra|]. split; [intros i; unfold unit_draw; destruct (Nat.eqb i 19); cbn beta iota; lra|].
  split; [cbn [Nat.eqb]; rewrite SM; apply f_equal, f_equal2; lra|]. split; [|split; [|split]].
  - unfold unified_liftable, liftable, c. cbn [u_xi]. destruct (Rle_dec 0 1) as [_|C]; [reflexivity|exfalso; lra].
  - unfold in_image. cbn. lra.
  - unfold centre, c. cbn. intros E. injection E as E _. lra.
  - destruct (rpx_tries null_lens c vga (fun i => if Nat.eqb i 19 then (1, 1, 1 / 100) else (1, 1, 1))) as [(k & kp & K & S & E & _ & I & _)|[_ E]]; [|exact E]. exfalso. destruct (Nat.eqb_spec k 19) as [C|_]; [lia|]. rewrite SM in S. injection S as <-. unfold in_image in I. cbn in I. lra.
Qed.
Print Assumptions rpx_twentieth_refuted.
Lemma unified_ray_pos D c kp : 0 <= u_xi c -> 0 < norm3 (fst (unified_back_project D c kp)).
Proof.
  intros X. unfold unified_back_project. cbn [fst]. destruct (undistort D _) as [a b]. cbn [fst snd]. set (t := Rmax _ 0). set (z := 1 - _). unfold norm3. apply sqrt_lt_R0.
  destruct (Req_dec (a * a + b * b) 0) as [E|E].
  - assert (TT : t = 1). { unfold t. rewrite E. rewrite Rmax_left by lra. ring. } assert (ZZ : z = / (u_xi c + 1)). { unfold z. rewrite TT, E, sqrt_1. field. lra. } assert (0 < z) by (rewrite ZZ; apply Rinv_0_lt_compat; lra). nra.
  - assert (0 < a * a + b * b) by nra. nra.
Qed.
(** A random point of a unified camera has the given distance and is visible, at the random keypoint if the lens is proper. *)
Theorem rpx_unified_point D c s draws depth p : unified_valid c -> unified_point D c s draws depth = Done p ->
  norm3 p = depth /\ snd (unified_project D c s p) = KeypointVisible /\ (proper_lens D -> unified_random D c s draws = Some (fst (unified_project D c s p))).
Proof.
  intros V H. unfold unified_point in H. destruct (Rlt_dec 0 depth) as [DP|_]; [|discriminate]. destruct (unified_random D c s draws) as [kp|]; [|discriminate].
  pose proof (unified_ray_pos D c kp (proj1 V)) as RP. destruct (unified_back_project D c kp) as [ray ok] eqn:EB. cbn [fst] in RP. destruct ok; [|discriminate]. cbv zeta in H. destruct (snd (unified_project D c s (at_depth ray depth))) eqn:ES; try discriminate. injection H as <-.
  split; [apply at_depth_norm; assumption|]. split; [exact ES|]. intros (L1 & _). f_equal.
  assert (LP : 0 < depth / norm3 ray) by (apply Rdiv_lt_0_compat; assumption). set (q := undistort D ((fst kp - u_cu c) / u_fu c, (snd kp - u_cv c) / u_fv c)).
  assert (ST : u_xi c <= 1 \/ fst q * fst q + snd q * snd q < 1 / (u_xi c * u_xi c - 1)).
  { destruct (Rle_lt_dec (u_xi c) 1) as [X|X]; [left; exact X|right]. assert (LF : liftable (fst q * fst q + snd q * snd q) (u_xi c) = true) by (apply (f_equal snd) in EB; exact EB).
    unfold liftable in LF. destruct (Rle_dec (u_xi c) 1) as [C|_]; [lra|]. destruct (Rle_dec _ _) as [LE|]; [|discriminate]. destruct LE as [LT|EQ]; [exact LT|]. exfalso.
    destruct (unified_edge D c kp X EQ) as [_ E]. rewrite EB in E. cbn [fst] in E. unfold unified_project in ES. cbn [snd] in ES. rewrite at_depth_scale, valid_proj_scale, E in ES by exact LP. discriminate. }
  destruct (ux_project_back_projection_partial D c s kp (depth / norm3 ray) V LP (L1 _) ST) as (st & E & _). rewrite EB in E. cbn [fst] in E. rewrite at_depth_scale, E. reflexivity.
Qed.
Print Assumptions rpx_unified_point.
(** An image centre outside of the image is valid; it is returned as keypoint, and creating points aborts. *)
Theorem rpx_centre_refuted : exists c s, unified_valid c /\ nonempty s /\ forall draws, (exists kp, unified_random null_lens c s draws = Some kp /\ ~ in_image (width s) (height s) kp) /\ forall depth, unified_point null_lens c s draws depth = Aborted.
Proof.
  pose (c := {| u_xi := 1; u_fu := 400; u_fv := 400; u_cu := 1000; u_cv := 240 |}). assert (V : unified_valid c) by (unfold unified_valid; cbn; lra). exists c, vga. split; [exact V|]. split; [split; reflexivity|]. intros draws.
  pose proof (rpx_parabolic_refuted null_lens c vga draws eq_refl) as E. assert (NI : ~ in_image (width vga) (height vga) (centre c)) by (unfold in_image; cbn; lra). split; [exists (centre c); auto|].
  intros depth. destruct (unified_point null_lens c vga draws depth) as [p|] eqn:EP; [|reflexivity]. exfalso. destruct (rpx_unified_point null_lens c vga draws depth p V EP) as (_ & S & K). specialize (K ltac:(repeat split; intros; reflexivity)). rewrite E in K. injection K as K.
  destruct (ux_status null_lens c vga p (centre c) KeypointVisible) as [[SV _] _]; [rewrite K, <- S; apply surjective_pairing|]. destruct (SV eq_refl) as (_ & I & _). contradiction.
Qed.
Print Assumptions rpx_centre_refuted.

(** Without a lens the tries lie on the ray of the drawn direction through the principal point, and the draw of the distance scales it. *)
Theorem rpx_direction c x y r kp : sample null_lens c (x, y, r) = Some kp ->
  (fst kp - u_cu c) * (u_fv c * y) = (snd kp - u_cv c) * (u_fu c * x) /\
  (u_xi c * u_xi c - 1) * (fst kp - u_cu c) = 8 / 10 * r * (u_fu c * x) /\ (u_xi c * u_xi c - 1) * (snd kp - u_cv c) = 8 / 10 * r * (u_fv c * y).
Proof.
  unfold sample. destruct (Req_EM_T _ 1) as [C|C]; [discriminate|]. intros H. injection H as <-. cbn [null_lens distort null_distort fst snd].
  assert (N : u_xi c * u_xi c - 1 <> 0) by (intros E; apply C; lra). split; [ring|]. split; field; exact N.
Qed.
Print Assumptions rpx_direction.

(** ** Parameters *)
Lemma positive_spec x : positive x = true <-> 0 < x. Proof. unfold positive. destruct (Rlt_dec 0 x); split; intros; try reflexivity; try assumption; try discriminate; contradiction. Qed.
(** The validity check says whether the parameters are meaningful; cameras are constructed exactly with such. *)
Theorem rpx_valid t l : (parameters_valid t l = true <-> meaningful t l) /\ (construct t l = Done l <-> meaningful t l) /\ (construct t l = Aborted <-> ~ meaningful t l).
Proof.
  assert (A : parameters_valid t l = true <-> meaningful t l).
  { unfold meaningful. destruct t; cbn [parameter_size].
    - destruct l as [|a [|b [|c [|d [|]]]]]; cbn; try (split; [discriminate|intros [? _]; discriminate]). rewrite !andb_true_iff, !positive_spec. split; [intros (((? & ?) & ?) & ?); split; [reflexivity|]; intros x; intuition (subst; assumption)|]. intros [_ H]. repeat split; apply H; auto.
    - destruct l as [|e [|a [|b [|c [|d [|]]]]]]; cbn; try (split; [discriminate|intros [? _]; discriminate]). rewrite !andb_true_iff, !positive_spec. destruct (Rle_dec 0 e) as [E|E].
      + split; [intros ((((_ & ?) & ?) & ?) & ?); split; [reflexivity|]; split; [exact E|]; intros x; intuition (subst; assumption)|]. intros (_ & _ & H). repeat split; apply H; auto.
      + split; [intros ((((? & _) & _) & _) & _); discriminate|intros (_ & C & _); contradiction].
    - destruct l as [|a [|b [|c [|d [|]]]]]; cbn; try (split; [discriminate|intros [? _]; discriminate]). rewrite !andb_true_iff, !positive_spec. intuition. }
  split; [exact A|]. rewrite <- A. unfold construct. destruct (parameters_valid t l); split; split; intros; try reflexivity; try discriminate. exfalso. apply H. reflexivity.
Qed.
Print Assumptions rpx_valid.
(** A lens takes exactly the valid parameters. *)
Theorem rpx_lens t old l l' : set_lens t old l = Done l' <-> l' = l /\ sound_lens t l.
Proof.
  assert (A : lens_valid t l = true <-> sound_lens t l).
  { destruct t; cbn [sound_lens lens_valid].
    - destruct l as [|? [|? [|? [|? [|]]]]]; cbn; split; intros; try reflexivity; discriminate.
    - destruct l as [|? [|? [|? [|? [|]]]]]; cbn; split; intros; try reflexivity; discriminate.
    - destruct l as [|w [|]]; [split; [discriminate|intros (? & [=] & _)]| |split; [discriminate|intros (? & [=] & _)]].
      assert (E : / 10 ^ 16 = 1 / 10000000000000000) by (replace (10 ^ 16) with 10000000000000000 by ring; lra). rewrite E. clear E. split.
      + intros H. exists w. split; [reflexivity|]. apply orb_true_iff in H. destruct H as [H|H]; [left|right].
        * destruct (Rlt_dec (Rabs w) (1 / 10000000000000000)) as [L|]; [|discriminate]. apply Rabs_def2 in L. lra.
        * apply andb_true_iff in H. destruct H as [H1 H2]. destruct (Rle_dec (1 / 2) w); [|discriminate]. destruct (Rle_dec w (3 / 2)); [|discriminate]. lra.
      + intros (w' & H & [L|L]); injection H as <-.
        * destruct (Rlt_dec (Rabs w) (1 / 10000000000000000)) as [|N]; [reflexivity|]. exfalso. apply N. apply Rabs_def1; lra.
        * destruct (Rle_dec (1 / 2) w) as [|N]; [|lra]. destruct (Rle_dec w (3 / 2)) as [|N]; [|lra]. apply orb_true_r.
    - split; auto. }
  rewrite <- A. unfold set_lens. destruct (lens_valid t l) eqn:E; split; [intros H; injection H as <-; auto|intros [-> _]; reflexivity|discriminate|intros [_ H]; discriminate].
Qed.
Print Assumptions rpx_lens.
(** A camera does not: only the number of parameters is checked, so that every constructed camera can be made invalid. *)
Theorem rpx_set_refuted t old : construct t old = Done old -> exists l, set_parameters t old l = Done l /\ ~ meaningful t l.
Proof.
  intros _. destruct t.
  - exists [-1; -1; -1; -1]. split; [reflexivity|]. intros [_ H]. specialize (H (-1) (or_introl eq_refl)). lra.
  - exists [-1; -1; -1; -1; -1]. split; [reflexivity|]. intros (_ & H & _). cbn in H. lra.
  - exists [-1; -1; -1; -1]. split; [reflexivity|]. intros (_ & H & _). cbn in H. lra.
Qed.
Print Assumptions rpx_set_refuted.
(** Parameters of the right number are set as they are, others refused. *)
Theorem rpx_set t old l : (length l = parameter_size t -> set_parameters t old l = Done l) /\ (length l <> parameter_size t -> set_parameters t old l = Aborted).
Proof. unfold set_parameters. destruct (Nat.eqb_spec (parameter_size t) (length l)); split; intros; congruence. Qed.
Print Assumptions rpx_set.
(** A lidar created without parameters has three of them instead of four. *)
Theorem rpx_default_refuted : length (default LidarType) <> parameter_size LidarType /\ length (default PinholeType) = parameter_size PinholeType /\ length (default UnifiedType) = parameter_size UnifiedType /\ forall t x, In x (default t) -> x = 0.
Proof. split; [discriminate|]. split; [reflexivity|]. split; [reflexivity|]. intros t x. destruct t; cbn; intuition. Qed.
Print Assumptions rpx_default_refuted.

Example rpx_case : nonempty vga /\ pinhole_valid test_pinhole /\ unified_valid test_unified /\ proper_lens null_lens /\ unit_draw (-1/2) /\ box_keypoint vga (-1/2) 1 = (320, 432) /\ in_image (width vga) (height vga) (centre test_unified).
Proof.
  split; [split; reflexivity|]. split; [unfold pinhole_valid; cbn; lra|]. split; [unfold unified_valid; cbn; lra|]. split; [repeat split; intros; reflexivity|]. split; [unfold unit_draw; lra|]. split; [|unfold in_image; cbn; lra].
  unfold box_keypoint. cbn [vga width height Z.min Z.compare Pos.compare Pos.compare_cont]. rewrite Rabs_left, Rabs_right by lra. f_equal; lra.
Qed.
