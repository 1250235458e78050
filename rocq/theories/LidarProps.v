(** Property C56: the lidar camera. *)
From Coq Require Import Reals Lra Psatz ZArith Bool.
From Verif Require Import DistortionModel CameraModel CameraSpec CameraProofs LidarModel.
Local Open Scope R_scope.

(** atan2 recovers the angle of a vector of positive length. *)
Lemma atan2_polar r t : 0 < r -> - PI < t <= PI -> atan2 (r * sin t) (r * cos t) = t.
Proof.
  intros Hr Ht. pose proof PI_RGT_0 as P. unfold atan2.
  assert (Q : cos t <> 0 -> r * sin t / (r * cos t) = tan t). { intros N. unfold tan. field. lra. }
  destruct (Rlt_dec 0 (r * cos t)) as [A|A].
  - assert (C : 0 < cos t) by (apply (Rmult_lt_reg_l r); lra). rewrite Q by lra. apply atan_tan. split.
    + destruct (Rlt_le_dec (- (PI / 2)) t) as [L|L]; [exact L|]. exfalso. assert (cos t <= 0).
      { rewrite <- (Ropp_involutive (cos t)), <- (neg_cos t). assert (0 <= cos (t + PI)) by (apply cos_ge_0; lra). lra. } lra.
    + destruct (Rlt_le_dec t (PI / 2)) as [L|L]; [exact L|]. exfalso. assert (cos t <= 0) by (apply cos_le_0; lra). lra.
  - destruct (Rlt_dec (r * cos t) 0) as [B|B].
    + assert (C : cos t < 0) by (apply (Rmult_lt_reg_l r); lra). rewrite Q by lra.
      destruct (Rle_dec 0 (r * sin t)) as [D|D].
      * assert (S : 0 <= sin t) by (apply (Rmult_le_reg_l r); lra).
        assert (T : PI / 2 < t).
        { destruct (Rlt_le_dec (PI / 2) t) as [L|L]; [exact L|]. exfalso. destruct (Rle_lt_dec (- (PI / 2)) t) as [L'|L'].
          - pose proof (cos_ge_0 t L' L). lra.
          - assert (sin t < 0). { rewrite <- (Ropp_involutive (sin t)), <- (sin_neg t). assert (0 < sin (- t)) by (apply sin_gt_0; lra). lra. } lra. }
        replace (tan t) with (tan (t - PI)). { rewrite atan_tan by lra. ring. }
        unfold tan. rewrite sin_minus, cos_minus, sin_PI, cos_PI. field. lra.
      * assert (S : sin t < 0) by (apply (Rmult_lt_reg_l r); lra).
        assert (T : t < - (PI / 2)).
        { destruct (Rlt_le_dec t (- (PI / 2))) as [L|L]; [exact L|]. exfalso. destruct (Rle_lt_dec t (PI / 2)) as [L'|L'].
          - pose proof (cos_ge_0 t L L'). lra.
          - pose proof (sin_ge_0 t ltac:(lra) ltac:(lra)). lra. }
        replace (tan t) with (tan (t + PI)). { rewrite atan_tan by lra. ring. }
        unfold tan. rewrite sin_plus, cos_plus, sin_PI, cos_PI. field. lra.
    + assert (C : cos t = 0). { assert (r * cos t = 0) as E by lra. apply Rmult_integral in E. lra. }
      pose proof (sin2_cos2 t) as SC. unfold Rsqr in SC. rewrite C in SC.
      destruct (Rlt_dec 0 (r * sin t)) as [D|D].
      * assert (S : 0 < sin t) by (apply (Rmult_lt_reg_l r); lra).
        assert (t0 : 0 < t). { destruct (Rlt_le_dec 0 t) as [L|L]; [exact L|]. exfalso. assert (0 <= sin (- t)) by (apply sin_ge_0; lra). rewrite sin_neg in H. lra. }
        apply Rle_antisym.
        -- destruct (Rle_lt_dec (PI / 2) t) as [L|L]; [exact L|]. pose proof (cos_gt_0 t ltac:(lra) L). lra.
        -- destruct (Rle_lt_dec t (PI / 2)) as [L|L]; [exact L|]. assert (cos t < 0) by (apply cos_lt_0; lra). lra.
      * assert (S : sin t < 0). { assert (sin t <= 0) by (apply (Rmult_le_reg_l r); lra). destruct (Req_dec (sin t) 0) as [Z|Z]; [rewrite Z in SC; lra|lra]. }
        destruct (Rlt_dec (r * sin t) 0) as [E|E]; [|exfalso; apply E; nra].
        assert (t0 : t < 0). { destruct (Rlt_le_dec t 0) as [L|L]; [exact L|]. exfalso. pose proof (sin_ge_0 t L ltac:(lra)). lra. }
        apply Rle_antisym.
        -- destruct (Rle_lt_dec (- (PI / 2)) t) as [L|L]; [exact L|]. assert (cos (- t) < 0) by (apply cos_lt_0; lra). rewrite cos_neg in H. lra.
        -- destruct (Rle_lt_dec t (- (PI / 2))) as [L|L]; [exact L|]. pose proof (cos_gt_0 t ltac:(lra) ltac:(lra)). lra.
Qed.
Lemma ray_norm a b : norm3 (- sin a * cos b, - sin b, cos a * cos b) = 1.
Proof.
  unfold norm3. replace (_ + _ + _) with 1; [apply sqrt_1|].
  pose proof (sin2_cos2 a) as A. pose proof (sin2_cos2 b) as B. unfold Rsqr in *.
  replace (- sin a * cos b * (- sin a * cos b) + - sin b * - sin b + cos a * cos b * (cos a * cos b))
    with ((sin a * sin a + cos a * cos a) * (cos b * cos b) + sin b * sin b) by ring. rewrite A. lra.
Qed.
Lemma lidar_back c kp : let a := h_centre c - fst kp * h_res c in let b := v_centre c - snd kp * v_res c in
  lidar_back_project c kp = ((- sin a * cos b, - sin b, cos a * cos b), true).
Proof. cbv zeta. unfold lidar_back_project. rewrite ray_norm. unfold Rdiv. rewrite Rinv_1, !Rmult_1_r. reflexivity. Qed.
(** The ray has length one. *)
Theorem nx_unit c kp : norm3 (fst (lidar_back_project c kp)) = 1.
Proof. rewrite lidar_back. apply ray_norm. Qed.
Print Assumptions nx_unit.
Lemma six_small : 0 < / 10 ^ 6 < 1.
Proof. split; [apply Rinv_0_lt_compat; lra|]. rewrite <- Rinv_1. apply Rinv_lt_contravar; lra. Qed.
(** Projection of a multiple of a ray with azimuth a and elevation b, in terms of the wrapped azimuth. *)
Lemma lidar_project_ray c s e l a b t k : / 10 ^ 6 <= l -> - (PI / 2) < b < PI / 2 -> - PI < t <= PI -> - a = t + 2 * IZR k * PI ->
  fst (lidar_project c s e (scale l (- sin a * cos b, - sin b, cos a * cos b))) =
  (let u := (t + h_centre c) / h_res c in if Rlt_dec u 0 then IZR (width s) + u else u, (- b + v_centre c) / v_res c).
Proof.
  intros Hl Hb Ht Ha. pose proof six_small as S6. assert (N : norm3 (scale l (- sin a * cos b, - sin b, cos a * cos b)) = l).
  { rewrite norm3_scale by lra. rewrite ray_norm. ring. }
  unfold scale in *. unfold lidar_project. rewrite N. destruct (Rlt_dec l (/ 10 ^ 6)) as [A|_]; [lra|]. cbn [fst].
  assert (C : 0 < cos b) by (apply cos_gt_0; lra).
  assert (S1 : - sin a = sin t /\ cos a = cos t).
  { replace a with (- t + 2 * IZR (- k) * PI) by (rewrite opp_IZR; lra). rewrite <- sin_neg.
    assert (PS : forall x m, sin (x + 2 * IZR m * PI) = sin x /\ cos (x + 2 * IZR m * PI) = cos x).
    { intros x m. destruct (Z_le_dec 0 m) as [M|M].
      - rewrite <- (Z2Nat.id m M), <- INR_IZR_INZ. split; [apply sin_period|apply cos_period].
      - assert (M' : (0 <= - m)%Z) by lia. assert (Q : x = x + 2 * IZR m * PI + 2 * INR (Z.to_nat (- m)) * PI).
        { rewrite INR_IZR_INZ, (Z2Nat.id _ M'), opp_IZR. ring. }
        split; [rewrite Q at 2; symmetry; apply sin_period|rewrite Q at 2; symmetry; apply cos_period]. }
    replace (- (- t + 2 * IZR (- k) * PI)) with (t + 2 * IZR k * PI) by (rewrite opp_IZR; ring).
    destruct (PS t k) as [-> _]. destruct (PS (- t) (- k)%Z) as [_ ->]. rewrite cos_neg. tauto. }
  destruct S1 as [S1 S2]. rewrite S1, S2.
  replace (l * (sin t * cos b) / l) with (cos b * sin t) by (field; lra). replace (l * (cos t * cos b) / l) with (cos b * cos t) by (field; lra).
  rewrite atan2_polar by assumption. replace (l * - sin b / l) with (sin (- b)) by (rewrite sin_neg; field; lra).
  rewrite asin_sin by lra. reflexivity.
Qed.
(** Projecting the ray of a pixel gives the pixel, for an image that covers the full circle and a horizontal centre in [-pi, pi). *)
Theorem nx_project_back_projection_partial c s e kp l : lidar_valid c -> 0 < IZR (width s) -> IZR (width s) * h_res c = 2 * PI ->
  - PI <= h_centre c < PI -> in_image (width s) (height s) kp -> - (PI / 2) < v_centre c - snd kp * v_res c < PI / 2 -> / 10 ^ 2 < l ->
  lidar_project c s e (scale l (fst (lidar_back_project c kp))) = (kp, KeypointVisible) /\ snd (lidar_back_project c kp) = true.
Proof.
  intros [Hh Hv] HW HE Hc Hk Hb Hl. pose proof six_small as S6. pose proof PI_RGT_0 as P. split; [|reflexivity]. rewrite lidar_back. cbn [fst].
  set (a := h_centre c - fst kp * h_res c) in *. set (b := v_centre c - snd kp * v_res c) in *.
  assert (L2 : / 10 ^ 6 < / 10 ^ 2) by (apply Rinv_lt_contravar; lra).
  assert (E : fst (lidar_project c s e (scale l (- sin a * cos b, - sin b, cos a * cos b))) = kp).
  { destruct kp as [u v]. destruct Hk as [[Hu Hu'] _]. cbn [fst snd] in *.
    assert (U : 0 <= u * h_res c < 2 * PI). { split; [nra|]. rewrite <- HE. apply Rmult_lt_compat_r; assumption. }
    destruct (Rle_lt_dec (- a) PI) as [A|A].
    - rewrite (lidar_project_ray c s e l a b (- a) 0); [|lra|exact Hb| |simpl; ring].
      + replace (- a + h_centre c) with (u * h_res c) by (unfold a; ring). replace (u * h_res c / h_res c) with u by (field; lra).
        cbv zeta. destruct (Rlt_dec u 0) as [B|_]; [lra|]. f_equal. unfold b. field. lra.
      + split; [unfold a; lra|exact A].
    - rewrite (lidar_project_ray c s e l a b (- a - 2 * PI) 1); [|lra|exact Hb| |ring].
      + replace (- a - 2 * PI + h_centre c) with ((u - IZR (width s)) * h_res c) by (unfold a; rewrite <- HE; ring).
        replace ((u - IZR (width s)) * h_res c / h_res c) with (u - IZR (width s)) by (field; lra).
        cbv zeta. destruct (Rlt_dec _ 0) as [_|B]; [|lra]. f_equal; [ring|]. unfold b. field. lra.
      + split; [lra|unfold a; lra]. }
  assert (N : norm3 (scale l (- sin a * cos b, - sin b, cos a * cos b)) = l). { rewrite norm3_scale by lra. rewrite ray_norm. ring. }
  revert E N. destruct (scale l (- sin a * cos b, - sin b, cos a * cos b)) as [[x y] z]. intros E N. unfold lidar_project in *. rewrite N in *.
  destruct (Rlt_dec l (/ 10 ^ 6)) as [B|_]; [lra|]. cbn [fst] in E. cbv zeta. rewrite E. f_equal. unfold lidar_status.
  destruct (Rlt_dec squared_minimum_depth _) as [_|B].
  - rewrite (proj2 (keypoint_visible_spec s kp) Hk). reflexivity.
  - exfalso. apply B. unfold norm3 in N. assert (Q : x * x + y * y + z * z = l * l). { rewrite <- N. symmetry. apply sqrt_sqrt. nra. }
    rewrite Q. unfold squared_minimum_depth. replace (/ 10 ^ 4) with (/ 10 ^ 2 * / 10 ^ 2) by field. assert (0 < / 10 ^ 2) by (apply Rinv_0_lt_compat; lra). nra.
Qed.
Print Assumptions nx_project_back_projection_partial.
(** The least distance is one centimetre. *)
Theorem nx_least_depth c s e p : snd (lidar_project c s e p) = ProjectionInvalid <-> norm3 p <= 1 / 100.
Proof.
  destruct p as [[x y] z]. unfold lidar_project. assert (Q : 0 <= x * x + y * y + z * z) by nra.
  assert (N : norm3 (x, y, z) * norm3 (x, y, z) = x * x + y * y + z * z) by (apply sqrt_sqrt; exact Q). assert (0 <= norm3 (x, y, z)) by apply sqrt_pos.
  destruct (Rlt_dec (norm3 (x, y, z)) (/ 10 ^ 6)) as [B|B]; cbn [snd].
  - split; [intros _|reflexivity]. lra.
  - cbv zeta. cbn [snd]. unfold lidar_status. assert (M : squared_minimum_depth = 1 / 100 * (1 / 100)) by (unfold squared_minimum_depth; lra). rewrite M, <- N.
    destruct (Rlt_dec (1 / 100 * (1 / 100)) _) as [L|L].
    + split; [destruct (keypoint_visible _ _); discriminate|]. intros K. nra.
    + split; [intros _; nra|reflexivity].
Qed.
Print Assumptions nx_least_depth.
(** A lidar with 1024 x 64 measurements, and a pixel of line 30. *)
Definition os1 : lidar := {| h_res := 2 * PI / 1024; v_res := / 100; h_centre := 0; v_centre := 3 / 10 |}.
Definition os1_size : image_size := {| width := 1024; height := 64 |}.
Example nx_case : lidar_valid os1 /\ IZR (width os1_size) * h_res os1 = 2 * PI /\ - PI <= h_centre os1 < PI /\
  in_image (width os1_size) (height os1_size) (700, 30) /\ - (PI / 2) < v_centre os1 - 30 * v_res os1 < PI / 2.
Proof.
  pose proof PI_RGT_0 as P. pose proof PI2_3_2. unfold lidar_valid, in_image. cbn. repeat split; try lra.
Qed.
(** With a horizontal centre of pi (the image centred on the optical axis) the first column comes back as the column [width], which is
    outside of the image. *)
Theorem nx_project_back_projection_refuted : exists c s kp, lidar_valid c /\ IZR (width s) * h_res c = 2 * PI /\ in_image (width s) (height s) kp /\
  - (PI / 2) < v_centre c - snd kp * v_res c < PI / 2 /\
  fst (lidar_project c s None (fst (lidar_back_project c kp))) = (IZR (width s), snd kp) /\
  snd (lidar_project c s None (fst (lidar_back_project c kp))) = KeypointOutsideImageBox.
Proof.
  pose (c := {| h_res := 2 * PI / 1024; v_res := / 100; h_centre := PI; v_centre := 3 / 10 |}).
  pose proof PI_RGT_0 as P. pose proof PI2_3_2 as P2. pose proof six_small as S6. exists c, os1_size, (0, 30).
  split; [split; cbn; lra|]. split; [cbn; lra|]. split; [unfold in_image; cbn; lra|]. split; [cbn; lra|].
  rewrite lidar_back. cbn [fst snd].
  set (a := h_centre c - 0 * h_res c). set (b := v_centre c - 30 * v_res c).
  assert (E : fst (lidar_project c os1_size None (- sin a * cos b, - sin b, cos a * cos b)) = (1024, 30)).
  { replace (- sin a * cos b, - sin b, cos a * cos b) with (scale 1 (- sin a * cos b, - sin b, cos a * cos b)) by (unfold scale; rewrite !Rmult_1_l; reflexivity).
    rewrite (lidar_project_ray c os1_size None 1 a b PI (-1)); [|lra|unfold b; cbn; lra|lra|unfold a; cbn; lra].
    cbn [h_centre c h_res v_centre v_res]. cbv zeta. replace ((PI + PI) / (2 * PI / 1024)) with 1024 by (field; lra).
    destruct (Rlt_dec 1024 0) as [B|_]; [lra|]. f_equal. unfold b. cbn. field. }
  split; [exact E|]. pose proof (ray_norm a b) as N. revert E. unfold lidar_project. rewrite N. destruct (Rlt_dec 1 _) as [B|_]; [lra|]. cbn [fst snd].
  intros E. rewrite E. unfold lidar_status. destruct (Rlt_dec squared_minimum_depth _) as [_|B].
  - destruct (keypoint_visible os1_size (1024, 30)) eqn:V; [|reflexivity]. apply keypoint_visible_spec in V. unfold in_image in V. cbn in V. lra.
  - exfalso. apply B. unfold norm3 in N. assert (Q : forall q, 0 <= q -> sqrt q = 1 -> q = 1). { intros q Hq Eq. rewrite <- (sqrt_sqrt q Hq), Eq. ring. }
    apply Q in N; [|exact (Rplus_le_le_0_compat _ _ (Rplus_le_le_0_compat _ _ (Rle_0_sqr _) (Rle_0_sqr _)) (Rle_0_sqr _))]. rewrite N.
    unfold squared_minimum_depth. rewrite <- Rinv_1. apply Rinv_lt_contravar; lra.
Qed.
Print Assumptions nx_project_back_projection_refuted.
(** With a horizontal centre above pi all pixels whose azimuth is wrapped upwards come back one image width to the right. *)
Theorem nx_wrong_above_pi c s e kp l : lidar_valid c -> IZR (width s) * h_res c = 2 * PI -> PI < h_centre c < 3 * PI ->
  0 <= fst kp -> fst kp * h_res c - h_centre c <= - PI -> - (PI / 2) < v_centre c - snd kp * v_res c < PI / 2 -> / 10 ^ 6 <= l ->
  fst (lidar_project c s e (scale l (fst (lidar_back_project c kp)))) = (fst kp + IZR (width s), snd kp).
Proof.
  intros [Hh Hv] HE Hc Hk Ha Hb Hl. pose proof PI_RGT_0 as P. rewrite lidar_back. cbn [fst].
  assert (U : 0 <= fst kp * h_res c) by (apply Rmult_le_pos; lra).
  assert (W0 : 0 < IZR (width s)). { apply (Rmult_lt_reg_r (h_res c)); lra. }
  rewrite (lidar_project_ray c s e l _ _ (fst kp * h_res c - h_centre c + 2 * PI) (-1)); [|lra|exact Hb|lra|ring].
  replace (fst kp * h_res c - h_centre c + 2 * PI + h_centre c) with ((fst kp + IZR (width s)) * h_res c) by (rewrite <- HE; ring).
  replace ((fst kp + IZR (width s)) * h_res c / h_res c) with (fst kp + IZR (width s)) by (field; lra).
  cbv zeta. destruct (Rlt_dec _ 0) as [B|_]; [lra|]. f_equal. field. lra.
Qed.
Print Assumptions nx_wrong_above_pi.
Example nx_wrong_above_pi_case : let c := {| h_res := 2 * PI / 1024; v_res := / 100; h_centre := 2 * PI; v_centre := 3 / 10 |} in
  lidar_valid c /\ IZR (width os1_size) * h_res c = 2 * PI /\ PI < h_centre c < 3 * PI /\ 100 * h_res c - h_centre c <= - PI /\
  - (PI / 2) < v_centre c - 30 * v_res c < PI / 2.
Proof. pose proof PI_RGT_0 as P. pose proof PI2_3_2. cbv zeta. unfold lidar_valid. cbn. repeat split; lra. Qed.
(** Straight above or below the sensor all columns come back as the same one. *)
Theorem nx_pole c s e kp kp' : lidar_valid c -> cos (v_centre c - snd kp * v_res c) = 0 -> snd kp' = snd kp ->
  fst (lidar_project c s e (fst (lidar_back_project c kp))) = fst (lidar_project c s e (fst (lidar_back_project c kp'))).
Proof. intros _ H E. rewrite !lidar_back. cbn [fst]. rewrite E, H, !Rmult_0_r. reflexivity. Qed.
Print Assumptions nx_pole.
Example nx_pole_case : let c := {| h_res := 2 * PI / 1024; v_res := PI / 64; h_centre := 0; v_centre := PI / 2 |} in
  lidar_valid c /\ cos (v_centre c - 0 * v_res c) = 0.
Proof. pose proof PI_RGT_0 as P. cbv zeta. unfold lidar_valid. cbn. rewrite Rmult_0_l, Rminus_0_r. split; [lra|apply cos_PI2]. Qed.

(** ** Delays *)
Lemma trunc_lt u w : 0 <= u < IZR w -> (0 <= trunc u < w)%Z.
Proof.
  intros [H0 H1]. unfold trunc. destruct (Rle_dec 0 u) as [_|A]; [|contradiction]. destruct (base_Int_part u) as [B1 B2].
  split.
  - assert (-1 < Int_part u)%Z; [|lia]. apply lt_IZR. simpl. lra.
  - apply lt_IZR. lra.
Qed.
(** For cameras that read out rows the maximal delay covers every keypoint in the image. *)
Theorem nx_max_delay_rows d s kp : (0 <= d)%Z -> in_image (width s) (height s) kp -> (0 <= row_delay d kp <= max_delay d s)%Z.
Proof. intros Hd [_ H]. apply trunc_lt in H. unfold row_delay, max_delay. split; nia. Qed.
Print Assumptions nx_max_delay_rows.
(** The lidar reads out columns; its own total covers every keypoint. *)
Theorem nx_max_delay_columns d s kp : (0 <= d)%Z -> in_image (width s) (height s) kp -> (0 <= column_delay d kp <= lidar_total_delay d s)%Z.
Proof. intros Hd [H _]. apply trunc_lt in H. unfold column_delay, lidar_total_delay. split; nia. Qed.
Print Assumptions nx_max_delay_columns.
(** But the maximal delay it reports through the camera interface does not: in every image that is wider than high by more than a
    pixel there is a keypoint with a larger delay. *)
Theorem nx_max_delay_lidar_refuted d s : (0 < d)%Z -> (0 < height s)%Z -> (height s + 1 < width s)%Z ->
  exists kp, in_image (width s) (height s) kp /\ (max_delay d s < column_delay d kp)%Z.
Proof.
  intros Hd Hh Hw. exists (IZR (width s - 1), 0). split.
  - unfold in_image. cbn [fst snd]. pose proof (IZR_le 0 (width s - 1) ltac:(lia)). pose proof (IZR_lt (width s - 1) (width s) ltac:(lia)). pose proof (IZR_lt 0 (height s) Hh). simpl in *. lra.
  - unfold max_delay, column_delay. cbn [fst]. assert (E : trunc (IZR (width s - 1)) = (width s - 1)%Z).
    { unfold trunc. pose proof (IZR_le 0 (width s - 1) ltac:(lia)) as L. destruct (Rle_dec 0 _) as [_|A]; [|contradiction].
      destruct (base_Int_part (IZR (width s - 1))) as [B1 B2]. apply le_IZR in B1. assert (width s - 1 < Int_part (IZR (width s - 1)) + 1)%Z; [|lia].
      apply lt_IZR. rewrite plus_IZR. lra. }
    rewrite E. nia.
Qed.
Print Assumptions nx_max_delay_lidar_refuted.
Example nx_max_delay_case : (0 < 50000)%Z /\ (0 < height os1_size)%Z /\ (height os1_size + 1 < width os1_size)%Z.
Proof. cbn. lia. Qed.

(** ** C73: external intrinsics *)
(** The projection ignores the intrinsics it is given. *)
Theorem nx_external_refuted : exists c e s p, lidar_valid c /\ lidar_valid e /\
  fst (lidar_project c s (Some e) p) <> fst (lidar_project e s None p).
Proof.
  exists os1, {| h_res := 4 * PI / 1024; v_res := / 100; h_centre := 0; v_centre := 3 / 10 |}, os1_size, (1, 0, 0).
  pose proof PI_RGT_0 as P. pose proof six_small as S6. split; [split; cbn; lra|]. split; [split; cbn; lra|].
  assert (N : norm3 (1, 0, 0) = 1). { unfold norm3. replace (1 * 1 + 0 * 0 + 0 * 0) with 1 by ring. apply sqrt_1. }
  unfold lidar_project. rewrite N. destruct (Rlt_dec 1 _) as [B|_]; [lra|]. cbn [fst h_res h_centre os1].
  assert (A : atan2 (1 / 1) (0 / 1) = PI / 2).
  { unfold atan2. destruct (Rlt_dec 0 (0 / 1)) as [B|_]; [lra|]. destruct (Rlt_dec (0 / 1) 0) as [B|_]; [lra|]. destruct (Rlt_dec 0 (1 / 1)) as [_|B]; [reflexivity|lra]. }
  rewrite A. replace ((PI / 2 + 0) / (2 * PI / 1024)) with 256 by (field; lra). replace ((PI / 2 + 0) / (4 * PI / 1024)) with 128 by (field; lra).
  destruct (Rlt_dec 256 0) as [B|_]; [lra|]. destruct (Rlt_dec 128 0) as [B|_]; [lra|]. intros Q. injection Q. lra.
Qed.
Print Assumptions nx_external_refuted.
