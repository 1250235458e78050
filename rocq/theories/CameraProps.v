(** Properties C45 (pinhole), C46 (unified projection) and C48 (homogeneous points). *)
From Coq Require Import Reals Lra Psatz ZArith Bool.
From Coquelicot Require Import Coquelicot.
From Verif Require Import CalculusSpec CalculusFacts DistortionModel DistortionSpec DistortionProofs DistortionProps.
From Verif Require Import CameraModel CameraSpec CameraProofs.
Local Open Scope R_scope.

(** The lenses of DistortionModel.v as arguments of a camera. *)
Definition null_lens : distortion := {| distort := null_distort; distort_jacobian := null_jacobian; undistort := null_undistort |}.
Definition fisheye_lens (w : R) : distortion :=
  {| distort := fisheye_distort w; distort_jacobian := fisheye_jacobian w; undistort := fisheye_undistort w |}.
Definition radtan_lens (k1 k2 p1 p2 : R) (und : vec2 -> vec2) : distortion :=
  {| distort := radtan_distort k1 k2 p1 p2; distort_jacobian := radtan_jacobian k1 k2 p1 p2; undistort := und |}.
Definition equi_lens (k1 k2 k3 k4 : R) (und : vec2 -> vec2) : distortion :=
  {| distort := equi_distort k1 k2 k3 k4; distort_jacobian := equi_jacobian k1 k2 k3 k4; undistort := und |}.
Lemma min_depth_pos : 0 < minimum_depth < 1.
Proof. unfold minimum_depth. split; [apply Rinv_0_lt_compat; lra|]. rewrite <- Rinv_1. apply Rinv_lt_contravar; lra. Qed.

(** ** C45 *)
(** Projecting any positive multiple of the back-projected ray gives the keypoint again, for every lens whose distort
    undoes its undistort at that keypoint; the status is the expected one. *)
Theorem px_project_back_projection D c s kp l : pinhole_valid c -> 0 < l ->
  (let q := ((fst kp - p_cu c) / p_fu c, (snd kp - p_cv c) / p_fv c) in distort D (undistort D q) = q) ->
  exists st, pinhole_project D c s (scale l (fst (pinhole_back_project D c kp))) = (Some kp, st) /\
    snd (pinhole_back_project D c kp) = true /\
    (st = KeypointVisible <-> in_image (width s) (height s) kp /\ minimum_depth < l).
Proof.
  intros (Hu & Hv & _) Hl HD. pose proof (pinhole_roundtrip D c kp ltac:(lra) ltac:(lra) HD) as E.
  assert (Z1 : snd (fst (pinhole_back_project D c kp)) = 1) by reflexivity.
  pose proof (pinhole_keypoint_scale D c (fst (pinhole_back_project D c kp)) l ltac:(lra) ltac:(lra)) as S.
  assert (ZL : snd (scale l (fst (pinhole_back_project D c kp))) = l). { unfold pinhole_back_project, scale. cbn. ring. }
  unfold pinhole_project. rewrite ZL. destruct (Req_EM_T l 0) as [A|_]; [lra|]. rewrite S, E. eexists. split; [reflexivity|]. split; [reflexivity|].
  destruct (pinhole_status_spec s kp (scale l (fst (pinhole_back_project D c kp)))) as [H _]. rewrite ZL in H. exact H.
Qed.
Print Assumptions px_project_back_projection.
(** Back-projecting the projection of a point in front of the camera gives its ray. *)
Theorem px_back_project_projection D c s x y z : pinhole_valid c -> 0 < z ->
  undistort D (distort D (x / z, y / z)) = (x / z, y / z) ->
  exists kp st ray, pinhole_project D c s (x, y, z) = (Some kp, st) /\ pinhole_back_project D c kp = (ray, true) /\ (x, y, z) = scale z ray.
Proof.
  intros (Hu & Hv & _) Hz HD. unfold pinhole_project. cbn [snd]. destruct (Req_EM_T z 0) as [A|_]; [lra|].
  eexists _, _, _. split; [reflexivity|]. split.
  - rewrite (surjective_pairing (pinhole_back_project D c _)). reflexivity.
  - symmetry. apply (pinhole_back D c (x, y, z)); cbn [fst snd]; [lra|lra|lra|exact HD].
Qed.
Print Assumptions px_back_project_projection.
(** The status tells where the keypoint is and on which side of the camera the point is. *)
Theorem px_status D c s p kp st : pinhole_project D c s p = (Some kp, st) ->
  (st = KeypointVisible <-> in_image (width s) (height s) kp /\ minimum_depth < snd p) /\
  (st = KeypointOutsideImageBox <-> ~ in_image (width s) (height s) kp /\ minimum_depth < snd p) /\
  (st = PointBehindCamera <-> snd p < 0) /\
  (st = ProjectionInvalid <-> 0 < snd p <= minimum_depth).
Proof.
  unfold pinhole_project. destruct (Req_EM_T (snd p) 0) as [A|A]; [discriminate|]. intros H. injection H as <- <-.
  destruct (pinhole_status_spec s (pinhole_keypoint D c p) p) as (H1 & H2 & H3 & H4). split; [exact H1|]. split; [exact H2|]. split; [exact H3|].
  rewrite H4. split; intros Q; lra.
Qed.
Print Assumptions px_status.
(** The least depth of a point that has a projection, in metres. *)
Theorem px_least_depth D c s p : (snd (pinhole_project D c s p) = ProjectionInvalid <-> 0 <= snd p <= 1 / 10000000000) /\ (snd (pinhole_project D c s p) = PointBehindCamera <-> snd p < 0).
Proof.
  assert (M : minimum_depth = 1 / 10000000000) by (unfold minimum_depth; lra).
  destruct (pinhole_project D c s p) as [[kp|] st] eqn:E.
  - destruct (px_status D c s p kp st E) as (_ & _ & B & I). rewrite M in I. cbn [snd].
    assert (snd p <> 0). { intros Z. unfold pinhole_project in E. destruct (Req_EM_T (snd p) 0); [discriminate|contradiction]. }
    split; [|exact B]. rewrite I. split; intros Q; lra.
  - unfold pinhole_project in E. destruct (Req_EM_T (snd p) 0) as [Z|Z]; [|discriminate]. injection E as <-. cbn [snd]. rewrite Z. split; (split; [intros Q; first [lra|discriminate]|intros Q; first [reflexivity|lra]]).
Qed.
Print Assumptions px_least_depth.
(** There is a finite keypoint for every point off the camera plane, and none on it. *)
Theorem px_finite D c s p : (fst (pinhole_project D c s p) = None <-> snd p = 0) /\ (snd p = 0 -> snd (pinhole_project D c s p) = ProjectionInvalid).
Proof. unfold pinhole_project. destruct (Req_EM_T (snd p) 0); cbn; repeat split; intros; congruence. Qed.
Print Assumptions px_finite.
(** The three Jacobians are the derivatives of the keypoint, provided those of the lens are. *)
Theorem px_jacobian_point D c p : snd p <> 0 ->
  (let q := (fst (fst p) / snd p, snd (fst p) / snd p) in is_jacobian (distort D) q (distort_jacobian D q)) ->
  is_jacobian3 (pinhole_keypoint D c) p (pinhole_jacobian D c p).
Proof. apply pinhole_jacobian_ok. Qed.
Print Assumptions px_jacobian_point.
Theorem px_jacobian_intrinsics D c p : is_jacobian4
  (fun fu fv cu cv => pinhole_keypoint D {| p_fu := fu; p_fv := fv; p_cu := cu; p_cv := cv |} p)
  (p_fu c) (p_fv c) (p_cu c) (p_cv c) (pinhole_intrinsics_jacobian D p).
Proof. apply pinhole_intrinsics_ok. Qed.
Print Assumptions px_jacobian_intrinsics.
(** In full for the radial-tangential lens, at every point off the camera plane. *)
Theorem px_radtan_jacobians k1 k2 p1 p2 und c p : snd p <> 0 ->
  is_jacobian3 (pinhole_keypoint (radtan_lens k1 k2 p1 p2 und) c) p (pinhole_jacobian (radtan_lens k1 k2 p1 p2 und) c p) /\
  is_jacobian4 (fun k1 k2 p1 p2 => pinhole_keypoint (radtan_lens k1 k2 p1 p2 und) c p) k1 k2 p1 p2
    (pinhole_distortion_jacobian radtan_param_jacobian c p).
Proof.
  intros Hz. split; [apply px_jacobian_point; [exact Hz|apply radtan_jacobian_ok]|].
  apply (pinhole_distortion_ok radtan_distort radtan_param_jacobian (radtan_jacobian k1 k2 p1 p2) und c p k1 k2 p1 p2). intros q _. apply radtan_param_ok.
Qed.
Print Assumptions px_radtan_jacobians.
(** And for the equidistant lens, off the optical axis. *)
Theorem px_equi_jacobians k1 k2 k3 k4 und c p : snd p <> 0 -> / 10 ^ 8 < radius (fst (fst p) / snd p, snd (fst p) / snd p) ->
  is_jacobian3 (pinhole_keypoint (equi_lens k1 k2 k3 k4 und) c) p (pinhole_jacobian (equi_lens k1 k2 k3 k4 und) c p) /\
  is_jacobian4 (fun k1 k2 k3 k4 => pinhole_keypoint (equi_lens k1 k2 k3 k4 und) c p) k1 k2 k3 k4
    (pinhole_distortion_jacobian equi_param_jacobian c p).
Proof.
  intros Hz Hr. split; [apply px_jacobian_point; [exact Hz|apply equi_jacobian_ok; exact Hr]|].
  apply (pinhole_distortion_ok equi_distort equi_param_jacobian (equi_jacobian k1 k2 k3 k4) und c p k1 k2 k3 k4). intros q ->. apply equi_param_ok. unfold Rdiv in *. rewrite !Rmult_1_l. exact Hr.
Qed.
Print Assumptions px_equi_jacobians.
(** Without distortion all hypotheses on the lens hold. *)
Theorem px_no_distortion c s : pinhole_valid c ->
  (forall kp l, 0 < l -> fst (pinhole_project null_lens c s (scale l (fst (pinhole_back_project null_lens c kp)))) = Some kp) /\
  (forall x y z, 0 < z -> exists kp, fst (pinhole_project null_lens c s (x, y, z)) = Some kp /\ scale z (fst (pinhole_back_project null_lens c kp)) = (x, y, z)) /\
  (forall p, snd p <> 0 -> is_jacobian3 (pinhole_keypoint null_lens c) p (pinhole_jacobian null_lens c p)).
Proof.
  intros Hc. split; [|split].
  - intros kp l Hl. destruct (px_project_back_projection null_lens c s kp l Hc Hl eq_refl) as (st & -> & _). reflexivity.
  - intros x y z Hz. destruct (px_back_project_projection null_lens c s x y z Hc Hz eq_refl) as (kp & st & ray & -> & E & F).
    exists kp. split; [reflexivity|]. rewrite E. symmetry. exact F.
  - intros p Hp. apply px_jacobian_point; [exact Hp|]. apply lx_null.
Qed.
Print Assumptions px_no_distortion.
(** With the fisheye lens: points seen under less than 89 degrees (and outside the inner disc) are recovered. *)
Theorem px_fisheye w c s x y z : / 2 <= w <= 3 / 2 -> pinhole_valid c -> 0 < z ->
  / 10 ^ 5 <= radius (x / z, y / z) * radius (x / z, y / z) -> 2 * tan (w / 2) * radius (x / z, y / z) <= tan max_valid_angle ->
  exists kp st ray, pinhole_project (fisheye_lens w) c s (x, y, z) = (Some kp, st) /\ pinhole_back_project (fisheye_lens w) c kp = (ray, true) /\ (x, y, z) = scale z ray.
Proof.
  intros Hw Hc Hz Hr Ha. apply px_back_project_projection; [exact Hc|exact Hz|]. apply lx_fisheye_inverse_partial; assumption.
Qed.
Print Assumptions px_fisheye.
Definition test_pinhole : pinhole := {| p_fu := 400; p_fv := 300; p_cu := 320; p_cv := 240 |}.
Definition vga : image_size := {| width := 640; height := 480 |}.
Example px_valid_case : pinhole_valid test_pinhole.
Proof. unfold pinhole_valid. cbn. lra. Qed.
Example px_case : pinhole_keypoint null_lens test_pinhole (1, 2, 4) = (420, 390) /\ pinhole_status vga (420, 390) (1, 2, 4) = KeypointVisible.
Proof.
  split.
  - unfold pinhole_keypoint. cbn. f_equal; field.
  - apply pinhole_status_spec. pose proof min_depth_pos. unfold in_image. cbn. lra.
Qed.
Example px_outside_case : pinhole_status vga (700, 100) (1, 2, 4) = KeypointOutsideImageBox /\ pinhole_status vga (300, 100) (1, 2, -4) = PointBehindCamera.
Proof. pose proof min_depth_pos. split; apply pinhole_status_spec; cbn; [unfold in_image; cbn; lra|lra]. Qed.

(** ** C46 *)
(** Projecting a positive multiple of the lifted ray gives the keypoint, strictly inside the liftable region. *)
Theorem ux_project_back_projection_partial D c s kp l : unified_valid c -> 0 < l ->
  (let q := ((fst kp - u_cu c) / u_fu c, (snd kp - u_cv c) / u_fv c) in distort D (undistort D q) = q) ->
  (let q := undistort D ((fst kp - u_cu c) / u_fu c, (snd kp - u_cv c) / u_fv c) in
     u_xi c <= 1 \/ fst q * fst q + snd q * snd q < 1 / (u_xi c * u_xi c - 1)) ->
  exists st, unified_project D c s (scale l (fst (unified_back_project D c kp))) = (kp, st) /\
    snd (unified_back_project D c kp) = true /\
    (st = KeypointVisible <-> in_image (width s) (height s) kp /\ minimum_depth * minimum_depth < sqnorm (scale l (fst (unified_back_project D c kp)))).
Proof.
  intros (Hx & Hu & Hv & _) Hl HD Hr. destruct (unified_roundtrip D c kp Hx ltac:(lra) ltac:(lra) HD Hr) as [V E].
  unfold unified_project. rewrite unified_keypoint_scale, valid_proj_scale, E, V by lra. eexists. split; [reflexivity|]. split.
  - unfold unified_back_project. cbn [snd]. cbv zeta in Hr. unfold liftable. destruct (Rle_dec (u_xi c) 1) as [A|A]; [reflexivity|].
    destruct (Rle_dec _ _) as [B|B]; [reflexivity|]. exfalso. destruct Hr as [Hr|Hr]; [contradiction|]. apply B. lra.
  - destruct (unified_status_spec s kp (scale l (fst (unified_back_project D c kp)))) as [H _]. exact H.
Qed.
Print Assumptions ux_project_back_projection_partial.
(** On the edge of that region backProject3 reports success, but the ray cannot be projected: the keypoint comes back as (0, 0). *)
Theorem ux_project_back_projection_refuted : exists D c s kp, unified_valid c /\ (forall q, distort D (undistort D q) = q) /\
  unified_liftable D c kp = true /\ snd (unified_back_project D c kp) = true /\
  unified_project D c s (fst (unified_back_project D c kp)) = ((0, 0), ProjectionInvalid) /\ kp <> (0, 0).
Proof.
  pose (c := {| u_xi := sqrt 2; u_fu := 100; u_fv := 100; u_cu := 300; u_cv := 200 |}).
  assert (S2 : sqrt 2 * sqrt 2 = 2) by (apply sqrt_sqrt; lra). assert (S1 : 1 < sqrt 2) by (rewrite <- sqrt_1; apply sqrt_lt_1_alt; lra).
  exists null_lens, c, vga, (400, 200). split; [unfold unified_valid; cbn; lra|]. split; [reflexivity|].
  destruct (unified_edge null_lens c (400, 200)) as [E1 E2]; [exact S1| |].
  { cbn. rewrite S2. field. }
  split; [|split; [exact E1|]].
  - unfold unified_liftable, liftable. cbn [u_xi u_fu u_fv u_cu u_cv c null_lens undistort null_undistort fst snd].
    destruct (Rle_dec (sqrt 2) 1) as [A|_]; [lra|]. destruct (Rle_dec _ _) as [B|B]; [reflexivity|]. exfalso. apply B. rewrite S2. lra.
  - split; [|intros Q; injection Q; lra]. unfold unified_project. rewrite E2. f_equal.
    unfold unified_keypoint. destruct (fst (unified_back_project null_lens c (400, 200))) as [[x y] z]. rewrite E2. reflexivity.
Qed.
Print Assumptions ux_project_back_projection_refuted.
(** Lifting the keypoint of every point that has a valid projection gives its ray. *)
Theorem ux_back_project_projection D c s p : unified_valid c -> unified_valid_proj (u_xi c) p = true ->
  (let k := snd p + u_xi c * norm3 p in let q := (fst (fst p) / k, snd (fst p) / k) in undistort D (distort D q) = q) ->
  exists l ray, 0 < l /\ unified_back_project D c (fst (unified_project D c s p)) = (ray, true) /\ p = scale l ray.
Proof.
  intros (Hx & Hu & Hv & _) V HD. destruct (unified_back D c p Hx ltac:(lra) ltac:(lra) V HD) as [E1 E2].
  exists (snd p + u_xi c * norm3 p), (fst (unified_back_project D c (unified_keypoint D c p))). split; [apply (valid_proj_pos _ _ Hx V)|]. split.
  - unfold unified_project. cbn [fst]. rewrite <- E2. apply surjective_pairing.
  - symmetry. exact E1.
Qed.
Print Assumptions ux_back_project_projection.
(** The status of a projection. *)
Theorem ux_status D c s p kp st : unified_project D c s p = (kp, st) ->
  (st = KeypointVisible <-> unified_valid_proj (u_xi c) p = true /\ in_image (width s) (height s) kp /\ minimum_depth * minimum_depth < sqnorm p) /\
  (st = KeypointOutsideImageBox <-> unified_valid_proj (u_xi c) p = true /\ ~ in_image (width s) (height s) kp /\ minimum_depth * minimum_depth < sqnorm p) /\
  st <> PointBehindCamera.
Proof.
  unfold unified_project. intros H. injection H as <- <-.
  destruct (unified_status_spec s (unified_keypoint D c p) p) as (H1 & H2 & _ & H4).
  destruct (unified_valid_proj (u_xi c) p).
  - split; [rewrite H1; tauto|]. split; [rewrite H2; tauto|exact H4].
  - split; [split; [discriminate|intros [Q _]; discriminate Q]|]. split; [split; [discriminate|intros [Q _]; discriminate Q]|discriminate].
Qed.
Print Assumptions ux_status.
(** The least distance of a point that has a projection: its square is compared. *)
Theorem ux_least_depth D c s p : let st := snd (unified_project D c s p) in
  (st = KeypointVisible \/ st = KeypointOutsideImageBox <-> unified_valid_proj (u_xi c) p = true /\ 1 / 100000000000000000000 < sqnorm p) /\
  (st = ProjectionInvalid <-> ~ (unified_valid_proj (u_xi c) p = true /\ 1 / 100000000000000000000 < sqnorm p)).
Proof.
  cbv zeta. assert (M : minimum_depth * minimum_depth = 1 / 100000000000000000000) by (unfold minimum_depth; lra).
  destruct (unified_project D c s p) as [kp st] eqn:E. destruct (ux_status D c s p kp st E) as (A & B & C). rewrite M in A, B. cbn [snd].
  assert (K : st = KeypointVisible \/ st = KeypointOutsideImageBox <-> unified_valid_proj (u_xi c) p = true /\ 1 / 100000000000000000000 < sqnorm p).
  { split; [intros [Q|Q]; [apply A in Q|apply B in Q]; tauto|]. intros [V L]. destruct (keypoint_visible s kp) eqn:I.
    - left. apply A. apply keypoint_visible_spec in I. tauto.
    - right. apply B. split; [exact V|]. split; [|exact L]. intros J. apply keypoint_visible_spec in J. congruence. }
  split; [exact K|]. rewrite <- K. clear E A B K. destruct st; split; intros Q; try reflexivity; try discriminate; try contradiction; try (intros [R|R]; discriminate R); exfalso; apply Q; auto.
Qed.
Print Assumptions ux_least_depth.
(** The Jacobians of a valid projection are the derivatives, provided those of the lens are. *)
Theorem ux_jacobian_point D c p : 0 <= u_xi c -> unified_valid_proj (u_xi c) p = true ->
  (let k := snd p + u_xi c * norm3 p in let q := (fst (fst p) / k, snd (fst p) / k) in is_jacobian (distort D) q (distort_jacobian D q)) ->
  is_jacobian3 (unified_keypoint D c) p (unified_jacobian D c p).
Proof. apply unified_jacobian_ok. Qed.
Print Assumptions ux_jacobian_point.
Theorem ux_jacobian_intrinsics D c p : 0 <= u_xi c -> unified_valid_proj (u_xi c) p = true ->
  (let k := snd p + u_xi c * norm3 p in let q := (fst (fst p) / k, snd (fst p) / k) in is_jacobian (distort D) q (distort_jacobian D q)) ->
  is_jacobian5 (fun xi fu fv cu cv => unified_keypoint D {| u_xi := xi; u_fu := fu; u_fv := fv; u_cu := cu; u_cv := cv |} p)
    (u_xi c) (u_fu c) (u_fv c) (u_cu c) (u_cv c) (unified_intrinsics_jacobian D c p).
Proof. apply unified_intrinsics_ok. Qed.
Print Assumptions ux_jacobian_intrinsics.
Theorem ux_radtan_jacobians k1 k2 p1 p2 und c p : 0 <= u_xi c -> unified_valid_proj (u_xi c) p = true ->
  is_jacobian3 (unified_keypoint (radtan_lens k1 k2 p1 p2 und) c) p (unified_jacobian (radtan_lens k1 k2 p1 p2 und) c p) /\
  is_jacobian4 (fun k1 k2 p1 p2 => unified_keypoint (radtan_lens k1 k2 p1 p2 und) c p) k1 k2 p1 p2
    (unified_distortion_jacobian radtan_param_jacobian c p).
Proof.
  intros Hx V. split; [apply ux_jacobian_point; [exact Hx|exact V|apply radtan_jacobian_ok]|].
  apply (unified_distortion_ok radtan_distort radtan_param_jacobian (radtan_jacobian k1 k2 p1 p2) und c p k1 k2 p1 p2 V). intros q _. apply radtan_param_ok.
Qed.
Print Assumptions ux_radtan_jacobians.
Definition test_unified : unified := {| u_xi := 9 / 10; u_fu := 400; u_fv := 300; u_cu := 320; u_cv := 240 |}.
Example ux_valid_case : unified_valid test_unified /\ unified_valid_proj (u_xi test_unified) (2, 3, 6) = true.
Proof.
  split; [unfold unified_valid; cbn; lra|]. apply valid_proj_spec. cbn [u_xi test_unified snd]. unfold fov_parameter, norm3.
  replace (2 * 2 + 3 * 3 + 6 * 6) with (7 * 7) by ring. rewrite sqrt_square by lra. destruct (Rle_dec _ _); lra.
Qed.
(** A point behind the image plane is still projected by a camera with a wide field of view. *)
Example ux_wide_case : unified_valid_proj (u_xi test_unified) (2, 6, -3) = true /\ fst (unified_project null_lens test_unified vga (2, 6, -3)) = (320 + 400 * 2 / (33 / 10), 240 + 300 * 6 / (33 / 10)).
Proof.
  assert (N : norm3 (2, 6, -3) = 7). { unfold norm3. replace (2 * 2 + 6 * 6 + -3 * -3) with (7 * 7) by ring. apply sqrt_square. lra. }
  assert (V : unified_valid_proj (u_xi test_unified) (2, 6, -3) = true).
  { apply valid_proj_spec. rewrite N. cbn [u_xi test_unified snd]. unfold fov_parameter. destruct (Rle_dec _ _); lra. }
  split; [exact V|]. unfold unified_project, unified_keypoint. rewrite V, N. cbn. f_equal; field.
Qed.

(** ** C48 *)
Lemma euclidean_scale l p : l <> 0 -> snd p <> 0 -> exists k, 0 < k /\ euclidean_part (scale4 l p) = scale k (euclidean_part p).
Proof.
  destruct p as [[[x y] z] w]. cbn [snd]. intros Hl Hw. unfold euclidean_part, scale4.
  destruct (Rtotal_order l 0) as [L|[L|L]]; [|contradiction|].
  - exists (- l). split; [lra|]. destruct (Rlt_dec (l * w) 0) as [A|A], (Rlt_dec w 0) as [B|B]; cbn [scale].
    + exfalso. nra.
    + apply f_equal2; [apply f_equal2|]; ring.
    + apply f_equal2; [apply f_equal2|]; ring.
    + exfalso. assert (w < 0 \/ 0 < w) as [C|C] by lra; nra.
  - exists l. split; [lra|]. destruct (Rlt_dec (l * w) 0) as [A|A], (Rlt_dec w 0) as [B|B]; cbn [scale].
    + apply f_equal2; [apply f_equal2|]; ring.
    + exfalso. assert (w < 0 \/ 0 < w) as [C|C] by lra; nra.
    + exfalso. nra.
    + reflexivity.
Qed.
(** The keypoint does not depend on the scale of a finite homogeneous point: pinhole, for points off the camera plane. *)
Theorem zx_pinhole_invariant D c l p : l <> 0 -> snd p <> 0 -> snd (euclidean_part p) <> 0 ->
  project4 (pinhole_keypoint D c) (scale4 l p) = project4 (pinhole_keypoint D c) p.
Proof.
  intros Hl Hw Hz. destruct (euclidean_scale l p Hl Hw) as (k & Hk & E). unfold project4. rewrite E. apply pinhole_keypoint_scale; [lra|exact Hz].
Qed.
Print Assumptions zx_pinhole_invariant.
(** And the unified camera. *)
Theorem zx_unified_invariant D c l p : 0 <= u_xi c -> l <> 0 -> snd p <> 0 ->
  project4 (unified_keypoint D c) (scale4 l p) = project4 (unified_keypoint D c) p.
Proof.
  intros Hx Hl Hw. destruct (euclidean_scale l p Hl Hw) as (k & Hk & E). unfold project4. rewrite E. apply unified_keypoint_scale; [exact Hk|exact Hx].
Qed.
Print Assumptions zx_unified_invariant.
(** The status is also the same if both representatives are deeper than the minimal depth. *)
Theorem zx_pinhole_status_partial D c s l p : l <> 0 -> snd p <> 0 ->
  minimum_depth < snd (euclidean_part p) -> minimum_depth < snd (euclidean_part (scale4 l p)) ->
  project4 (pinhole_project D c s) (scale4 l p) = project4 (pinhole_project D c s) p.
Proof.
  intros Hl Hw H1 H2. pose proof min_depth_pos. pose proof (zx_pinhole_invariant D c l p Hl Hw ltac:(lra)) as E. unfold project4 in *. unfold pinhole_project.
  destruct (Req_EM_T (snd (euclidean_part p)) 0) as [A|_]; [lra|]. destruct (Req_EM_T (snd (euclidean_part (scale4 l p))) 0) as [A|_]; [lra|].
  rewrite E. f_equal. unfold pinhole_status. destruct (Rlt_dec _ (snd (euclidean_part p))) as [_|A]; [|contradiction].
  destruct (Rlt_dec _ (snd (euclidean_part (scale4 l p)))) as [_|A]; [reflexivity|contradiction].
Qed.
Print Assumptions zx_pinhole_status_partial.
(** In general the status depends on the scale: the same point is visible or invalid. *)
Theorem zx_status_refuted : exists D c s l p, l <> 0 /\ snd p <> 0 /\
  snd (project4 (pinhole_project D c s) p) = KeypointVisible /\ snd (project4 (pinhole_project D c s) (scale4 l p)) = ProjectionInvalid.
Proof.
  exists null_lens, test_pinhole, vga, (minimum_depth / 2), (0, 0, 1, 1). pose proof min_depth_pos.
  split; [lra|]. split; [cbn; lra|]. unfold project4, euclidean_part, scale4.
  destruct (Rlt_dec 1 0) as [A|_]; [lra|]. destruct (Rlt_dec (minimum_depth / 2 * 1) 0) as [A|_]; [lra|].
  unfold pinhole_project. cbn [snd]. destruct (Req_EM_T 1 0) as [A|_]; [lra|]. destruct (Req_EM_T (minimum_depth / 2 * 1) 0) as [A|_]; [lra|]. cbn [snd].
  split; apply pinhole_status_spec; cbn [snd]; [|lra]. split; [|lra]. unfold in_image, pinhole_keypoint. cbn. lra.
Qed.
Print Assumptions zx_status_refuted.
(** The Jacobian is right for points with a positive fourth coordinate, whatever the camera. *)
Theorem zx_jacobian_partial f J x y z w : 0 < w -> is_jacobian3 f (x, y, z) (J (x, y, z)) ->
  is_jacobian_h (project4 f) (x, y, z, w) (project4_jacobian J (x, y, z, w)).
Proof.
  intros Hw HJ. unfold is_jacobian_h, project4_jacobian, project4, euclidean_part. destruct (Rlt_dec w 0) as [A|_]; [lra|].
  unfold is_jacobian3 in HJ. destruct (J (x, y, z)) as [[[a b] c] [[a' b'] c']]. destruct HJ as [H0 H1].
  split; intros X Y Z W t dX dY dZ dW HX HY HZ HWd EX EY EZ EW.
  - eapply der_near with (P := fun s => 0 < W s) (f := fun s => fst (f (X s, Y s, Z s))).
    + eapply near_gt; [exact HWd|rewrite EW; exact Hw].
    + intros s Hs. cbv beta in Hs. destruct (Rlt_dec (W s) 0) as [A|_]; [lra|reflexivity].
    + eapply der_eq; [exact (H0 X Y Z t dX dY dZ HX HY HZ EX EY EZ)|ring].
  - eapply der_near with (P := fun s => 0 < W s) (f := fun s => snd (f (X s, Y s, Z s))).
    + eapply near_gt; [exact HWd|rewrite EW; exact Hw].
    + intros s Hs. cbv beta in Hs. destruct (Rlt_dec (W s) 0) as [A|_]; [lra|reflexivity].
    + eapply der_eq; [exact (H1 X Y Z t dX dY dZ HX HY HZ EX EY EZ)|ring].
Qed.
Print Assumptions zx_jacobian_partial.
(** For a negative fourth coordinate the derivative is the negative of what is reported. *)
Theorem zx_jacobian_negated f J x y z w : w < 0 -> is_jacobian3 f (- x, - y, - z) (J (- x, - y, - z)) ->
  is_jacobian_h (project4 f) (x, y, z, w)
    (let '((a, b, c, d), (a', b', c', d')) := project4_jacobian J (x, y, z, w) in ((- a, - b, - c, - d), (- a', - b', - c', - d'))).
Proof.
  intros Hw HJ. unfold is_jacobian_h, project4_jacobian, project4, euclidean_part. destruct (Rlt_dec w 0) as [_|A]; [|contradiction].
  unfold is_jacobian3 in HJ. destruct (J (- x, - y, - z)) as [[[a b] c] [[a' b'] c']]. destruct HJ as [H0 H1].
  split; intros X Y Z W t dX dY dZ dW HX HY HZ HWd EX EY EZ EW.
  - eapply der_near with (P := fun s => W s < 0) (f := fun s => fst (f (- X s, - Y s, - Z s))).
    + eapply near_lt; [exact HWd|rewrite EW; exact Hw].
    + intros s Hs. cbv beta in Hs. destruct (Rlt_dec (W s) 0) as [_|A]; [reflexivity|contradiction].
    + eapply der_eq; [apply (H0 (fun s => - X s) (fun s => - Y s) (fun s => - Z s) t (- dX) (- dY) (- dZ));
        [apply der_opp; exact HX|apply der_opp; exact HY|apply der_opp; exact HZ|cbv beta; congruence|cbv beta; congruence|cbv beta; congruence]|ring].
  - eapply der_near with (P := fun s => W s < 0) (f := fun s => snd (f (- X s, - Y s, - Z s))).
    + eapply near_lt; [exact HWd|rewrite EW; exact Hw].
    + intros s Hs. cbv beta in Hs. destruct (Rlt_dec (W s) 0) as [_|A]; [reflexivity|contradiction].
    + eapply der_eq; [apply (H1 (fun s => - X s) (fun s => - Y s) (fun s => - Z s) t (- dX) (- dY) (- dZ));
        [apply der_opp; exact HX|apply der_opp; exact HY|apply der_opp; exact HZ|cbv beta; congruence|cbv beta; congruence|cbv beta; congruence]|ring].
Qed.
Print Assumptions zx_jacobian_negated.
(** So the Jacobian has the wrong sign, e.g. for the point (0, 0, -1, -1) of an undistorted pinhole camera. *)
Theorem zx_jacobian_refuted : exists D c p, snd p <> 0 /\ ~ is_jacobian_h (project4 (pinhole_keypoint D c)) p (project4_jacobian (pinhole_jacobian D c) p).
Proof.
  exists null_lens, test_pinhole, (0, 0, -1, -1). split; [cbn; lra|]. intros H.
  assert (G := zx_jacobian_negated (pinhole_keypoint null_lens test_pinhole) (pinhole_jacobian null_lens test_pinhole) 0 0 (-1) (-1) ltac:(lra)).
  unfold is_jacobian_h in *. destruct (project4_jacobian _ _) as [[[[a b] c] d] [[[a' b'] c'] d']] eqn:E.
  destruct G as [G _]. { apply pinhole_jacobian_ok; [cbn; lra|]. cbn [fst snd]. apply lx_null. }
  destruct H as [H _].
  assert (A1 : is_derive (fun s => fst (project4 (pinhole_keypoint null_lens test_pinhole) (s, 0, -1, -1))) 0 (a * 1 + b * 0 + c * 0 + d * 0)).
  { apply (H (fun s => s) (fun _ => 0) (fun _ => -1) (fun _ => -1)); try apply der_const; try reflexivity. apply @is_derive_id. }
  assert (A2 : is_derive (fun s => fst (project4 (pinhole_keypoint null_lens test_pinhole) (s, 0, -1, -1))) 0 (- a * 1 + - b * 0 + - c * 0 + - d * 0)).
  { apply (G (fun s => s) (fun _ => 0) (fun _ => -1) (fun _ => -1)); try apply der_const; try reflexivity. apply @is_derive_id. }
  pose proof (is_derive_unique _ _ _ A1) as U1. pose proof (is_derive_unique _ _ _ A2) as U2. rewrite U1 in U2.
  assert (Ha : a = 400).
  { unfold project4_jacobian, euclidean_part in E. destruct (Rlt_dec (-1) 0) as [_|Q]; [|lra]. cbn in E. injection E. intros. subst. field. }
  lra.
Qed.
Print Assumptions zx_jacobian_refuted.
Example zx_case : project4 (pinhole_keypoint null_lens test_pinhole) (1, 2, 4, 3) = (420, 390) /\ project4 (pinhole_keypoint null_lens test_pinhole) (-2, -4, -8, -6) = (420, 390).
Proof.
  unfold project4, euclidean_part. destruct (Rlt_dec 3 0) as [A|_]; [lra|]. destruct (Rlt_dec (-6) 0) as [_|A]; [|lra].
  unfold pinhole_keypoint. cbn. split; f_equal; field.
Qed.
(** A back-projected ray is a point at infinity in front of the camera: projecting it gives the keypoint. *)
Theorem zx_back_project4 D c s kp : pinhole_valid c ->
  (let q := ((fst kp - p_cu c) / p_fu c, (snd kp - p_cv c) / p_fv c) in distort D (undistort D q) = q) ->
  fst (project4 (pinhole_project D c s) (fst (back_project4 (pinhole_back_project D c) kp))) = Some kp.
Proof.
  intros Hc HD. destruct (px_project_back_projection D c s kp 1 Hc ltac:(lra) HD) as (st & E & _).
  unfold project4, back_project4. unfold pinhole_back_project in *. cbn [fst snd] in *. unfold euclidean_part. destruct (Rlt_dec 0 0) as [A|_]; [lra|].
  unfold scale in E. rewrite !Rmult_1_l in E. rewrite E. reflexivity.
Qed.
Print Assumptions zx_back_project4.
