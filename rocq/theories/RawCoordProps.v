(** C126: keypoints in coordinates of the raw image, rays at the border, and the Jacobian of the homogeneous projection. *)
From Coq Require Import Reals ZArith List Bool Arith Lia Lra.
From Verif Require Import DistortionModel CameraModel CameraSpec CameraProofs CameraProps LidarModel LidarProps PredictModel PredictProps UndistortModel UndistortProps RawCoordModel RawCoordSpec.
Import ListNotations.
Local Open Scope R_scope.

(** ** One keypoint and many *)
Lemma set_nth_error {A} (l : list A) i x j : nth_error (set_nth i x l) j = if (j =? i)%nat then match nth_error l j with Some _ => Some x | None => None end else nth_error l j.
Proof.
  revert i j. induction l as [|y l IH]; intros i j; [replace (set_nth i x []) with (@nil A) by (destruct i; reflexivity); destruct (j =? i)%nat, j; reflexivity|]. destruct i as [|i], j as [|j]; try reflexivity. cbn [set_nth nth_error]. rewrite IH. reflexivity.
Qed.
Lemma invalidate_spec success : forall i results j,
  nth_error (invalidate i success results) j =
  if (i <=? j)%nat then match nth_error success (j - i) with Some false => match nth_error results j with Some _ => Some ProjectionInvalid | None => None end | _ => nth_error results j end
  else nth_error results j.
Proof.
  induction success as [|ok success IH]; intros i results j; cbn [invalidate].
  - destruct (i <=? j)%nat; [|reflexivity]. destruct (j - i)%nat; reflexivity.
  - rewrite IH. destruct (Nat.leb_spec (S i) j) as [L|L], (Nat.leb_spec i j) as [M|M]; try lia.
    + replace (j - i)%nat with (S (j - S i)) by lia. cbn [nth_error]. destruct ok; [reflexivity|]. rewrite set_nth_error. destruct (Nat.eqb_spec j i); [lia|reflexivity].
    + assert (j = i) as -> by lia. rewrite Nat.sub_diag. cbn [nth_error]. destruct ok; [reflexivity|]. rewrite set_nth_error, Nat.eqb_refl. reflexivity.
    + destruct ok; [reflexivity|]. rewrite set_nth_error. destruct (Nat.eqb_spec j i); [lia|reflexivity].
Qed.
Lemma invalidate_length success : forall i results, length (invalidate i success results) = length results.
Proof.
  induction success as [|ok success IH]; intros i results; cbn [invalidate]; [reflexivity|]. rewrite IH. destruct ok; [reflexivity|].
  clear. revert i. induction results as [|r results IH]; intros [|i]; cbn; [reflexivity|reflexivity|reflexivity|now rewrite IH].
Qed.
(** Converting many keypoints gives one column and one result per keypoint, in their order, whatever the outputs contained before: the results are those of the single conversions, and so are the coordinates wherever the keypoint has a ray. *)
Theorem rcx_many f cam raw kps out results : geometry f = Some cam -> raw_geometry f = Some raw ->
  exists cols sts, to_raw_vectorized f kps out results = Fine (cols, sts) /\ length cols = length kps /\ length sts = length kps /\
    forall i kp, nth_error kps i = Some kp -> exists c st, nth_error cols i = Some c /\ nth_error sts i = Some st /\
      forall before, exists after, to_raw f kp before = Fine (after, st) /\ (snd (back_project3 cam kp) = true -> after = c) /\ (snd (back_project3 cam kp) = false -> after = before /\ st = ProjectionInvalid).
Proof.
  intros G W. unfold to_raw_vectorized. rewrite G, W, back_project_vectorized_map, project_vectorized_map. eexists _, _. split; [reflexivity|].
  split; [now rewrite !map_length|]. split; [now rewrite invalidate_length, !map_length|]. intros i kp K.
  exists (fst (project3 raw (fst (back_project3 cam kp)))), (if snd (back_project3 cam kp) then snd (project3 raw (fst (back_project3 cam kp))) else ProjectionInvalid). split; [|split].
  - rewrite !nth_error_map, K. reflexivity.
  - rewrite invalidate_spec. cbn [Nat.leb]. rewrite Nat.sub_0_r, !nth_error_map, K. cbn [option_map]. destruct (snd (back_project3 cam kp)); reflexivity.
  - intros before. unfold to_raw. rewrite G, W. destruct (back_project3 cam kp) as [b [|]]; cbn [fst snd].
    + destruct (project3 raw b) as [c st]. exists c. repeat split; discriminate.
    + exists before. repeat split; discriminate.
Qed.
Print Assumptions rcx_many.
(** Keypoints of the frame, by index. *)
Theorem rcx_index f i kp before : nth_error (measurements f) i = Some kp -> (Z.of_nat (length (measurements f)) <= 2 ^ 31)%Z -> keypoint_in_raw f (Z.of_nat i) before = to_raw f kp before.
Proof.
  intros K L. assert (i < length (measurements f))%nat as I by (apply nth_error_Some; congruence). unfold keypoint_in_raw, to_int. rewrite Z.mod_small by lia.
  replace (Z.of_nat i + 2 ^ 31 - 2 ^ 31)%Z with (Z.of_nat i) by ring. destruct (Z.ltb_spec (Z.of_nat i) (Z.of_nat (length (measurements f)))); [|lia]. rewrite Nat2Z.id, K. reflexivity.
Qed.
Print Assumptions rcx_index.
Theorem rcx_index_checked f i before : (Z.of_nat (length (measurements f)) <= i < 2 ^ 31)%Z -> keypoint_in_raw f i before = CheckFailed.
Proof. intros I. unfold keypoint_in_raw, to_int. rewrite Z.mod_small by lia. destruct (Z.ltb_spec (i + 2 ^ 31 - 2 ^ 31) (Z.of_nat (length (measurements f)))); [lia|reflexivity]. Qed.
Print Assumptions rcx_index_checked.
(** The CHECK converts the index to int: from 2^31 on it is negative and passes. *)
Theorem rcx_index_refuted f before : (Z.of_nat (length (measurements f)) <= 2 ^ 31)%Z -> keypoint_in_raw f (2 ^ 31) before = OutOfBounds.
Proof.
  intros L. unfold keypoint_in_raw. change (to_int (2 ^ 31)) with (- 2 ^ 31)%Z. destruct (Z.ltb_spec (- 2 ^ 31) (Z.of_nat (length (measurements f)))) as [_|]; [|lia].
  destruct (nth_error _ _) eqn:E; [|reflexivity]. assert (Z.to_nat (2 ^ 31) < length (measurements f))%nat by (apply nth_error_Some; congruence). lia.
Qed.
Print Assumptions rcx_index_refuted.
(** A frame that was not made by a pipeline has no raw camera: the conversion uses a null pointer. *)
Theorem rcx_no_raw_refuted : exists f cam kps, geometry f = Some cam /\ length kps = 1%nat /\ (forall kp before, In kp kps -> to_raw f kp before = NullAccess) /\ (forall out results, to_raw_vectorized f kps out results = NullAccess).
Proof.
  set (cam := pinhole_camera null_lens test_pinhole vga). exists {| geometry := Some cam; raw_geometry := None; measurements := [(1, 2)] |}, cam, [(1, 2)].
  split; [reflexivity|]. split; [reflexivity|]. split; [intros kp before _; reflexivity|]. intros out results. unfold to_raw_vectorized. cbn [geometry raw_geometry]. now rewrite back_project_vectorized_map.
Qed.
Print Assumptions rcx_no_raw_refuted.

(** A camera with a mirror that cannot see the keypoint (400, 300). *)
Definition narrow : unified := {| u_xi := 2; u_fu := 100; u_fv := 100; u_cu := 300; u_cv := 300 |}.
Definition square : image_size := {| width := 600; height := 600 |}.
Lemma narrow_back u v : 100 * 100 <= (u - 300) * (u - 300) + (v - 300) * (v - 300) -> let x := (u - 300) / 100 in let y := (v - 300) / 100 in unified_back_project no_lens narrow (u, v) = ((x, y, - (x * x + y * y)), false).
Proof.
  intros H x y. unfold unified_back_project, narrow, no_lens. cbn [u_xi u_fu u_fv u_cu u_cv undistort fst snd]. fold x y. assert (100 * x = u - 300) as X by (unfold x; field). assert (100 * y = v - 300) as Y by (unfold y; field).
  rewrite <- X, <- Y in H. assert (1 <= x * x + y * y) as R by lra. f_equal.
  - f_equal. rewrite Rmax_right by lra. rewrite sqrt_0. field.
  - unfold liftable. destruct (Rle_dec 2 1); [lra|]. destruct (Rle_dec _ _) as [L|]; [lra|reflexivity].
Qed.
(** For a keypoint without ray the single conversion leaves the output as it was, the other one writes coordinates. *)
Theorem rcx_failed_refuted : exists f cam raw kp, geometry f = Some cam /\ raw_geometry f = Some raw /\
  (forall before, to_raw f kp before = Fine (before, ProjectionInvalid)) /\
  forall out results, to_raw_vectorized f [kp] out results = Fine ([Some (200, 300)], [ProjectionInvalid]).
Proof.
  set (cam := unified_camera no_lens narrow square). set (raw := pinhole_camera no_lens {| p_fu := 100; p_fv := 100; p_cu := 300; p_cv := 300 |} square).
  exists {| geometry := Some cam; raw_geometry := Some raw; measurements := [(400, 300)] |}, cam, raw, (400, 300). split; [reflexivity|]. split; [reflexivity|].
  assert (back_project3 cam (400, 300) = ((100 / 100, 0 / 100, - (100 / 100 * (100 / 100) + 0 / 100 * (0 / 100))), false)) as B.
  { cbn [cam unified_camera back_project3]. rewrite narrow_back by lra. replace (400 - 300) with 100 by ring. replace (300 - 300) with 0 by ring. reflexivity. }
  split.
  - intros before. unfold to_raw. cbn [geometry]. rewrite B. reflexivity.
  - intros out results. unfold to_raw_vectorized. cbn [geometry raw_geometry]. rewrite back_project_vectorized_map, project_vectorized_map. cbn [map]. rewrite B. cbn [fst snd invalidate set_nth].
    do 2 f_equal. f_equal. cbn [raw pinhole_camera project3]. unfold pinhole_project. cbn [snd]. destruct (Req_EM_T _ 0) as [Q|_]; [lra|]. cbn [fst]. unfold pinhole_keypoint, no_lens. cbn [p_fu p_fv p_cu p_cv distort fst snd].
    f_equal. f_equal; field.
Qed.
Print Assumptions rcx_failed_refuted.

(** ** The raw camera is the camera *)
Lemma unified_ray_length D c kp : 0 <= u_xi c <= 1 -> / 4 <= sqnorm (fst (unified_back_project D c kp)).
Proof.
  intros X. unfold unified_back_project. cbn [fst]. set (q := undistort D _). set (r := fst q * fst q + snd q * snd q). set (xi := u_xi c) in *.
  assert (0 <= r) as R by (pose proof (Rle_0_sqr (fst q)); pose proof (Rle_0_sqr (snd q)); unfold Rsqr, r in *; lra).
  assert (0 <= (1 - xi * xi) * r) as P by (apply Rmult_le_pos; nra). assert (0 <= xi * xi * r) as P2 by (apply Rmult_le_pos; nra).
  rewrite Rmax_left by lra. set (s := sqrt (1 + (1 - xi * xi) * r)). assert (s * s = 1 + (1 - xi * xi) * r) as S by (apply sqrt_sqrt; lra). assert (1 <= s) as S1 by (unfold s; rewrite <- sqrt_1 at 1; apply sqrt_le_1_alt; lra).
  assert (s <= 1 + r) as S2 by nra. unfold sqnorm.
  set (z := 1 - xi * (r + 1) / (xi + s)). assert (z * (xi + s) = s - xi * r) as Z by (unfold z; field; lra).
  change (fst q * fst q + snd q * snd q) with r. assert ((r + z * z) * ((xi + s) * (xi + s)) = (1 + r) * (1 + r)) as E.
  { transitivity (r * ((xi + s) * (xi + s)) + (z * (xi + s)) * (z * (xi + s))); [ring|]. rewrite Z. transitivity (r * xi * xi * (1 + r) + (s * s) * (1 + r)); [ring|]. rewrite S. ring. }
  assert ((xi + s) * (xi + s) <= 4 * ((1 + r) * (1 + r))) as B by nra. assert (0 < (xi + s) * (xi + s)) by nra.
  apply Rmult_le_reg_r with ((xi + s) * (xi + s)); [lra|]. rewrite E. lra.
Qed.
(** If the image was not undistorted, the raw coordinates are those of the keypoint, and the result says whether it is in the image. *)
Theorem rcx_same_pinhole f D c s kp before : pinhole_valid c -> geometry f = Some (pinhole_camera D c s) -> raw_geometry f = geometry f ->
  (let q := ((fst kp - p_cu c) / p_fu c, (snd kp - p_cv c) / p_fv c) in distort D (undistort D q) = q) ->
  exists st, to_raw f kp before = Fine (Some kp, st) /\ (st = KeypointVisible <-> in_image (width s) (height s) kp).
Proof.
  intros V G W L. destruct (px_project_back_projection D c s kp 1 V ltac:(lra) L) as (st & E & K & S). pose proof min_depth_pos as M. exists st. unfold to_raw. rewrite W, G. cbn [pinhole_camera back_project3 project3].
  destruct (pinhole_back_project D c kp) as [[[x y] z] ok] eqn:B. cbn [fst snd scale] in *. subst ok. rewrite !Rmult_1_l in E. rewrite E. split; [reflexivity|]. rewrite S. split; [tauto|]. intros I. split; [exact I|lra].
Qed.
Print Assumptions rcx_same_pinhole.
Theorem rcx_same_unified f D c s kp before : unified_valid c -> u_xi c <= 1 -> geometry f = Some (unified_camera D c s) -> raw_geometry f = geometry f ->
  (let q := ((fst kp - u_cu c) / u_fu c, (snd kp - u_cv c) / u_fv c) in distort D (undistort D q) = q) ->
  exists st, to_raw f kp before = Fine (Some kp, st) /\ (st = KeypointVisible <-> in_image (width s) (height s) kp).
Proof.
  intros V X G W L. destruct (ux_project_back_projection_partial D c s kp 1 V ltac:(lra) L ltac:(left; exact X)) as (st & E & K & S). pose proof min_depth_pos as M. exists st. unfold to_raw. rewrite W, G. cbn [unified_camera back_project3 project3].
  pose proof (unified_ray_length D c kp (conj (proj1 V) X)) as N. destruct (unified_back_project D c kp) as [[[x y] z] ok] eqn:B. cbn [fst snd scale] in *. subst ok. rewrite !Rmult_1_l in *. rewrite E. split; [reflexivity|]. rewrite S.
  split; [tauto|]. intros I. split; [exact I|]. assert (minimum_depth * minimum_depth < / 10) by (unfold minimum_depth; rewrite <- Rinv_mult; apply Rinv_lt_contravar; [apply Rmult_lt_0_compat; [lra|apply Rmult_lt_0_compat; apply pow_lt; lra]|]; assert (1 < 10 ^ 9) by (apply Rlt_pow_R1; [lra|lia]); change (10 ^ 10) with (10 * 10 ^ 9); nra). lra.
Qed.
Print Assumptions rcx_same_unified.
Example rcx_same_ex : unified_valid test_unified /\ u_xi test_unified <= 1 /\ pinhole_valid test_pinhole.
Proof. unfold unified_valid, pinhole_valid, test_unified, test_pinhole. cbn. lra. Qed.

(** ** The raw image of an undistorted one *)
(** The raw coordinates of a pixel are the position that the undistortion map has for it, if the ray of the pixel points to the front. *)
Theorem rcx_map f input output j i x y z before : geometry f = Some output -> raw_geometry f = Some input -> back_project3 output (INR j, INR i) = ((x, y, z), true) -> 0 < z ->
  (forall p l, 0 < l -> 0 < snd p -> fst (project3 input (scale l p)) = fst (project3 input p)) ->
  exists st, to_raw f (INR j, INR i) before = Fine (map_position input output j i, st).
Proof.
  intros G W B Z S. unfold to_raw, map_position. rewrite G, W, B. cbn [fst]. destruct (Req_EM_T z 0) as [Q|_]; [lra|].
  destruct (project3 input (x, y, z)) as [c st] eqn:E. exists st. do 2 f_equal. specialize (S (x, y, z) (/ z) ltac:(apply Rinv_0_lt_compat; exact Z) Z). rewrite E in S. cbn [fst scale] in S. rewrite <- S. do 2 f_equal.
  unfold Rdiv. rewrite (Rmult_comm x), (Rmult_comm y), (Rmult_comm z). reflexivity.
Qed.
Print Assumptions rcx_map.
Lemma pinhole_positive D c s p l : 0 < l -> 0 < snd p -> fst (project3 (pinhole_camera D c s) (scale l p)) = fst (project3 (pinhole_camera D c s) p).
Proof.
  intros L P. cbn [pinhole_camera project3]. unfold pinhole_project. assert (snd (scale l p) = l * snd p) as -> by (destruct p as [[x y] z]; reflexivity).
  assert (0 < l * snd p) by (apply Rmult_lt_0_compat; assumption). destruct (Req_EM_T (l * snd p) 0); [lra|]. destruct (Req_EM_T (snd p) 0); [lra|]. cbn [fst]. rewrite pinhole_keypoint_scale by lra. reflexivity.
Qed.
Lemma unified_positive D c s p l : 0 <= u_xi c -> 0 < l -> fst (project3 (unified_camera D c s) (scale l p)) = fst (project3 (unified_camera D c s) p).
Proof. intros X L. cbn [unified_camera project3]. unfold unified_project. cbn [fst]. rewrite unified_keypoint_scale by assumption. reflexivity. Qed.
(** In particular for every pixel of an image undistorted to a pinhole camera. *)
Theorem rcx_map_pinhole f D D' c c' k s out j i before : 0 <= u_xi c' -> geometry f = Some (pinhole_camera no_lens k out) ->
  (raw_geometry f = Some (pinhole_camera D c s) -> exists st, to_raw f (INR j, INR i) before = Fine (map_position (pinhole_camera D c s) (pinhole_camera no_lens k out) j i, st)) /\
  (raw_geometry f = Some (unified_camera D' c' s) -> exists st, to_raw f (INR j, INR i) before = Fine (map_position (unified_camera D' c' s) (pinhole_camera no_lens k out) j i, st)).
Proof.
  intros X G. split; intros W.
  - eapply rcx_map; [exact G|exact W|reflexivity|lra|]. intros p l L P. apply pinhole_positive; assumption.
  - eapply rcx_map; [exact G|exact W|reflexivity|lra|]. intros p l L P. apply unified_positive; assumption.
Qed.
Print Assumptions rcx_map_pinhole.
(** Rays to the back: the conversion is right, the map is not. *)
Theorem rcx_map_refuted : exists f input output, geometry f = Some output /\ raw_geometry f = Some input /\ map_position input output 0 300 = Some (1000 / 3, 300) /\
  forall before, exists st, to_raw f (INR 0, INR 300) before = Fine (Some (0, 300), st).
Proof.
  set (cam := unified_camera no_lens cam_wide wide). set (f := {| geometry := Some cam; raw_geometry := Some cam; measurements := [] |}). exists f, cam, cam. split; [reflexivity|]. split; [reflexivity|]. destruct umx_wide_angle_refuted as [V M]. split; [exact M|].
  intros before. replace (INR 300) with 300 by (rewrite INR_IZR_INZ; reflexivity). cbn [INR].
  destruct (rcx_same_unified f no_lens cam_wide wide (0, 300) before V) as (st & E & _); [cbn; lra|reflexivity|reflexivity|reflexivity|]. exists st. exact E.
Qed.
Print Assumptions rcx_map_refuted.

(** ** Border rays *)
Lemma border_in_image s kp : (1 <= width s)%Z -> (1 <= height s)%Z -> In kp (border_keypoints s) -> on_border (IZR (width s)) (IZR (height s)) kp.
Proof.
  intros W H I. apply IZR_le in W, H. unfold border_keypoints in I. cbn [In] in I. unfold on_border. repeat (destruct I as [<-|I]; [cbn [fst snd]; lra|]). destruct I.
Qed.
(** There are eight rays, the corners and the middles of the sides in this order; all are points at infinity. *)
Theorem rcx_border cam s : length (border_rays cam s) = 8%nat /\ ((1 <= width s)%Z -> (1 <= height s)%Z -> Forall (on_border (IZR (width s)) (IZR (height s))) (border_keypoints s)) /\
  forall i kp, nth_error (border_keypoints s) i = Some kp -> exists x y z, nth_error (border_rays cam s) i = Some (x, y, z, 0) /\ fst (back_project3 cam kp) = (x, y, z).
Proof.
  split; [reflexivity|]. split; [intros W H; apply Forall_forall; intros kp; apply border_in_image; assumption|]. intros i kp K. unfold border_rays. rewrite nth_error_map, K. cbn [option_map]. unfold back_project4.
  destruct (back_project3 cam kp) as [[[x y] z] ok]. exists x, y, z. split; reflexivity.
Qed.
Print Assumptions rcx_border.
(** They are the corners and the middles of the sides, all of them. *)
Theorem rcx_places s kp : In kp (border_keypoints s) <-> is_corner (IZR (width s)) (IZR (height s)) kp \/ is_middle (IZR (width s)) (IZR (height s)) kp.
Proof.
  unfold border_keypoints, is_corner, is_middle. cbn [In]. replace (IZR (height s) * (1 / 2)) with (IZR (height s) / 2) by lra. replace (IZR (width s) * (1 / 2)) with (IZR (width s) / 2) by lra. destruct kp as [x y]. cbn [fst snd]. split.
  - intros H. repeat destruct H as [H|H]; [..|destruct H]; injection H as <- <-; tauto.
  - intros [[[-> | ->] [-> | ->]]|[[-> [-> | ->]]|[-> [-> | ->]]]]; tauto.
Qed.
Print Assumptions rcx_places.
(** A pinhole camera, and a unified one with xi up to 1, see every one of them where it comes from. *)
Theorem rcx_border_seen D c c' s i kp ray : (forall q, distort D (undistort D q) = q) -> (1 <= width s)%Z -> (1 <= height s)%Z -> nth_error (border_keypoints s) i = Some kp ->
  (pinhole_valid c -> nth_error (border_rays (pinhole_camera D c s) s) i = Some ray -> project4 (project3 (pinhole_camera D c s)) ray = (Some kp, KeypointVisible)) /\
  (unified_valid c' -> u_xi c' <= 1 -> nth_error (border_rays (unified_camera D c' s) s) i = Some ray -> project4 (project3 (unified_camera D c' s)) ray = (Some kp, KeypointVisible)).
Proof.
  intros L W H K. assert (in_image (width s) (height s) kp) as I by (apply nth_error_In in K; destruct (border_in_image s kp W H K) as (_ & A & B); split; assumption).
  assert (forall cam, nth_error (border_rays cam s) i = Some ray -> euclidean_part ray = fst (back_project3 cam kp)) as EU.
  { intros cam R. destruct (rcx_border cam s) as (_ & _ & C). destruct (C i kp K) as (x & y & z & E & F). rewrite E in R. injection R as <-. rewrite F. unfold euclidean_part. destruct (Rlt_dec 0 0); [lra|reflexivity]. }
  split.
  - intros V R. unfold project4. rewrite (EU _ R). set (f := {| geometry := Some (pinhole_camera D c s); raw_geometry := Some (pinhole_camera D c s); measurements := [] |}).
    destruct (rcx_same_pinhole f D c s kp None V eq_refl eq_refl (L _)) as (st & E & S). rewrite (proj2 S I) in E. unfold to_raw in E. cbn [f geometry raw_geometry] in E.
    destruct (back_project3 _ kp) as [b [|]]; [|discriminate]. cbn [fst]. apply (f_equal (fun o => match o with Fine a => a | _ => (None, ProjectionInvalid) end)) in E. exact E.
  - intros V X R. unfold project4. rewrite (EU _ R). set (f := {| geometry := Some (unified_camera D c' s); raw_geometry := Some (unified_camera D c' s); measurements := [] |}).
    destruct (rcx_same_unified f D c' s kp None V X eq_refl eq_refl (L _)) as (st & E & S). rewrite (proj2 S I) in E. unfold to_raw in E. cbn [f geometry raw_geometry] in E.
    destruct (back_project3 _ kp) as [b [|]]; [|discriminate]. cbn [fst]. apply (f_equal (fun o => match o with Fine a => a | _ => (None, ProjectionInvalid) end)) in E. exact E.
Qed.
Print Assumptions rcx_border_seen.
(** A valid camera whose corners have no ray: the matrix contains rays that no keypoint has, and the caller is not told. *)
Theorem rcx_border_refuted : unified_valid narrow /\ snd (back_project4 (back_project3 (unified_camera no_lens narrow square)) (0, 0)) = false /\
  exists ray, nth_error (border_rays (unified_camera no_lens narrow square) square) 0 = Some ray /\ snd (project4 (project3 (unified_camera no_lens narrow square)) ray) = ProjectionInvalid.
Proof.
  pose proof (narrow_back 0 0 ltac:(lra)) as B. cbv zeta in B. replace ((0 - 300) / 100) with (-3) in B by field. split; [unfold unified_valid, narrow; cbn; lra|].
  split; [unfold back_project4; cbn [unified_camera back_project3]; rewrite B; reflexivity|]. exists (-3, -3, - (-3 * -3 + -3 * -3), 0). split.
  - unfold border_rays. rewrite nth_error_map. cbn [nth_error border_keypoints option_map]. unfold back_project4. cbn [unified_camera back_project3]. rewrite B. reflexivity.
  - unfold project4, euclidean_part. destruct (Rlt_dec 0 0); [lra|]. cbn [unified_camera project3]. unfold unified_project. cbn [snd].
    assert (unified_valid_proj (u_xi narrow) (-3, -3, - (-3 * -3 + -3 * -3)) = false) as ->; [|reflexivity].
    unfold unified_valid_proj, fov_parameter, norm3. cbn [narrow u_xi snd]. destruct (Rle_dec 2 1); [lra|]. destruct (Rlt_dec _ _) as [Q|]; [|reflexivity]. exfalso.
    assert (sqrt (-3 * -3 + -3 * -3 + - (-3 * -3 + -3 * -3) * - (-3 * -3 + -3 * -3)) <= 36); [|lra]. rewrite <- (sqrt_square 36) by lra. apply sqrt_le_1_alt. lra.
Qed.
Print Assumptions rcx_border_refuted.

(** ** The Jacobian of the homogeneous projection *)
(** It is that of [project4_jacobian] where it is written: always for the pinhole camera, for valid projections of the unified one. *)
Theorem rcx_jacobian D c c' p : project4_write (pinhole_write D c) p = Fine (project4_jacobian (pinhole_jacobian D c) p) /\
  (unified_valid_proj (u_xi c') (euclidean_part p) = true -> project4_write (unified_write D c') p = Fine (project4_jacobian (unified_jacobian D c') p)).
Proof.
  split; [|intros V]; unfold project4_write, project4_jacobian, pinhole_write, unified_write; [|rewrite V].
  - destruct (pinhole_jacobian D c (euclidean_part p)) as [[[a b] c0] [[a' b'] c0']]. reflexivity.
  - destruct (unified_jacobian D c' (euclidean_part p)) as [[[a b] c0] [[a' b'] c0']]. reflexivity.
Qed.
Print Assumptions rcx_jacobian.
(** Every invalid projection of the unified camera copies an uninitialised matrix; the lidar aborts. *)
Theorem rcx_jacobian_refuted : (forall D c p, unified_valid_proj (u_xi c) (euclidean_part p) = false -> project4_write (unified_write D c) p = Uninitialised) /\
  (exists p, unified_valid_proj (u_xi test_unified) (euclidean_part p) = false) /\ forall p, project4_write lidar_write p = CheckFailed.
Proof.
  split; [|split].
  - intros D c p V. unfold project4_write, unified_write. rewrite V. reflexivity.
  - exists (0, 0, -1, 1). unfold euclidean_part. destruct (Rlt_dec 1 0); [lra|]. unfold unified_valid_proj, norm3. replace (0 * 0 + 0 * 0 + -1 * -1) with (1 * 1) by ring. rewrite sqrt_square by lra. cbn [test_unified u_xi snd]. unfold fov_parameter.
    destruct (Rle_dec (9 / 10) 1); [|lra]. destruct (Rlt_dec _ _); [lra|reflexivity].
  - reflexivity.
Qed.
Print Assumptions rcx_jacobian_refuted.
