(** C87, C88: the optimal new camera matrix and the undistortion map. *)
From Coq Require Import Reals ZArith List Bool Lia Lra SpecFloat.
From Flocq Require Import Core.
From Verif Require Import DistortionModel CameraModel CameraSpec CameraProofs CameraProps PredictModel UndistortModel UndistortSpec UndistortProofs.
Import ListNotations.
Local Open Scope R_scope.

(** ** C87 *)
(** The outer rectangle is the smallest one containing all normalised grid points; the inner one reaches from the innermost point of the left column (upper row) to the innermost
    one of the right column (lower row), and is contained in the outer one. *)
Theorem udx_rectangles norm s inner outer : moderate norm s -> undistort_rectangles norm s = (inner, outer) ->
  is_min (xs_of norm s (fun _ => True)) (r_x outer) /\ is_max (xs_of norm s (fun _ => True)) (r_x outer + r_width outer) /\
  is_min (ys_of norm s (fun _ => True)) (r_y outer) /\ is_max (ys_of norm s (fun _ => True)) (r_y outer + r_height outer) /\
  is_max (xs_of norm s (fun x => x = 0%nat)) (r_x inner) /\ is_min (xs_of norm s (fun x => x = 8%nat)) (r_x inner + r_width inner) /\
  is_max (ys_of norm s (fun y => y = 0%nat)) (r_y inner) /\ is_min (ys_of norm s (fun y => y = 8%nat)) (r_y inner + r_height inner) /\
  r_x outer <= r_x inner /\ r_x inner + r_width inner <= r_x outer + r_width outer /\ r_y outer <= r_y inner /\ r_y inner + r_height inner <= r_y outer + r_height outer.
Proof.
  intros M E. unfold undistort_rectangles in E. pose proof (bounds_ok norm s M) as B. cbn zeta in B. set (b := fold_left bounds_step (samples norm s) no_bounds) in *. injection E as <- <-.
  cbn [r_x r_y r_width r_height]. replace (o_x0 b + (o_x1 b - o_x0 b)) with (o_x1 b) by ring. replace (o_y0 b + (o_y1 b - o_y0 b)) with (o_y1 b) by ring.
  replace (i_x0 b + (i_x1 b - i_x0 b)) with (i_x1 b) by ring. replace (i_y0 b + (i_y1 b - i_y0 b)) with (i_y1 b) by ring.
  destruct B as (B1 & B2 & B3 & B4 & B5 & B6 & B7 & B8). repeat (split; [assumption|]).
  assert (forall P a, xs_of norm s P a -> xs_of norm s (fun _ => True) a) as WX by (intros P a (x & y & H & _ & Ha); exists x, y; repeat split; try lia; exact Ha).
  assert (forall P a, ys_of norm s P a -> ys_of norm s (fun _ => True) a) as WY by (intros P a (x & y & H & _ & Ha); exists x, y; repeat split; try lia; exact Ha).
  repeat split.
  - apply (proj2 B1). eapply WX. apply B5.
  - apply (proj2 B2). eapply WX. apply B6.
  - apply (proj2 B3). eapply WY. apply B7.
  - apply (proj2 B4). eapply WY. apply B8.
Qed.
Print Assumptions udx_rectangles.

(** If the inner rectangle is not empty, the focal lengths are positive for every alpha, the inner rectangle is in view and nothing outside of the outer rectangle is. For
    alpha = 0 exactly the inner rectangle is in view, for alpha = 1 all grid points are. *)
Theorem udx_matrix_partial norm s alpha scale inner outer : moderate norm s -> undistort_rectangles norm s = (inner, outer) ->
  0 <= alpha <= 1 -> 0 < scale -> 0 < r_width inner -> 0 < r_height inner -> (2 <= width (output_size scale s))%Z -> (2 <= height (output_size scale s))%Z ->
  exists k, optimal_matrix norm s alpha scale = Some k /\ 0 < p_fu k /\ 0 < p_fv k /\
    (forall x, r_x inner <= x <= r_x inner + r_width inner -> in_view (p_fu k) (p_cu k) (width (output_size scale s)) x) /\
    (forall y, r_y inner <= y <= r_y inner + r_height inner -> in_view (p_fv k) (p_cv k) (height (output_size scale s)) y) /\
    (forall x, in_view (p_fu k) (p_cu k) (width (output_size scale s)) x -> r_x outer <= x <= r_x outer + r_width outer) /\
    (forall y, in_view (p_fv k) (p_cv k) (height (output_size scale s)) y -> r_y outer <= y <= r_y outer + r_height outer) /\
    (alpha = 0 -> (forall x, in_view (p_fu k) (p_cu k) (width (output_size scale s)) x -> r_x inner <= x <= r_x inner + r_width inner) /\
                  (forall y, in_view (p_fv k) (p_cv k) (height (output_size scale s)) y -> r_y inner <= y <= r_y inner + r_height inner)) /\
    (alpha = 1 -> forall x y, (x <= 8 /\ y <= 8)%nat -> in_view (p_fu k) (p_cu k) (width (output_size scale s)) (fst (norm (grid_point s x y))) /\
                                                       in_view (p_fv k) (p_cv k) (height (output_size scale s)) (snd (norm (grid_point s x y)))).
Proof.
  intros M E A SC IW IH OW OH. pose proof (udx_rectangles norm s inner outer M E) as (B1 & B2 & B3 & B4 & B5 & B6 & B7 & B8 & C1 & C2 & C3 & C4).
  unfold optimal_matrix. rewrite E. destruct (Rle_dec 0 alpha) as [_|]; [|lra]. destruct (Rle_dec alpha 1) as [_|]; [|lra]. destruct (Rlt_dec 0 scale) as [_|]; [|lra].
  eexists. split; [reflexivity|]. cbn [p_fu p_fv p_cu p_cv]. set (W := width (output_size scale s)) in *. set (H := height (output_size scale s)) in *.
  assert (1 < IZR W) as LW by (apply (IZR_lt 1); lia). assert (1 < IZR H) as LH by (apply (IZR_lt 1); lia).
  destruct inner as [ix iy iw ih], outer as [ox oy ow oh]. cbn [r_x r_y r_width r_height] in *.
  assert (iw = (ix + iw) - ix) as Eiw by ring. assert (ih = (iy + ih) - iy) as Eih by ring. assert (ow = (ox + ow) - ox) as Eow by ring. assert (oh = (oy + oh) - oy) as Eoh by ring.
  set (ix1 := ix + iw) in *. set (iy1 := iy + ih) in *. set (ox1 := ox + ow) in *. set (oy1 := oy + oh) in *. rewrite Eiw, Eih, Eow, Eoh. unfold in_view.
  split; [apply axis_focal; lra|]. split; [apply axis_focal; lra|].
  split; [intros x Hx; apply axis_inner; lra|]. split; [intros x Hx; apply axis_inner; lra|].
  split; [intros x Hx; eapply (axis_outer (IZR W) ix ix1 ox ox1 alpha); try lra|]. split; [intros x Hx; eapply (axis_outer (IZR H) iy iy1 oy oy1 alpha); try lra|]. split.
  - intros ->. split; intros x Hx; [eapply (axis_inner_exact (IZR W) ix ix1 ox ox1)|eapply (axis_inner_exact (IZR H) iy iy1 oy oy1)]; lra.
  - intros -> x y B. split; apply axis_outer_exact; try lra.
    + split; [apply (proj2 B1)|apply (proj2 B2)]; exists x, y; repeat split; lia.
    + split; [apply (proj2 B3)|apply (proj2 B4)]; exists x, y; repeat split; lia.
Qed.
Print Assumptions udx_matrix_partial.

Lemma is_min_unique P a b : is_min P a -> is_min P b -> a = b.
Proof. intros [A1 A2] [B1 B2]. apply Rle_antisym; [apply A2|apply B2]; assumption. Qed.
Lemma is_max_unique P a b : is_max P a -> is_max P b -> a = b.
Proof. intros [A1 A2] [B1 B2]. apply Rle_antisym; [apply B2|apply A2]; assumption. Qed.
Lemma grid_0 s y : fst (grid_point s 0 y) = 0.
Proof. unfold grid_point. cbn [fst INR]. replace (0 * IZR (width s) / 8) with (IZR 0) by (cbn; field). rewrite Zfloor_IZR. reflexivity. Qed.
Lemma grid_0y s x : snd (grid_point s x 0) = 0.
Proof. unfold grid_point. cbn [snd INR]. replace (0 * IZR (height s) / 8) with (IZR 0) by (cbn; field). rewrite Zfloor_IZR. reflexivity. Qed.
Lemma grid_8 s y : fst (grid_point s 8 y) = IZR (width s).
Proof. unfold grid_point. cbn [fst]. replace (INR 8 * IZR (width s) / 8) with (IZR (width s)) by (cbn; field). rewrite Zfloor_IZR. reflexivity. Qed.
Lemma grid_8y s x : snd (grid_point s x 8) = IZR (height s).
Proof. unfold grid_point. cbn [snd]. replace (INR 8 * IZR (height s) / 8) with (IZR (height s)) by (cbn; field). rewrite Zfloor_IZR. reflexivity. Qed.
Lemma grid_between w x : (0 < w)%Z -> (x <= 8)%nat -> 0 <= IZR (Zfloor (INR x * IZR w / 8)) <= IZR w.
Proof.
  intros W X. assert (0 < IZR w) by (apply (IZR_lt 0); lia). assert (0 <= INR x <= 8) as [X0 X8] by (split; [apply pos_INR|replace 8 with (INR 8) by (cbn; lra); apply le_INR; lia]). split.
  - apply (IZR_le 0). apply Zfloor_lub. assert (0 <= INR x * IZR w) by nra. lra.
  - apply Rle_trans with (INR x * IZR w / 8); [apply Zfloor_lb|]. nra.
Qed.
(** For a pinhole camera without distortion both rectangles are the image of the whole sensor and the matrix is that of the camera scaled by (W - 1) / w, whatever alpha. *)
Theorem udx_pinhole_matrix c s alpha scale : pinhole_valid c -> (0 < width s)%Z -> (0 < height s)%Z -> moderate (normalise no_lens c) s -> 0 <= alpha <= 1 -> 0 < scale ->
  exists k, optimal_matrix (normalise no_lens c) s alpha scale = Some k /\
    let a := (IZR (width (output_size scale s)) - 1) / IZR (width s) in let b := (IZR (height (output_size scale s)) - 1) / IZR (height s) in
    p_fu k = a * p_fu c /\ p_cu k = a * p_cu c /\ p_fv k = b * p_fv c /\ p_cv k = b * p_cv c.
Proof.
  intros (V1 & V2 & V3 & V4) W H M A SC. assert (0 < IZR (width s)) as W' by (apply (IZR_lt 0); lia). assert (0 < IZR (height s)) as H' by (apply (IZR_lt 0); lia).
  destruct (undistort_rectangles (normalise no_lens c) s) as [inner outer] eqn:E. pose proof (udx_rectangles _ s inner outer M E) as (B1 & B2 & B3 & B4 & B5 & B6 & B7 & B8 & _).
  assert (forall x y, fst (normalise no_lens c (grid_point s x y)) = / p_fu c * (fst (grid_point s x y) - p_cu c)) as NX by (intros; unfold normalise; cbn; unfold Rdiv; ring).
  assert (forall x y, snd (normalise no_lens c (grid_point s x y)) = / p_fv c * (snd (grid_point s x y) - p_cv c)) as NY by (intros; unfold normalise; cbn; unfold Rdiv; ring).
  assert (0 < / p_fu c) by (apply Rinv_0_lt_compat; assumption). assert (0 < / p_fv c) by (apply Rinv_0_lt_compat; assumption).
  assert (forall x y, (x <= 8 /\ y <= 8)%nat -> 0 <= fst (grid_point s x y) <= IZR (width s) /\ 0 <= snd (grid_point s x y) <= IZR (height s)) as G by (intros x y [? ?]; split; apply grid_between; assumption).
  assert (r_x outer = / p_fu c * (0 - p_cu c)) as E1.
  { apply (is_min_unique _ _ _ B1). split; [exists 0%nat, 0%nat; rewrite NX, grid_0; repeat split; lia|]. intros a (x & y & B & _ & ->). rewrite NX. apply Rmult_le_compat_l; [lra|]. destruct (G x y B). lra. }
  assert (r_x outer + r_width outer = / p_fu c * (IZR (width s) - p_cu c)) as E2.
  { apply (is_max_unique _ _ _ B2). split; [exists 8%nat, 0%nat; rewrite NX, grid_8; repeat split; lia|]. intros a (x & y & B & _ & ->). rewrite NX. apply Rmult_le_compat_l; [lra|]. destruct (G x y B). lra. }
  assert (r_y outer = / p_fv c * (0 - p_cv c)) as E3.
  { apply (is_min_unique _ _ _ B3). split; [exists 0%nat, 0%nat; rewrite NY, grid_0y; repeat split; lia|]. intros a (x & y & B & _ & ->). rewrite NY. apply Rmult_le_compat_l; [lra|]. destruct (G x y B). lra. }
  assert (r_y outer + r_height outer = / p_fv c * (IZR (height s) - p_cv c)) as E4.
  { apply (is_max_unique _ _ _ B4). split; [exists 0%nat, 8%nat; rewrite NY, grid_8y; repeat split; lia|]. intros a (x & y & B & _ & ->). rewrite NY. apply Rmult_le_compat_l; [lra|]. destruct (G x y B). lra. }
  assert (r_x inner = / p_fu c * (0 - p_cu c)) as E5 by (destruct B5 as [(x & y & _ & -> & ->) _]; rewrite NX, grid_0; reflexivity).
  assert (r_x inner + r_width inner = / p_fu c * (IZR (width s) - p_cu c)) as E6 by (destruct B6 as [(x & y & _ & -> & ->) _]; rewrite NX, grid_8; reflexivity).
  assert (r_y inner = / p_fv c * (0 - p_cv c)) as E7 by (destruct B7 as [(x & y & _ & -> & ->) _]; rewrite NY, grid_0y; reflexivity).
  assert (r_y inner + r_height inner = / p_fv c * (IZR (height s) - p_cv c)) as E8 by (destruct B8 as [(x & y & _ & -> & ->) _]; rewrite NY, grid_8y; reflexivity).
  assert (r_width outer = IZR (width s) * / p_fu c) as F1 by lra. assert (r_width inner = IZR (width s) * / p_fu c) as F2 by lra.
  assert (r_height outer = IZR (height s) * / p_fv c) as F3 by lra. assert (r_height inner = IZR (height s) * / p_fv c) as F4 by lra.
  unfold optimal_matrix. rewrite E. destruct (Rle_dec 0 alpha) as [_|]; [|lra]. destruct (Rle_dec alpha 1) as [_|]; [|lra]. destruct (Rlt_dec 0 scale) as [_|]; [|lra].
  eexists. split; [reflexivity|]. cbn zeta. cbn [p_fu p_fv p_cu p_cv]. rewrite F1, F2, F3, F4, E1, E3, E5, E7. repeat split; field; lra.
Qed.
Print Assumptions udx_pinhole_matrix.
(** An example: 640 x 480 pixels. *)
Definition cam_vga : pinhole := {| p_fu := 400; p_fv := 400; p_cu := 320; p_cv := 240 |}.
Definition vga : image_size := {| width := 640; height := 480 |}.
Lemma flt_max_100 : 100 <= flt_max.
Proof.
  unfold flt_max. assert (/ 2 ^ 23 <= 1) by (rewrite <- Rinv_1; apply Rinv_le_contravar; [lra|apply pow_R1_Rle; lra]).
  assert (100 <= 2 ^ 127) by (apply Rle_trans with (2 ^ 7); [lra|]; apply Rle_pow; [lra|lia]). nra.
Qed.
Lemma vga_moderate : moderate (normalise no_lens cam_vga) vga.
Proof.
  intros x y [X Y]. pose proof flt_max_100 as M. rewrite flt_max_value in M. destruct (grid_between 640 x) as [X1 X2]; [lia|exact X|]. destruct (grid_between 480 y) as [Y1 Y2]; [lia|exact Y|].
  unfold normalise, grid_point. cbn [no_lens undistort fst snd cam_vga p_fu p_fv p_cu p_cv vga width height]. split; apply Rabs_le; lra.
Qed.
Lemma vga_valid : pinhole_valid cam_vga.
Proof. unfold pinhole_valid. cbn. lra. Qed.
Lemma vga_size : output_size 1 vga = vga.
Proof. unfold output_size, vga. cbn [width height]. rewrite !Rmult_1_l, !Zfloor_IZR. reflexivity. Qed.
Example udx_matrix_ex : moderate (normalise no_lens cam_vga) vga /\
  let (inner, outer) := undistort_rectangles (normalise no_lens cam_vga) vga in 0 < r_width inner /\ 0 < r_height inner.
Proof.
  split; [exact vga_moderate|]. destruct (undistort_rectangles (normalise no_lens cam_vga) vga) as [inner outer] eqn:E.
  pose proof (udx_rectangles _ _ _ _ vga_moderate E) as (_ & _ & _ & _ & B5 & B6 & B7 & B8 & _).
  destruct B5 as [(x & y & _ & -> & E5) _]. destruct B6 as [(x' & y' & _ & -> & E6) _]. destruct B7 as [(x2 & y2 & _ & -> & E7) _]. destruct B8 as [(x3 & y3 & _ & -> & E8) _].
  unfold normalise in *. cbn [no_lens undistort fst snd] in *. rewrite grid_0 in E5. rewrite grid_8 in E6. rewrite grid_0y in E7. rewrite grid_8y in E8. cbn in *. lra.
Qed.

(** Refutation: a camera without distortion, kept at its size, does not keep its matrix; with alpha = 0 ("all pixels valid") the last column of the output shows
    positions outside of the image. The grid reaches one pixel beyond the image. *)
Theorem udx_same_size_refuted : exists k, optimal_matrix (normalise no_lens cam_vga) vga 0 1 = Some k /\ k <> cam_vga /\
  map_position (pinhole_camera no_lens cam_vga vga) (pinhole_camera no_lens k vga) 639 100 = Some (640, 100 * 480 / 479) /\
  ~ in_image 640 480 (640, 100 * 480 / 479).
Proof.
  destruct (udx_pinhole_matrix cam_vga vga 0 1 vga_valid) as (k & E & K); [cbn; lia|cbn; lia|exact vga_moderate|lra|lra|]. cbn zeta in K. rewrite vga_size in K. cbn [width height vga cam_vga p_fu p_fv p_cu p_cv] in K.
  destruct K as (K1 & K2 & K3 & K4). exists k. split; [exact E|]. split; [intros ->; cbn in K1; lra|]. split; [|unfold in_image; cbn; lra].
  unfold map_position. cbn [pinhole_camera back_project3 project3]. unfold pinhole_back_project, no_lens. cbn [undistort fst snd]. destruct (Req_EM_T 1 0) as [?|_]; [lra|].
  unfold pinhole_project. cbn [snd]. destruct (Req_EM_T (1 / 1) 0) as [?|_]; [lra|]. cbn [fst]. unfold pinhole_keypoint. cbn [distort fst snd cam_vga p_fu p_fv p_cu p_cv].
  rewrite K1, K2, K3, K4. replace (INR 639) with 639 by (rewrite INR_IZR_INZ; reflexivity). replace (INR 100) with 100 by (rewrite INR_IZR_INZ; reflexivity). f_equal. f_equal; field.
Qed.
Print Assumptions udx_same_size_refuted.
(** Refutation: for a camera that sees more than 180 degrees, points behind the image plane change sides and the focal length for alpha = 0 is negative. *)
Definition cam_wide : unified := {| u_xi := 1; u_fu := 100; u_fv := 100; u_cu := 300; u_cv := 300 |}.
Definition wide : image_size := {| width := 600; height := 600 |}.
Lemma wide_back_project u : unified_back_project no_lens cam_wide (u, 300) = (((u - 300) / 100, 0, (1 - (u - 300) / 100 * ((u - 300) / 100)) / 2), true).
Proof.
  unfold unified_back_project, liftable, cam_wide, no_lens. cbn [undistort fst snd u_xi u_fu u_fv u_cu u_cv]. destruct (Rle_dec 1 1) as [_|]; [|lra].
  assert (forall r, Rmax (1 + (1 - 1 * 1) * r) 0 = 1) as E by (intros r; replace (1 + (1 - 1 * 1) * r) with 1 by ring; apply Rmax_left; lra).
  rewrite E, sqrt_1. f_equal. f_equal; [f_equal|]; field.
Qed.
Theorem udx_wide_angle_refuted : unified_valid cam_wide /\ exists k, optimal_matrix (normalise_to_pinhole (unified_camera no_lens cam_wide wide)) wide 0 1 = Some k /\ p_fu k < 0.
Proof.
  split; [unfold unified_valid, cam_wide; cbn; lra|]. set (norm := normalise_to_pinhole _).
  assert (forall u, norm (u, 300) = ((u - 300) / 100 / ((1 - (u - 300) / 100 * ((u - 300) / 100)) / 2), 0 / ((1 - (u - 300) / 100 * ((u - 300) / 100)) / 2))) as N.
  { intros u. unfold norm, normalise_to_pinhole. cbn [unified_camera back_project3]. rewrite wide_back_project. reflexivity. }
  destruct (fold_max i_x0 (at_x 0) px bounds_step ltac:(intros ? [[x y] [u v]]; reflexivity) (samples norm wide) no_bounds) as (_ & L & _).
  destruct (fold_min i_x1 (at_x 8) px bounds_step ltac:(intros ? [[x y] [u v]]; reflexivity) (samples norm wide) no_bounds) as (_ & U & _).
  specialize (L (0%nat, 4%nat, norm (sample wide 0 4))). specialize (U (8%nat, 4%nat, norm (sample wide 8 4))).
  assert (3 / 4 <= i_x0 (fold_left bounds_step (samples norm wide) no_bounds)) as L'.
  { eapply Rle_trans; [|apply L; [apply In_samples; split; [lia|reflexivity]|reflexivity]]. unfold px. cbn [snd]. change (sample wide 0 4) with (0, 300). rewrite N. cbn [fst]. lra. }
  assert (i_x1 (fold_left bounds_step (samples norm wide) no_bounds) <= - (3 / 4)) as U'.
  { eapply Rle_trans; [apply U; [apply In_samples; split; [lia|reflexivity]|reflexivity]|]. unfold px. cbn [snd]. change (sample wide 8 4) with (600, 300). rewrite N. cbn [fst]. lra. }
  unfold optimal_matrix. destruct (Rle_dec 0 0) as [_|]; [|lra]. destruct (Rle_dec 0 1) as [_|]; [|lra]. destruct (Rlt_dec 0 1) as [_|]; [|lra]. unfold undistort_rectangles.
  set (b := fold_left bounds_step (samples norm wide) no_bounds) in *. eexists. split; [reflexivity|]. cbn [p_fu r_width]. unfold output_size, wide. cbn [width]. rewrite Rmult_1_l, Zfloor_IZR.
  set (d := i_x1 b - i_x0 b). assert (d < 0) by (unfold d; lra). assert (/ d < 0) by (apply Rinv_lt_0_compat; assumption). unfold Rdiv. lra.
Qed.
Print Assumptions udx_wide_angle_refuted.
(** Refutation: the matrix is computed for another width than that of the output camera. The factor is 0.7 in single precision, the image 640 pixels wide. *)
Theorem udx_float_size_refuted : matrix_width (S754_finite false 11744051 (-24)) 640 = 447%Z /\ camera_width (S754_finite false 11744051 (-24)) 640 = 448%Z.
Proof. vm_compute. split; reflexivity. Qed.
Print Assumptions udx_float_size_refuted.

(** ** C88 *)
(** For an output camera whose ray points to the front, the position in the map is the projection of that ray (the point is scaled to depth 1). *)
Theorem umx_position input output j i x y z ok : back_project3 output (INR j, INR i) = ((x, y, z), ok) -> 0 < z ->
  exists l, 0 < l /\ snd (scale l (x, y, z)) = 1 /\ map_position input output j i = fst (project3 input (scale l (x, y, z))).
Proof.
  intros E Z. exists (/ z). split; [apply Rinv_0_lt_compat; exact Z|]. split; [cbn; field; lra|]. unfold map_position. rewrite E. cbn [fst]. destruct (Req_EM_T z 0) as [?|_]; [lra|]. unfold scale. f_equal. f_equal.
  f_equal; [f_equal|]; unfold Rdiv; ring.
Qed.
Print Assumptions umx_position.
(** The map from a pinhole camera to itself is the identity, if the lens model is inverted exactly. *)
Theorem umx_identity D c s j i : pinhole_valid c ->
  (let q := ((INR j - p_cu c) / p_fu c, (INR i - p_cv c) / p_fv c) in distort D (undistort D q) = q) ->
  map_position (pinhole_camera D c s) (pinhole_camera D c s) j i = Some (INR j, INR i).
Proof.
  intros V L. destruct (umx_position (pinhole_camera D c s) (pinhole_camera D c s) j i
    (fst (undistort D ((INR j - p_cu c) / p_fu c, (INR i - p_cv c) / p_fv c))) (snd (undistort D ((INR j - p_cu c) / p_fu c, (INR i - p_cv c) / p_fv c))) 1 true eq_refl ltac:(lra)) as (l & Hl & _ & E).
  etransitivity; [exact E|]. destruct (px_project_back_projection D c s (INR j, INR i) l V Hl L) as (st & P & _). cbn [pinhole_camera project3]. unfold pinhole_back_project in P. cbn [fst snd] in P.
  cbn [fst snd]. rewrite P. reflexivity.
Qed.
Print Assumptions umx_identity.
(** The same for the unified camera, for rays to the front. *)
Theorem umx_identity_unified_partial D c s j i x y z ok : unified_valid c -> u_xi c <= 1 ->
  (let q := ((INR j - u_cu c) / u_fu c, (INR i - u_cv c) / u_fv c) in distort D (undistort D q) = q) ->
  unified_back_project D c (INR j, INR i) = ((x, y, z), ok) -> 0 < z ->
  map_position (unified_camera D c s) (unified_camera D c s) j i = Some (INR j, INR i).
Proof.
  intros V XI L B Z. destruct (umx_position (unified_camera D c s) (unified_camera D c s) j i x y z ok B Z) as (l & Hl & _ & E). etransitivity; [exact E|].
  pose proof (ux_project_back_projection_partial D c s (INR j, INR i) l V Hl L ltac:(left; exact XI)) as P. rewrite B in P. cbn [fst] in P. cbn [unified_camera project3].
  destruct (unified_project D c s (scale l (x, y, z))) as [kp st]. cbn [fst]. destruct P as (st' & P & _). injection P as -> _. reflexivity.
Qed.
Print Assumptions umx_identity_unified_partial.
(** What the factories return: one entry per pixel of the output image; it is where the ray of that pixel under the new pinhole matrix is seen by the input camera. *)
Lemma undistort_map_entry input output s i j : (i < Z.to_nat (height s))%nat -> (j < Z.to_nat (width s))%nat ->
  nth j (nth i (undistort_map input output s) []) None = option_map fixed_entry (map_position input output j i).
Proof.
  intros I J. unfold undistort_map. set (row := fun i : nat => map (fun j => option_map fixed_entry (map_position input output j i)) (seq 0 (Z.to_nat (width s)))).
  rewrite (nth_indep _ [] (row 0%nat)) by (rewrite map_length, seq_length; exact I). rewrite (map_nth row (seq 0 (Z.to_nat (height s))) 0%nat i). rewrite seq_nth by exact I. unfold row.
  rewrite (nth_indep _ None (option_map fixed_entry (map_position input output 0 (0 + i)))) by (rewrite map_length, seq_length; exact J).
  rewrite (map_nth (fun j => option_map fixed_entry (map_position input output j (0 + i))) _ 0%nat j). rewrite seq_nth by exact J. reflexivity.
Qed.
Lemma undistort_map_size input output s : length (undistort_map input output s) = Z.to_nat (height s) /\ Forall (fun row => length row = Z.to_nat (width s)) (undistort_map input output s).
Proof.
  unfold undistort_map. split; [rewrite map_length; apply seq_length|]. apply Forall_forall. intros row R. apply in_map_iff in R. destruct R as (i & <- & _). rewrite map_length. apply seq_length.
Qed.
Lemma pinhole_output_position input k out j i :
  map_position input (pinhole_camera no_lens k out) j i = fst (project3 input ((INR j - p_cu k) / p_fu k, (INR i - p_cv k) / p_fv k, 1)).
Proof.
  unfold map_position. cbn [pinhole_camera back_project3]. unfold pinhole_back_project, no_lens. cbn [undistort fst snd]. destruct (Req_EM_T 1 0) as [?|_]; [lra|].
  replace ((INR j - p_cu k) / p_fu k / 1) with ((INR j - p_cu k) / p_fu k) by (unfold Rdiv; rewrite Rinv_1; ring). replace ((INR i - p_cv k) / p_fv k / 1) with ((INR i - p_cv k) / p_fv k) by (unfold Rdiv; rewrite Rinv_1; ring). replace (1 / 1) with 1 by field. reflexivity.
Qed.
Definition map_of (input : vec3 -> option vec2) (k : pinhole) (out : image_size) (m : list (list (option (Z * Z * Z)))) : Prop :=
  length m = Z.to_nat (height out) /\ Forall (fun row => length row = Z.to_nat (width out)) m /\
  forall i j, (i < Z.to_nat (height out))%nat -> (j < Z.to_nat (width out))%nat ->
    nth j (nth i m []) None = option_map fixed_entry (input ((INR j - p_cu k) / p_fu k, (INR i - p_cv k) / p_fv k, 1)).
Theorem umx_factories D s alpha sc k m :
  (forall c, pinhole_undistorter D c s alpha sc = Some (k, m) -> map_of (fun p => fst (pinhole_project D c s p)) k (output_size sc s) m) /\
  (forall c, unified_undistorter_to_pinhole D c s alpha sc = Some (k, m) -> map_of (fun p => Some (fst (unified_project D c s p))) k (output_size sc s) m).
Proof.
  split; intros c E; [unfold pinhole_undistorter in E|unfold unified_undistorter_to_pinhole in E];
    (destruct (optimal_matrix _ s alpha sc) as [k'|]; [|discriminate]; injection E as <- <-;
     split; [apply undistort_map_size|]; split; [apply undistort_map_size|]; intros i j I J; rewrite undistort_map_entry by assumption; rewrite pinhole_output_position; reflexivity).
Qed.
Print Assumptions umx_factories.
(** An undistorted pinhole camera of another size: the map stretches the output evenly over the input, from 0 to w. *)
Theorem umx_resize c s alpha sc j i : pinhole_valid c -> (0 < width s)%Z -> (0 < height s)%Z -> moderate (normalise no_lens c) s -> 0 <= alpha <= 1 -> 0 < sc ->
  (2 <= width (output_size sc s))%Z -> (2 <= height (output_size sc s))%Z ->
  exists k m, pinhole_undistorter no_lens c s alpha sc = Some (k, m) /\
    map_position (pinhole_camera no_lens c s) (pinhole_camera no_lens k (output_size sc s)) j i =
    Some (INR j * IZR (width s) / (IZR (width (output_size sc s)) - 1), INR i * IZR (height s) / (IZR (height (output_size sc s)) - 1)).
Proof.
  intros V W H M A SC W2 H2. destruct (udx_pinhole_matrix c s alpha sc V W H M A SC) as (k & E & K1 & K2 & K3 & K4). unfold pinhole_undistorter. rewrite E. eexists k, _. split; [reflexivity|].
  assert (0 < IZR (width s)) by (apply (IZR_lt 0); lia). assert (0 < IZR (height s)) by (apply (IZR_lt 0); lia).
  assert (1 < IZR (width (output_size sc s))) by (apply (IZR_lt 1); lia). assert (1 < IZR (height (output_size sc s))) by (apply (IZR_lt 1); lia). destruct V as (V1 & V2 & V3 & V4).
  unfold map_position. cbn [pinhole_camera back_project3 project3]. unfold pinhole_back_project, no_lens. cbn [undistort fst snd]. destruct (Req_EM_T 1 0) as [?|_]; [lra|].
  unfold pinhole_project. cbn [snd]. destruct (Req_EM_T (1 / 1) 0) as [?|_]; [lra|]. cbn [fst]. unfold pinhole_keypoint. cbn [distort fst snd].
  rewrite K1, K2, K3, K4. f_equal. f_equal; field; lra.
Qed.
Print Assumptions umx_resize.
(** The fixed-point entry means the position rounded to the nearest multiple of 1/32 pixel, within the range of 16 bit coordinates. *)
Theorem umx_fixed_partial p : Rabs (fst p) <= 32767 -> Rabs (snd p) <= 32767 ->
  let '(u, v) := fixed_position (fixed_entry p) in Rabs (u - fst p) <= / 64 /\ Rabs (v - snd p) <= / 64.
Proof.
  intros HU HV. destruct p as [u v]. cbn [fst snd] in *. apply abs_bound in HU. apply abs_bound in HV.
  assert (forall x, -32767 <= x <= 32767 -> Rabs (IZR (cv_round (x * 32)) - x * 32) <= / 2 /\ (- 2 ^ 20 <= cv_round (x * 32) < 2 ^ 20)%Z) as C.
  { intros x Hx. destruct (cv_round_near (x * 32)) as [N _]; [lra|]. split; [exact N|]. apply Rabs_le_inv in N. split.
    - apply le_IZR. replace (IZR (- 2 ^ 20)) with (-1048576) by (cbn; lra). lra.
    - apply lt_IZR. replace (IZR (2 ^ 20)) with 1048576 by (cbn; lra). lra. }
  destruct (C u HU) as [N1 B1]. destruct (C v HV) as [N2 B2]. unfold fixed_entry. cbn [fst snd]. rewrite fixed_split by assumption.
  apply Rabs_le_inv in N1. apply Rabs_le_inv in N2. split; apply Rabs_le; lra.
Qed.
Print Assumptions umx_fixed_partial.
Lemma cv_round_int n : (- 2 ^ 31 <= n < 2 ^ 31)%Z -> cv_round (IZR n) = n.
Proof.
  intros [B1 B2]. unfold cv_round. rewrite (Zrnd_IZR ZnearestE n). rewrite (proj2 (Z.leb_le _ _) B1), (proj2 (Z.ltb_lt _ _) B2). reflexivity.
Qed.
(** The whole map from a camera to itself. *)
Theorem umx_identity_map c s j i : pinhole_valid c -> (width s <= 2 ^ 15)%Z -> (height s <= 2 ^ 15)%Z -> (Z.of_nat j < width s)%Z -> (Z.of_nat i < height s)%Z ->
  exists row, nth_error (undistort_map (pinhole_camera no_lens c s) (pinhole_camera no_lens c s) s) i = Some row /\ nth_error row j = Some (Some (Z.of_nat j, Z.of_nat i, 0%Z)).
Proof.
  intros V W H J I. unfold undistort_map. rewrite nth_error_map. replace (nth_error (seq 0 (Z.to_nat (height s))) i) with (Some i).
  2:{ symmetry. rewrite (nth_error_nth' _ 0%nat) by (rewrite seq_length; lia). rewrite seq_nth by lia. reflexivity. }
  cbn [option_map]. eexists. split; [reflexivity|]. rewrite nth_error_map. replace (nth_error (seq 0 (Z.to_nat (width s))) j) with (Some j).
  2:{ symmetry. rewrite (nth_error_nth' _ 0%nat) by (rewrite seq_length; lia). rewrite seq_nth by lia. reflexivity. }
  cbn [option_map]. rewrite umx_identity by (try exact V; reflexivity). cbn [option_map]. unfold fixed_entry. cbn [fst snd]. rewrite !INR_IZR_INZ, <- !mult_IZR.
  rewrite !cv_round_int by lia. rewrite !land31, !shiftr5, !Z.div_mul, !Z.mod_mul by lia. rewrite !to_short_id by lia. reflexivity.
Qed.
Print Assumptions umx_identity_map.
Example umx_identity_ex : pinhole_valid cam_vga /\ (width vga <= 2 ^ 15)%Z /\ (Z.of_nat 639 < width vga)%Z /\ fixed_position (10, 20, 33)%Z = (10 + 1 / 32, 20 + 1 / 32).
Proof. split; [exact vga_valid|]. split; [cbn; lia|]. split; [cbn; lia|]. reflexivity. Qed.

(** Refutation: positions outside of 16 bits wrap around and look like positions inside of the image. *)
Definition cam_tele : pinhole := {| p_fu := 65536; p_fv := 65536; p_cu := 10; p_cv := 10 |}.
Definition cam_out : pinhole := {| p_fu := 1; p_fv := 1; p_cu := 1; p_cv := 1 |}.
Definition tiny : image_size := {| width := 20; height := 20 |}.
Theorem umx_wrap_refuted : pinhole_valid cam_tele /\ pinhole_valid cam_out /\
  exists p, map_position (pinhole_camera no_lens cam_tele tiny) (pinhole_camera no_lens cam_out tiny) 2 1 = Some p /\ p = (65546, 10) /\ ~ in_image 20 20 p /\
    fixed_entry p = (10, 10, 0)%Z /\ in_image 20 20 (fixed_position (fixed_entry p)).
Proof.
  split; [unfold pinhole_valid, cam_tele; cbn; lra|]. split; [unfold pinhole_valid, cam_out; cbn; lra|]. exists (65546, 10). split.
  { unfold map_position. cbn [pinhole_camera back_project3 project3]. unfold pinhole_back_project, no_lens. cbn [undistort fst snd]. destruct (Req_EM_T 1 0) as [?|_]; [lra|].
    unfold pinhole_project. cbn [snd]. destruct (Req_EM_T (1 / 1) 0) as [?|_]; [lra|]. cbn [fst]. unfold pinhole_keypoint. cbn [distort fst snd cam_tele cam_out p_fu p_fv p_cu p_cv INR]. f_equal. f_equal; field. }
  split; [reflexivity|]. split; [unfold in_image; cbn; lra|].
  assert (fixed_entry (65546, 10) = (10, 10, 0)%Z) as F.
  { unfold fixed_entry. cbn [fst snd]. rewrite <- !mult_IZR, !cv_round_int by lia. reflexivity. }
  split; [exact F|]. rewrite F. unfold in_image, fixed_position. cbn [fst snd]. change (0 mod 32)%Z with 0%Z. change (0 / 32)%Z with 0%Z. cbn [IZR]. lra.
Qed.
Print Assumptions umx_wrap_refuted.
(** Positions that do not even fit into 32 bits all look like the upper left pixel. *)
Lemma cv_round_far x : 2 ^ 31 <= x \/ x < - 2 ^ 31 - 1 -> cv_round x = (- 2 ^ 31)%Z.
Proof.
  intros H. pose proof (Znearest_half (fun n => negb (Z.even n)) x) as N. apply Rabs_le_inv in N. unfold cv_round. cbv zeta.
  destruct (Z.leb_spec (- 2 ^ 31) (ZnearestE x)) as [A|A], (Z.ltb_spec (ZnearestE x) (2 ^ 31)) as [B|B]; cbn [andb]; try reflexivity. exfalso.
  destruct H as [H|H].
  - assert (B2 : (ZnearestE x <= 2 ^ 31 - 1)%Z) by lia. apply IZR_le in B2. rewrite minus_IZR in B2. replace (IZR (2 ^ 31)) with (2 ^ 31) in B2 by (cbn; lra). lra.
  - apply IZR_le in A. replace (IZR (- 2 ^ 31)) with (- 2 ^ 31) in A by (cbn; lra). lra.
Qed.
Theorem umx_far_refuted p : 67108865 <= Rabs (fst p) -> 67108865 <= Rabs (snd p) -> fixed_entry p = (0, 0, 0)%Z /\ fixed_position (fixed_entry p) = (0, 0).
Proof.
  intros A B. assert (C : forall x, 67108865 <= Rabs x -> cv_round (x * 32) = (- 2 ^ 31)%Z).
  { intros x X. apply cv_round_far. destruct (Rle_dec 0 x); [rewrite Rabs_right in X by lra; left; lra|rewrite Rabs_left in X by lra; right; lra]. }
  assert (E : fixed_entry p = (0, 0, 0)%Z). { unfold fixed_entry. rewrite (C _ A), (C _ B). reflexivity. }
  split; [exact E|]. rewrite E. unfold fixed_position. change (0 mod 32)%Z with 0%Z. change (0 / 32)%Z with 0%Z. f_equal; lra.
Qed.
Print Assumptions umx_far_refuted.
(** Refutation: a camera without distortion that sees more than 180 degrees is not mapped to itself, rays to the back are turned around. *)
Theorem umx_wide_angle_refuted : unified_valid cam_wide /\
  map_position (unified_camera no_lens cam_wide wide) (unified_camera no_lens cam_wide wide) 0 300 = Some (1000 / 3, 300).
Proof.
  split; [unfold unified_valid, cam_wide; cbn; lra|]. unfold map_position. cbn [unified_camera back_project3 project3]. replace (INR 300) with 300 by (rewrite INR_IZR_INZ; reflexivity). cbn [INR].
  assert (unified_back_project no_lens cam_wide (0, 300) = ((-3, 0, -4), true)) as B by (rewrite wide_back_project; f_equal; f_equal; [f_equal|]; field).
  rewrite B. cbn [fst]. destruct (Req_EM_T (-4) 0) as [?|_]; [lra|]. unfold unified_project. cbn [fst]. f_equal.
  replace (-3 / -4) with (3 / 4) by field. replace (0 / -4) with 0 by field. replace (-4 / -4) with 1 by field.
  assert (norm3 (3 / 4, 0, 1) = 5 / 4) as NM by (unfold norm3; replace (3 / 4 * (3 / 4) + 0 * 0 + 1 * 1) with (5 / 4 * (5 / 4)) by field; apply sqrt_square; lra).
  unfold unified_keypoint, unified_valid_proj, fov_parameter. rewrite NM. cbn [cam_wide u_xi u_fu u_fv u_cu u_cv snd]. destruct (Rle_dec 1 1) as [_|]; [|lra]. destruct (Rlt_dec _ 1) as [_|]; [|lra].
  cbn [no_lens distort fst snd]. f_equal; field.
Qed.
Print Assumptions umx_wide_angle_refuted.
