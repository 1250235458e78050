(** Model of the random keypoints and points of cameras, and of setting camera parameters.

    Source: aslam_cv_cameras/src/camera-pinhole.cc ("ph"), camera-unified-projection.cc ("un"), camera-3d-lidar.cc ("li"),
            distortion-*.cc, aslam_cv_cameras/include/aslam/cameras/camera.h ("cam").

    Simplifications: doubles are real numbers. The random numbers are arguments: the two entries of setRandom() in [-1, 1] and
    rand() / RAND_MAX in [0, 1]. 1 / (xi * xi - 1) is infinite for xi = 1; the keypoints computed from it are infinite or NaN, which are never
    visible: None. Cameras and lenses are those of CameraModel.v and LidarModel.v. *)
From Coq Require Import Reals ZArith List Bool Arith.
From Verif Require Import DistortionModel CameraModel LidarModel.
Import ListNotations.
Local Open Scope R_scope.

Inductive outcome (A : Type) := Done (a : A) | Aborted.
Arguments Done {A}. Arguments Aborted {A}.

(** createRandomKeypoint of the pinhole camera and of the lidar, ph 166-177, li 76-87. *)
Definition box_keypoint (s : image_size) (x y : R) : vec2 :=
  let border := IZR (Z.min (width s) (height s)) * (1 / 10) in
  (border + Rabs x * (IZR (width s) - border * 2), border + Rabs y * (IZR (height s) - border * 2)).
(** point / point.norm() * depth. *)
Definition at_depth (ray : vec3) (depth : R) : vec3 := let '(x, y, z) := ray in (x / norm3 ray * depth, y / norm3 ray * depth, z / norm3 ray * depth).
(** createRandomVisiblePoint, ph 179-189. *)
Definition pinhole_point (D : distortion) (c : pinhole) (s : image_size) (x y depth : R) : outcome vec3 :=
  if Rlt_dec 0 depth then Done (at_depth (fst (pinhole_back_project D c (box_keypoint s x y))) depth) else Aborted.
(** createRandomVisiblePoint, li 89-99. *)
Definition lidar_point (c : lidar) (s : image_size) (x y depth : R) : outcome vec3 :=
  if Rlt_dec 0 depth then Done (at_depth (fst (lidar_back_project c (box_keypoint s x y))) depth) else Aborted.

(** One try of createRandomKeypoint, un 254-263. *)
Definition sample (D : distortion) (c : unified) (draw : R * R * R) : option vec2 :=
  let '(x, y, r) := draw in
  if Req_EM_T (u_xi c * u_xi c) 1 then None
  else
    let k := r * (1 / (u_xi c * u_xi c - 1)) * (8 / 10) in
    let q := distort D (x * k, y * k) in
    Some (u_fu c * fst q + u_cu c, u_fv c * snd q + u_cv c).
(** The condition of the loop, un 253. *)
Definition good (D : distortion) (c : unified) (s : image_size) (u : option vec2) : bool :=
  match u with Some kp => unified_liftable D c kp && keypoint_visible s kp | None => false end.
(** The loop, un 252-272: max_tries counts down after a draw, and at zero the image centre is taken. *)
Fixpoint search (D : distortion) (c : unified) (s : image_size) (draws : nat -> R * R * R) (max_tries : nat) (i : nat) (u : option vec2) : option vec2 :=
  if good D c s u then u
  else match max_tries with
       | O => u
       | S n => if (n <? 1)%nat then Some (u_cu c, u_cv c) else search D c s draws n (S i) (sample D c (draws i))
       end.
(** createRandomKeypoint, un 236-274. *)
Definition unified_random (D : distortion) (c : unified) (s : image_size) (draws : nat -> R * R * R) : option vec2 :=
  search D c s draws 20 0 (Some (IZR (width s) + 1, IZR (height s) + 1)).
(** createRandomVisiblePoint, un 276-292. *)
Definition unified_point (D : distortion) (c : unified) (s : image_size) (draws : nat -> R * R * R) (depth : R) : outcome vec3 :=
  if Rlt_dec 0 depth then
    match unified_random D c s draws with
    | None => Aborted
    | Some kp =>
        let '(ray, ok) := unified_back_project D c kp in
        if ok then
          let p := at_depth ray depth in
          match snd (unified_project D c s p) with KeypointVisible => Done p | _ => Aborted end
        else Aborted
    end
  else Aborted.

(** ** Parameters *)
Inductive model_type := PinholeType | UnifiedType | LidarType.
(** getParameterSize. *)
Definition parameter_size (t : model_type) : nat := match t with PinholeType => 4 | UnifiedType => 5 | LidarType => 4 end.
Definition positive (x : R) : bool := if Rlt_dec 0 x then true else false.
(** areParametersValid: ph 212-218, un 294-301, li 122-126. *)
Definition parameters_valid (t : model_type) (l : list R) : bool :=
  match t, l with
  | PinholeType, [fu; fv; cu; cv] => positive fu && positive fv && positive cu && positive cv
  | UnifiedType, [xi; fu; fv; cu; cv] => (if Rle_dec 0 xi then true else false) && positive fu && positive fv && positive cu && positive cv
  | LidarType, [h; v; _; _] => positive h && positive v
  | _, _ => false
  end.
(** The constructor with intrinsics, ph 20-31, un 24-35, li 20-25. *)
Definition construct (t : model_type) (l : list R) : outcome (list R) := if parameters_valid t l then Done l else Aborted.
(** The constructor without arguments, ph 17-18, un 18-22, li 17-18. *)
Definition default (t : model_type) : list R := match t with PinholeType => [0; 0; 0; 0] | UnifiedType => [0; 0; 0; 0; 0] | LidarType => [0; 0; 0] end.
(** setParameters, cam 595-598. *)
Definition set_parameters (t : model_type) (old l : list R) : outcome (list R) := if Nat.eqb (parameter_size t) (length l) then Done l else Aborted.
(** The lenses: distortionParametersValid of distortion-{radtan,equidistant,fisheye,null}. *)
Inductive lens_type := RadTan | Equidistant | Fisheye | NoLens.
Definition lens_valid (t : lens_type) (l : list R) : bool :=
  match t, l with
  | NoLens, _ => true
  | Fisheye, [w] => (if Rlt_dec (Rabs w) (/ 10 ^ 16) then true else false) || ((if Rle_dec (1/2) w then true else false) && (if Rle_dec w (3/2) then true else false))
  | Fisheye, _ => false
  | _, _ => Nat.eqb (length l) 4
  end.
(** Distortion::setParameters, distortion.cc 65-68. *)
Definition set_lens (t : lens_type) (old l : list R) : outcome (list R) := if lens_valid t l then Done l else Aborted.
