(** Model of the pinhole and of the unified projection camera and of the homogeneous projection.

    Source: aslam_cv_cameras/src/camera-pinhole.cc ("ph"), aslam_cv_cameras/include/aslam/cameras/camera-pinhole-inl.h ("phi"),
            aslam_cv_cameras/src/camera-unified-projection.cc ("un"),
            aslam_cv_cameras/include/aslam/cameras/camera-unified-projection.h ("unh"),
            aslam_cv_cameras/src/camera.cc ("cam"), aslam_cv_cameras/include/aslam/cameras/camera-inl.h ("cami").

    Simplifications: doubles are real numbers (no rounding). 1.0 / z for z = 0 gives no finite keypoint: None. The
    distortion is a triple of functions (distort, its Jacobian, undistort), i.e. the coefficients are fixed unless stated
    otherwise; the concrete models are in DistortionModel.v. Intrinsics are passed explicitly, which covers the internal
    and the external parameters (ph 76-88, un 84-96). The CHECKs on pointers and vector sizes hold by
    construction. The outputs are modelled as if all Jacobians were requested. *)
From Coq Require Import Reals ZArith.
From Verif Require Import DistortionModel.
Local Open Scope R_scope.

Definition vec3 : Type := R * R * R.
Definition row3 : Type := R * R * R.
Definition row5 : Type := R * R * R * R * R.

(** ProjectionResult::Status. *)
Inductive status := KeypointVisible | KeypointOutsideImageBox | PointBehindCamera | ProjectionInvalid.

(** The three functions of a lens distortion with fixed coefficients. *)
Record distortion := { distort : vec2 -> vec2; distort_jacobian : vec2 -> mat2; undistort : vec2 -> vec2 }.

(** Image size (uint32_t). *)
Record image_size := { width : Z; height : Z }.
(** isKeypointVisible, cami 17-25. *)
Definition keypoint_visible (s : image_size) (kp : vec2) : bool :=
  let (u, v) := kp in
  if Rle_dec 0 u then if Rle_dec 0 v then if Rlt_dec u (IZR (width s)) then if Rlt_dec v (IZR (height s)) then true else false
  else false else false else false.
(** isKeypointVisibleWithMargin, cami 28-39, for margins that pass the two CHECKs. *)
Definition keypoint_visible_with_margin (s : image_size) (kp : vec2) (margin : R) : bool :=
  let (u, v) := kp in
  if Rle_dec margin u then if Rle_dec margin v then if Rlt_dec u (IZR (width s) - margin) then if Rlt_dec v (IZR (height s) - margin) then true else false
  else false else false else false.

(** ** Pinhole *)
(** kMinimumDepth, ph 234. *)
Definition minimum_depth : R := / 10 ^ 10.
(** Intrinsics fu, fv, cu, cv. *)
Record pinhole := { p_fu : R; p_fv : R; p_cu : R; p_cv : R }.
(** areParametersValid, ph 212-218. *)
Definition pinhole_valid (c : pinhole) : Prop := 0 < p_fu c /\ 0 < p_fv c /\ 0 < p_cu c /\ 0 < p_cv c.
(** backProject3, ph 47-63. *)
Definition pinhole_back_project (D : distortion) (c : pinhole) (kp : vec2) : vec3 * bool :=
  let q := undistort D ((fst kp - p_cu c) / p_fu c, (snd kp - p_cv c) / p_fv c) in
  ((fst q, snd q, 1), true).
(** The keypoint of project3Functional for z <> 0, ph 100-126 and 159-161. *)
Definition pinhole_keypoint (D : distortion) (c : pinhole) (p : vec3) : vec2 :=
  let '(x, y, z) := p in
  let rz := 1 / z in
  let q := distort D (x * rz, y * rz) in
  (p_fu c * fst q + p_cu c, p_fv c * snd q + p_cv c).
(** evaluateProjectionResult, phi 48-65. *)
Definition pinhole_status (s : image_size) (kp : vec2) (p : vec3) : status :=
  let visibility := keypoint_visible s kp in
  let z := snd p in
  if Rlt_dec minimum_depth z then if visibility then KeypointVisible else KeypointOutsideImageBox
  else if Rlt_dec z 0 then PointBehindCamera
  else ProjectionInvalid.
(** project3, ph 65-164: keypoint and status. *)
Definition pinhole_project (D : distortion) (c : pinhole) (s : image_size) (p : vec3) : option vec2 * status :=
  let z := snd p in
  if Req_EM_T z 0 then (None, ProjectionInvalid)
  else let kp := pinhole_keypoint D c p in (Some kp, pinhole_status s kp p).
(** The Jacobian with respect to the point, ph 128-141. *)
Definition pinhole_jacobian (D : distortion) (c : pinhole) (p : vec3) : row3 * row3 :=
  let '(x, y, z) := p in
  let rz := 1 / z in
  let '((j00, j01), (j10, j11)) := distort_jacobian D (x * rz, y * rz) in
  let rz2 := rz * rz in
  ((p_fu c * j00 * rz, p_fu c * j01 * rz, - p_fu c * (x * j00 + y * j01) * rz2),
   (p_fv c * j10 * rz, p_fv c * j11 * rz, - p_fv c * (x * j10 + y * j11) * rz2)).
(** The Jacobian with respect to the intrinsics, ph 144-157. *)
Definition pinhole_intrinsics_jacobian (D : distortion) (p : vec3) : row4 * row4 :=
  let '(x, y, z) := p in
  let rz := 1 / z in
  let q := distort D (x * rz, y * rz) in
  ((fst q, 0, 1, 0), (0, snd q, 0, 1)).
(** The Jacobian with respect to four distortion coefficients, ph 106-114; [J] is what distortParameterJacobian returns at the
    undistorted normalised point. *)
Definition scale_rows (fu fv : R) (J : row4 * row4) : row4 * row4 :=
  let '((a, b, c, d), (a', b', c', d')) := J in
  ((a * fu, b * fu, c * fu, d * fu), (a' * fv, b' * fv, c' * fv, d' * fv)).
Definition pinhole_distortion_jacobian (param_jacobian : vec2 -> row4 * row4) (c : pinhole) (p : vec3) : row4 * row4 :=
  let '(x, y, z) := p in
  let rz := 1 / z in
  scale_rows (p_fu c) (p_fv c) (param_jacobian (x * rz, y * rz)).

(** ** Unified projection *)
(** Intrinsics xi, fu, fv, cu, cv. *)
Record unified := { u_xi : R; u_fu : R; u_fv : R; u_cu : R; u_cv : R }.
(** areParametersValid, un 294-301. *)
Definition unified_valid (c : unified) : Prop := 0 <= u_xi c /\ 0 < u_fu c /\ 0 < u_fv c /\ 0 < u_cu c /\ 0 < u_cv c.
(** fov_parameter, unh 219. *)
Definition fov_parameter (xi : R) : R := if Rle_dec xi 1 then xi else 1 / xi.
(** isUndistortedKeypointValid, un 219-222. *)
Definition liftable (rho2_d xi : R) : bool :=
  if Rle_dec xi 1 then true else if Rle_dec rho2_d (1 / (xi * xi - 1)) then true else false.
(** isLiftable, un 224-234. *)
Definition unified_liftable (D : distortion) (c : unified) (kp : vec2) : bool :=
  let q := undistort D (1 / u_fu c * (fst kp - u_cu c), 1 / u_fv c * (snd kp - u_cv c)) in
  liftable (fst q * fst q + snd q * snd q) (u_xi c).
(** backProject3, un 54-72. *)
Definition unified_back_project (D : distortion) (c : unified) (kp : vec2) : vec3 * bool :=
  let q := undistort D ((fst kp - u_cu c) / u_fu c, (snd kp - u_cv c) / u_fv c) in
  let xi := u_xi c in
  let rho2_d := fst q * fst q + snd q * snd q in
  let tmpD := Rmax (1 + (1 - xi * xi) * rho2_d) 0 in
  ((fst q, snd q, 1 - xi * (rho2_d + 1) / (xi + sqrt tmpD)), liftable rho2_d xi).
Definition norm3 (p : vec3) : R := let '(x, y, z) := p in sqrt (x * x + y * y + z * z).
(** un 110-123: whether the projection is attempted. *)
Definition unified_valid_proj (xi : R) (p : vec3) : bool :=
  if Rlt_dec (- (fov_parameter xi * norm3 p)) (snd p) then true else false.
(** The keypoint, un 110-127, 141-151, 193-195. *)
Definition unified_keypoint (D : distortion) (c : unified) (p : vec3) : vec2 :=
  let '(x, y, z) := p in
  if unified_valid_proj (u_xi c) p then
    let rz := 1 / (z + u_xi c * norm3 p) in
    let q := distort D (x * rz, y * rz) in
    (u_fu c * fst q + u_cu c, u_fv c * snd q + u_cv c)
  else (0, 0).
(** evaluateProjectionResult, un 200-217. *)
Definition unified_status (s : image_size) (kp : vec2) (p : vec3) : status :=
  let '(x, y, z) := p in
  let visibility := keypoint_visible s kp in
  let d2 := x * x + y * y + z * z in
  if Rlt_dec (minimum_depth * minimum_depth) d2 then if visibility then KeypointVisible else KeypointOutsideImageBox
  else ProjectionInvalid.
(** project3, un 74-198. *)
Definition unified_project (D : distortion) (c : unified) (s : image_size) (p : vec3) : vec2 * status :=
  let kp := unified_keypoint D c p in
  (kp, if unified_valid_proj (u_xi c) p then unified_status s kp p else ProjectionInvalid).
(** The Jacobian with respect to the point of a valid projection, un 153-174. *)
Definition unified_jacobian (D : distortion) (c : unified) (p : vec3) : row3 * row3 :=
  let '(x, y, z) := p in
  let xi := u_xi c in
  let d := norm3 p in
  let rz := 1 / (z + xi * d) in
  let '((e00, e01), (e10, e11)) := distort_jacobian D (x * rz, y * rz) in
  let rz2 := rz * rz / d in
  let j00 := rz2 * (d * z + xi * (y * y + z * z)) in
  let j10 := - rz2 * xi * x * y in
  let j01 := j10 in
  let j11 := rz2 * (d * z + xi * (x * x + z * z)) in
  let rz2' := rz2 * (- xi * z - d) in
  let j02 := x * rz2' in
  let j12 := y * rz2' in
  ((u_fu c * (j00 * e00 + j10 * e01), u_fu c * (j01 * e00 + j11 * e01), u_fu c * (j02 * e00 + j12 * e01)),
   (u_fv c * (j00 * e10 + j10 * e11), u_fv c * (j01 * e10 + j11 * e11), u_fv c * (j02 * e10 + j12 * e11))).
(** The Jacobian with respect to the intrinsics of a valid projection, un 176-191. *)
Definition unified_intrinsics_jacobian (D : distortion) (c : unified) (p : vec3) : row5 * row5 :=
  let '(x, y, z) := p in
  let d := norm3 p in
  let rz := 1 / (z + u_xi c * d) in
  let q := distort D (x * rz, y * rz) in
  let '((e00, e01), (e10, e11)) := distort_jacobian D (x * rz, y * rz) in
  let jx0 := - x * rz * d * rz in
  let jx1 := - y * rz * d * rz in
  ((u_fu c * e00 * jx0 + u_fu c * e01 * jx1, fst q, 0, 1, 0),
   (u_fv c * e10 * jx0 + u_fv c * e11 * jx1, 0, snd q, 0, 1)).
(** The Jacobian with respect to four distortion coefficients of a valid projection, un 132-139. *)
Definition unified_distortion_jacobian (param_jacobian : vec2 -> row4 * row4) (c : unified) (p : vec3) : row4 * row4 :=
  let '(x, y, z) := p in
  let rz := 1 / (z + u_xi c * norm3 p) in
  scale_rows (u_fu c) (u_fv c) (param_jacobian (x * rz, y * rz)).

(** ** Homogeneous points *)
(** The point handed to project3 by project4, cam 345-349 and 360-364. *)
Definition euclidean_part (p : R * R * R * R) : vec3 :=
  let '(x, y, z, w) := p in if Rlt_dec w 0 then (- x, - y, - z) else (x, y, z).
(** project4, cam 340-352. *)
Definition project4 {A} (project3 : vec3 -> A) (p : R * R * R * R) : A := project3 (euclidean_part p).
(** The Jacobian of project4, cam 354-372. *)
Definition project4_jacobian (jacobian3 : vec3 -> row3 * row3) (p : R * R * R * R) : row4 * row4 :=
  let '((a, b, c), (a', b', c')) := jacobian3 (euclidean_part p) in ((a, b, c, 0), (a', b', c', 0)).
(** backProject4, cam 374-384. *)
Definition back_project4 (back_project3 : vec2 -> vec3 * bool) (kp : vec2) : (R * R * R * R) * bool :=
  let '((x, y, z), ok) := back_project3 kp in ((x, y, z, 0), ok).
