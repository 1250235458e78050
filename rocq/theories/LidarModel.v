(** Model of the 360 degree lidar camera.

    Source: aslam_cv_cameras/src/camera-3d-lidar.cc ("li"), aslam_cv_cameras/include/aslam/cameras/camera-3d-lidar-inl.h ("lii"),
            aslam_cv_cameras/include/aslam/cameras/camera-3d-lidar.h ("lih"), aslam_cv_cameras/include/aslam/cameras/camera.h ("cam").

    Simplifications: doubles are real numbers. The delays are integers without overflow (the code multiplies a
    64-bit row or column number with the unsigned 64-bit line delay). *)
From Coq Require Import Reals ZArith.
From Verif Require Import DistortionModel CameraModel.
Local Open Scope R_scope.

(** std::atan2. *)
Definition atan2 (y x : R) : R :=
  if Rlt_dec 0 x then atan (y / x)
  else if Rlt_dec x 0 then if Rle_dec 0 y then atan (y / x) + PI else atan (y / x) - PI
  else if Rlt_dec 0 y then PI / 2 else if Rlt_dec y 0 then - (PI / 2) else 0.

(** The intrinsics, lih 178-196: resolutions and centres in radians. *)
Record lidar := { h_res : R; v_res : R; h_centre : R; v_centre : R }.
(** areParametersValid, li 121-125. *)
Definition lidar_valid (c : lidar) : Prop := 0 < h_res c /\ 0 < v_res c.
(** backProject3, li 27-40. *)
Definition lidar_back_project (c : lidar) (kp : vec2) : vec3 * bool :=
  let a := h_centre c - fst kp * h_res c in
  let b := v_centre c - snd kp * v_res c in
  let x := - sin a * cos b in let y := - sin b in let z := cos a * cos b in
  let n := norm3 (x, y, z) in
  ((x / n, y / n, z / n), true).
(** kSquaredMinimumDepth, li 142. *)
Definition squared_minimum_depth : R := / 10 ^ 4.
(** evaluateProjectionResult, lii 43-64. *)
Definition lidar_status (s : image_size) (kp : vec2) (p : vec3) : status :=
  let '(x, y, z) := p in
  let is_visible := keypoint_visible s kp in
  if Rlt_dec squared_minimum_depth (x * x + y * y + z * z) then if is_visible then KeypointVisible else KeypointOutsideImageBox
  else ProjectionInvalid.
(** project3Functional, li 42-73 and lii 8-41. [external] are the intrinsics passed by the caller (None: nullptr); their
    size is checked (li 65, lii 17), but the computation reads the members. *)
Definition lidar_project (c : lidar) (s : image_size) (external : option lidar) (p : vec3) : vec2 * status :=
  let '(x, y, z) := p in
  if Rlt_dec (norm3 p) (/ 10 ^ 6) then ((0, 0), ProjectionInvalid)
  else
    let n := norm3 p in
    let u := (atan2 (x / n) (z / n) + h_centre c) / h_res c in
    let u' := if Rlt_dec u 0 then IZR (width s) + u else u in
    let v := (asin (y / n) + v_centre c) / v_res c in
    ((u', v), lidar_status s (u', v) p).

(** ** Rolling shutter *)
(** static_cast<int64_t>(double): towards zero. *)
Definition trunc (r : R) : Z := if Rle_dec 0 r then Int_part r else (- Int_part (- r))%Z.
(** rollingShutterDelayNanoSeconds(keypoint) of the base class, cam 454-459. *)
Definition row_delay (line_delay : Z) (kp : vec2) : Z := (trunc (snd kp) * line_delay)%Z.
(** The same for the lidar, lih 255-261. *)
Definition column_delay (line_delay : Z) (kp : vec2) : Z := (trunc (fst kp) * line_delay)%Z.
(** maxRollingShutterDelayNanoSeconds, cam 465-467; the lidar does not override it. *)
Definition max_delay (line_delay : Z) (s : image_size) : Z := (height s * line_delay)%Z.
(** rollingShutterDelayNanoSeconds(), lih 266-268: a separate function of the lidar. *)
Definition lidar_total_delay (line_delay : Z) (s : image_size) : Z := (width s * line_delay)%Z.
