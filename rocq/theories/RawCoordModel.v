(** Model of keypoints in coordinates of the raw image, of the rays at the border of the image and of the Jacobian of the homogeneous projection.

    Source: aslam_cv_frames/src/visual-frame.cc ("vf") 171-177, 486-521; aslam_cv_cameras/src/camera.cc ("cam") 354-384;
            aslam_cv_cameras/src/camera-pinhole.cc ("ph") 191-210, camera-unified-projection.cc ("un") 114-123, 153-174 and its getBorderRays,
            camera-3d-lidar.cc ("li") 42-73, 99-119.

    Cameras are those of PredictModel.v and CameraModel.v; doubles are real numbers, a keypoint [None] is not a finite number. A camera that is not set ([None]) is a null
    pointer: [NullAccess]. The CHECKs on the output pointers hold by construction. *)
From Coq Require Import Reals ZArith List Bool Arith.
From Verif Require Import DistortionModel CameraModel LidarModel PredictModel.
Import ListNotations.
Local Open Scope R_scope.

Inductive outcome (A : Type) := Fine (a : A) | CheckFailed | NullAccess | OutOfBounds | Uninitialised.
Arguments Fine {A}. Arguments CheckFailed {A}. Arguments NullAccess {A}. Arguments OutOfBounds {A}. Arguments Uninitialised {A}.

(** camera_geometry_, raw_camera_geometry_ and the keypoint measurements. *)
Record vframe := { geometry : option camera; raw_geometry : option camera; measurements : list vec2 }.
(** toRawImageCoordinates, vf 493-505: the output after the call and the result; [out] is the output before. *)
Definition to_raw (f : vframe) (kp : vec2) (out : option vec2) : outcome (option vec2 * status) :=
  match geometry f with
  | None => NullAccess
  | Some cam =>
      let (bearing, success) := back_project3 cam kp in
      if success then match raw_geometry f with None => NullAccess | Some raw => Fine (project3 raw bearing) end
      else Fine (out, ProjectionInvalid)
  end.
(** The conversion of a size_t to int. *)
Definition to_int (i : Z) : Z := ((i + 2 ^ 31) mod 2 ^ 32 - 2 ^ 31)%Z.
(** getKeypointInRawImageCoordinates, vf 486-491, with getKeypointMeasurement, vf 171-177. *)
Definition keypoint_in_raw (f : vframe) (index : Z) (out : option vec2) : outcome (option vec2 * status) :=
  if (to_int index <? Z.of_nat (length (measurements f)))%Z then
    match nth_error (measurements f) (Z.to_nat index) with None => OutOfBounds | Some kp => to_raw f kp out end
  else CheckFailed.
(** The loop of vf 516-520. *)
Fixpoint invalidate (i : nat) (success : list bool) (results : list status) : list status :=
  match success with
  | [] => results
  | ok :: success' => invalidate (S i) success' (if ok then results else set_nth i ProjectionInvalid results)
  end.
(** toRawImageCoordinatesVectorized, vf 507-521. *)
Definition to_raw_vectorized (f : vframe) (kps : list vec2) (out : list (option vec2)) (results : list status) : outcome (list (option vec2) * list status) :=
  match geometry f with
  | None => NullAccess
  | Some cam =>
      let (bearings, success) := back_project_vectorized cam kps [] [] in
      match raw_geometry f with
      | None => NullAccess
      | Some raw =>
          let (out', results') := project_vectorized raw bearings out results in
          Fine (out', invalidate 0 success results')
      end
  end.

(** getBorderRays, ph 191-210 (the same statements in the other two classes): the flags of backProject4 are not looked at. *)
Definition border_keypoints (s : image_size) : list vec2 :=
  let w := IZR (width s) in let h := IZR (height s) in
  [(0, 0); (0, h * (1 / 2)); (0, h - 1); (w - 1, 0); (w - 1, h * (1 / 2)); (w - 1, h - 1); (w * (1 / 2), 0); (w * (1 / 2), h - 1)].
Definition border_rays (cam : camera) (s : image_size) : list (R * R * R * R) := map (fun kp => fst (back_project4 (back_project3 cam) kp)) (border_keypoints s).

(** What project3 with a Jacobian does with the matrix of the caller. *)
Inductive write := Written (J : row3 * row3) | Untouched | Aborts.
(** Pinhole, ph 128-141; for a depth of zero the entries are not finite ([Written] is then used with the numbers of Coq's division). *)
Definition pinhole_write (D : distortion) (c : pinhole) (p : vec3) : write := Written (pinhole_jacobian D c p).
(** Unified: an invalid projection returns before the Jacobian is written, un 114-123, 153-174. *)
Definition unified_write (D : distortion) (c : unified) (p : vec3) : write := if unified_valid_proj (u_xi c) p then Written (unified_jacobian D c p) else Untouched.
(** Lidar, li 54-55. *)
Definition lidar_write (p : vec3) : write := Aborts.
(** project4 with a Jacobian, cam 354-372: Je is a local variable without initialisation. *)
Definition project4_write (write3 : vec3 -> write) (p : R * R * R * R) : outcome (row4 * row4) :=
  match write3 (euclidean_part p) with
  | Written ((a, b, c), (a', b', c')) => Fine ((a, b, c, 0), (a', b', c', 0))
  | Untouched => Uninitialised
  | Aborts => CheckFailed
  end.
