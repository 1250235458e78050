(** Model of the equality of cameras, camera rigs, frames and multi-frames.

    Source: aslam_cv_common/src/sensor.cc ("sen") 90-123; aslam_cv_cameras/src/camera.cc ("cam") 77-104; camera-pinhole.cc ("pin") 254-273, camera-unified-projection.cc ("uni") 340-359, camera-3d-lidar.cc ("lid") 162-183; distortion.cc ("dis") 22-31; ncamera.cc ("nc") 79-92, 395-431; camera.h ("camh") 187-200; aslam_cv_common/include/aslam/common/predicates.h ("pre") 6-16; aslam_cv_frames/src/visual-frame.cc ("vf") 13-48; visual-nframe.cc ("nf") 37-57, 195-219.

    Doubles are real numbers (no NaN). Ids, topics, descriptions, masks and the contents of the channels of a frame are numbers that are equal exactly if the contents are; the comparison of channel groups itself is modelled in ChannelModel. A transformation is the list of the 16 coefficients of its matrix. [None] as result: a CHECK or an assertion of Eigen fails. *)
From Coq Require Import Reals ZArith List Bool.
Import ListNotations.
Local Open Scope R_scope.

Inductive class := Pinhole | Unified | Lidar.
Record header := Header { id : Z; topic : Z; description : Z }.
Record camera := Camera {
  cam_header : header; cam_class : class; intrinsics : list R; line_delay : Z; width : Z; height : Z; compressed : bool;
  distortion_class : Z; distortion : list R; mask : Z }.
Record rig := Rig { rig_header : header; cameras : list (option camera * list R); covariance : option (list R) }.
Record frame := Frame { frame_id : Z; timestamp : Z; channels : Z; geometry : option camera; raw_geometry : option camera; is_valid : bool }.
Record nframe := NFrame { nframe_id : Z; nframe_rig : option rig; frames : list (option frame) }.

Definition kEpsilon : R := / 10 ^ 8.
Definition class_eqb (a b : class) : bool := match a, b with Pinhole, Pinhole | Unified, Unified | Lidar, Lidar => true | _, _ => false end.
Definition leb (a b : R) : bool := if Rle_dec a b then true else false.
Definition ltb (a b : R) : bool := if Rlt_dec a b then true else false.
Definition eqb (a b : R) : bool := if Req_EM_T a b then true else false.

(** Eigen: squaredNorm and isApprox of two vectors of the same length. *)
Definition squared_norm (v : list R) : R := fold_right (fun x s => x * x + s) 0 v.
Definition minus (a b : list R) : list R := map (fun p => fst p - snd p) (combine a b).
Definition is_approx (a b : list R) (prec : R) : bool := leb (squared_norm (minus a b)) (prec * prec * Rmin (squared_norm a) (squared_norm b)).
(** Eigen: operator== of two vectors of the same length. *)
Definition same_vector (a b : list R) : bool := forallb (fun p => eqb (fst p) (snd p)) (combine a b).

(** isEqualCameraImpl, cam 77-104; [None]: the vectors have different lengths. *)
Definition equal_base (a b : camera) : option bool :=
  if Nat.eqb (length (intrinsics a)) (length (intrinsics b)) then
    Some (is_approx (intrinsics a) (intrinsics b) kEpsilon && (line_delay a =? line_delay b)%Z && (width a =? width b)%Z && (height a =? height b)%Z && Bool.eqb (compressed a) (compressed b))
  else None.
(** Distortion::operator==, dis 22-31. *)
Definition equal_distortion (a b : camera) : option bool :=
  if (distortion_class a =? distortion_class b)%Z then
    if Nat.eqb (length (distortion a)) (length (distortion b)) then Some (same_vector (distortion a) (distortion b)) else None
  else Some false.
(** isEqualImpl of the cameras, pin 254-273, uni 340-359, lid 162-183. *)
Definition equal_impl (a b : camera) : option bool :=
  if class_eqb (cam_class a) (cam_class b) then
    match equal_base a b with
    | Some true => equal_distortion a b
    | r => r
    end
  else Some false.
(** The first part of Sensor::isEqual, sen 98-103, for sensors of the same type. *)
Definition equal_header (a b : header) : bool := (id a =? id b)%Z && (topic a =? topic b)%Z && (description a =? description b)%Z.
(** Sensor::isEqual of cameras, sen 98-123. *)
Definition equal_camera (a b : camera) : option bool := if equal_header (cam_header a) (cam_header b) then equal_impl a b else Some false.

(** checkSharedEqual, pre 6-16. *)
Definition equal_shared {A} (eq : A -> A -> option bool) (a b : option A) : option bool :=
  match a, b with
  | Some a, Some b => eq a b
  | None, None => Some true
  | _, _ => Some false
  end.
(** (A - B).cwiseAbs().maxCoeff() < kEpsilon, nc 419-423. *)
Definition close (a b : list R) : bool := ltb (fold_right (fun x s => Rmax (Rabs x) s) 0 (minus a b)) kEpsilon.
(** The loop of NCamera::isEqualImpl, nc 416-429; it ends at the first difference. *)
Fixpoint equal_cameras (a b : list (option camera * list R)) : option bool :=
  match a, b with
  | (c, t) :: a, (d, u) :: b =>
      match equal_shared equal_camera c d with
      | Some r => if r && close t u then equal_cameras a b else Some false
      | None => None
      end
  | _, _ => Some true
  end.
(** Sensor::isEqual of rigs, sen 98-123, nc 395-431. *)
Definition equal_rig (a b : rig) : option bool :=
  if equal_header (rig_header a) (rig_header b) then
    if Nat.eqb (length (cameras a)) (length (cameras b)) then equal_cameras (cameras a) (cameras b) else Some false
  else Some false.

(** Two results joined with &=: both are computed. *)
Definition both (a b : option bool) : option bool := match a, b with Some x, Some y => Some (x && y) | _, _ => None end.
(** VisualFrame::operator==, vf 28-40, and compareWithoutCameraGeometry, vf 42-48. *)
Definition equal_without_geometry (a b : frame) : bool := (timestamp a =? timestamp b)%Z && (channels a =? channels b)%Z && Bool.eqb (is_valid a) (is_valid b).
Definition equal_frame (a b : frame) : option bool := both (Some (equal_without_geometry a b)) (equal_shared equal_camera (geometry a) (geometry b)).
(** The loop over the frames, nf 200-203: frames that are null make CHECK_NOTNULL fail. *)
Fixpoint equal_frames (eq : frame -> frame -> option bool) (a b : list (option frame)) : option bool :=
  match a, b with
  | Some f :: a, Some g :: b => both (eq f g) (equal_frames eq a b)
  | [], _ => Some true
  | _, _ => None
  end.
(** VisualNFrame::operator==, nf 195-206, and compareWithoutCameraSystem, nf 208-219. *)
Definition equal_nframe (a b : nframe) : option bool :=
  match equal_shared equal_rig (nframe_rig a) (nframe_rig b) with
  | Some r => if (nframe_id a =? nframe_id b)%Z && r && Nat.eqb (length (frames a)) (length (frames b)) then equal_frames equal_frame (frames a) (frames b) else Some false
  | None => None
  end.
Definition equal_without_system (a b : nframe) : option bool :=
  if (nframe_id a =? nframe_id b)%Z && Nat.eqb (length (frames a)) (length (frames b)) then equal_frames (fun f g => Some (equal_without_geometry f g)) (frames a) (frames b) else Some false.

(** The copies: every member of a camera is copied, camh 187-200; the cameras of a rig are cloned, nc 79-92 ([None]: a camera is null, getCamera fails); the geometry of a frame and the rig of a multi-frame are shared, vf 17-26, nf 41-57. *)
Definition clone_camera (c : camera) : camera := Camera (cam_header c) (cam_class c) (intrinsics c) (line_delay c) (width c) (height c) (compressed c) (distortion_class c) (distortion c) (mask c).
Fixpoint clone_cameras (l : list (option camera * list R)) : option (list (option camera * list R)) :=
  match l with
  | [] => Some []
  | (Some c, t) :: l => match clone_cameras l with Some r => Some ((Some (clone_camera c), t) :: r) | None => None end
  | (None, _) :: _ => None
  end.
Definition clone_rig (r : rig) : option rig := match clone_cameras (cameras r) with Some l => Some (Rig (rig_header r) l (covariance r)) | None => None end.
