(** Model of the pose estimation from keypoints and landmarks (perspective n points).

    Source: aslam_cv_geometric_vision/src/pnp-pose-estimator.cc ("pp"), aslam_cv_calibration/src/target-algorithms.cc ("ta").

    Simplifications: doubles are real numbers. OpenGV is a pair of oracles: [solve] (Ransac::computeModel) and [refine]
    (optimizeModelCoefficients). The back-projection of a camera is an oracle that gives a vector and whether it succeeded. The
    quaternion of a rotation matrix stands for the matrix; its constructor aborts if the matrix is not a rotation ([is_rotation]). A problem for one
    camera (CentralAbsoluteAdapter) is one with a single camera in the origin of the body. *)
From Coq Require Import Reals ZArith List Bool Arith.
From Verif Require Import TriangulationModel.
Import ListNotations.
Local Open Scope R_scope.

Inductive outcome (A : Type) := Done (a : A) | Aborted.
Arguments Done {A}. Arguments Aborted {A}.

Inductive camera_type := Pinhole | UnifiedProjection | Lidar3D.
Record camera := { ctype : camera_type; fu : R; fv : R; back_project : R * R -> vec3 * bool }.

(** The data given to OpenGV. *)
Inductive algorithm := KNEIP | GP3P.
Record problem := { bearings : list vec3; points : list vec3; camera_of : list nat; offsets : list vec3; rotations : list mat3;
                    method : algorithm; threshold : R; max_iterations : Z; seed : bool }.
(** The result of Ransac: computeModel, model_coefficients_, inliers_, inlier_distances_to_model_, iterations_. *)
Record ransac := { found : bool; model : transformation; inliers : list nat; distances : list R; iterations : Z }.
(** What a call leaves in its return value and output arguments. *)
Record output := { success : bool; pose : transformation; out_inliers : list nat; out_distances : list R; out_iterations : Z }.

(** normalize() of Eigen. *)
Definition normalized (v : vec3) : vec3 := if Req_EM_T (dot3 v v) 0 then v else scale3 (/ sqrt (dot3 v v)) v.

Section Opengv.
Context (solve : problem -> ransac) (refine : problem -> list nat -> transformation -> transformation) (is_rotation : mat3 -> bool).

(** PnpPoseEstimator, with its two flags. *)
Record estimator := { run_nonlinear_refinement : bool; random_seed : bool }.

(** The problem of absolutePoseRansac, pp 144-166: the result of backProject3 is ignored. *)
Definition central_problem (e : estimator) (cam : camera) (ms : list (R * R)) (ls : list vec3) (thr : R) (iters : Z) : problem :=
  {| bearings := map (fun m => normalized (fst (back_project cam m))) ms; points := ls; camera_of := map (fun _ => 0%nat) ms; offsets := [zero3]; rotations := [identity3];
     method := KNEIP; threshold := thr; max_iterations := iters; seed := random_seed e |}.
(** absolutePoseRansac, pp 134-178; it does not return the distances. *)
Definition absolute_pose (e : estimator) (cam : camera) (ms : list (R * R)) (ls : list vec3) (thr : R) (iters : Z) (T_G_C : transformation) : outcome output :=
  if negb (Nat.eqb (length ms) (length ls)) then Aborted
  else
    let r := solve (central_problem e cam ms ls thr iters) in
    if found r then
      if is_rotation (rotation (model r)) then Done {| success := true; pose := {| rotation := rotation (model r); position := position (model r) |}; out_inliers := inliers r; out_distances := []; out_iterations := iterations r |}
      else Aborted
    else Done {| success := false; pose := T_G_C; out_inliers := inliers r; out_distances := []; out_iterations := iterations r |}.
(** absolutePoseRansacPinholeCam, pp 17-60. *)
Definition focal_threshold (pixel_sigma focal_length : R) : R := 1 - cos (atan (pixel_sigma / focal_length)).
Definition absolute_pose_pinhole (e : estimator) (cam : camera) (ms : list (R * R)) (ls : list vec3) (pixel_sigma : R) (iters : Z) (T_G_C : transformation) : outcome output :=
  if negb (Nat.eqb (length ms) (length ls)) then Aborted
  else match ctype cam with
       | Pinhole | UnifiedProjection => absolute_pose e cam ms ls (focal_threshold pixel_sigma ((fu cam + fv cam) / 2)) iters T_G_C
       | Lidar3D => Aborted
       end.
(** estimateTargetTransformation, ta 22-49, with the estimator of pnp-pose-estimator.h 19-21: the corners of the target that were observed, and where they are on the target. *)
Definition estimate_target (run_refinement : bool) (cam : camera) (corners : list (R * R)) (target_points : list vec3) (pixel_sigma : R) (iters : Z) (T_G_C : transformation) : outcome output :=
  if Rlt_dec 0 pixel_sigma then if (0 <? iters)%Z then absolute_pose_pinhole {| run_nonlinear_refinement := run_refinement; random_seed := true |} cam corners target_points pixel_sigma iters T_G_C else Aborted else Aborted.

(** A rig: cameras with T_C_B. *)
Definition rig : Type := list (camera * transformation).
(** The bearing vector of one measurement, pp 234-237: getCamera (ncamera.cc 251-255) checks the index, which is converted to size_t. *)
Definition bearing_in (r : rig) (m : R * R) (i : Z) : outcome vec3 :=
  if (i <? 0)%Z then Aborted else match nth_error r (Z.to_nat i) with Some (cam, _) => Done (normalized (fst (back_project cam m))) | None => Aborted end.
Fixpoint bearings_in (r : rig) (ms : list (R * R)) (is_ : list Z) : outcome (list vec3) :=
  match ms, is_ with
  | m :: ms', i :: is' => match bearing_in r m i with Done b => match bearings_in r ms' is' with Done l => Done (b :: l) | Aborted => Aborted end | Aborted => Aborted end
  | _, _ => Done []
  end.
(** The problem of absoluteMultiPoseRansac, pp 209-257. *)
Definition rig_problem (e : estimator) (r : rig) (bs ls : list vec3) (is_ : list Z) (thr : R) (iters : Z) : problem :=
  {| bearings := bs; points := ls; camera_of := map Z.to_nat is_; offsets := map (fun c => position (inverse (snd c))) r; rotations := map (fun c => rotation (inverse (snd c))) r;
     method := GP3P; threshold := thr; max_iterations := iters; seed := random_seed e |}.
(** absoluteMultiPoseRansac, pp 193-280. *)
Definition absolute_multi_pose (e : estimator) (r : rig) (ms : list (R * R)) (is_ : list Z) (ls : list vec3) (thr : R) (iters : Z) (T_G_I : transformation) : outcome output :=
  if negb (Nat.eqb (length ms) (length ls)) then Aborted
  else if negb (Nat.eqb (length ms) (length is_)) then Aborted
  else match bearings_in r ms is_ with
  | Aborted => Aborted
  | Done bs =>
      let pb := rig_problem e r bs ls is_ thr iters in
      let s := solve pb in
      if negb (Nat.eqb (length (inliers s)) (length (distances s))) then Aborted
      else if found s then
        let final := if run_nonlinear_refinement e then refine pb (inliers s) (model s) else model s in
        if is_rotation (rotation final) then Done {| success := true; pose := final; out_inliers := inliers s; out_distances := distances s; out_iterations := iterations s |}
        else Aborted
      else Done {| success := false; pose := T_G_I; out_inliers := inliers s; out_distances := distances s; out_iterations := iterations s |}
  end.
(** The sum of the focal lengths of a rig, pp 97-122; LOG(FATAL) for other cameras. *)
Fixpoint focal_sum (r : rig) : outcome R :=
  match r with
  | [] => Done 0
  | (cam, _) :: r' => match ctype cam with
                      | Pinhole | UnifiedProjection => match focal_sum r' with Done s => Done ((fu cam + fv cam) + s) | Aborted => Aborted end
                      | Lidar3D => Aborted
                      end
  end.
(** absoluteMultiPoseRansacPinholeCam, pp 75-132; without cameras the focal length is 0 / 0, not modelled. *)
Definition absolute_multi_pose_pinhole (e : estimator) (r : rig) (ms : list (R * R)) (is_ : list Z) (ls : list vec3) (pixel_sigma : R) (iters : Z) (T_G_I : transformation) : outcome output :=
  if negb (Nat.eqb (length ms) (length ls)) then Aborted
  else if negb (Nat.eqb (length ms) (length is_)) then Aborted
  else match focal_sum r with
  | Done s => absolute_multi_pose e r ms is_ ls (focal_threshold pixel_sigma (s / (2 * INR (length r)))) iters T_G_I
  | Aborted => Aborted
  end.
End Opengv.
