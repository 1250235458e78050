(** Vocabulary for C122. *)
From Coq Require Import Reals ZArith List.
From Verif Require Import TriangulationModel TriangulationSpec PnpModel.
Import ListNotations.
Local Open Scope R_scope.

(** The length of a vector, and the angle between two. *)
Definition len (v : vec3) : R := sqrt (dot3 v v).
Definition angle_between (a b : vec3) (theta : R) : Prop := 0 <= theta <= PI /\ dot3 a b = len a * len b * cos theta.
(** A landmark in the frame of a camera, for a pose of the body in the world and of the camera in the body. *)
Definition in_camera (T_G_B T_B_C : transformation) (p : vec3) : vec3 := transform (inverse T_B_C) (transform (inverse T_G_B) p).
(** The camera sees the landmark at the keypoint: the landmark is on the ray, in front. *)
Definition seen (T_G_B T_B_C : transformation) (cam : camera) (m : R * R) (p : vec3) : Prop :=
  exists ray d, back_project cam m = (ray, true) /\ ray <> zero3 /\ 0 < d /\ p = transform T_G_B (transform T_B_C (scale3 d ray)).
(** OpenGV: the landmark as seen from a model, and its distance to the bearing vector. *)
Definition reprojection (pb : problem) (T : transformation) (i : nat) : vec3 :=
  let b := transform (inverse T) (nth i (points pb) zero3) in
  let c := nth i (camera_of pb) 0%nat in
  apply3 (transpose3 (nth c (rotations pb) identity3)) (sub3 b (nth c (offsets pb) zero3)).
Definition distance (pb : problem) (T : transformation) (i : nat) : R := 1 - dot3 (normalized (reprojection pb T i)) (nth i (bearings pb) zero3).
(** OpenGV: the inliers are the correspondences that are nearer to the model than the threshold. *)
Definition sound (solve : problem -> ransac) : Prop :=
  forall pb, found (solve pb) = true -> forall i, In i (inliers (solve pb)) <-> (i < length (points pb))%nat /\ distance pb (model (solve pb)) i < threshold pb.
(** The refinement never increases the sum of the distances of the inliers. *)
Definition total (pb : problem) (ins : list nat) (T : transformation) : R := fold_right Rplus 0 (map (distance pb T) ins).
Definition improves (refine : problem -> list nat -> transformation -> transformation) : Prop := forall pb ins T, total pb ins (refine pb ins T) <= total pb ins T.
(** Rotation matrices, and a constructor of quaternions that accepts them. *)
Definition proper (m : mat3) : Prop := orthogonal m /\ (let '(a, b, c) := m in dot3 a (cross3 b c) = 1).
Definition accepts (is_rotation : mat3 -> bool) : Prop := forall m, proper m -> is_rotation m = true.
(** The mean focal length of a rig. *)
Definition mean_focal (r : rig) : R := fold_right (fun c s => (fu (fst c) + fv (fst c)) / 2 + s) 0 r / INR (length r).
Definition has_focal (cam : camera) : Prop := ctype cam <> Lidar3D.
(** The back-projection of a pinhole camera without distortion. *)
Definition pinhole (f cu cv : R) : camera := {| ctype := Pinhole; fu := f; fv := f; back_project := fun m => (((fst m - cu) / f, (snd m - cv) / f, 1), true) |}.
(** The pixel at which that camera sees a point. *)
Definition pinhole_pixel (f cu cv : R) (p : vec3) : R * R := let '(x, y, z) := p in (f * (x / z) + cu, f * (y / z) + cv).
