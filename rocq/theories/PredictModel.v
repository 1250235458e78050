(** Model of the prediction of keypoints by a rotation and of the column-wise projections.

    Source: aslam_cv_matcher/src/match-helpers.cc ("mh") 11-95, aslam_cv_cameras/src/camera.cc ("cam") 398-427,
            aslam_cv_frames/src/visual-frame.cc ("vf") 527-553.

    A camera is a pair of functions (project3 with the status, backProject3 with the success flag); the concrete ones are in CameraModel.v.
    Doubles are real numbers; a keypoint [None] is one that is not a finite number. Matrices are lists of columns. A failed CHECK or a
    column index out of range is [None]. The pointer CHECKs hold by construction. *)
From Coq Require Import Reals List Bool Arith.
From Verif Require Import DistortionModel CameraModel.
Import ListNotations.
Local Open Scope R_scope.

Record camera := { project3 : vec3 -> option vec2 * status; back_project3 : vec2 -> vec3 * bool }.
Definition pinhole_camera (D : distortion) (c : pinhole) (s : image_size) : camera :=
  {| project3 := pinhole_project D c s; back_project3 := pinhole_back_project D c |}.
Definition unified_camera (D : distortion) (c : unified) (s : image_size) : camera :=
  {| project3 := fun p => let (kp, st) := unified_project D c s p in (Some kp, st); back_project3 := unified_back_project D c |}.
(** ProjectionResult::isKeypointVisible. *)
Definition is_visible (st : status) : bool := match st with KeypointVisible => true | _ => false end.

(** std::vector::resize with a value. *)
Definition resize {A} (n : nat) (x : A) (l : list A) : list A := firstn n l ++ repeat x (n - length l).
(** Assignment to one element (one column). *)
Fixpoint set_nth {A} (i : nat) (x : A) (l : list A) : list A :=
  match l, i with [], _ => [] | _ :: l', O => x :: l' | y :: l', S j => y :: set_nth j x l' end.
(** The loops of cam 408-411 and 423-426: column [i] of the output is computed from column [i] of the input. *)
Fixpoint columns {A B} (f : A -> B) (i : nat) (xs : list A) (out : list B) : list B :=
  match xs with [] => out | x :: xs' => columns f (S i) xs' (set_nth i (f x) out) end.
(** project3Vectorized, cam 398-412: keypoints and results. *)
Definition project_vectorized (cam : camera) (points : list vec3) (kps : list (option vec2)) (results : list status) : list (option vec2) * list status :=
  (columns (fun p => fst (project3 cam p)) 0 points (resize (length points) None kps),
   columns (fun p => snd (project3 cam p)) 0 points (resize (length points) ProjectionInvalid results)).
(** backProject3Vectorized, cam 414-427: points and success flags. *)
Definition back_project_vectorized (cam : camera) (kps : list vec2) (points : list vec3) (success : list bool) : list vec3 * list bool :=
  (columns (fun k => fst (back_project3 cam k)) 0 kps (resize (length kps) (0, 0, 0) points),
   columns (fun k => snd (back_project3 cam k)) 0 kps (resize (length kps) false success)).

(** Unit quaternions w, x, y, z, and the rotation matrix of Eigen applied to a vector (rotateVectorized). *)
Record quaternion := { q_w : R; q_x : R; q_y : R; q_z : R }.
Definition rotate (q : quaternion) (v : vec3) : vec3 :=
  let '(a, b, c) := v in
  let w := q_w q in let x := q_x q in let y := q_y q in let z := q_z q in
  ((1 - 2 * (y * y + z * z)) * a + 2 * (x * y - w * z) * b + 2 * (x * z + w * y) * c,
   2 * (x * y + w * z) * a + (1 - 2 * (x * x + z * z)) * b + 2 * (y * z - w * x) * c,
   2 * (x * z - w * y) * a + 2 * (y * z + w * x) * b + (1 - 2 * (x * x + y * y)) * c).

(** The loop of mh 86-94, for the columns from [i] on. *)
Fixpoint finish (i : nat) (results : list status) (kps_k : list vec2) (kps : list (option vec2)) (success : list bool) : list (option vec2) * list bool :=
  match results with
  | [] => (kps, success)
  | st :: results' =>
      let ok := nth i success false && is_visible st in
      let success' := set_nth i ok success in
      let kps' := if ok then kps else set_nth i (Some (nth i kps_k (0, 0))) kps in
      finish (S i) results' kps_k kps' success'
  end.
(** predictKeypointsByRotation, mh 40-95; [kps] is what the output matrix contained before (the success flags are cleared, mh 46). The branch of
    mh 61-64 does not return; it gives the flags the number of coefficients, two per keypoint. *)
Definition predict (cam : camera) (q : quaternion) (kps_k : list vec2) (kps : list (option vec2)) : option (list (option vec2) * list bool) :=
  if (length kps_k =? 0)%nat then Some (kps, [])
  else
    let '(kps, success) := if Rlt_dec (Rabs (q_w q - 1)) (/ 10 ^ 8) then (map Some kps_k, resize (2 * length kps_k) true []) else (kps, []) in
    let '(bearings, success) := back_project_vectorized cam kps_k [] success in
    if negb (length success =? length bearings)%nat then None else
    if negb (length kps_k =? length bearings)%nat then None else
    let '(kps, results) := project_vectorized cam (map (rotate q) bearings) kps [] in
    if negb (length kps =? length bearings)%nat then None else
    if negb (length results =? length bearings)%nat then None else
    if negb (length kps_k =? length kps)%nat then None else
    Some (finish 0 results kps_k kps success).

(** normalized() of Eigen: vectors of length zero are left alone. *)
Definition normalized (p : vec3) : vec3 :=
  let '(x, y, z) := p in let n := norm3 p in if Rlt_dec 0 n then (x / n, y / n, z / n) else p.
(** Selecting columns, vf 544-548. CHECK_LE accepts the index after the last column; reading it is out of range. *)
Fixpoint select_columns {A} (kps : list A) (indices : list nat) : option (list A) :=
  match indices with
  | [] => Some []
  | i :: indices' =>
      match nth_error kps i, select_columns kps indices' with Some k, Some ks => Some (k :: ks) | _, _ => None end
  end.
(** getNormalizedBearingVectors, vf 527-553. *)
Definition bearing_vectors (cam : camera) (kps : list vec2) (indices : list nat) (success : list bool) : option (list vec3 * list bool) :=
  if (length indices =? 0)%nat then Some ([], [])
  else match select_columns kps indices with
       | None => None
       | Some ks => let '(points, success) := back_project_vectorized cam ks [] success in Some (map normalized points, success)
       end.
(** getBearingVectorsFromMatches, mh 11-37; a match is (index in frame k+1, index in frame k). The flags are dropped. *)
Definition bearings_from_matches (cam1 cam : camera) (kps1 kps : list vec2) (matches : list (nat * nat)) : option (list vec3 * list vec3) :=
  match bearing_vectors cam1 kps1 (map fst matches) [] with
  | None => None
  | Some (b1, success) =>
      match bearing_vectors cam kps (map snd matches) success with Some (b, _) => Some (b1, b) | None => None end
  end.
