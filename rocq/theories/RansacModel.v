(** Model of the 3-D RANSAC and of the pixel thresholds of PnpPoseEstimator.
    Sources: aslam_cv_geometric_vision/src/pnp-pose-estimator.cc ("pp"), include/aslam/geometric-vision/pnp-pose-estimator.h ("pph").

    Simplifications: doubles are real numbers, sizes are unbounded. The random number generator is a type of states with [seeded] (srand) and
    [shuffled] (std::random_shuffle of iota(n)); the clock is a function of the iteration. The rotation computed from the singular value
    decomposition (pp 381-389) is an input. Indices returned by the shuffle are read with [nth]; the theorems assume them to be a permutation
    of 0 .. n-1. *)
From Coq Require Import Reals ZArith List Bool Arith.
From Verif Require Import StlHelpersModel GyroTrackerModel TriangulationModel.
Import ListNotations.
Local Open Scope R_scope.

Definition norm3 (v : vec3) : R := sqrt (dot3 v v).

(** ** The sampled model *)
(** "X << a, b, c, d, e, f" on a 3x3 matrix, pp 367-373. Eigen's comma initialiser fills the three columns with the first three vectors; the
    fourth starts a new block row below the last row (an assertion in debug builds, a write behind the matrix otherwise). *)
Definition comma_initialise (blocks : list vec3) : result (list vec3) := if (length blocks =? 3)%nat then Ok blocks else Ub.
(** pp 367-390. [rotation_of] is the rotation computed from the centred matrices (pp 378-389). *)
Definition mean3 (l : list vec3) : vec3 := scale3 (/ INR (length l)) (sum3 l).
Definition sample_model (rotation_of : list vec3 -> list vec3 -> mat3) (xs ys : list vec3) : result transformation :=
  let! X := comma_initialise xs in
  let! Y := comma_initialise ys in
  let x_mean := mean3 X in
  let y_mean := mean3 Y in
  let R := rotation_of (map (fun x => sub3 x x_mean) X) (map (fun y => sub3 y y_mean) Y) in
  Ok {| rotation := R; position := sub3 y_mean (apply3 R x_mean) |}.

(** ** Inliers *)
(** pp 397-400. For a point at the origin the quotient is infinite (an outlier) or, for error 0, not a number (the comparison is false). *)
Definition is_outlier (threshold : R) (T : transformation) (p1 p2 : vec3) : bool :=
  let error := norm3 (sub3 (transform T p1) p2) in
  if Req_EM_T (norm3 p2) 0 then (if Req_EM_T error 0 then false else true)
  else if Rlt_dec threshold (error / norm3 p2) then true else false.
(** The loop pp 396-405: (inliers, outliers). *)
Fixpoint split_points (threshold : R) (T : transformation) (i : nat) (ps1 ps2 : list vec3) : list nat * list nat :=
  match ps1, ps2 with
  | p1 :: ps1', p2 :: ps2' =>
      let '(ins, outs) := split_points threshold T (S i) ps1' ps2' in
      if is_outlier threshold T p1 p2 then (ins, i :: outs) else (i :: ins, outs)
  | _, _ => ([], [])
  end.

(** ** ransacTransformationFor3DPoints *)
(** The output parameters; [None]: not initialised by the caller. *)
Record ransac_output := { best_rotation : option mat3; best_translation : option vec3; best_inliers : list nat; best_outliers : list nat }.
(** The generator and the clock. *)
Record generator := { rng : Type; seeded : Z -> rng; shuffled : rng -> nat -> list nat * rng; clock : nat -> Z }.
(** One pass of the loop pp 356-417, up to the break test. *)
Definition ransac_iteration (fit : list vec3 -> list vec3 -> result transformation) (threshold : R) (ps1 ps2 : list vec3) (indices : list nat) (out : ransac_output) : result (ransac_output * R) :=
  let sampled ps := map (fun i => nth i ps (0, 0, 0)) (firstn 6 indices) in
  let! T := fit (sampled ps1) (sampled ps2) in
  let '(ins, outs) := split_points threshold T 0 ps1 ps2 in
  (* pp 394: best_inliers itself is the list being filled *)
  let n_inliers := length ins in
  let out1 := {| best_rotation := best_rotation out; best_translation := best_translation out; best_inliers := ins; best_outliers := best_outliers out |} in
  (* pp 407-412 *)
  let out2 := if (length (best_inliers out1) <? n_inliers)%nat
              then {| best_rotation := Some (rotation T); best_translation := Some (position T); best_inliers := ins; best_outliers := outs |}
              else out1 in
  (* pp 413: the division is between unsigned integers *)
  Ok (out2, INR (n_inliers / (n_inliers + length outs))).
(** The loop, pp 356-417; [random_seed] is the member of that name (pph 100). *)
Fixpoint ransac_loop (g : generator) (random_seed : bool) (fit : list vec3 -> list vec3 -> result transformation) (threshold stopping_ratio : R)
  (ps1 ps2 : list vec3) (fuel j : nat) (state : rng g) (out : ransac_output) : result ransac_output :=
  match fuel with
  | O => Ok out
  | S f =>
      let state1 := if random_seed then state else seeded g (clock g j) in
      let '(indices, state2) := shuffled g state1 (length ps1) in
      let! r := ransac_iteration fit threshold ps1 ps2 indices out in
      let '(out', ratio) := r in
      if Rlt_dec stopping_ratio ratio then Ok out'
      else ransac_loop g random_seed fit threshold stopping_ratio ps1 ps2 f (S j) state2 out'
  end.
(** pp 336-418, with the sampled model as a parameter. *)
Definition ransac_with (g : generator) (random_seed : bool) (fit : list vec3 -> list vec3 -> result transformation) (ps1 ps2 : list vec3) (threshold : R) (max_iterations : nat)
  (stopping_ratio : R) (state : rng g) (out : ransac_output) : result ransac_output :=
  if Rlt_dec 0 threshold then
    if (max_iterations =? 0)%nat then Abort
    else if negb (length ps1 =? length ps2)%nat then Abort
    else if (6 <? length ps2)%nat then ransac_loop g random_seed fit threshold stopping_ratio ps1 ps2 max_iterations 0 state out
    else Abort
  else Abort.
(** The code: the model is fitted with [sample_model]. *)
Definition ransac (g : generator) (random_seed : bool) (rotation_of : list vec3 -> list vec3 -> mat3) := ransac_with g random_seed (sample_model rotation_of).

(** ** absoluteMultiPoseRansac3DFeatures *)
Record pose_output := { found : bool; pose : transformation; pose_inliers : list nat; pose_distances : list R }.
Definition no_output : ransac_output := {| best_rotation := None; best_translation := None; best_inliers := []; best_outliers := [] |}.
(** pp 282-334, again with the sampled model as a parameter. [T_G_I] is the value of the output pose at the call. measurements.size() counts
    coefficients, three per column. The position is assigned through a reference, the assignment to the rotation matrix (pp 325) goes to a
    temporary copy; both read the local matrices, which only the RANSAC function can have written. The camera indices are not used. *)
Definition multi_pose_with (g : generator) (random_seed : bool) (fit : list vec3 -> list vec3 -> result transformation) (measurements landmarks : list vec3) (camera_indices : list nat)
  (T_C0_B : transformation) (threshold : R) (max_iterations : nat) (stopping_ratio : R) (state : rng g) (T_G_I : transformation) : result pose_output :=
  if negb (length measurements =? length landmarks)%nat then Abort
  else if (3 * length measurements <? 6)%nat then Ok {| found := false; pose := T_G_I; pose_inliers := []; pose_distances := [] |}
  else
    let T_B_C := inverse T_C0_B in
    let observations := map (transform T_B_C) measurements in
    let! out := ransac_with g random_seed fit landmarks observations threshold max_iterations stopping_ratio state no_output in
    match best_translation out, best_rotation out with
    | Some t, Some R =>
        Ok {| found := true; pose := {| rotation := rotation T_G_I; position := t |}; pose_inliers := best_inliers out;
              pose_distances := map (fun i => norm3 (sub3 (add3 (apply3 R (nth i landmarks (0, 0, 0))) t) (nth i observations (0, 0, 0)))) (best_inliers out) |}
    | _, _ => Ub
    end.
Definition multi_pose (g : generator) (random_seed : bool) (rotation_of : list vec3 -> list vec3 -> mat3) := multi_pose_with g random_seed (sample_model rotation_of).

(** ** Pixel thresholds *)
(** pp 36-37, 46-47. *)
Definition pixel_threshold (pixel_sigma focal_length : R) : R := 1 - cos (atan (pixel_sigma / focal_length)).
Definition camera_threshold (pixel_sigma fu fv : R) : R := pixel_threshold pixel_sigma ((fu + fv) / 2).
(** pp 92-124; without cameras the focal length is 0 / 0, not modelled. *)
Definition rig_threshold (pixel_sigma : R) (focals : list (R * R)) : R :=
  pixel_threshold pixel_sigma (fold_left (fun s f => s + (fst f + snd f)) focals 0 / (2 * INR (length focals))).
