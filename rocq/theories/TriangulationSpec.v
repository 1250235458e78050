(** Specification for C49: exact observations and observable configurations. *)
From Coq Require Import Reals List.
From Verif Require Import TriangulationModel.
Import ListNotations.
Local Open Scope R_scope.

(** Orthogonal matrices: both products with the transpose are the identity. *)
Definition orthogonal (m : mat3) : Prop :=
  (forall v, apply3 (transpose3 m) (apply3 m v) = v) /\ (forall v, apply3 m (apply3 (transpose3 m) v) = v).
(** The normalised measurement [m] of the camera at T_G_B T_B_C is an exact observation of the point: the point lies on its ray. *)
Definition sees (point : vec3) (T_G_B T_B_C : transformation) (m : R * R) : Prop :=
  exists depth, transform T_G_B (transform T_B_C (depth * fst m, depth * snd m, depth)) = point.
Definition cross3 (a b : vec3) : vec3 :=
  let '(a1, a2, a3) := a in let '(b1, b2, b3) := b in (a2 * b3 - a3 * b2, a3 * b1 - a1 * b3, a1 * b2 - a2 * b1).
Definition parallel (a b : vec3) : Prop := cross3 a b = (0, 0, 0).
(** A point is observable if two of the viewing directions are not parallel. *)
Definition observable (directions : list vec3) : Prop := exists a b, In a directions /\ In b directions /\ ~ parallel a b.
Definition unobservable (directions : list vec3) : Prop := forall a b, In a directions -> In b directions -> parallel a b.
(** The viewing direction of a normalised measurement. *)
Definition direction (T_G_B T_B_C : transformation) (m : R * R) : vec3 :=
  let o := transform T_G_B (transform T_B_C (0, 0, 0)) in
  let e := transform T_G_B (transform T_B_C (fst m, snd m, 1)) in
  let '(a, b, c) := e in let '(x, y, z) := o in (a - x, b - y, c - z).
(** The point lies on the line through [centre] with direction [v]. *)
Definition on_line (point centre v : vec3) : Prop :=
  exists k, let '(a, b, c) := centre in let '(x, y, z) := v in point = (a + k * x, b + k * y, c + k * z).
(** The squared distance of a point from the line through [c] with direction [v]. *)
Definition line_distance2 (q c v : vec3) : R :=
  let '(q1, q2, q3) := q in let '(c1, c2, c3) := c in let '(v1, v2, v3) := v in
  let '(x, y, z) := (q1 - c1, q2 - c2, q3 - c3) in
  x * x + y * y + z * z - (x * v1 + y * v2 + z * v3) * (x * v1 + y * v2 + z * v3) / (v1 * v1 + v2 * v2 + v3 * v3).
(** The sum over all lines, given as centre and direction. *)
Definition total_distance2 (q : vec3) (lines : list (vec3 * vec3)) : R :=
  fold_right (fun l s => line_distance2 q (fst l) (snd l) + s) 0 lines.
(** The unique best point. *)
Definition best_point (p : vec3) (lines : list (vec3 * vec3)) : Prop :=
  forall q, q <> p -> total_distance2 p lines < total_distance2 q lines.
(** The centre of a camera. *)
Definition camera_centre (T_G_B T_B_C : transformation) : vec3 := transform T_G_B (transform T_B_C (0, 0, 0)).
(** A view: pose of the body, camera in the body, normalised measurement; its line of sight. *)
Record view := { view_T_G_B : transformation; view_T_B_C : transformation; view_measurement : R * R }.
Definition rigid_view (v : view) : Prop := orthogonal (rotation (view_T_G_B v)) /\ orthogonal (rotation (view_T_B_C v)).
Definition view_sees (point : vec3) (v : view) : Prop := sees point (view_T_G_B v) (view_T_B_C v) (view_measurement v).
Definition view_direction (v : view) : vec3 := direction (view_T_G_B v) (view_T_B_C v) (view_measurement v).
Definition line_of_sight (v : view) : vec3 * vec3 := (camera_centre (view_T_G_B v) (view_T_B_C v), view_direction v).
(** Conditioning: small deviations from the lines imply a small deviation of the point and the depths. *)
Definition well_conditioned (s2 : R) (directions : list vec3) : Prop :=
  forall (p : vec3) (depths : list R), length depths = length directions ->
  s2 * (dot3 p p + fold_right (fun k s => k * k + s) 0 depths) <=
  fold_right (fun x s => let d := sub3 p (scale3 (fst x) (snd x)) in dot3 d d + s) 0 (combine depths directions).
Definition bearing_conditioned (k : R) (directions : list vec3) : Prop :=
  forall e, k * dot3 e e <= total_distance2 e (map (fun v => ((0, 0, 0), v)) directions).
