(** Specification for predicted keypoints: rotations by quaternion products, and what a prediction of one keypoint is. *)
From Coq Require Import Reals List.
From Verif Require Import DistortionModel CameraModel PredictModel.
Import ListNotations.
Local Open Scope R_scope.

Definition unit_quaternion (q : quaternion) : Prop := q_w q * q_w q + q_x q * q_x q + q_y q * q_y q + q_z q * q_z q = 1.
(** Hamilton product. *)
Definition qmul (p q : quaternion) : quaternion :=
  {| q_w := q_w p * q_w q - q_x p * q_x q - q_y p * q_y q - q_z p * q_z q;
     q_x := q_w p * q_x q + q_x p * q_w q + q_y p * q_z q - q_z p * q_y q;
     q_y := q_w p * q_y q - q_x p * q_z q + q_y p * q_w q + q_z p * q_x q;
     q_z := q_w p * q_z q + q_x p * q_y q - q_y p * q_x q + q_z p * q_w q |}.
Definition qconj (q : quaternion) : quaternion := {| q_w := q_w q; q_x := - q_x q; q_y := - q_y q; q_z := - q_z q |}.
Definition pure (v : R * R * R) : quaternion := let '(x, y, z) := v in {| q_w := 0; q_x := x; q_y := y; q_z := z |}.
(** The rotated vector is the vector part of q v q*. *)
Definition turn (q : quaternion) (v : R * R * R) : R * R * R :=
  let p := qmul (qmul q (pure v)) (qconj q) in (q_x p, q_y p, q_z p).

(** The prediction ([out], [ok]) of one keypoint [kp]: successful if the keypoint has a ray and the turned ray is visible; then [out] is where it
    is seen; otherwise [out] is the keypoint itself. *)
Definition prediction (cam : camera) (q : quaternion) (kp : vec2) (out : option vec2) (ok : bool) : Prop :=
  let ray := fst (back_project3 cam kp) in
  (ok = true <-> snd (back_project3 cam kp) = true /\ snd (project3 cam (turn q ray)) = KeypointVisible) /\
  (ok = true -> out = fst (project3 cam (turn q ray))) /\ (ok = false -> out = Some kp).
