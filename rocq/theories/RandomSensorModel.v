(** Model of Sensor::setRandom for cameras and camera rigs.

    Source: aslam_cv_common/src/sensor.cc ("se") 5-7, 25-36; aslam_cv_common/include/aslam/common/sensor.h 53-60; unique-id.h 91-96; aslam_cv_cameras/src/camera.cc ("cam") 56-65; camera-pinhole.cc ("pin") 17-18, 27-31, 211-222, 236-252, 274-280; camera-unified-projection.cc ("uni") 18-21, 31-35, 295-307, 321-338, 359-366; camera-3d-lidar.cc ("lid") 17-25, 122-130, 144-160; camera-3d-lidar.h 235-249; ncamera.cc ("nc") 212-219, 263-266, 289-296, 316-328, 348-391.

    An id is a number, zero is the id that is not valid (C22). The identifiers that generateId hands out are an oracle: [gen k] is the k-th; the state is how many have been drawn. The two numbers that Eigen's setRandom draws for a rig are arguments. A failed CHECK is [None]. Parameters are real numbers; the three operations on float in nc 369 are exact operations followed by the rounding [rnd]. Cameras of a rig are values, since they are made afresh and nothing else points to them. The allocation of memory and the log are left out. *)
From Coq Require Import Reals ZArith List Bool String.
From Flocq Require Import Core.Raux.
From Verif Require Import TestRigModel.
Import ListNotations.
Local Open Scope R_scope.

(** The classes of cameras; also the enumeration Camera::Type. *)
Inductive model : Set := Pinhole | Unified | Lidar.
Inductive lens_type : Set := NoLens | Equidistant | Fisheye | RadTan.
Definition lens : Type := (lens_type * list R)%type.

(** The members of Sensor and Camera (camera.h 665-686); the class of the object; a null distortion is [None]. *)
Record camera : Type := Camera { class : model; c_id : Z; c_topic : string; c_description : string; line_delay : Z; width : Z; height : Z; mask : option (list (list Z)); compressed : bool; intrinsics : list R; camera_type : model; distortion : option lens }.
(** The members of Sensor and NCamera (ncamera.h 188-200). The map from ids to indices: the entry in front hides the others with the same id. *)
Record rig : Type := Rig { r_id : Z; r_topic : string; r_description : string; T_C_B : list transformation; cameras : list camera; id_to_index : list (Z * nat); covariance : list R; has_covariance : bool }.

Definition valid_id (i : Z) : bool := negb (i =? 0)%Z.
Definition positive (x : R) : bool := if Rlt_dec 0 x then true else false.
Definition not_negative (x : R) : bool := if Rle_dec 0 x then true else false.
(** areParametersValid: pin 211-218, uni 295-302, lid 122-126. *)
Definition intrinsics_valid (m : model) (l : list R) : bool :=
  match m, l with
  | Pinhole, [fu; fv; cu; cv] => positive fu && positive fv && positive cu && positive cv
  | Unified, [xi; fu; fv; cu; cv] => not_negative xi && positive fu && positive fv && positive cu && positive cv
  | Lidar, [h; v; _; _] => positive h && positive v
  | _, _ => false
  end.
(** isValid, se 25-31, with isValidImpl: pin 236-238, uni 321-323, lid 144-146. *)
Definition camera_valid (c : camera) : bool := valid_id (c_id c) && intrinsics_valid (class c) (intrinsics c).
(** isValid of a rig, se 25-31 and nc 348-356. *)
Definition rig_valid (r : rig) : bool := valid_id (r_id r) && forallb camera_valid (cameras r).

Section Random.
Variable gen : nat -> Z.
Variable rnd : R -> R.

(** Actions that draw ids and may fail. *)
Definition action (A : Type) : Type := nat -> option (A * nat).
Definition ret {A} (a : A) : action A := fun k => Some (a, k).
Definition bind {A B} (m : action A) (f : A -> action B) : action B := fun k => match m k with Some (a, k) => f a k | None => None end.
Definition check (b : bool) : action unit := fun k => if b then Some (tt, k) else None.
(** generateId, unique-id.h 91-96. *)
Definition generate : action Z := fun k => Some (gen k, S k).

(** The constructors without distortion: cam 56-65 on top of se 5-7. *)
Definition construct (m : model) (l : list R) (w h : Z) : action camera :=
  bind generate (fun i => ret (Camera m i "" "" 0 w h None false l m (Some (NoLens, [])))).
(** The default constructors: pin 17-18, uni 18-21, lid 17-18. *)
Definition default_camera (m : model) : action camera :=
  construct m (match m with Pinhole => [0; 0; 0; 0] | Unified => [0; 0; 0; 0; 0] | Lidar => [0; 0; 0] end) 0 0.
(** setId, sensor.h 53-56. *)
Definition set_id (c : camera) (i : Z) : action camera :=
  bind (check (valid_id i)) (fun _ => ret (Camera (class c) i (c_topic c) (c_description c) (line_delay c) (width c) (height c) (mask c) (compressed c) (intrinsics c) (camera_type c) (distortion c))).
(** createTestCamera: pin 274-280, uni 359-366, camera-3d-lidar.h 235-249; the constructors check the parameters, pin 27-31, uni 31-35, lid 20-25. *)
Definition test_parameters (m : model) : list R * Z * Z :=
  match m with
  | Pinhole => ([400; 300; 320; 240], 640%Z, 480%Z)
  | Unified => ([9 / 10; 400; 300; 320; 240], 640%Z, 480%Z)
  | Lidar => ([2 * PI / 1024; 9203703 / 1000000000; 289916642 / 1000000000; 0], 1024%Z, 64%Z)
  end.
Definition create_test (m : model) : action camera :=
  let '(l, w, h) := test_parameters m in
  bind (construct m l w h) (fun c => bind (check (intrinsics_valid m l)) (fun _ => bind generate (fun i => set_id c i))).
(** setRandom of a camera: se 33-36, then pin 240-252, uni 325-338, lid 148-160. *)
Definition random_camera (c : camera) : action camera :=
  bind generate (fun i =>
  bind (create_test (class c)) (fun t =>
  ret (Camera (class c) i (c_topic c) (c_description c) (line_delay t) (width t) (height t) (mask t) (compressed c) (intrinsics t) (camera_type t) (match distortion t with Some d => Some d | None => distortion c end)))).

(** The number of cameras, nc 369. *)
Definition number_of_cameras (a : R) : Z := Ztrunc (rnd (rnd (rnd (a + 1) * 7) + 1)).
(** One turn of the loop, nc 372-389, with the vectors as they grow. *)
Definition turn (b : R) (i : nat) (s : list camera * list transformation * list (Z * nat)) : action (list camera * list transformation * list (Z * nat)) :=
  let '(cs, ts, ids) := s in
  bind (default_camera (if Rlt_dec 0 b then Pinhole else Unified)) (fun c =>
  bind (random_camera c) (fun c =>
  bind (check (valid_id (c_id c))) (fun _ =>
  ret (cs ++ [c], ts ++ [(of_quaternion (1 / 2) (1 / 2) (- (1 / 2)) (1 / 2), (1 / 10 * (INR i + 1), 0, 0))], (c_id c, i) :: ids)%list))).
Fixpoint turns (b : R) (l : list nat) (s : list camera * list transformation * list (Z * nat)) : action (list camera * list transformation * list (Z * nat)) :=
  match l with [] => ret s | i :: l => bind (turn b i s) (turns b l) end.
(** setRandom of a rig, se 33-36 and nc 358-391. *)
Definition random_rig (a b : R) (r : rig) : action rig :=
  bind generate (fun i =>
  let n := number_of_cameras a in
  bind (check (n <=? 15)%Z) (fun _ => bind (check (1 <=? n)%Z) (fun _ =>
  bind (turns b (seq 0 (Z.to_nat n)) ([], [], [])) (fun s =>
  let '(cs, ts, ids) := s in
  ret (Rig i (r_topic r) (r_description r) ts cs ids (covariance r) (has_covariance r)))))).
End Random.

(** getCameraIndex, nc 316-328: -1 if there is no such camera; fails for an id that is not valid. *)
Definition find_index (l : list (Z * nat)) (i : Z) : option nat := option_map snd (find (fun p => Z.eqb (fst p) i) l).
Definition camera_index (r : rig) (i : Z) : option Z :=
  if valid_id i then Some (match find_index (id_to_index r) i with Some n => Z.of_nat n | None => (-1)%Z end) else None.
