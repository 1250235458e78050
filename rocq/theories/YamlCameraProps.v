(** C135: camera files, the functions of YamlFileModel used with the documents of SensorYamlModel. *)
From Coq Require Import ZArith List Bool String.
From Verif Require Import HashIdModel YamlMatrixModel YamlMatrixSpec SensorYamlModel SensorYamlSpec SensorYamlProofs SensorYamlProps.
From Verif Require YamlFileModel YamlFileSpec YamlFileProps.
Import ListNotations.

(** Camera::serialize and Camera::deserialize as virtual functions of YamlFileSerializable: camera.cc 106-298. *)
Definition camera_node {S} (c : texts S) (x : camera S) : option ynode := match serialize_camera c x with Done n => Some n | _ => None end.
Definition camera_read {S} (c : texts S) (fresh : id) (y : camera S) (n : ynode) : YamlFileModel.ending bool * camera S :=
  match deserialize_camera c fresh n y with
  | Ret b x => (YamlFileModel.Returned b, x)
  | Threw => (YamlFileModel.Thrown, y)
  | Abort | Undef => (YamlFileModel.Aborted, y)
  end.
(** A valid camera that is written to a file is read from it, by any camera of the same class, if yaml-cpp reads what it writes and there is room. *)
Theorem yfx_camera {S char} (c : texts S) (lib : YamlFileModel.library char ynode) d f (x y : camera S) fresh : faithful c -> good_camera c x -> in_types x -> cl y = cl x ->
  (forall n, YamlFileModel.parse lib (YamlFileModel.emit lib n) = Some n) -> YamlFileModel.openable d f = true -> YamlFileModel.readable d f = true ->
  (forall n, serialize_camera c x = Done n -> YamlFileSpec.fits d f (YamlFileModel.emit lib n)) ->
  exists e, YamlFileModel.serialize_to_file lib (camera_node c) d f x = (YamlFileModel.Returned tt, e) /\ YamlFileSpec.others_kept f d e /\
    YamlFileModel.deserialize_from_file lib (camera_read c fresh) e f y = (YamlFileModel.Returned true, with_mask (mask y) x).
Proof.
  intros F G I C P O R M. destruct (sgx_camera_round_trip c x F G I) as (n & N & D & _). specialize (M n N).
  assert (N' : camera_node c x = Some n) by (unfold camera_node; rewrite N; reflexivity).
  destruct (YamlFileProps.yfx_write lib (camera_node c) d f x n N' O M) as (e & E & _ & K). destruct (YamlFileProps.yfx_round_trip lib (camera_node c) (camera_read c fresh) d f x y n N' O R M (P n)) as (e' & E' & Q).
  rewrite E in E'. injection E' as <-. exists e. split; [exact E|]. split; [exact K|]. rewrite Q. unfold camera_read. rewrite D by exact C. reflexivity.
Qed.
Print Assumptions yfx_camera.
Example yfx_camera_ex : exists (lib : YamlFileModel.library ynode ynode) d, faithful plain /\ good_camera plain cam1 /\ in_types cam1 /\ (forall n, YamlFileModel.parse lib (YamlFileModel.emit lib n) = Some n) /\
  YamlFileModel.openable d 0 = true /\ YamlFileModel.readable d 0 = true /\ forall n, serialize_camera plain cam1 = Done n -> YamlFileSpec.fits d 0 (YamlFileModel.emit lib n).
Proof.
  exists (YamlFileModel.Library (fun n => [n]) (fun t => match t with [n] => Some n | _ => None end)), (YamlFileModel.Disk (fun _ => None) (fun _ => true) (fun _ => true) (fun _ => 1%nat)).
  destruct sgx_camera_round_trip_ex as (A & B & C). split; [exact A|]. split; [exact B|]. split; [exact C|]. repeat split. intros n _. apply le_n.
Qed.
