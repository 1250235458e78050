(** Model of the extrinsics of camera rigs, by index and by id, and of the fixed covariance of localisation.

    Source: aslam_cv_cameras/src/ncamera.cc ("nc"). The cameras, their ids and the map from ids to indices are those of [RigModel]; here every rig also has its transformations T_C_B_ and perhaps a covariance. Transformations and covariances are values of any type. A failed CHECK is [Abort], an access outside of a vector [Undef]. References from get_T_C_B_Mutable are used at once. *)
From Coq Require Import ZArith.
From stdpp Require Import list gmap.
From Verif Require Import RigModel.
Local Open Scope nat_scope.

Inductive result (A : Type) := Ok (a : A) | Abort | Undef.
Arguments Ok {A}. Arguments Abort {A}. Arguments Undef {A}.
Section Extrinsics.
Context {T C : Type}.
Record eworld := EWorld { base : world; poses : list (list T); covariances : list (option C) }.
Definition start : eworld := EWorld init [] [].

(** get_T_C_B and get_T_C_B_Mutable by index, nc 216-224: the index is compared with the number of cameras. *)
Definition pose (w : eworld) (r i : nat) : result T :=
  match rigs (base w) !! r, poses w !! r with
  | Some g, Some ts => if i <? length (cams g) then match ts !! i with Some t => Ok t | None => Undef end else Abort
  | _, _ => Abort
  end.
(** By id, nc 226-240. *)
Definition pose_of_id (w : eworld) (r : nat) (id : Z) : result T :=
  match camera_index (base w) r id with
  | None => Abort                                                            (* CHECK(camera_id.isValid()) *)
  | Some i => if (i <? 0)%Z then Abort else pose w r (Z.to_nat i)
  end.
Definition put_poses (w : eworld) (r : nat) (ts : list T) : eworld := EWorld (base w) (<[r := ts]> (poses w)) (covariances w).

Inductive eact :=
| EConstruct (cs : list nat) (ts : list T) (c : option C)      (* the constructors, nc 49-72 *)
| EAct (a : act)                                               (* everything else of RigModel *)
| ESetPose (r i : nat) (t : T)                                 (* set_T_C_B, nc 242-245 *)
| EWrite (r i : nat) (t : T)                                   (* get_T_C_B_Mutable(index) = t *)
| EWriteOfId (r : nat) (id : Z) (t : T)                        (* get_T_C_B_Mutable(id) = t *)
| ESetCovariance (r : nat) (c : C).                            (* nc 312-316 *)

Definition lift (o : option world) (k : world -> eworld) : result eworld := match o with Some b => Ok (k b) | None => Abort end.
(** Copies of a rig, nc 79-92, have the same transformations and covariance. *)
Definition copy_of (w : eworld) (r : nat) (b : world) : eworld :=
  EWorld b (poses w ++ [default [] (poses w !! r)]) (covariances w ++ [default None (covariances w !! r)]).
(** A write through a reference to element i of T_C_B_. *)
Definition write (w : eworld) (r i : nat) (t : T) : result eworld :=
  match pose w r i with
  | Ok _ => match poses w !! r with Some ts => Ok (put_poses w r (<[i := t]> ts)) | None => Abort end
  | Abort => Abort
  | Undef => Undef
  end.
Definition estep (w : eworld) (a : eact) : result eworld :=
  match a with
  | EConstruct cs ts c =>
      if length cs =? length ts                                              (* initInternal, nc 203 *)
      then lift (step (base w) (AConstruct cs)) (fun b => EWorld b (poses w ++ [ts]) (covariances w ++ [c])) else Abort
  | EAct (AConstruct cs) => Abort                                            (* there is no constructor without transformations *)
  | EAct (AClone r) => lift (step (base w) (AClone r)) (copy_of w r)
  | EAct (ACloneNewIds r new) => lift (step (base w) (ACloneNewIds r new)) (copy_of w r)
  | EAct (AUndistort r new) => lift (step (base w) (AUndistort r new)) (copy_of w r)
  | EAct a => lift (step (base w) a) (fun b => EWorld b (poses w) (covariances w))
  | ESetPose r i t =>
      match poses w !! r with
      | Some ts => if i <? length ts then Ok (put_poses w r (<[i := t]> ts)) else Abort
      | None => Abort
      end
  | EWrite r i t => write w r i t
  | EWriteOfId r id t =>
      match camera_index (base w) r id with
      | None => Abort
      | Some i => if (i <? 0)%Z then Abort else write w r (Z.to_nat i) t
      end
  | ESetCovariance r c =>
      if r <? length (covariances w) then Ok (EWorld (base w) (poses w) (<[r := Some c]> (covariances w))) else Abort
  end.
Fixpoint erun (w : eworld) (l : list eact) : result eworld :=
  match l with [] => Ok w | a :: l => match estep w a with Ok w => erun w l | Abort => Abort | Undef => Undef end end.
(** has_- and get_T_G_B_fixed_localization_covariance, nc 299-310: the flag, and the value if there is one. The pointer is checked only then. *)
Definition covariance (w : eworld) (r : nat) (pointer : bool) : result (option C) :=
  match covariances w !! r with
  | Some (Some c) => if pointer then Ok (Some c) else Abort
  | Some None => Ok None
  | None => Abort
  end.
End Extrinsics.
