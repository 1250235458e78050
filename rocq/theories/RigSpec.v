(** Specification for rigs. *)
From Coq Require Import ZArith.
From stdpp Require Import list gmap.
From Verif Require Import RigModel.
Local Open Scope nat_scope.

(** The ids of the cameras of every rig are pairwise distinct and valid. *)
Definition distinct (w : world) : Prop :=
  forall r i j x, camera_id w r i = Some x -> camera_id w r j = Some x -> i = j.
Definition valid_ids (w : world) : Prop := forall r i x, camera_id w r i = Some x -> x <> 0%Z.

(** Histories of constructing, cloning (with or without new ids) and replacing cameras, in which ids are
    distinct and valid after every step. *)
Inductive reach : world -> Prop :=
| reach_init : reach init
| reach_step w a w' : reach w ->
    match a with AUndistort _ _ | ASetId _ _ => False | _ => True end ->
    step w a = Some w' -> distinct w' -> valid_ids w' -> reach w'.
