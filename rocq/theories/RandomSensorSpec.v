(** Specification of random sensors, in terms of what the getters of the sensors say. *)
From Coq Require Import Reals ZArith List Bool String.
From Verif Require Import TestRigModel TestRigSpec RandomSensorModel.
Import ListNotations.
Local Open Scope R_scope.

(** The identifiers are never the invalid one; and never twice the same. *)
Definition valid_ids (gen : nat -> Z) : Prop := forall k, gen k <> 0%Z.
Definition no_repeats (gen : nat -> Z) : Prop := forall j k, gen j = gen k -> j = k.

(** A camera for tests of each class, without lens distortion, rolling shutter or mask. *)
Definition plain (c : camera) : Prop := camera_type c = class c /\ line_delay c = 0%Z /\ mask c = None /\ distortion c = Some (NoLens, []).
Definition test_values (c : camera) : Prop :=
  match class c with
  | Pinhole => intrinsics c = [400; 300; 320; 240] /\ width c = 640%Z /\ height c = 480%Z
  | Unified => intrinsics c = [9 / 10; 400; 300; 320; 240] /\ width c = 640%Z /\ height c = 480%Z
  | Lidar => intrinsics c = [2 * PI / 1024; 9203703 / 1000000000; 289916642 / 1000000000; 0] /\ width c = 1024%Z /\ height c = 64%Z
  end.
(** A camera that may be used: its id and its parameters are valid. *)
Definition usable (c : camera) : Prop := c_id c <> 0%Z /\
  match class c, intrinsics c with
  | Pinhole, [fu; fv; cu; cv] => 0 < fu /\ 0 < fv /\ 0 < cu /\ 0 < cv
  | Unified, [xi; fu; fv; cu; cv] => 0 <= xi /\ 0 < fu /\ 0 < fv /\ 0 < cu /\ 0 < cv
  | Lidar, [h; v; _; _] => 0 < h /\ 0 < v
  | _, _ => False
  end.

(** A rounding: it keeps the order and does not change the integers in question. *)
Definition rounding (rnd : R -> R) : Prop := (forall x y, x <= y -> rnd x <= rnd y) /\ forall n, (0 <= n <= 15)%Z -> rnd (IZR n) = IZR n.
