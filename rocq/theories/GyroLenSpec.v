(** How long a keypoint has been followed with its present status. *)
From Coq Require Import ZArith.
From stdpp Require Import list.
From Verif Require Import StlHelpersModel GyroTrackerModel GyroTrackerSpec.
Local Open Scope nat_scope.

(** A frame as the tracker saw it: track ids and status of the keypoints. *)
Definition seen : Type := list Z * list status.
(** Keypoint [i] of a frame continues the track of keypoint [j] of the frame before. *)
Definition continues (f g : seen) (i j : nat) : Prop :=
  exists id, id <> (-1)%Z /\ f.1 !! i = Some id /\ g.1 !! j = Some id /\ forall j', j' < j -> g.1 !! j' <> Some id.
(** The track of keypoint [i] of the first of the frames (latest first) was continued [n] times, always by a keypoint with the present status of keypoint [i]. *)
Inductive followed : list seen -> nat -> nat -> Prop :=
| followed_0 fs i : followed fs i 0
| followed_1 f g fs i j : continues f g i j -> followed (f :: g :: fs) i 1
| followed_S f g fs i j n : continues f g i j -> f.2 !! i = g.2 !! j -> followed (g :: fs) j n -> followed (f :: g :: fs) i (S n).
Definition status_length (fs : list seen) (i n : nat) : Prop := followed fs i n /\ forall m, followed fs i m -> m <= n.

(** Histories with the frames k of all calls, latest first, and the numbers of detected and of added keypoints of the last frame k+1. The keypoints of the first frame count as detected. *)
Definition status_of (e : option (nat * nat)) (n : nat) : list status :=
  match e with None => replicate n Detected | Some (d, a) => replicate d Detected ++ replicate a LkTracked end.
Inductive recorded (s : settings) : tracker -> list seen -> option (nat * nat) -> Prop :=
| recorded_init : recorded s init [] None
| recorded_step t fs e x t' o :
    recorded s t fs e -> sane x -> (forall d a, e = Some (d, a) -> length (ids_k x) = d + a) -> track s t x = Ok (t', o) ->
    recorded s t' ((ids_k x, status_of e (length (ids_k x))) :: fs) (Some (num_kp1 x, length (added o))).
