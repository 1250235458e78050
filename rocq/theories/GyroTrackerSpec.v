(** Specification for GyroTracker. *)
From Coq Require Import ZArith QArith Bool.
From stdpp Require Import list sorting.
From Verif Require Import StlHelpersModel GyroTrackerModel.
Local Open Scope nat_scope.

(** Keypoint i of frame k has a match. *)
Definition matched (ms : list (Z * Z)) (i : nat) : Prop := exists m, m ∈ ms /\ m.2 = Z.of_nat i.
(** Matches of frame k (with n keypoints): in range, no keypoint twice. *)
Definition one_to_one (n : nat) (ms : list (Z * Z)) : Prop :=
  NoDup ms.*2 /\ Forall (fun m : Z * Z => (0 <= m.2 < Z.of_nat n)%Z) ms.

(** A keypoint worth re-tracking: a detected one with a long enough track, or a flow-tracked one that has
    not been flow-tracked for too long. *)
Definition is_candidate (s : settings) (x : status) (len : nat) : Prop :=
  match x with Detected => threshold s <= len | LkTracked => len < max_len s end.
(** At least as good a candidate. *)
Definition better (x : status) (a : nat) (y : status) (b : nat) : Prop :=
  match x, y with
  | Detected, LkTracked => True
  | LkTracked, Detected => False
  | Detected, Detected => b <= a
  | LkTracked, LkTracked => a <= b
  end.

(** What std::sort guarantees. *)
Definition sorts (f : list (nat * nat) -> list (nat * nat)) (R : nat -> nat -> Prop) : Prop :=
  forall l, f l ≡ₚ l /\ StronglySorted (fun p q => R p.2 q.2) (f l).

(** A call that respects the contracts of the parts that are not modelled: the matcher returns a
    one-to-one match list, the prediction speaks about every keypoint, optical flow answers for every
    point, extraction keeps some of the keypoints. *)
Record sane (x : input) : Prop := {
  sane_found : one_to_one (length (ids_k x)) (found x);
  sane_pred : length (pred x) = length (ids_k x);
  sane_down : sorts (sort_down x) ge;
  sane_up : sorts (sort_up x) le;
  sane_flow : forall l, length (flow x l) = length l;
  sane_extract : forall pts, NoDup (extract x pts) /\ Forall (fun c => c < length pts) (extract x pts) }.

(** Histories: frame k of a call is frame k+1 of the call before, with all its keypoints. *)
Inductive history (s : settings) : tracker -> option nat -> Prop :=
| history_init : history s init None
| history_step t e x t' o :
    history s t e -> sane x -> (forall n, e = Some n -> length (ids_k x) = n) ->
    track s t x = Ok (t', o) -> history s t' (Some (num_kp1 x + length (added o))).
