(** Specification for GyroTwoFrameMatcher. *)
From Coq Require Import ZArith QArith Qround Qabs Bool.
From stdpp Require Import list sorting.
From Verif Require Import StlHelpersModel GyroMatcherModel.
Local Open Scope nat_scope.

(** What std::sort guarantees. *)
Definition sorts_by_y (f : list kp -> list kp) : Prop :=
  forall l, f l ≡ₚ l /\ StronglySorted (fun a b => (ky a <= ky b)%Q) (f l).

(** q is in the search window of p, up to the rounding of its borders to pixels (rows are not negative). *)
Definition near (w : Z) (p q : Q * Q) : Prop :=
  (Qabs (q.1 - p.1) < inject_Z w + 1)%Q /\ ((0 <= q.2)%Q -> (Qabs (q.2 - p.2) < inject_Z w + (1 # 2))%Q).

(** Less than a fifth of the bits differ. *)
Definition similar (x : minput) (b a : nat) : Prop := (5 * dist x b a < 8 * Z.of_nat (bytes x))%Z.

(** Row of a keypoint. *)
Definition row (y : Q) : Z := Qfloor y.

(** A call on frames, predictions and settings as documented. *)
Record proper (x : minput) : Prop := {
  pr_bytes : 0 < bytes x <= 64;
  pr_height : 0 < img_height x;
  pr_windows : (0 < small x <= large x)%Z /\ (large x <= 2 ^ 20)%Z;
  pr_kps : Forall (fun q : Q * Q => (0 <= q.2 <= inject_Z (2 ^ 20))%Q) (kps x);
  pr_preds : Forall (fun p : Q * Q => (Qabs p.1 <= inject_Z (2 ^ 20))%Q /\ (Qabs p.2 <= inject_Z (2 ^ 20))%Q) (preds x);
  pr_num : length (preds x) = num_k x;
  pr_success : length (success x) = num_k x;
  pr_sort : sorts_by_y (std_sort x);
  pr_dist : forall b a, b < num_k x -> a < length (kps x) -> (0 <= dist x b a <= 8 * Z.of_nat (bytes x))%Z }.

(** The descriptor size remembered by the process, if any, is the one of this call. *)
Definition same_size (stat : option Z) (x : minput) : Prop := forall z, stat = Some z -> z = (8 * Z.of_nat (bytes x))%Z.

(** The same call with another implementation of std::sort. *)
Definition with_sort (x : minput) (f : list kp -> list kp) : minput :=
  MInput (bytes x) (kps x) (num_k x) (dist x) (preds x) (success x) (img_height x) (small x) (large x) f.

(** First row of the window and first row behind it. *)
Definition first_row (h : nat) (p : Q * Q) (w : Z) : Z :=
  Z.min (Z.max (Qfloor (p.2 + (1 # 2) - inject_Z w)) 0) (Z.of_nat h - 1).
Definition end_row (h : nat) (p : Q * Q) (w : Z) : Z :=
  Z.min (Z.max (Qfloor (p.2 + (1 # 2) + inject_Z w)) 0) (Z.of_nat h - 1).

(** A distance that qualifies for a match with descriptors of D bits. *)
Definition qualifies (D d : Z) : Prop := (5 * d < D)%Z.
