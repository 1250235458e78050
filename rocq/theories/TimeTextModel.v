(** Model of the conversion of times to text.

    Source: aslam_cv_common/include/aslam/common/time.h ("time").

    Characters are their ASCII codes, strings are lists of them. *)
From Coq Require Import ZArith.
From stdpp Require Import list.
Local Open Scope Z_scope.

(** std::to_string for non-negative numbers; 20 digits are enough for 64 bit. *)
Fixpoint dec_digits (fuel : nat) (n : Z) (acc : list Z) : list Z :=
  match fuel with
  | O => acc
  | S f => if n <? 10 then (48 + n) :: acc else dec_digits f (n / 10) ((48 + n mod 10) :: acc)
  end.
(** std::to_string(int64_t). *)
Definition to_text (t : Z) : list Z := if t <? 0 then 45 :: dec_digits 20 (- t) [] else dec_digits 20 t [].
(** "ns" and "s ". *)
Definition str_ns : list Z := [110; 115].
Definition str_s : list Z := [115; 32].
(** timeNanosecondsToString, time 75-86. *)
Definition time_text (t : Z) : list Z :=
  let s := to_text t in
  if (length s <? 10)%nat then s ++ str_ns
  else take (length s - 9) s ++ str_s ++ drop (length s - 9) s ++ str_ns.
