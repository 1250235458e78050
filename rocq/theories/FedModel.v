(** Model of the time step reordering for fast explicit diffusion.

    Source: aslam_cv_detector/src/kaze/fed.cpp ("fed").

    The time steps are values of any type; n <= 0 and the path without reordering do not permute.
    [fuel] bounds the number of loop iterations; None means that it did not suffice (the theorems show that
    the loops end). int products of 2^31 and more are undefined. *)
From Coq Require Import ZArith Bool.
From stdpp Require Import list.
From Verif Require Import StlHelpersModel.
Local Open Scope Z_scope.

(** while loop of fed_is_prime_internal, fed 133-141. *)
Fixpoint divisor_loop (fuel : nat) (m d upper : Z) : option bool :=
  match fuel with
  | O => None
  | S f => if d <=? upper then (if m mod d =? 0 then Some false else divisor_loop f m (d + 2) upper) else Some true
  end.
(** fed_is_prime_internal, fed 119-145. sqrt(m + 1.0) converted to int is exact for ints. *)
Definition is_prime (m : Z) : option bool :=
  if m <=? 1 then Some false
  else if (m =? 2) || (m =? 3) || (m =? 5) || (m =? 7) then Some true
  else if (m mod 2 =? 0) || (m mod 3 =? 0) || (m mod 5 =? 0) || (m mod 7 =? 0) then Some false
  else divisor_loop (Z.to_nat m) m 11 (Z.sqrt (m + 1)).
(** fed 97-101. *)
Fixpoint next_prime (fuel : nat) (p : Z) : option Z :=
  match fuel with
  | O => None
  | S f => b ← is_prime p; if b : bool then Some p else next_prime f (p + 1)
  end.
(** Loops fed 104-111; one step for each value of k, [left] steps to write. *)
Fixpoint permute {A} (fuel : nat) (kappa p k : Z) (left : nat) (tauh : list A) : option (result (list A)) :=
  match fuel with
  | O => None
  | S f =>
    match left with
    | O => Some (Ok [])
    | S l =>
      if 2 ^ 31 <=? (k + 1) * kappa then Some Ub
      else
        let index := ((k + 1) * kappa) mod p - 1 in
        if Z.of_nat (length tauh) <=? index then permute f kappa p (k + 1) left tauh
        else if index <? 0 then Some Ub
        else match tauh !! Z.to_nat index with
             | None => Some Ub
             | Some a => r ← permute f kappa p (k + 1) l tauh;
                         Some (match r with Ok t => Ok (a :: t) | _ => Ub end)
             end
    end
  end.
(** fed 87-112. *)
Definition reorder {A} (fuel : nat) (tauh : list A) : option (result (list A)) :=
  let n := Z.of_nat (length tauh) in
  p ← next_prime fuel (n + 1);
  permute fuel (n / 2) p 0 (length tauh) tauh.
