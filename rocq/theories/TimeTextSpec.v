(** Specification: a reader of texts "[-]Nns" and "[-]Ss Nns". *)
From Coq Require Import ZArith.
From stdpp Require Import list.
Local Open Scope Z_scope.

Definition is_digit (c : Z) : Prop := 48 <= c <= 57.
Global Instance is_digit_dec c : Decision (is_digit c).
Proof. unfold is_digit. apply _. Defined.
(** The longest prefix of digits, its length and value (continuing from [v]), and the rest. *)
Fixpoint read_digits (s : list Z) (n v : Z) : Z * Z * list Z :=
  match s with
  | c :: s' => if decide (is_digit c) then read_digits s' (n + 1) (10 * v + (c - 48)) else (n, v, s)
  | [] => (n, v, [])
  end.
(** A number needs a digit, unless [lenient]. *)
Definition read_number (lenient : bool) (s : list Z) : option (Z * list Z) :=
  let '(n, v, rest) := read_digits s 0 0 in
  if decide (n = 0 /\ lenient = false) then None else Some (v, rest).
Definition read_magnitude (lenient : bool) (s : list Z) : option Z :=
  x ← read_number lenient s;
  let '(v, rest) := x in
  match rest with
  | [110; 115] => Some v
  | 115 :: 32 :: rest' =>
    y ← read_number lenient rest';
    let '(w, rest'') := y in
    match rest'' with [110; 115] => Some (v * 10 ^ 9 + w) | _ => None end
  | _ => None
  end.
Definition read_time (lenient : bool) (s : list Z) : option Z :=
  match s with
  | 45 :: s' => v ← read_magnitude lenient s'; Some (- v)
  | _ => read_magnitude lenient s
  end.
Definition int64 (t : Z) : Prop := - 2 ^ 63 <= t < 2 ^ 63.
