(** Model of the byte shuffle for ARM, and of the conversion of a matrix to a vector of its columns.

    Sources: aslam_cv_common/include/aslam/common/neon-helpers.h ("nh") 44-58; aslam_cv_common/include/aslam/common/stl-helpers.h ("sh") 164-178.

    A register is the list of its bytes as numbers; None is a read outside of an array. *)
From Coq Require Import ZArith List.
Import ListNotations.
Open Scope Z_scope.

(** One round of the loop, nh 51-56. *)
Definition shuffle_one (value tmp_mask : list Z) (i : nat) : option Z :=
  match nth_error tmp_mask i with
  | Some k => if Z.land k 128 =? 0 then nth_error value (Z.to_nat (Z.land k 15)) else Some 0
  | None => None
  end.
(** shuffle_epi8_neon, nh 44-58. *)
Definition shuffle (lhs mask : list Z) : option (list Z) :=
  fold_right (fun i acc => match shuffle_one lhs mask i, acc with Some v, Some l => Some (v :: l) | _, _ => None end) (Some []) (seq 0 16).

(** A matrix with a fixed number of rows. *)
Record matrix (A : Type) := Matrix { rows : nat; cols : nat; entry : nat -> nat -> A }.
Arguments Matrix {A}. Arguments rows {A}. Arguments cols {A}. Arguments entry {A}.
(** col(idx), as a vector. *)
Definition column {A} (m : matrix A) (idx : nat) : list A := map (fun r => entry m r idx) (seq 0 (rows m)).
(** convertEigenToStlVector, sh 161-175; [output] is what the vector held before. *)
Definition convert {A} (input : matrix A) (output : list (list A)) : list (list A) :=
  let cleared := firstn 0 output in
  fold_left (fun out idx => out ++ [column input idx]) (seq 0 (cols input)) cleared.
