(** Model of the hash of Eigen matrices and of hash tables with such keys.

    Source: aslam_cv_common/include/aslam/common/eigen-hash.h ("eh"). The table is std::unordered_map of libstdc++ in its usual form: a number of
    buckets, each a list of entries; it is not part of the repository and modelled only as far as the use of the hash goes.

    Simplifications: size_t has 64 bits; the hash and the comparison of scalars are parameters ([std_hash] with results below 2^64, [scalar_eq],
    operator== of the scalar type). *)
From Coq Require Import NArith List Bool.
Import ListNotations.
Local Open Scope N_scope.

Definition word : N := 2 ^ 64.
(** One iteration, eh 18-19: seed ^= hash(elem) + 0x9e3779b9 + (seed << 6) + (seed >> 2). *)
Definition combine (seed h : N) : N := N.lxor seed ((h + 2654435769 + N.shiftl seed 6 + N.shiftr seed 2) mod word).
(** A matrix with its elements in the order of data(). *)
Record matrix (S : Type) := { rows : nat; cols : nat; data : list S }.
Arguments rows {S}. Arguments cols {S}. Arguments data {S}. Arguments Build_matrix {S}.
(** operator(), eh 14-22. *)
Definition hash {S} (std_hash : S -> N) (m : matrix S) : N := fold_left (fun seed elem => combine seed (std_hash elem)) (data m) 0.
(** operator== of Eigen: sizes have to agree, otherwise an assertion of Eigen fails. *)
Fixpoint all_eq {S} (scalar_eq : S -> S -> bool) (a b : list S) : bool := match a, b with [], [] => true | x :: a', y :: b' => scalar_eq x y && all_eq scalar_eq a' b' | _, _ => false end.
Definition same_size {S} (a b : matrix S) : bool := Nat.eqb (rows a) (rows b) && Nat.eqb (cols a) (cols b).
Definition matrix_eq {S} (scalar_eq : S -> S -> bool) (a b : matrix S) : option bool := if same_size a b then Some (all_eq scalar_eq (data a) (data b)) else None.

(** Looking up a key among the entries of its bucket: the stored hash is compared first, then the key. [None]: assertion failed. *)
Fixpoint lookup {S V} (std_hash : S -> N) (scalar_eq : S -> S -> bool) (entries : list (matrix S * V)) (k : matrix S) : option (option V) :=
  match entries with
  | [] => Some None
  | (k', v) :: rest =>
      if N.eqb (hash std_hash k') (hash std_hash k) then
        match matrix_eq scalar_eq k' k with None => None | Some true => Some (Some v) | Some false => lookup std_hash scalar_eq rest k end
      else lookup std_hash scalar_eq rest k
  end.
(** unordered_map::find and emplace with [n] buckets. *)
Definition table (S V : Type) : Type := N -> list (matrix S * V).
Definition find {S V} std_hash scalar_eq (n : N) (t : table S V) (k : matrix S) : option (option V) := lookup std_hash scalar_eq (t (hash std_hash k mod n)) k.
Definition emplace {S V} std_hash scalar_eq (n : N) (t : table S V) (k : matrix S) (v : V) : option (table S V) :=
  match find std_hash scalar_eq n t k with
  | None => None
  | Some (Some _) => Some t
  | Some None => let b := hash std_hash k mod n in Some (fun i => if N.eqb i b then (k, v) :: t b else t i)
  end.
