(** Model of the container helpers.

    Source: aslam_cv_common/include/aslam/common/stl-helpers.h ("h") and
            aslam_cv_common/include/aslam/common/stl-helpers-inl.h ("inl").

    Simplifications:
    - vectors and Eigen matrices (columns or rows along the dynamic dimension) are lists; sizes fit
      into int;
    - std::sort on indices is insertion sort (the sorted list is unique);
    - std::nth_element and std::partial_sort are given by what the C++ standard guarantees of their
      result (a relation, so every implementation is covered);
    - numbers are exact (integers as samples, rationals as results). *)
From Coq Require Import ZArith QArith Bool.
From stdpp Require Import list.

Inductive result (A : Type) := Ok (a : A) | Abort | Ub.
Arguments Ok {A} a. Arguments Abort {A}. Arguments Ub {A}.

(** std::sort on std::vector<size_t>. *)
Fixpoint insert_sorted (x : nat) (l : list nat) : list nat :=
  match l with
  | [] => [x]
  | y :: l' => if x <=? y then x :: l else y :: insert_sorted x l'
  end.
Definition sort (l : list nat) : list nat := foldr insert_sorted [] l.

Section erase.
Context {A : Type}.

(** data[b .. e) appended; b > e or e beyond the end is undefined. *)
Definition copy_block (data : list A) (b e : nat) : result (list A) :=
  if (b <=? e) && (e <=? length data) then Ok (take (e - b) (drop b data)) else Ub.

(** eraseIndicesFromVector, h 183-217: the loop 199-206 and the last block 209-211. *)
Fixpoint erase_loop (data : list A) (b : nat) (idx : list nat) (out : list A) : result (list A) :=
  match idx with
  | [] =>
    if b =? length data then Ok out
    else match copy_block data b (length data) with Ok x => Ok (out ++ x) | Abort => Abort | Ub => Ub end
  | i :: idx' =>
    if b =? i then erase_loop data (i + 1) idx' out
    else match copy_block data b i with
         | Ok x => erase_loop data (i + 1) idx' (out ++ x)
         | Abort => Abort
         | Ub => Ub
         end
  end.
Definition erase_vector (data : list A) (idx : list nat) : result (list A) :=
  match idx with
  | [] => Ok data
  | _ =>
    let s := sort idx in
    if negb (default 0 (last s) <? length data) then Abort
    else if negb (length s <=? length data) then Abort
    else erase_loop data 0 s []
  end.

(** eraseIndicesFromContainer for matrices, inl 110-148: the loop 133-143 and the last block.
    [out] is the filled part of the result, of final size [rem]. *)
Fixpoint container_loop (data : list A) (start : nat) (idx : list nat) (rem : nat) (out : list A)
  : result (list A) :=
  match idx with
  | [] =>
    match copy_block data start (length data) with
    | Ok x => if length out + length x =? rem then Ok (out ++ x) else Ub
    | r => r
    end
  | i :: idx' =>
    if negb (start <=? i) then Abort
    else match copy_block data start i with
         | Ok x => if length out + length x <=? rem then container_loop data (i + 1) idx' rem (out ++ x) else Ub
         | r => r
         end
  end.
Definition erase_container (idx : list nat) (expected : nat) (data : list A) : result (list A) :=
  if negb (length data =? expected) then Abort
  else match last idx with
       | None => Ub                                       (* back() of an empty vector, inl 116 *)
       | Some b =>
         if negb (b <? expected) then Abort
         else if negb (length idx <=? expected) then Abort
         else container_loop data 0 idx (expected - length idx) []
       end.

(** Overload for vectors, inl 150-160. *)
Definition erase_container_vector (idx : list nat) (expected : nat) (data : list A) : result (list A) :=
  if negb (expected =? length data) then Abort else erase_vector data idx.

(** countNumberOfElementsInNestedList, h 19-27. *)
Definition count_nested (ll : list (list A)) : nat := foldl (fun n l => n + length l) 0 ll.

(** What std::partial_sort(begin, begin + n, end, cmp) guarantees. *)
Definition partial_sorted (cmp : A -> A -> bool) (n : nat) (l l' : list A) : Prop :=
  l' ≡ₚ l /\
  (forall i j x y, i < j < n -> l' !! i = Some x -> l' !! j = Some y -> cmp y x = false) /\
  (forall i j x y, i < n -> n <= j -> l' !! i = Some x -> l' !! j = Some y -> cmp y x = false).

(** keepOnlyNSortedElements, h 121-159: (returned value, container, elements handed to the action). *)
Inductive keep_n (cmp : A -> A -> bool) : nat -> list A -> nat * list A * list A -> Prop :=
| keep_zero l : keep_n cmp 0 l (0, [], l)
| keep_few n l : 0 < n -> length l <= n -> keep_n cmp n l (length l, l, [])
| keep_sort n l l' : 0 < n -> n < length l -> partial_sorted cmp n l l' ->
                     keep_n cmp n l (length (take n l'), take n l', drop n l').

(** drawNRandomElements, h 81-113, given the stream [rnd] of drawn indices and the iteration order
    [order] of the index set.  [None]: a CHECK fails or the stream ends. *)
Fixpoint draw_set (n : nat) (rnd : list nat) (set : list nat) : option (list nat) :=
  if n <=? length set then Some set
  else match rnd with
       | [] => None
       | i :: rnd' => draw_set n rnd' (if bool_decide (i ∈ set) then set else i :: set)
       end.
Definition draw_n (n : nat) (input : list A) (rnd : list nat) (order : list nat -> list nat)
  : option (list A) :=
  if n =? 0 then None
  else if length input <=? n then Some input
  else match draw_set n rnd [] with
       | None => None
       | Some set => mapM (fun i => input !! i) (order set)
       end.

End erase.

Open Scope Z_scope.

(** What std::nth_element(begin, begin + n, end) guarantees. *)
Definition nth_elem (n : nat) (l l' : list Z) : Prop :=
  l' ≡ₚ l /\ exists v, l' !! n = Some v /\
  (forall i x, (i < n)%nat -> l' !! i = Some x -> x <= v) /\
  (forall i x, (n < i)%nat -> l' !! i = Some x -> v <= x).

(** median, h 29-47: (result, range afterwards). *)
Inductive median : list Z -> Q * list Z -> Prop :=
| median_odd l l' v :
    l <> [] -> (length l mod 2 <> 0)%nat -> nth_elem (length l / 2) l l' ->
    l' !! (length l / 2)%nat = Some v -> median l (inject_Z v, l')
| median_even l l' l'' hi lo :
    l <> [] -> (length l mod 2 = 0)%nat -> nth_elem (length l / 2) l l' ->
    l' !! (length l / 2)%nat = Some hi ->
    nth_elem (length l / 2 - 1) l' l'' ->
    l'' !! (length l / 2 - 1)%nat = Some lo ->
    median l ((inject_Z hi + inject_Z lo) / 2, l'')%Q.

(** mean, h 50-61. *)
Definition mean (l : list Z) : option Q :=
  match l with
  | [] => None
  | _ => Some (foldl (fun mu x => mu + inject_Z x) 0 l / inject_Z (Z.of_nat (length l)))%Q
  end.
(** stddev, h 64-79, before the square root. *)
Definition variance (l : list Z) : option Q :=
  match mean l with
  | None => None
  | Some mu => Some (foldl (fun s x => s + (inject_Z x - mu) * (inject_Z x - mu)) 0 l
                     / inject_Z (Z.of_nat (length l)))%Q
  end.
