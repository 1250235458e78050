(** Specification of exchanging data with a frame. *)
From Coq Require Import ZArith List Bool Permutation.
From Verif Require Import FrameSwapModel.
Import ListNotations.

Definition all_kinds : list kind := [Matrix2; Doubles; Matrix3; Integers; Bytes].
Definition all_channels : list channel := [Measurements; Uncertainties; Orientations; Scores; Scales; Positions; Offsets; Tracks].
(** All data there is: in the variables, the channels and the blocks; without the empty ones. *)
Definition data (s : state) : list value :=
  concat (map (vars s) all_kinds) ++ concat (map (fun c => match chan s c with Some v => [v] | None => [] end) all_channels) ++ match blocks s with Some b => b | None => [] end.
Definition not_empty (v : value) : bool := match v with [] => false | _ => true end.
(** What a channel holds, nothing if it is missing. *)
Definition holds (s : state) (c : channel) : value := match chan s c with Some v => v | None => [] end.

(** The calls that exchange. *)
Definition exchanges (o : op) : Prop := match o with Swap _ _ | SwapBlock _ _ _ => True | _ => False end.
(** The pointers and variables of a call exist. *)
Definition pointers_ok (s : state) (o : op) : Prop :=
  match o with
  | Get c n | Set_ c n => n < length (vars s (kind_of c))
  | Swap c (Some n) => n < length (vars s (kind_of c))
  | Swap _ None => False
  | GetBlock _ n | SetBlock n _ _ | ExtendBlock n _ | SwapBlock (Some n) _ _ => n < length (vars s Bytes)
  | SwapBlock None _ _ => False
  | GetType _ => True
  end.
(** The blocks of descriptors and their types belong together. *)
Definition paired (s : state) : Prop :=
  match blocks s, types s with None, None => True | Some b, Some t => length b = length t /\ 1 <= length b /\ Forall (fun i => i <> None) t | _, _ => False end.
(** The same state but for one channel and one variable. *)
Definition same_but (s s' : state) (c : channel) (n : nat) : Prop :=
  (forall d, d <> c -> chan s' d = chan s d) /\ blocks s' = blocks s /\ types s' = types s /\ returned s' = returned s /\
  (forall k, length (vars s' k) = length (vars s k)) /\ forall k m, (k, m) <> (kind_of c, n) -> nth_error (vars s' k) m = nth_error (vars s k) m.
