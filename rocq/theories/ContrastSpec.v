(** Specification of the contrast factor: a percentile of the gradient magnitudes that are not zero. *)
From Coq Require Import Reals List Bool Arith ZArith.
Import ListNotations.
Local Open Scope R_scope.

(** How many of the magnitudes other than zero are at most, or less than, a value. *)
Definition edges (mods : list R) : list R := filter (fun m => if Req_EM_T m 0 then false else true) mods.
Definition at_most (v : R) (mods : list R) : nat := length (filter (fun m => if Rle_dec m v then true else false) (edges mods)).
Definition below (v : R) (mods : list R) : nat := length (filter (fun m => if Rlt_dec m v then true else false) (edges mods)).
