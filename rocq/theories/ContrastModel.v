(** Model of the contrast factor of nonlinear diffusion.

    Source: aslam_cv_detector/src/kaze/nldiffusion_functions.cpp ("nf") 123-201.

    The input is the list of the gradient magnitudes of the pixels that are not on the border, in the order of the loops; smoothing and derivatives (OpenCV) are not modelled.
    Real numbers without rounding, but the counters are floats: adding 1 to 2^24 gives 2^24. The additions to nelements are exact. [None]: an access outside of the histogram. No statement is made for nbins = 0. *)
From Coq Require Import Reals List Bool Arith ZArith.
Import ListNotations.
Local Open Scope R_scope.

(** floor and conversion to size_t. *)
Definition floor_nat (r : R) : nat := Z.to_nat (Int_part r).
(** ++ of a float. *)
Definition limit : nat := Z.to_nat (2 ^ 24).
Definition increment (k : nat) : nat := if (k <? limit)%nat then (k + 1)%nat else k.
(** The maximum, nf 148-162. *)
Definition hmax (mods : list R) : R := fold_left (fun h m => if Rlt_dec h m then m else h) mods 0.
(** The bin of a magnitude, nf 176-180. *)
Definition bin (nbins : nat) (h m : R) : nat := let b := floor_nat (INR nbins * (m / h)) in if (b =? nbins)%nat then (b - 1)%nat else b.
(** The histogram and npoints, nf 164-186. *)
Definition count_step (nbins : nat) (h : R) (s : (nat -> nat) * nat) (m : R) : (nat -> nat) * nat :=
  if Req_EM_T m 0 then s else ((fun b => if (b =? bin nbins h m)%nat then increment (fst s b) else fst s b), increment (snd s)).
Definition histogram (nbins : nat) (mods : list R) : (nat -> nat) * nat := fold_left (count_step nbins (hmax mods)) mods (fun _ => 0%nat, 0%nat).
(** The loop over the bins, nf 191-192: k and nelements. *)
Fixpoint scan (left k nelements threshold : nat) (hist : nat -> nat) : nat * nat :=
  match left with
  | O => (k, nelements)
  | S l => if (nelements <? threshold)%nat then scan l (k + 1) (nelements + hist k) threshold hist else (k, nelements)
  end.
(** compute_k_percentile, nf 123-201. *)
Definition k_percentile (nbins : nat) (perc : R) (mods : list R) : option R :=
  let (hist, npoints) := histogram nbins mods in
  if ((nbins =? 0) && (0 <? npoints))%nat%bool then None
  else
    let threshold := floor_nat (INR npoints * perc) in
    let (k, nelements) := scan nbins 0 0 threshold hist in
    Some (if (nelements <? threshold)%nat then 3 / 100 else hmax mods * (INR k / INR nbins)).
