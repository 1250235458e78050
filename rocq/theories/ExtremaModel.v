(** Model of the search for keypoints in the KAZE scale space.

    Sources: aslam_cv_detector/src/kaze/KAZE.cpp ("kz") 270-495, 2342-2344; aslam_cv_detector/src/kaze/nldiffusion_functions.cpp ("nf") 364-391.

    Values of the determinant are finite floats, given as integers in units of 2^-149 (they are only compared); the positions of extrema are integers. Scales (esigma) are rational numbers.
    A keypoint has its position, response and level (class_id); size, octave and sublevel are those of the level. The lists of the levels are filled by OpenMP threads, each its own, so that their order does not matter.
    The refinement is modelled over the real numbers, with the solution of the linear system (cv::solve) as a parameter. *)
From Coq Require Import ZArith QArith Reals List Bool.
Import ListNotations.
Local Open Scope Z_scope.

Record keypoint := Keypoint { kx : Z; ky : Z; response : Z; level : nat }.
(** The constant 0.00001 of kz 366. *)
Definition tiny : Z := 2 ^ 149 / 10 ^ 5 + 1.
(** for (k = a; k <= b; k++). *)
Definition range (a b : Z) : list Z := map (fun k => a + Z.of_nat k) (seq 0 (Z.to_nat (b - a + 1))).
(** fRound, kz 2342-2344: conversion to int truncates. *)
Definition fround (q : Q) : Z := let s := (q + (1 # 2))%Q in Z.quot (Qnum s) (Zpos (Qden s)).

Section Search.
(** evolution_.size(), img_height, img_width, dthreshold, the Ldet images and esigma. *)
Variables (levels : nat) (height width dthreshold : Z) (Ldet : nat -> Z -> Z -> Z) (esigma : nat -> Q).
(** check_maximum_neighbourhood, nf 364-391. *)
Definition check_maximum (img : Z -> Z -> Z) (dsize value row col : Z) (same_img : bool) : bool :=
  forallb (fun i => forallb (fun j =>
    if (0 <=? i) && (i <? height) && (0 <=? j) && (j <? width) then
      if same_img then (if negb (i =? row) || negb (j =? col) then negb (value <? img i j) else true) else negb (value <? img i j)
    else true) (range (col - dsize) (col + dsize))) (range (row - dsize) (row + dsize)).
(** Find_Extremum_Threading, kz 354-398. *)
Definition is_extremum (l : nat) (ix jx : Z) : bool :=
  let value := Ldet l ix jx in
  (dthreshold <? value) && (tiny <=? value) && (Ldet l ix (jx - 1) <=? value) &&
  check_maximum (Ldet l) 1 value ix jx true && check_maximum (Ldet (l - 1)) 1 value ix jx false && check_maximum (Ldet (l + 1)) 1 value ix jx false.
Definition find_extremum (l : nat) : list keypoint :=
  flat_map (fun ix => flat_map (fun jx => if is_extremum l ix jx then [Keypoint jx ix (Z.abs (Ldet l ix jx)) l] else []) (range 1 (width - 2))) (range 1 (height - 2)).
(** sigma_size, kz 63. *)
Definition sigma_size (l : nat) : Z := fround (esigma l).
(** kz 306-311: a keypoint of the same or of an adjacent level, closer than sigma_size. *)
Definition close (p k : keypoint) : bool :=
  ((level k =? level p)%nat || (level k =? level p + 1)%nat || (level k + 1 =? level p)%nat) &&
  ((kx p - kx k) * (kx p - kx k) + (ky p - ky k) * (ky p - ky k) <? sigma_size (level p) * sigma_size (level p)).
(** The loop over kpts with its break, kz 305-323: the first close keypoint and its index. *)
Fixpoint first_close (p : keypoint) (ik : nat) (kpts : list keypoint) : option (nat * keypoint) :=
  match kpts with
  | [] => None
  | k :: rest => if close p k then Some (ik, k) else first_close p (S ik) rest
  end.
Fixpoint assign (i : nat) (p : keypoint) (kpts : list keypoint) : list keypoint :=
  match kpts, i with [], _ => [] | _ :: rest, O => p :: rest | k :: rest, S j => k :: assign j p rest end.
(** kz 327-335, with smax = 3 and the size of the level. *)
Definition outside (p : keypoint) : bool :=
  let r := (3 * esigma (level p))%Q in
  (fround (inject_Z (kx p) - r)%Q <? 0) || (width <=? fround (inject_Z (kx p) + r)%Q) || (fround (inject_Z (ky p) - r)%Q <? 0) || (height <=? fround (inject_Z (ky p) + r)%Q).
(** The body of the loop over the extrema, kz 299-348. *)
Definition add_extremum (kpts : list keypoint) (p : keypoint) : list keypoint :=
  let '(is_extremum, repeated) := match first_close p 0 kpts with None => (true, None) | Some (ik, k) => if response k <? response p then (true, Some ik) else (false, None) end in
  if is_extremum then
    let is_out := outside p in
    let is_out := false in
    if is_out : bool then kpts else match repeated with None => kpts ++ [p] | Some ik => assign ik p kpts end
  else kpts.
(** Determinant_Hessian_Parallel, kz 270-351. [None]: without levels, evolution_.size() - 1 is the greatest size_t and the first loop does not end before memory does. *)
Definition detect (kpts : list keypoint) : option (list keypoint) :=
  if (levels =? 0)%nat then None else Some (fold_left add_extremum (flat_map find_extremum (seq 1 (levels - 2))) kpts).
End Search.

(** ** Do_Subpixel_Refinement, kz 401-495 *)
Section Refine.
Local Open Scope R_scope.
Variable (f : nat -> Z -> Z -> R).
(** Gradient and Hessian, kz 420-454, at level l, row y, column x. *)
Definition Dx (l : nat) (y x : Z) : R := 1 / (2 * 1) * (f l y (x + 1) - f l y (x - 1)).
Definition Dy (l : nat) (y x : Z) : R := 1 / (2 * 1) * (f l (y + 1) x - f l (y - 1) x).
Definition Ds (l : nat) (y x : Z) : R := / 2 * (f (l + 1) y x - f (l - 1) y x).
Definition Dxx (l : nat) (y x : Z) : R := 1 / (1 * 1) * (f l y (x + 1) + f l y (x - 1) - 2 * f l y x).
Definition Dyy (l : nat) (y x : Z) : R := 1 / (1 * 1) * (f l (y + 1) x + f l (y - 1) x - 2 * f l y x).
Definition Dss (l : nat) (y x : Z) : R := f (l + 1) y x + f (l - 1) y x - 2 * f l y x.
Definition Dxy (l : nat) (y x : Z) : R := 1 / (4 * 1) * (f l (y + 1) (x + 1) + f l (y - 1) (x - 1)) - 1 / (4 * 1) * (f l (y - 1) (x + 1) + f l (y + 1) (x - 1)).
Definition Dxs (l : nat) (y x : Z) : R := 1 / (4 * 1) * (f (l + 1) y (x + 1) + f (l - 1) y (x - 1)) - 1 / (4 * 1) * (f (l + 1) y (x - 1) + f (l - 1) y (x + 1)).
Definition Dys (l : nat) (y x : Z) : R := 1 / (4 * 1) * (f (l + 1) (y + 1) x + f (l - 1) (y - 1) x) - 1 / (4 * 1) * (f (l + 1) (y - 1) x + f (l - 1) (y + 1) x).
(** The system, kz 456-465: rows of A and b. *)
Definition system (l : nat) (y x : Z) : list (R * R * R * R) :=
  [ (Dxx l y x, Dxy l y x, Dxs l y x, - Dx l y x); (Dxy l y x, Dyy l y x, Dys l y x, - Dy l y x); (Dxs l y x, Dys l y x, Dss l y x, - Ds l y x) ].
(** dst; [None] if it is not finite. *)
Variable (solve : list (R * R * R * R) -> option (R * R * R)).
Variables (soffset : R) (nsublevels : nat).
(** A refined keypoint: position, size and level (the angle is 0). *)
Record refined := Refined { rx : R; ry : R; rsize : R; rlevel : nat }.
(** One keypoint, kz 417-481 and 488; octave and sublevel are those of the level (kz 49-66). *)
Definition refine (k : keypoint) : option refined :=
  match solve (system (level k) (ky k) (kx k)) with
  | None => None
  | Some (dx, dy, ds) =>
      if Rle_dec (Rabs dx) 1 then if Rle_dec (Rabs dy) 1 then if Rle_dec (Rabs ds) 1 then
        let dsc := INR (level k / nsublevels) + (INR (level k mod nsublevels) + ds) / INR nsublevels in
        Some (Refined (IZR (kx k) + dx) (IZR (ky k) + dy) (2 * soffset * Rpower 2 dsc) (level k))
      else None else None else None
  end.
Definition refine_all (kpts : list keypoint) : list refined := flat_map (fun k => match refine k with Some r => [r] | None => [] end) kpts.
End Refine.
