(** Model of the main orientation of KAZE keypoints.

    Sources: aslam_cv_detector/src/kaze/KAZE.cpp ("kz") 647-712, 2321-2344.

    Real numbers instead of floats. cv::fastAtan2 is exact and in radians, in [0, 2 pi). The loop over the windows takes its 42 rounds (0.15 * 41 < 2 pi < 0.15 * 42). *)
From Coq Require Import ZArith Reals List Bool.
Import ListNotations.
Local Open Scope R_scope.

(** Conversion to int, and fRound, kz 2342-2344. *)
Definition trunc (r : R) : Z := if Rle_dec 0 r then Int_part r else (- Int_part (- r))%Z.
Definition fround (r : R) : Z := trunc (r + / 2).
(** gaussian, kz 2321-2323. *)
Definition gaussian (x y sig : R) : R := exp (- (x * x + y * y) / (2 * sig * sig)).
(** cv::fastAtan2(y, x) * (CV_PI / 180.0). *)
Definition fast_atan2 (y x : R) : R :=
  if Rlt_dec 0 x then if Rle_dec 0 y then atan (y / x) else atan (y / x) + 2 * PI
  else if Rlt_dec x 0 then atan (y / x) + PI
  else if Rlt_dec 0 y then PI / 2 else if Rlt_dec y 0 then 3 * (PI / 2) else 0.
(** The points with i*i + j*j < 36, kz 663-665. *)
Definition offsets : list Z := map (fun k => Z.of_nat k - 6)%Z (seq 0 13).
Definition pattern : list (Z * Z) := filter (fun '(i, j) => (i * i + j * j <? 36)%Z) (flat_map (fun i => map (fun j => (i, j)) offsets) offsets).

Section Orientation.
Variables (height width : Z) (Lx Ly : Z -> Z -> R).
(** resX and resY, kz 666-678. *)
Definition response (xf yf : R) (s : Z) (p : Z * Z) : R * R :=
  let '(i, j) := p in
  let iy := fround (yf + IZR (j * s)) in
  let ix := fround (xf + IZR (i * s)) in
  if ((0 <=? iy) && (iy <? height) && (0 <=? ix) && (ix <? width))%Z then
    let gweight := gaussian (IZR iy - yf) (IZR ix - xf) (5 / 2 * IZR s) in (gweight * Lx iy ix, gweight * Ly iy ix)
  else (0, 0).
Definition responses (xf yf : R) (s : Z) : list (R * R) := map (response xf yf s) pattern.
(** The window of kz 689-704: is a response with this angle in it? *)
Definition in_window (ang1 ang : R) : bool :=
  let ang2 := if Rlt_dec (2 * PI) (ang1 + PI / 3) then ang1 - 5 * PI / 3 else ang1 + PI / 3 in
  let lt a b := if Rlt_dec a b then true else false in
  if lt ang1 ang2 && lt ang1 ang && lt ang ang2 then true
  else lt ang2 ang1 && ((lt 0 ang && lt ang ang2) || (lt ang1 ang && lt ang (2 * PI))).
(** sumX and sumY. *)
Definition window_sum (res : list (R * R)) (ang1 : R) : R * R :=
  fold_left (fun '(sumX, sumY) '(x, y) => if in_window ang1 (fast_atan2 y x) then (sumX + x, sumY + y) else (sumX, sumY)) res (0, 0).
(** One round of the loop: max and kpt.angle, kz 706-710. *)
Definition slide (res : list (R * R)) (st : R * R) (ang1 : R) : R * R :=
  let '(max, angle) := st in
  let '(sumX, sumY) := window_sum res ang1 in
  if Rlt_dec max (sumX * sumX + sumY * sumY) then (sumX * sumX + sumY * sumY, fast_atan2 sumY sumX) else (max, angle).
Definition windows : list R := map (fun k => 15 / 100 * INR k) (seq 0 42).
(** Compute_Main_Orientation; angle is the previous content of kpt.angle (0 after the refinement). *)
Definition main_orientation (xf yf size angle : R) : R :=
  let s := fround (size / 2) in snd (fold_left (slide (responses xf yf s)) windows (0, angle)).
End Orientation.
