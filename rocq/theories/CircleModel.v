(** Model of the circle helpers of the camera calibration.

    Source: aslam_cv_calibration/include/aslam/calibration/helpers.h ("he").

    Simplifications: doubles are real numbers. Quotients with denominator zero (NaN or infinite in the code) are the
    distinct outcome [None]; the point counts are not bounded by int. *)
From Coq Require Import Reals List.
Import ListNotations.
Local Open Scope R_scope.

Definition point : Type := R * R.
Definition square (x : R) : R := x * x.
(** hypot, he 18-20. *)
Definition hypot (a b : R) : R := sqrt (square a + square b).

(** intersectCircles, he 22-53. The list is the one of the caller; the points are appended. A NaN point is [None]: for
    d = 0 (reached for equal radii only) a and h are 0/0, the comparison h < 1e-10 is false, and two NaN points are appended. *)
Definition intersect_circles (x1 y1 r1 x2 y2 r2 : R) (out : list (option point)) : list (option point) :=
  let d := hypot (x1 - x2) (y1 - y2) in
  if Rlt_dec (r1 + r2) d then out
  else if Rlt_dec d (Rabs (r1 - r2)) then out
  else if Req_EM_T d 0 then out ++ [None; None]
  else
    let a := (square r1 - square r2 + square d) / (2 * d) in
    let h := sqrt (square r1 - square a) in
    let x3 := x1 + a * (x2 - x1) / d in
    let y3 := y1 + a * (y2 - y1) / d in
    if Rlt_dec h (/ 10 ^ 10) then out ++ [Some (x3, y3)]
    else out ++ [Some (x3 + h * (y2 - y1) / d, y3 - h * (x2 - x1) / d); Some (x3 - h * (y2 - y1) / d, y3 + h * (x2 - x1) / d)].

(** The sums of he 64-88. *)
Definition sum (f : point -> R) (l : list point) : R := fold_left (fun s p => s + f p) l 0.
Record fit_result := { center_x : R; center_y : R; radius : R }.
(** fitCircle, he 58-106; [None]: division by zero. *)
Definition fit_circle (l : list point) : option fit_result :=
  let n := INR (length l) in
  let sum_x := sum fst l in
  let sum_y := sum snd l in
  let sum_xx := sum (fun p => fst p * fst p) l in
  let sum_xy := sum (fun p => fst p * snd p) l in
  let sum_yy := sum (fun p => snd p * snd p) l in
  let sum_xxx := sum (fun p => fst p * fst p * fst p) l in
  let sum_xxy := sum (fun p => fst p * fst p * snd p) l in
  let sum_xyy := sum (fun p => fst p * snd p * snd p) l in
  let sum_yyy := sum (fun p => snd p * snd p * snd p) l in
  let A := n * sum_xx - square sum_x in
  let B := n * sum_xy - sum_x * sum_y in
  let C := n * sum_yy - square sum_y in
  let D := / 2 * (n * sum_xyy - sum_x * sum_yy + n * sum_xxx - sum_x * sum_xx) in
  let E := / 2 * (n * sum_xxy - sum_y * sum_xx + n * sum_yyy - sum_y * sum_yy) in
  if Req_EM_T (A * C - square B) 0 then None
  else
    let cx := (D * C - B * E) / (A * C - square B) in
    let cy := (A * E - B * D) / (A * C - square B) in
    let sum_r := sum (fun p => hypot (fst p - cx) (snd p - cy)) l in
    Some {| center_x := cx; center_y := cy; radius := sum_r / n |}.
