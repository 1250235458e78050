(** Model of the filters and of the intersection of the line segment detector, and of the detector of the library around it.

    Sources: aslam_cv_detector/src/lsd/lsd-opencv.cc ("lsd") 1376-1467; aslam_cv_detector/src/line-segment-detector.cc ("wrap") 19-35.

    Real numbers instead of floats; cv::fastAtan2 is exact and in degrees here. A Vec4i is (x1, y1, x2, y2) over unbounded integers. *)
From Coq Require Import ZArith Reals List Bool.
Import ListNotations.
From Verif Require Import OrientModel.
Local Open Scope R_scope.

Definition vec4 : Type := (Z * Z * Z * Z)%type.
(** An argument of type InputArray: a std::vector<Vec4i>, whose getMat() has one row, or a cv::Mat of the given number of columns with its elements row by row. *)
Inductive array := Vector (l : list vec4) | Matrix (cols : nat) (l : list vec4).
Definition elements (a : array) : list vec4 := match a with Vector l => l | Matrix _ l => l end.
(** _lines.size().width. *)
Definition width (a : array) : nat := match a with Vector l => length l | Matrix cols _ => cols end.
(** The elements at<Vec4i>(i) for i from 0 to width - 1, lsd 1382-1384, 1419-1421. *)
Definition visited (a : array) : list vec4 := firstn (width a) (elements a).
(** Mat(f).copyTo(out): Mat(f) has one column; a vector gets all elements. lsd 1399, 1432 and, for the lines of detect, lsd 541. *)
Definition copy_to (vector : bool) (f : list vec4) : array := if vector then Vector f else Matrix 1 f.

(** f and num_filtered of both loops. *)
Definition loop (keep : vec4 -> bool) (l : list vec4) : list vec4 * nat :=
  fold_left (fun '(f, num_filtered) v => if keep v then (f ++ [v], num_filtered) else (f, S num_filtered)) l ([], 0%nat).
Definition run (keep : vec4 -> bool) (vector : bool) (lines : array) : array * nat :=
  let '(f, num_filtered) := loop keep (visited lines) in (copy_to vector f, num_filtered).

Definition le (a b : R) : bool := if Rle_dec a b then true else false.
Definition lt (a b : R) : bool := if Rlt_dec a b then true else false.
Definition eq (a b : R) : bool := if Req_EM_T a b then true else false.

(** The angle in degrees, lsd 1385-1390. *)
Definition angle_of (v : vec4) : R :=
  let '(x1, y1, x2, y2) := v in
  let angle := fast_atan2 (IZR (y2 - y1)) (IZR (x2 - x1)) * (180 / PI) in
  if Rle_dec 180 angle then angle - 180 else angle.
Definition angle_in (min_angle max_angle : R) (v : vec4) : bool := le min_angle (angle_of v) && le (angle_of v) max_angle.
(** filterOutAngle and retainAngle, lsd 1376-1411. *)
Definition filter_out_angle (vector : bool) (lines : array) (min_angle max_angle : R) : array * nat := run (fun v => negb (angle_in min_angle max_angle v)) vector lines.
Definition retain_angle (vector : bool) (lines : array) (min_angle max_angle : R) : array * nat := run (angle_in min_angle max_angle) vector lines.

(** norm(b - e), lsd 1422-1425. *)
Definition len (v : vec4) : R := let '(x1, y1, x2, y2) := v in sqrt (IZR ((x1 - x2) * (x1 - x2) + (y1 - y2) * (y1 - y2))).
(** filterSize, lsd 1413-1434; LSD_NO_SIZE_LIMIT is -1. *)
Definition size_in (min_length max_length : R) (v : vec4) : bool :=
  (eq min_length (-1) || le min_length (len v)) && (eq max_length (-1) || lt (len v) max_length).
Definition filter_size (vector : bool) (lines : array) (min_length max_length : R) : array * nat := run (size_in min_length max_length) vector lines.

(** find_eq_params, lsd 1436-1441. *)
Definition find_eq_params (v : vec4) : Z * Z * Z :=
  let '(x1, y1, x2, y2) := v in
  let a := (y2 - y1)%Z in let b := (x1 - x2)%Z in (a, b, a * x1 + b * y1)%Z.
(** intersection of two lines, lsd 1443-1467: None for false; the conversion of x and y to the int coordinates of Point cuts off their fractions. *)
Definition intersection (l1 l2 : vec4) : option (Z * Z) :=
  let '(a1, b1, c1) := find_eq_params l1 in
  let '(a2, b2, c2) := find_eq_params l2 in
  let det := (a1 * b2 - a2 * b1)%Z in
  if (det =? 0)%Z then None
  else Some (trunc (IZR (b2 * c1 - b1 * c2) / IZR det), trunc (IZR (a1 * c2 - a2 * c1) / IZR det)).

(** The detector of the library, wrap 19-35: [raw] are the lines stored by detect, a line is its start and end point. The previous lines are cleared. *)
Definition detect (min_segment_length_px : nat) (raw : list vec4) (lines : list (R * R * (R * R))) : list (R * R * (R * R)) :=
  map (fun '(x0, y0, x1, y1) => ((IZR x0, IZR y0), (IZR x1, IZR y1))) (elements (fst (filter_size true (Vector raw) (INR min_segment_length_px) (-1)))).
