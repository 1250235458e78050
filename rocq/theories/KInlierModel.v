(** Model of the inliers that KAZE's helper functions take from RANSAC, and of the lines that they draw between the points.

    Source: aslam_cv_detector/src/kaze/utils.cpp ("ku") 180-204, 249-290, 293-340.

    Floats are real numbers. cv::findFundamentalMat and cv::findHomography are one oracle: they throw for points they do not take, or write a status for some number of the points (none if there is no model). cv::line is the list of its end points and colours. *)
From Coq Require Import Reals ZArith List.
From Verif Require Import KUtilModel.
Import ListNotations.
Local Open Scope R_scope.

Inductive estimate := Refused | Estimated (status : list Z).
Inductive result (A : Type) := Got (a : A) | Thrown | Outside.
Arguments Got {A}. Arguments Thrown {A}. Arguments Outside {A}.

(** The points of both images, ku 188-191. *)
Fixpoint split_points (matches : list point) : result (list point * list point) :=
  match matches with
  | [] => Got ([], [])
  | [_] => Outside
  | p :: q :: rest => match split_points rest with Got (ps, qs) => Got (p :: ps, q :: qs) | Thrown => Thrown | Outside => Outside end
  end.
(** One round of the loop, ku 198-203. *)
Definition pick (points1 points2 : list point) (status : list Z) (acc : result (list point)) (i : nat) : result (list point) :=
  match acc, nth_error status i with
  | Got inliers, Some s =>
      if (s =? 1)%Z then
        match nth_error points1 i, nth_error points2 i with Some p, Some q => Got (inliers ++ [p; q]) | _, _ => Outside end
      else acc
  | Got _, None => Outside
  | _, _ => acc
  end.
(** compute_inliers_ransac, ku 180-204. *)
Definition compute_inliers_ransac (estimator : bool -> list point -> list point -> R -> estimate) (matches inliers : list point) (error : R) (use_fund : bool) : result (list point) :=
  let npoints := Nat.div2 (length matches) in
  match split_points matches with
  | Got (points1, points2) =>
      match estimator use_fund points1 points2 error with
      | Refused => Thrown
      | Estimated status => fold_left (pick points1 points2 status) (seq 0 npoints) (Got inliers)
      end
  | Thrown => Thrown
  | Outside => Outside
  end.

(** The conversion of a number to int. *)
Definition trunc (r : R) : Z := if Rle_dec 0 r then Int_part r else (- Int_part (- r))%Z.
(** x1, y1, x2 and y2, ku 258-262 and 285-288; ku 304-305 and 329-332. The second image is not empty, or cv::resize throws. *)
Definition line_ends (img1 img2 : picture) (p q : point) : (Z * Z) * (Z * Z) :=
  let ufactor := INR (cols img1) / INR (cols img2) in
  let vfactor := INR (rows img1) / INR (rows img2) in
  ((trunc (fst p + / 2), trunc (snd p + / 2)), (trunc (fst q * ufactor + INR (cols img1) + / 2), trunc (snd q * vfactor + / 2))).
(** The colours, ku 334-339. *)
Definition colour_of (color : Z) : option (Z * Z * Z) :=
  if (color =? 0)%Z then Some (255, 255, 0)%Z else if (color =? 1)%Z then Some (255, 0, 0)%Z else if (color =? 2)%Z then Some (0, 255, 0)%Z else None.
(** The lines drawn by the loops, ku 284-290 with one colour and ku 328-340 with three. *)
Fixpoint lines_with (colour : option (Z * Z * Z)) (img1 img2 : picture) (ptpairs : list point) : result (list ((Z * Z) * (Z * Z) * (Z * Z * Z))) :=
  match ptpairs with
  | [] => Got []
  | [_] => Outside
  | p :: q :: rest =>
      match lines_with colour img1 img2 rest with
      | Got l => Got (match colour with Some c => (line_ends img1 img2 p q, c) :: l | None => l end)
      | Thrown => Thrown
      | Outside => Outside
      end
  end.
Definition draw_inliers := lines_with (Some (255, 0, 0)%Z).
Definition draw_inliers_coloured (color : Z) := lines_with (colour_of color).
