(** Model of the disparity measure of feature tracks.

    Source: aslam_cv_frames/include/aslam/frames/feature-track.h ("track").

    Coordinates are rationals; comparisons of doubles are exact, the final subtraction and squaring are taken
    without rounding. *)
From Coq Require Import ZArith QArith.
From stdpp Require Import list.
From Verif Require Import StlHelpersModel.
Local Open Scope Q_scope.

(** std::numeric_limits<double>::min() and max(). *)
Definition dbl_min : Q := 1 # Z.to_pos (2 ^ 1022).
Definition dbl_max : Q := inject_Z ((2 ^ 53 - 1) * 2 ^ 971).
(** std::min(a, b) and std::max(a, b). *)
Definition std_min (a b : Q) : Q := if Qlt_le_dec b a then b else a.
Definition std_max (a b : Q) : Q := if Qlt_le_dec a b then b else a.
Record box := Box { u_min : Q; u_max : Q; v_min : Q; v_max : Q }.
(** track 27-30. *)
Definition box0 : box := Box dbl_max dbl_min dbl_max dbl_min.
(** track 32-38. *)
Definition box_step (b : box) (k : Q * Q) : box :=
  Box (std_min (u_min b) k.1) (std_max (u_max b) k.1) (std_min (v_min b) k.2) (std_max (v_max b) k.2).
(** getDiagonalSqOfDisparityBoundingBox, track 26-42. *)
Definition diagonal_sq (ks : list (Q * Q)) : result Q :=
  let b := foldl box_step box0 ks in
  if Qlt_le_dec (u_max b) (u_min b) then Abort
  else if Qlt_le_dec (v_max b) (v_min b) then Abort
  else Ok ((u_min b - u_max b) * (u_min b - u_max b) + (v_min b - v_max b) * (v_min b - v_max b)).
