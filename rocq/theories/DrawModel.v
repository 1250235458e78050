(** Model of the drawing of keypoints and matches.

    Source: aslam_cv_visualization/src/basic-visualization.cc ("viz") 8-61; aslam_cv_matcher/include/aslam/matcher/match.h 14-33; the frame of DescTextModel.v.

    A picture is the grey image it shows and the marks drawn over it, in order; how OpenCV sets the pixels of a mark is not modelled. cv::Point(double, double) cuts off the fractions.
    cv::cvtColor throws for an empty image and for an image that does not have one channel. Coordinates and indices are int: conversion of
    a double outside of its range is [UB]. operator() of an Eigen block does not check its indices: it reads the matrix the block belongs to, outside of it is [UB]. *)
From Coq Require Import ZArith Reals List Bool.
From Verif Require Import OrientModel SerializationModel DescTextModel.
Import ListNotations.
Open Scope Z_scope.

Inductive colour := Yellow | Magenta | Cyan.          (* (0, 255, 255), (255, 0, 255), (255, 255, 0) in BGR *)
Inductive mark := Circle (centre : Z * Z) (radius : Z) (c : colour) | Line (from to : Z * Z) (c : colour).
Record grey := { g_rows : nat; g_cols : nat; g_channels : nat; g_pixels : nat -> nat -> Z }.
Record picture := { ground : grey; marks : list mark }.
Record vframe := { inner : dframe; raw_image : option grey }.

(** cv::cvtColor(frame.getRawImage(), *image, COLOR_GRAY2BGR), viz 15, 34. *)
Definition copy_raw (f : vframe) : outcome picture :=
  bind (channel (raw_image f)) (fun g =>
  if (g_rows g =? 0)%nat || (g_cols g =? 0)%nat || negb (g_channels g =? 1)%nat then Throw
  else Done {| ground := g; marks := [] |}).
(** cv::Point(x, y) of two doubles. *)
Definition point (kp : R * R) : outcome (Z * Z) :=
  let x := trunc (fst kp) in let y := trunc (snd kp) in
  if (- 2 ^ 31 <=? x) && (x <? 2 ^ 31) && (- 2 ^ 31 <=? y) && (y <? 2 ^ 31) then Done (x, y) else UB.
Definition draw (m : mark) (p : picture) : picture := {| ground := ground p; marks := marks p ++ [m] |}.

(** drawKeypoints, viz 8-26; [image] is the picture before the call. *)
Fixpoint draw_all (kps : list (R * R)) (p : picture) : outcome picture :=
  match kps with
  | [] => Done p
  | kp :: kps' => bind (point kp) (fun c => draw_all kps' (draw (Circle c 1 Yellow) p))
  end.
Definition draw_keypoints (f : vframe) (image : option picture) (t : Z) : outcome (option picture) :=
  bind (num_of_type (inner f) t) (fun n =>
  if n =? 0 then Done image
  else bind (copy_raw f) (fun p =>
       bind (keypoints_of_type (inner f) t) (fun kps =>
       bind (draw_all kps p) (fun q => Done (Some q))))).

(** A block of the measurements: the whole matrix, first column and number of columns. *)
Definition block_of_type (f : dframe) (t : Z) : outcome (list (R * R) * Z * Z) :=
  bind (start_and_size f t) (fun '(start, size) =>
  bind (channel (measurements f)) (fun kps =>
  if start + size <=? len kps then Done (kps, start, size) else Abort)).
(** keypoints(0, i), keypoints(1, i), without a check of the index. *)
Definition coeff (b : list (R * R) * Z * Z) (i : Z) : outcome (R * R) :=
  let '(kps, start, _) := b in
  if 0 <=? start + i then match nth_error kps (Z.to_nat (start + i)) with Some kp => Done kp | None => UB end else UB.
(** The loop of drawKeypointMatches, viz 45-60. *)
Fixpoint draw_matches (new old : list (R * R) * Z * Z) (ms : list (Z * Z)) (p : picture) : outcome picture :=
  match ms with
  | [] => Done p
  | (i, j) :: ms' =>
      if negb (i <? snd new) then Abort
      else if negb (j <? snd old) then Abort
      else bind (coeff new i) (fun kp => bind (point kp) (fun a =>
           bind (coeff old j) (fun kq => bind (point kq) (fun b =>
           draw_matches new old ms' (draw (Line b a Magenta) (draw (Circle a 4 Cyan) p))))))
  end.
(** drawKeypointMatches, viz 28-61. *)
Definition draw_keypoint_matches (f_new f_old : vframe) (ms : list (Z * Z)) (t : Z) : outcome picture :=
  bind (copy_raw f_new) (fun p =>
  bind (block_of_type (inner f_old) t) (fun old =>
  bind (block_of_type (inner f_new) t) (fun new => draw_matches new old ms p))).
