(** Model of the helper functions of KAZE: scaling of images, matches and inliers, side by side images, homographies.

    Source: aslam_cv_detector/src/kaze/utils.cpp ("ku").

    Simplifications: floats are real numbers; [Nan] is the outcome of a division by zero that reaches a result, [OutOfBounds]
    an access outside of a vector or an image. Drawing of lines is not modelled, only the composition of the two images. *)
From Coq Require Import Reals ZArith List Bool Arith.
Import ListNotations.
Local Open Scope R_scope.

Inductive outcome (A : Type) := Fine (a : A) | Nan | OutOfBounds.
Arguments Fine {A}. Arguments Nan {A}. Arguments OutOfBounds {A}.

(** compute_min_32F, ku 33-46: the pixels in the order of the loops. *)
Definition compute_min (src : list R) : R := fold_left (fun aux v => if Rlt_dec v aux then v else aux) src 1000.
(** compute_max_32F, ku 49-62. *)
Definition compute_max (src : list R) : R := fold_left (fun aux v => if Rlt_dec aux v then v else aux) src 0.
(** convert_scale, ku 65-72, and copy_and_convert_scale, ku 75-83. The quotient by 0 is NaN for the pixels that are 0, and
    if the greatest value is 0 there are such pixels; an image without pixels stays empty. *)
Definition convert_scale (src : list R) : outcome (list R) :=
  let min_val := compute_min src in
  let shifted := map (fun v => v - min_val) src in
  let max_val := compute_max shifted in
  match src with
  | [] => Fine []
  | _ => if Req_EM_T max_val 0 then Nan else Fine (map (fun v => v / max_val) shifted)
  end.

Definition point : Type := R * R.
(** cv::DMatch. *)
Record dmatch := { queryIdx : nat; trainIdx : nat; dist : R }.
(** matches2points_nndr, ku 162-177: the points are appended. *)
Fixpoint matches2points_nndr (train query : list point) (matches : list (list dmatch)) (pmatches : list point) (nndr : R) : outcome (list point) :=
  match matches with
  | [] => Fine pmatches
  | (m1 :: m2 :: _) :: rest =>
      if Rlt_dec (dist m1) (nndr * dist m2) then
        match nth_error train (queryIdx m1), nth_error query (trainIdx m1) with
        | Some p, Some q => matches2points_nndr train query rest (pmatches ++ [p; q]) nndr
        | _, _ => OutOfBounds
        end
      else matches2points_nndr train query rest pmatches nndr
  | _ :: _ => OutOfBounds
  end.

(** The nine entries of a matrix, by rows. *)
Record homography := { h11 : R; h12 : R; h13 : R; h21 : R; h22 : R; h23 : R; h31 : R; h32 : R; h33 : R }.
(** The test of one pair, ku 231-242. For s = 0 the distance is infinite or NaN, and the comparison is false. *)
Definition pair_ok (H : homography) (min_error : R) (p q : point) : bool :=
  let '(x1, y1) := p in let '(x2, y2) := q in
  let s := h31 H * x1 + h32 H * y1 + h33 H in
  if Req_EM_T s 0 then false
  else
    let x2m := (h11 H * x1 + h12 H * y1 + h13 H) / s in
    let y2m := (h21 H * x1 + h22 H * y1 + h23 H) / s in
    if Rle_dec (sqrt ((x2m - x2) ^ 2 + (y2m - y2) ^ 2)) min_error then true else false.
(** compute_inliers_homography, ku 207-246: the old inliers are dropped; the matches are alternately points of both images. *)
Fixpoint inliers_of (H : homography) (min_error : R) (matches : list point) : outcome (list point) :=
  match matches with
  | [] => Fine []
  | [_] => OutOfBounds
  | p :: q :: rest =>
      match inliers_of H min_error rest with
      | Fine l => Fine (if pair_ok H min_error p q then p :: q :: l else l)
      | Nan => Nan
      | OutOfBounds => OutOfBounds
      end
  end.
Definition compute_inliers_homography (matches inliers : list point) (H : homography) (min_error : R) : outcome (list point) := inliers_of H min_error matches.

(** An image of colour pixels. *)
Record picture := { rows : nat; cols : nat; at_ : nat -> nat -> Z }.
(** The pixel that draw_inliers writes at (i, j) of img_com, ku 268-283 and ku 312-327: *)
Definition composed (img1 img2 : picture) (i j : nat) : outcome Z :=
  if Nat.ltb j (cols img1) then
    if Nat.ltb i (rows img1) then Fine (at_ img1 i j) else OutOfBounds
  else
    let c := (j - cols img1)%nat in     (* img_aux has the size of img1, but img2 is read *)
    if Nat.ltb i (rows img2) && Nat.ltb c (cols img2) then Fine (at_ img2 i c) else OutOfBounds.
(** All pixels of img_com. *)
Definition compose (img1 img2 : picture) (com_rows com_cols : nat) : outcome (list (list Z)) :=
  fold_right (fun i acc =>
    match fold_right (fun j row => match composed img1 img2 i j, row with Fine v, Fine r => Fine (v :: r) | _, _ => OutOfBounds end) (Fine []) (seq 0 com_cols), acc with
    | Fine row, Fine l => Fine (row :: l)
    | _, _ => OutOfBounds
    end) (Fine []) (seq 0 com_rows).

(** The three numbers that sscanf reads from a line; what it does not read keeps the value 0 of the declaration, ku 345-347. *)
Definition scan (line : list R) : R * R * R := match line with a :: b :: c :: _ => (a, b, c) | [a; b] => (a, b, 0) | [a] => (a, 0, 0) | [] => (0, 0, 0) end.
(** read_homography, ku 343-387, for a file that exists; the lines hold numbers separated by blanks and are short. At the end of
    the file getline makes the buffer empty. *)
Definition read_homography (lines : list (list R)) : outcome homography :=
  let '(a, b, c) := scan (nth 0 lines []) in
  let '(d, e, f) := scan (nth 1 lines []) in
  let '(g, h, i) := scan (nth 2 lines []) in
  if Req_EM_T i 0 then Nan
  else Fine {| h11 := a / i; h12 := b / i; h13 := c / i; h21 := d / i; h22 := e / i; h23 := f / i; h31 := g / i; h32 := h / i; h33 := i / i |}.
