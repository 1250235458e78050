(** Model of drawing and comparing line segments.

    Source: aslam_cv_detector/src/lsd/lsd-opencv.cc ("lo").

    Simplifications: the pixels that cv::line sets for a segment in an image of a given size are an oracle [line]; a colour image is a
    function from the index of a pixel (row by row) to its three values; cv::cvtColor is an oracle [to_gray]. A container of segments is a
    matrix of segments, a std::vector being a matrix with one row. [Thrown] is a failed CV_Assert. *)
From Coq Require Import ZArith NArith List Bool Arith.
Import ListNotations.

Inductive outcome (A : Type) := Ok (a : A) | Thrown.
Arguments Ok {A}. Arguments Thrown {A}.

(** cv::Vec4i. *)
Definition segment : Type := (Z * Z * Z * Z)%type.
(** cv::Size. *)
Record size := { width : nat; height : nat }.
Definition area (s : size) : nat := width s * height s.
Definition size_eqb (a b : size) : bool := Nat.eqb (width a) (width b) && Nat.eqb (height a) (height b).
(** A matrix of segments; the elements row by row. *)
Record container := { crows : nat; ccols : nat; elems : list segment }.
(** The container of a std::vector<Vec4i>, and the matrix with one column that detect writes into a cv::Mat. *)
Definition of_vector (l : list segment) : container := {| crows := 1; ccols := length l; elems := l |}.
Definition of_column (l : list segment) : container := {| crows := length l; ccols := 1; elems := l |}.
(** The segments of the loops "for i < size().width" over at<Vec4i>(i), lo 1291, lo 1316 and lo 1322. *)
Definition visited (c : container) : list segment := firstn (ccols c) (elems c).

(** The canvas I1 or I2, lo 1307-1327: whether the pixel is 255. *)
Definition canvas (line : size -> segment -> nat -> bool) (sz : size) (c : container) (px : nat) : bool := existsb (fun s => line sz s px) (visited c).

(** The argument _image: missing (noArray), or an image with its size, number of channels, continuity and values. *)
Record image := { isize : size; channels : nat; continuous : bool; values : nat -> Z * Z * Z }.

(** The index of the first byte of pixel i, lo 1346: an unsigned int. Below, images have less than 2^32 / 3 pixels, so that it does not wrap. *)
Definition base_idx (i : N) : N := ((i * 3) mod 2 ^ 32)%N.
(** The values of a pixel after its iteration, lo 1342-1353. *)
Definition colour (old : Z * Z * Z) (i1 i2 : bool) : Z * Z * Z := if i1 || i2 then ((if i1 then 255 else 0), 0, (if i2 then 255 else 0))%Z else old.

(** compareSegments, lo 1301-1357: the number, and the image with the segments. *)
Definition compare_segments (line : size -> segment -> nat -> bool) (sz0 : size) (l1 l2 : container) (img : option image) : outcome (nat * option image) :=
  let sz := match img with Some m => if size_eqb (isize m) sz0 then sz0 else isize m | None => sz0 end in
  if Nat.eqb (area sz) 0 then Thrown
  else
    let i1 := canvas line sz l1 in
    let i2 := canvas line sz l2 in
    let n := length (filter (fun px => xorb (i1 px) (i2 px)) (seq 0 (area sz))) in
    match img with
    | None => Ok (n, None)
    | Some m =>
        if negb (Nat.eqb (channels m) 3) then Thrown
        else if negb (continuous m) then Thrown
        else Ok (n, Some {| isize := isize m; channels := 3; continuous := true; values := fun px => if Nat.ltb px (area sz) then colour (values m px) (i1 px) (i2 px) else values m px |})
    end.
(** showSegments, lo 1366-1374: the number; the image is shown in a window. Mat_<uchar> has one channel. *)
Definition show_segments (line : size -> segment -> nat -> bool) (sz : size) (l1 l2 : list segment) (img : option image) : outcome nat :=
  let m := match img with None => {| isize := sz; channels := 1; continuous := true; values := fun _ => (0, 0, 0)%Z |} | Some m => {| isize := isize m; channels := channels m; continuous := true; values := values m |} end in
  match compare_segments line sz (of_vector l1) (of_vector l2) (Some m) with Ok (n, _) => Ok n | Thrown => Thrown end.

(** drawSegments, lo 1265-1298. A grey image has its value in the first component. *)
Definition draw_segments (line : size -> segment -> nat -> bool) (to_gray : Z * Z * Z -> Z) (m : image) (l : container) : outcome image :=
  if Nat.eqb (area (isize m)) 0 || negb (Nat.eqb (channels m) 1 || Nat.eqb (channels m) 3) then Thrown
  else
    let gray := fun px => if Nat.eqb (channels m) 1 then fst (fst (values m px)) else to_gray (values m px) in
    let merged := fun px => (gray px, gray px, gray px) in
    Ok {| isize := isize m; channels := 3; continuous := true;
          values := fold_left (fun v s => fun px => if line (isize m) s px then (0, 0, 255)%Z else v px) (visited l) merged |}.
