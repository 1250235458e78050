(** Model of the generator of printed calibration targets.

    Source: aslam_cv_calibration/python/create-target-pdf.py ("pdf").

    A page is the list of its filled black rectangles, with coordinates in cm and y upwards; the axes, arrows and captions are left out. Floats are real numbers, integers are unbounded. [None] is a run that
    ends without a file: sys.exit, or the exception for the code of a tag that does not exist (pdf 38-41: the message is printed and the variable is unbound afterwards). *)
From Coq Require Import Reals NArith List Bool Arith String.
From Verif Require Import TargetPdfTags.
Import ListNotations.
Local Open Scope R_scope.

(** path.rect(x, y, width, height). *)
Record rect := Rect { left : R; bottom : R; width : R; height : R }.

(** AprilTagCodes, pdf 20-33: the codes of a family and the square root of its number of bits. *)
Definition family (name : string) : option (list N * nat) :=
  if String.eqb name "t16h5" then Some (t16h5, 4%nat) else if String.eqb name "t25h7" then Some (t25h7, 5%nat)
  else if String.eqb name "t25h9" then Some (t25h9, 5%nat) else if String.eqb name "t36h11" then Some (t36h11, 6%nat) else None.

(** The matrix of a code, pdf 59-64: an entry is one if the bit is not set. *)
Definition matrix : Type := nat -> nat -> bool.
Definition code_matrix (n : nat) (code : N) : matrix := fun i j => negb (N.testbit code (N.of_nat (n * i + j))).
(** numpy.rot90, counterclockwise, [k] times; pdf 67. *)
Definition rot90 (n : nat) (m : matrix) : matrix := fun i j => m j (n - 1 - i)%nat.
Definition rotate (n k : nat) (m : matrix) : matrix := Nat.iter k (rot90 n) m.

Section Tag.
Variables (n border : nat) (size spacing : R).
(** bitSquareSize, pdf 44-45. *)
Definition bit_size : R := size / (INR n + INR border * 2).
(** pdf 52-57. *)
Definition border_rects (x y : R) : list rect :=
  let b := INR border * bit_size in
  [Rect x y size b; Rect x (y + size - b) size b; Rect (x + size - b) y b size; Rect x y b size].
(** pdf 70-73. *)
Definition bit_rect (x y : R) (i j : nat) : rect := Rect (x + (INR j + INR border) * bit_size) (y + ((INR border - 1) + INR n - INR i) * bit_size) bit_size bit_size.
Definition bit_rects (x y : R) (m : matrix) : list rect :=
  map (fun p => bit_rect x y (fst p) (snd p)) (filter (fun p => m (fst p) (snd p)) (list_prod (seq 0 n) (seq 0 n))).
(** pdf 76-87. *)
Definition corner_rects (x y : R) : list rect :=
  let s := spacing * size in
  map (fun p => Rect (fst p) (snd p) s s) [(x - s, y - s); (x + size, y - s); (x + size, y + size); (x - s, y + size)].
(** generateAprilTag, pdf 36-87, with symmCorners. *)
Definition april_tag (rotation : nat) (x y : R) (code : N) : list rect :=
  border_rects x y ++ bit_rects x y (rotate n rotation (code_matrix n code)) ++ corner_rects x y.
End Tag.

(** The loop of generateAprilBoard, pdf 104-109, over the remaining positions (column, row). *)
Fixpoint draw_tags (codes : list N) (n n_cols : nat) (size spacing : R) (ps : list (nat * nat)) : option (list rect) :=
  match ps with
  | [] => Some []
  | (x, y) :: ps =>
      match nth_error codes (n_cols * y + x), draw_tags codes n n_cols size spacing ps with
      | Some code, Some l => Some (april_tag n 2 size spacing 2 (INR x * (1 + spacing) * size) (INR y * (1 + spacing) * size) code ++ l)
      | _, _ => None
      end
  end.
(** The positions in the order of the two loops. *)
Definition positions (n_cols n_rows : nat) : list (nat * nat) := flat_map (fun y => map (fun x => (x, y)) (seq 0 n_cols)) (seq 0 n_rows).
(** generateAprilBoard, pdf 90-129. *)
Definition april_board (n_cols n_rows : nat) (tag_size spacing : R) (name : string) : option (list rect) :=
  if Rlt_dec spacing 0 then None else if Rlt_dec 1 spacing then None
  else match family name with Some (codes, n) => draw_tags codes n n_cols (tag_size * 100) spacing (positions n_cols n_rows) | None => None end.

(** generateCheckerboard, pdf 132-151. *)
Definition checkerboard (n_cols n_rows : nat) (size_cols size_rows : R) : list rect :=
  map (fun p => Rect (INR (fst p) * (size_cols * 100)) (INR (snd p) * (size_rows * 100)) (size_cols * 100) (size_rows * 100))
    (filter (fun p => negb ((fst p + snd p + 1) mod 2 =? 0)%nat) (list_prod (seq 0 (n_cols + 1)) (seq 0 (n_rows + 1)))).

(** The default arguments, pdf 163-175. *)
Definition default_board : option (list rect) := april_board 6 7 (2 / 100) (25 / 100) "t36h11".
