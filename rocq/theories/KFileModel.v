(** Model of the files of keypoints that save_keypoints writes.

    Source: aslam_cv_detector/src/kaze/utils.cpp ("ku"), 101-159.

    A file is a list of characters. The numbers of keypoints and descriptors are rational numbers, as all finite floats are; that a coordinate or a descriptor is infinite or not a number is not
    modelled. The two roundings in the square of the radius (float) and in its inverse (double) are functions of [arithmetic]. ostream::operator<< of a floating point number is printf's "%g"
    with precision 6, which rounds the exact value to six significant digits (nearest, ties to even). The disk has [room] for some characters; what does not fit is not written. *)
From Coq Require Import ZArith QArith List Bool Ascii.
Import ListNotations.
Local Open Scope Z_scope.

(** ** Numbers as text *)
Definition digit (d : Z) : ascii := ascii_of_N (Z.to_N (48 + d)).
Definition zero : ascii := "0". Definition point : ascii := ".". Definition minus : ascii := "-". Definition plus : ascii := "+". Definition space : ascii := " ".
Definition newline : ascii := ascii_of_nat 10.
(** The digits of a number that is not negative. *)
Fixpoint digits_loop (fuel : nat) (n : Z) (acc : list Z) : list Z :=
  match fuel with O => acc | S fuel => if n <? 10 then n :: acc else digits_loop fuel (n / 10) (n mod 10 :: acc) end.
Definition digits (n : Z) : list Z := digits_loop (S (Z.to_nat (Z.log2 n))) n [].
(** operator<< of an int; rows and columns are not negative. *)
Definition print_int (n : Z) : list ascii := map digit (digits n).

(** The decimal exponent: 10^e <= n/d < 10^(e+1), for positive n and d. *)
Definition exponent (n d : Z) : Z := if d <=? n then Z.of_nat (length (digits (n / d))) - 1 else - Z.of_nat (length (digits ((d - 1) / n))).
(** The integer next to n/d. *)
Definition round_div (n d : Z) : Z :=
  let q := n / d in let r := n mod d in
  if 2 * r <? d then q else if d <? 2 * r then q + 1 else if Z.even q then q else q + 1.
(** The six significant digits [m] and the exponent [e]: the value is m * 10^(e-5). *)
Definition significant (n d : Z) : Z * Z :=
  let e := exponent n d in
  let m := if e <=? 5 then round_div (n * 10 ^ (5 - e)) d else round_div n (d * 10 ^ (e - 5)) in
  if m =? 10 ^ 6 then (10 ^ 5, e + 1) else (m, e).
(** "%g" has no zeros at the end of the fraction, and no point without a fraction. *)
Fixpoint strip (l : list Z) : list Z := match l with [] => [] | d :: l => match strip l with [] => if d =? 0 then [] else [d] | l' => d :: l' end end.
Definition fraction (l : list Z) : list ascii := match strip l with [] => [] | l' => point :: map digit l' end.
Definition print_positive (n d : Z) : list ascii :=
  let '(m, e) := significant n d in
  let ds := digits m in
  if (e <? -4) || (6 <=? e) then
    map digit (firstn 1 ds) ++ fraction (skipn 1 ds) ++ ["e"%char; if e <? 0 then minus else plus] ++ (if Z.abs e <? 10 then [zero] else []) ++ print_int (Z.abs e)
  else if e <? 0 then [zero] ++ fraction (repeat 0 (Z.to_nat (- e - 1)) ++ ds)
  else map digit (firstn (Z.to_nat (e + 1)) ds) ++ fraction (skipn (Z.to_nat (e + 1)) ds).
Definition print (q : Q) : list ascii :=
  match Qnum q with
  | 0 => [zero]
  | Zpos n => print_positive (Zpos n) (Zpos (Qden q))
  | Zneg n => minus :: print_positive (Zpos n) (Zpos (Qden q))
  end.
Definition infinity : list ascii := ["i"; "n"; "f"]%char.

(** ** The file *)
Record keypoint := Keypoint { x : Q; y : Q; diameter : Q }.
(** [square] is the float (size / 2.0)^2, [inverse] the double 1.0 / sc of a float that is not zero. *)
Record arithmetic := Arithmetic { square : Q -> Q; inverse : Q -> Q }.
(** 1/r^2: sc is not negative, so that the quotient by zero is inf. *)
Definition print_scale (a : arithmetic) (k : keypoint) : list ascii :=
  let sc := square a (diameter k) in if Qeq_bool sc 0 then infinity else print (inverse a sc).
(** One pass of the loop, ku 134-151. *)
Definition line (a : arithmetic) (k : keypoint) (row : list Q) : list ascii :=
  print (x k) ++ [space] ++ print (y k) ++ [space] ++ print_scale a k ++ [space] ++ print 0 ++ [space] ++ print_scale a k ++ concat (map (fun v => space :: print v) row) ++ [newline].
(** The loop over the rows of the descriptors; kpts[i] of a keypoint that does not exist is undefined behaviour: [None]. *)
Fixpoint lines (a : arithmetic) (kpts : list keypoint) (desc : list (list Q)) : option (list ascii) :=
  match desc, kpts with
  | [], _ => Some []
  | _ :: _, [] => None
  | row :: desc, k :: kpts => option_map (app (line a k row)) (lines a kpts desc)
  end.
(** The whole file: length and count, ku 120-123, then the lines. [cols] is the number of columns of the matrix, also if it has no rows. *)
Definition contents (a : arithmetic) (kpts : list keypoint) (cols : Z) (desc : list (list Q)) : option (list ascii) :=
  option_map (fun l => print_int cols ++ [newline] ++ print_int (Z.of_nat (length desc)) ++ [newline] ++ l) (lines a kpts desc).
(** save_keypoints: [opens] tells whether the file can be opened for writing; the file that was there is lost then. The result and the file afterwards; errors of the stream are not looked at. *)
Definition save_keypoints (a : arithmetic) (opens : bool) (room : nat) (old : option (list ascii)) (kpts : list keypoint) (cols : Z) (desc : list (list Q)) : option (Z * option (list ascii)) :=
  if opens then option_map (fun t => (1, Some (firstn room t))) (contents a kpts cols desc) else Some (-1, old).
