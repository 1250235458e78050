(** Model of the pixels counted in a rectangle and of the improvement of rectangles by the line segment detector.

    Source: aslam_cv_detector/src/lsd/lsd-opencv.cc ("lsd") 85-89, 135-139, 980-1206.

    Real numbers instead of doubles, unbounded integers instead of ints. left_x, right_x and the steps are doubles that hold integers (the divisions are those of ints). *)
From Coq Require Import ZArith Reals List Bool.
Import ListNotations.
From Verif Require Import OrientModel LsdRegionModel.
Local Open Scope R_scope.

(** struct rect without x, y and theta, which rect_improve does not change. *)
Record box := Box { bx1 : R; by1 : R; bx2 : R; by2 : R; bw : R; bdx : R; bdy : R; bprec : R; bp : R }.

(** The corners, lsd 1088-1099. *)
Definition corners (r : box) : list pixel :=
  let half_width := bw r / 2 in
  let dyhw := bdy r * half_width in
  let dxhw := bdx r * half_width in
  [(trunc (bx1 r - dyhw), trunc (by1 r + dxhw)); (trunc (bx2 r - dyhw), trunc (by2 r + dxhw)); (trunc (bx2 r + dyhw), trunc (by2 r - dxhw)); (trunc (bx1 r + dyhw), trunc (by1 r - dxhw))].
(** AsmallerB_XoverY, lsd 135-139, and std::sort of the corners, lsd 1101. *)
Definition smaller (a b : pixel) : bool := if (fst a =? fst b)%Z then (snd a <? snd b)%Z else (fst a <? fst b)%Z.
Fixpoint insert (a : pixel) (l : list pixel) : list pixel := match l with [] => [a] | b :: l' => if smaller b a then b :: insert a l' else a :: l end.
Definition sort_corners (l : list pixel) : list pixel := fold_right insert [] l.
(** The first of the best elements and the list of the others: the searches of min_y, leftmost, rightmost and tailp among the elements not taken, lsd 1103-1163. *)
Fixpoint best_from (better : pixel -> pixel -> bool) (b : nat * pixel) (i : nat) (l : list pixel) : nat * pixel :=
  match l with [] => b | q :: l => best_from better (if better q (snd b) then (i, q) else b) (S i) l end.
Definition take (better : pixel -> pixel -> bool) (l : list pixel) : pixel * list pixel :=
  match l with
  | [] => ((0, 0)%Z, [])
  | q :: l' => let '(i, b) := best_from better (0%nat, q) 1 l' in (b, firstn i l ++ skipn (S i) l)
  end.
(** A step: the quotient of two ints unless the two compared are equal, lsd 1165-1173. *)
Definition step_of (num a b : Z) : Z := if (a =? b)%Z then 0%Z else Z.quot num (a - b).

(** The pixels visited in row y, lsd 1187-1190. *)
Definition row (w y left right : Z) : list pixel := map (fun x => (x, y)) (filter (fun x => (0 <=? x) && (x <? w))%Z (between left right)).
(** The loop over the rows, lsd 1182-1203: the pixels counted in total_pts. *)
Fixpoint scan (rows : nat) (w h y left_y right_y slstep srstep left right lstep rstep : Z) : list pixel :=
  match rows with
  | O => []
  | S rows =>
      if ((y <? 0) || (h <=? y))%Z then scan rows w h (y + 1) left_y right_y slstep srstep left right lstep rstep
      else
        let lstep' := if (left_y <=? y)%Z then slstep else lstep in
        let rstep' := if (right_y <=? y)%Z then srstep else rstep in
        row w y left right ++ scan rows w h (y + 1) left_y right_y slstep srstep (left + lstep') (right + rstep') lstep' rstep'
  end.
(** rect_nfa up to the counts, lsd 1085-1203. *)
Definition counted (w h : Z) (r : box) : list pixel :=
  let l := sort_corners (corners r) in
  let max_y := fold_left (fun m q => Z.max m (snd q)) l (snd (hd (0, 0)%Z l)) in
  let '(min_y, l) := take (fun q b => (snd q <? snd b)%Z) l in
  let '(leftmost, l) := take (fun q b => (fst q <? fst b)%Z) l in
  let '(rightmost, l) := take (fun q b => (fst b <? fst q)%Z) l in
  let '(tailp, _) := take (fun q b => (fst q <? fst b)%Z) l in
  let flstep := step_of (fst min_y - fst leftmost) (snd min_y) (snd leftmost) in
  let slstep := step_of (fst leftmost - fst tailp) (snd leftmost) (fst tailp) in
  let frstep := step_of (fst min_y - fst rightmost) (snd min_y) (snd rightmost) in
  let srstep := step_of (fst rightmost - fst tailp) (snd rightmost) (fst tailp) in
  scan (Z.to_nat (max_y - snd min_y + 1)) w h (snd min_y) (snd leftmost) (snd rightmost) slstep srstep (fst min_y) (fst min_y) flstep frstep.
(** total_pts and alg_pts. *)
Definition total_pts (w h : Z) (r : box) : nat := length (counted w h r).
Definition alg_pts (w h : Z) (ang : pixel -> option R) (theta : R) (r : box) : nat := length (filter (fun q => is_aligned theta (bprec r) (ang q)) (counted w h r)).

Section Improve.
(** rect_nfa. *)
Variable f : box -> R.
Definition enough_width (r : box) : bool := if Rle_dec (/ 2) (bw r - / 2) then true else false.
(** One of the five loops: five times, if the guard holds, change r and keep it if it is better, e.g. lsd 991-1003. *)
Fixpoint tries (n : nat) (guard : box -> bool) (change : box -> box) (r : box) (st : box * R) : box * R :=
  match n with
  | O => st
  | S n =>
      if guard r then
        let r := change r in
        let log_nfa_new := f r in
        tries n guard change r (if Rlt_dec (snd st) log_nfa_new then (r, log_nfa_new) else st)
      else tries n guard change r st
  end.
Definition phase (guard : box -> bool) (change : box -> box) (st : box * R) : box * R := tries 5 guard change (fst st) st.
Definition finer (r : box) : box := Box (bx1 r) (by1 r) (bx2 r) (by2 r) (bw r) (bdx r) (bdy r) (bp r / 2 * PI) (bp r / 2).
Definition narrower (r : box) : box := Box (bx1 r) (by1 r) (bx2 r) (by2 r) (bw r - / 2) (bdx r) (bdy r) (bprec r) (bp r).
(** With delta_2 = 1/4: lsd 1029-1034 and 1051-1056. *)
Definition one_side (r : box) : box := Box (bx1 r + - bdy r * / 4) (by1 r + bdx r * / 4) (bx2 r + - bdy r * / 4) (by2 r + bdx r * / 4) (bw r - / 2) (bdx r) (bdy r) (bprec r) (bp r).
Definition other_side (r : box) : box := Box (bx1 r - - bdy r * / 4) (by1 r - bdx r * / 4) (bx2 r - - bdy r * / 4) (by2 r - bdx r * / 4) (bw r - / 2) (bdx r) (bdy r) (bprec r) (bp r).
(** rect_improve, lsd 980-1083: the rectangle afterwards and the value. *)
Definition unless_good (log_eps : R) (next : box * R -> box * R) (st : box * R) : box * R := if Rlt_dec log_eps (snd st) then st else next st.
Definition rect_improve (log_eps : R) (r : box) : box * R :=
  unless_good log_eps (fun st =>
    unless_good log_eps (fun st =>
      unless_good log_eps (fun st =>
        unless_good log_eps (fun st =>
          unless_good log_eps (fun st => phase enough_width finer st)
          (phase enough_width other_side st))
        (phase enough_width one_side st))
      (phase enough_width narrower st))
    (phase (fun _ => true) finer st))
  (r, f r).
End Improve.
