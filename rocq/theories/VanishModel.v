(** Model of the first estimate of the focal length from vanishing points.

    Sources: aslam_cv_calibration/src/focallength-initializers.cc ("fi"), aslam_cv_calibration/include/aslam/calibration/
    target-observation.h ("to"), aslam_cv_common/include/aslam/common/stl-helpers.h ("sh"); the circles are those of CircleModel.

    Simplifications: doubles are real numbers; a guess that is NaN is [None], and a list of guesses with a NaN among them
    has no median: std::nth_element then compares with an operator< that is no strict weak order, and what is returned (a
    number or NaN) is not specified. Null pointers (targets, observations) are not modelled. *)
From Coq Require Import Reals ZArith List.
From Verif Require Import CircleModel.
Import ListNotations.
Local Open Scope R_scope.

(** TargetObservation, to 20-130: the image size, the grid of the target, the observed corner ids and the corners. *)
Record view := { width : Z; height : Z; rows : nat; cols : nat; ids : list nat; corners : list point }.

(** allCornersObservered, to 58-65; the size of a target is rows * cols. *)
Definition complete (v : view) : bool := Nat.eqb (rows v * cols v) (length (ids v)).

(** getObservedCornerById, to 80-90: the first column with the id. *)
Fixpoint corner_by_id (i : nat) (l : list nat) (c : list point) : option point :=
  match l, c with
  | k :: l', p :: c' => if Nat.eqb i k then Some p else corner_by_id i l' c'
  | _, _ => None
  end.

(** The corners of a row, fi 57-67. *)
Definition row_points (v : view) (r : nat) : list point :=
  flat_map (fun c => match corner_by_id (r * cols v + c) (ids v) (corners v) with Some p => [p] | None => [] end) (seq 0 (cols v)).

(** One pair of rows, fi 75-90. A circle with a division by zero has a NaN or infinite centre and a NaN or infinite radius.
    Neither comparison of intersectCircles holds then (d, r1 + r2 and |r1 - r2| are NaN or infinite), a and h are NaN,
    "h < 1e-10" is false, and two NaN points are appended: the guess is NaN. *)
Definition guess (c1 c2 : option fit_result) : list (option R) :=
  match c1, c2 with
  | Some a, Some b =>
      match intersect_circles (center_x a) (center_y a) (radius a) (center_x b) (center_y b) (radius b) [] with
      | Some p :: Some q :: _ => [Some (hypot (fst p - fst q) (snd p - snd q) / PI)]
      | _ :: _ :: _ => [None]
      | _ => []
      end
  | _, _ => [None]
  end.

(** The guesses of one view: all pairs j < k of rows, fi 70-92. *)
Definition view_guesses (v : view) : list (option R) :=
  flat_map (fun j => flat_map (fun k => guess (fit_circle (row_points v j)) (fit_circle (row_points v k)))
                              (seq (S j) (rows v - S j))) (seq 0 (rows v)).

(** The guesses of all complete views, fi 40-93. *)
Definition guesses (vs : list view) : list (option R) := flat_map (fun v => if complete v then view_guesses v else []) vs.

(** Sorting; std::nth_element at n puts the element there that sorting would. *)
Fixpoint insert (x : R) (l : list R) : list R :=
  match l with [] => [x] | y :: l' => if Rle_dec x y then x :: l else y :: insert x l' end.
Definition sort (l : list R) : list R := fold_right insert [] l.

(** median, sh 30-48. *)
Definition median (l : list R) : R :=
  let n := length l in
  let high := nth (n / 2) (sort l) 0 in
  if Nat.odd n then high else (high + nth (n / 2 - 1) (sort l) 0) / 2.

(** All guesses are numbers. *)
Fixpoint numbers (l : list (option R)) : option (list R) :=
  match l with
  | [] => Some []
  | Some x :: l' => match numbers l' with Some r => Some (x :: r) | None => None end
  | None :: _ => None
  end.

Inductive outcome :=
  | Abort                        (** a CHECK fails *)
  | NoEstimate                   (** false is returned, the intrinsics are unchanged *)
  | Garbage                      (** true is returned; the focal lengths come from NaN guesses *)
  | Estimate (fu fv cu cv : R).  (** true is returned with these intrinsics *)

(** initFocalLengthVanishingPoints, fi 28-108. *)
Definition init_vanishing (vs : list view) : outcome :=
  match vs with
  | [] => Abort
  | v0 :: _ =>
      let cu := (IZR (width v0) - 1) / 2 in
      let cv := (IZR (height v0) - 1) / 2 in
      match guesses vs with
      | [] => NoEstimate
      | gs => match numbers gs with
              | Some l => Estimate (median l) (median l) cu cv
              | None => Garbage
              end
      end
  end.
