(** Model of the initialization of the focal length from views of a planar target.

    Source: aslam_cv_calibration/src/focallength-initializers.cc ("foc") 112-201.

    Real numbers instead of doubles. cv::findHomography is an oracle: an observation is [Some H] with the homography found for it if all corners are observed, [None] otherwise. cv::Mat A(n, 2, CV_64F) does not initialize its elements: rows that are not written are taken from [garbage]. cv::solve with DECOMP_NORMAL | DECOMP_LU solves the normal equations; in exact arithmetic its elimination fails exactly if their determinant is 0, and it then stores 0. [None] among the intrinsics: infinite. *)
From Coq Require Import Reals List.
Import ListNotations.
Local Open Scope R_scope.

Definition hom : Type := nat -> nat -> R.
(** foc 153-158. *)
Definition centre (cu cv : R) (H : hom) : hom := fun i j =>
  match i with 0%nat => H 0%nat j - H 2%nat j * cu | 1%nat => H 1%nat j - H 2%nat j * cv | _ => H i j end.
(** n[.] of a vector, foc 160-177, and the vector times it, foc 179-182. *)
Definition scale_of (v : nat -> R) : R := 1 / sqrt (0 + v 0%nat * v 0%nat + v 1%nat * v 1%nat + v 2%nat * v 2%nat).
Definition normalized (v : nat -> R) : nat -> R := fun j => v j * scale_of v.
(** The two rows of A and b, foc 162-190: (A(r, 0), A(r, 1), b(r)). *)
Definition row_of (u v : nat -> R) : R * R * R := (u 0%nat * v 0%nat, u 1%nat * v 1%nat, - u 2%nat * v 2%nat).
Definition rows_of (cu cv : R) (H : hom) : list (R * R * R) :=
  let H := centre cu cv H in
  let t0 j := H j 0%nat in
  let t1 j := H j 1%nat in
  let h := normalized t0 in
  let v := normalized t1 in
  let d1 := normalized (fun j => (t0 j + t1 j) * / 2) in
  let d2 := normalized (fun j => (t0 j - t1 j) * / 2) in
  [row_of h v; row_of d1 d2].
(** The loop over the observations, foc 125-191. *)
Fixpoint rows (garbage : nat -> R * R * R) (cu cv : R) (obs_idx : nat) (observations : list (option hom)) : list (R * R * R) :=
  match observations with
  | [] => []
  | o :: rest =>
      match o with Some H => rows_of cu cv H | None => [garbage (obs_idx * 2)%nat; garbage (obs_idx * 2 + 1)%nat] end
      ++ rows garbage cu cv (S obs_idx) rest
  end.
(** cv::solve, foc 194. *)
Definition total (f : R * R * R -> R) (l : list (R * R * R)) : R := fold_right (fun r s => f r + s) 0 l.
Definition solve (l : list (R * R * R)) : R * R :=
  let saa := total (fun '(a, b, c) => a * a) l in
  let sab := total (fun '(a, b, c) => a * b) l in
  let sbb := total (fun '(a, b, c) => b * b) l in
  let sac := total (fun '(a, b, c) => a * c) l in
  let sbc := total (fun '(a, b, c) => b * c) l in
  let det := saa * sbb - sab * sab in
  if Req_EM_T det 0 then (0, 0) else ((sac * sbb - sbc * sab) / det, (saa * sbc - sab * sac) / det).
(** sqrt(fabs(1 / f)), foc 198-199. *)
Definition focal (f : R) : option R := if Req_EM_T f 0 then None else Some (sqrt (Rabs (1 / f))).
(** initFocalLengthAbsoluteConic, foc 112-201: fu, fv, cu, cv and the value returned, for an image of the given size. [None] is the CHECK for no observation. *)
Definition init_absolute_conic (garbage : nat -> R * R * R) (width height : R) (observations : list (option hom)) : option ((option R * option R * R * R) * bool) :=
  match observations with
  | [] => None
  | _ =>
      let cu := (width - 1) / 2 in
      let cv := (height - 1) / 2 in
      let '(f0, f1) := solve (rows garbage cu cv 0 observations) in
      Some ((focal f0, focal f1, cu, cv), true)
  end.
