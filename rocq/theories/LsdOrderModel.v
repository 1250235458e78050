(** Model of the gradient of the line segment detector and of the order of its seeds.

    Sources: aslam_cv_detector/src/lsd/lsd-opencv.cc ("lsd") 556-573, 581-589, 646-743.

    Real numbers instead of doubles and floats; cv::fastAtan2 is exact ([OrientModel.fast_atan2]). Blurring and scaling of the image (lsd 557-568) is not modelled: [data] is scaled_image_data. The array NOTDEF/angle is an option. Pointers into [list] are indices. The array [range_e], [range_s] are total functions; that only indices below n_bins are used is [lsx_bins]. *)
From Coq Require Import ZArith Reals List Bool.
Import ListNotations.
From Verif Require Import OrientModel.
Local Open Scope R_scope.

Definition upd {A} (f : nat -> A) (i : nat) (v : A) : nat -> A := fun j => if Nat.eqb j i then v else f j.
(** 0, ..., n - 1. *)
Definition upto (n : Z) : list Z := map Z.of_nat (seq 0 (Z.to_nat n)).

Section Gradient.
Variables (w h : Z) (data : Z -> R) (threshold : R).
(** gx and gy, lsd 675-678. *)
Definition gradient (addr : Z) : R * R :=
  let DA := data (addr + w + 1) - data addr in
  let BC := data (addr + 1) - data (addr + w) in
  (DA + BC, DA - BC).
(** norm, lsd 679. *)
Definition modgrad (addr : Z) : R := let '(gx, gy) := gradient addr in sqrt ((gx * gx + gy * gy) / 4).
(** angles_data at the pixel (x, y), lsd 661-663 and 683-691. *)
Definition angle (x y : Z) : option R :=
  if ((x =? w - 1) || (y =? h - 1))%Z then None
  else let addr := (x + y * w)%Z in
       if Rle_dec (modgrad addr) threshold then None
       else let '(gx, gy) := gradient addr in Some (fast_atan2 gx (- gy)).
(** The pixels of the loops of lsd 671-673 and 703-706. *)
Definition pixels : list (Z * Z) := flat_map (fun y => map (fun x => (x, y)) (upto (w - 1))) (upto (h - 1)).
Definition norm_at (p : Z * Z) : R := let '(x, y) := p in modgrad (x + y * w)%Z.
(** max_grad, lsd 670 and 690. *)
Definition max_grad : R :=
  fold_left (fun m p => if Rle_dec (norm_at p) threshold then m else if Rlt_dec m (norm_at p) then norm_at p else m) pixels (-1).
(** bin_coef and the bin of a pixel, lsd 701 and 709. *)
Definition bin_coef (n_bins : nat) : R := if Rlt_dec 0 max_grad then IZR (Z.of_nat n_bins - 1) / max_grad else 0.
Definition bin (n_bins : nat) (p : Z * Z) : Z := trunc (norm_at p * bin_coef n_bins).
End Gradient.

(** The vector [list] with its fields p and next, and range_s and range_e, lsd 697-700. *)
Record lists := Lists { count : nat; pts : nat -> Z * Z; next : nat -> option nat; range_s : nat -> option nat; range_e : nat -> option nat }.
Definition empty_lists : lists := Lists 0 (fun _ => (0, 0)%Z) (fun _ => None) (fun _ => None) (fun _ => None).
(** One round of the loop lsd 708-722. *)
Definition store (st : lists) (pb : (Z * Z) * nat) : lists :=
  let '(p, i) := pb in
  let c := count st in
  match range_e st i with
  | None => Lists (S c) (upd (pts st) c p) (upd (next st) c None) (upd (range_s st) i (Some c)) (upd (range_e st) i (Some c))
  | Some e => Lists (S c) (upd (pts st) c p) (upd (upd (next st) e (Some c)) c None) (range_s st) (upd (range_e st) i (Some c))
  end.
(** The highest bin that is not empty, or 0, lsd 727-728. *)
Fixpoint top (s : nat -> option nat) (idx : nat) : nat :=
  match idx with
  | O => O
  | S i => match s idx with Some _ => idx | None => top s i end
  end.
(** The loop lsd 733-741. *)
Fixpoint link (s e : nat -> option nat) (idx : nat) (nxt : nat -> option nat) (last : nat) : nat -> option nat :=
  match idx with
  | O => nxt
  | S i => match s i, e i with
           | Some a, Some b => link s e i (upd nxt last (Some a)) b
           | _, _ => link s e i nxt last
           end
  end.
Definition sorted_next (n_bins : nat) (st : lists) : nat -> option nat :=
  let idx := top (range_s st) (n_bins - 1) in
  match range_s st idx, range_e st idx with
  | Some _, Some last => link (range_s st) (range_e st) idx (next st) last
  | _, _ => next st
  end.
Definition start (n_bins : nat) (st : lists) : option nat := range_s st (top (range_s st) (n_bins - 1)).

Section Seeds.
Variables (w h : Z) (data : Z -> R) (threshold : R) (n_bins : nat).
Definition filled : lists := fold_left store (map (fun p => (p, Z.to_nat (bin w h data threshold n_bins p))) (pixels w h)) empty_lists.
(** The points tried as seeds by flsd, which goes through [list] by index, lsd 585-588. *)
Definition seeds : list (Z * Z) := map (pts filled) (seq 0 (Z.to_nat (w * h))).
End Seeds.

(** The points met when one follows the pointers, which flsd does not do. *)
Fixpoint walk (fuel : nat) (nxt : nat -> option nat) (cur : option nat) : list nat :=
  match fuel, cur with
  | S f, Some i => i :: walk f nxt (nxt i)
  | _, _ => []
  end.
