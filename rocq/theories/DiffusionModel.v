(** Model of the explicit step of nonlinear diffusion and of the conductivities.

    Source: aslam_cv_detector/src/kaze/nldiffusion_functions.cpp ("nf") 58-120, 257-361.

    Images are functions from row and column to real numbers (float in the code, without rounding). Loops are folds over the values of
    their variable; the rows of the first loop are processed by OpenMP threads in any order ([order]); they write different pixels of Lstep and only read the rest.
    [None]: accesses outside of the image. *)
From Coq Require Import Reals List Bool Arith.
Import ListNotations.
Local Open Scope R_scope.

Definition image := nat -> nat -> R.
(** Assignment to a pixel. *)
Definition put (s : image) (y x : nat) (v : R) : image := fun j i => if ((j =? y) && (i =? x))%nat%bool then v else s j i.
(** for (k = a; k < b; k++). *)
Definition for_range {A} (a b : nat) (f : nat -> A -> A) (s : A) : A := fold_left (fun s k => f k s) (seq a (b - a)) s.

Section Step.
Variables (rows cols : nat) (Ld c : image) (stepsize : R).
(** One row of the interior, nf 266-283. *)
Definition interior_row (y : nat) (s : image) : image :=
  for_range 1 (cols - 1) (fun x s =>
    let xpos := (c y x + c y (x + 1)%nat) * (Ld y (x + 1)%nat - Ld y x) in
    let xneg := (c y (x - 1)%nat + c y x) * (Ld y x - Ld y (x - 1)%nat) in
    let ypos := (c y x + c (y + 1)%nat x) * (Ld (y + 1)%nat x - Ld y x) in
    let yneg := (c (y - 1)%nat x + c y x) * (Ld y x - Ld (y - 1)%nat x) in
    put s y x (/ 2 * stepsize * (xpos - xneg + ypos - yneg))) s.
Definition interior (order : list nat) (s : image) : image := fold_left (fun s y => interior_row y s) order s.
(** The first row (y = 0, p = 1), nf 285-306, and the last row (y = rows - 1, p = rows - 2), nf 308-329: the same statements. *)
Definition border_row (y p : nat) (s : image) : image :=
  let s := for_range 1 (cols - 1) (fun x s =>
    let xpos := (c y x + c y (x + 1)%nat) * (Ld y (x + 1)%nat - Ld y x) in
    let xneg := (c y (x - 1)%nat + c y x) * (Ld y x - Ld y (x - 1)%nat) in
    let ypos := (c y x + c p x) * (Ld p x - Ld y x) in
    put s y x (/ 2 * stepsize * (xpos - xneg + ypos))) s in
  let xpos := (c y 0%nat + c y 1%nat) * (Ld y 1%nat - Ld y 0%nat) in
  let ypos := (c y 0%nat + c p 0%nat) * (Ld p 0%nat - Ld y 0%nat) in
  let s := put s y 0 (/ 2 * stepsize * (xpos + ypos)) in
  let x := (cols - 1)%nat in
  let xneg := (c y (x - 1)%nat + c y x) * (Ld y x - Ld y (x - 1)%nat) in
  let ypos := (c y x + c p x) * (Ld p x - Ld y x) in
  put s y x (/ 2 * stepsize * (- xneg + ypos)).
(** First and last columns, nf 331-351. *)
Definition border_columns (s : image) : image :=
  for_range 1 (rows - 1) (fun i s =>
    let xpos := (c i 0%nat + c i 1%nat) * (Ld i 1%nat - Ld i 0%nat) in
    let ypos := (c i 0%nat + c (i + 1)%nat 0%nat) * (Ld (i + 1)%nat 0%nat - Ld i 0%nat) in
    let yneg := (c (i - 1)%nat 0%nat + c i 0%nat) * (Ld i 0%nat - Ld (i - 1)%nat 0%nat) in
    let s := put s i 0 (/ 2 * stepsize * (xpos + ypos - yneg)) in
    let x := (cols - 1)%nat in
    let xneg := (c i (cols - 2)%nat + c i x) * (Ld i x - Ld i (cols - 2)%nat) in
    let ypos := (c i x + c (i + 1)%nat x) * (Ld (i + 1)%nat x - Ld i x) in
    let yneg := (c (i - 1)%nat x + c i x) * (Ld i x - Ld (i - 1)%nat x) in
    put s i x (/ 2 * stepsize * (- xneg + ypos - yneg))) s.
(** nld_step_scalar, nf 257-361: the new Ld. *)
Definition nld_step (order : list nat) : option image :=
  if ((rows <? 2) || (cols <? 2))%nat%bool then None
  else
    let s := interior order (fun _ _ => 0) in
    let s := border_row 0 1 s in
    let s := border_row (rows - 1) (rows - 2) s in
    let s := border_columns s in
    Some (fun y x => Ld y x + s y x).
End Step.

(** ** Conductivities of a pixel with derivatives [lx], [ly] and contrast [k] *)
(** pm_g1, nf 58-71. *)
Definition pm_g1 (k lx ly : R) : R := exp (- (1 / (k * k)) * (lx * lx + ly * ly)).
(** pm_g2, nf 74-85. *)
Definition pm_g2 (k lx ly : R) : R := 1 / (1 + 1 / (k * k) * (lx * lx + ly * ly)).
(** weickert_diffusivity, nf 88-104. In floating point the quotient by zero is minus infinity, whose exponential is 0. *)
Definition weickert (k lx ly : R) : R :=
  let dL := 1 / (k * k) * (lx * lx + ly * ly) in
  if Req_EM_T dL 0 then 1 - 0 else 1 - exp (- (3315 / 1000) / (dL * dL * dL * dL)).
(** charbonnier_diffusivity, nf 107-120. *)
Definition charbonnier (k lx ly : R) : R := 1 / sqrt (1 + 1 / (k * k) * (lx * lx + ly * ly)).
