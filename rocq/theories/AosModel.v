(** Model of the implicit step of nonlinear diffusion (additive operator splitting).

    Source: aslam_cv_detector/src/kaze/KAZE.cpp ("kz") 83-95, 2143-2291.

    A matrix has its numbers of rows and columns and its elements (real numbers; float in the code, without rounding). The loops over the columns of a matrix treat the columns one by one;
    [pivot], [forward] and [backward] are the values that the loops over the rows assign to one of them. Accesses outside of a matrix are undefined; OpenCV throws when matrices of different sizes are added.
    The two sections for rows and columns write different members, so that their order does not matter. *)
From Coq Require Import Reals Bool Arith.
Local Open Scope R_scope.

Record mat := Mat { mrows : nat; mcols : nat; entry : nat -> nat -> R }.
Inductive outcome (A : Type) := Done (a : A) | Threw | Undefined.
Arguments Done {A}. Arguments Threw {A}. Arguments Undefined {A}.
Definition transpose (m : mat) : mat := Mat (mcols m) (mrows m) (fun i j => entry m j i).

(** ** Thomas, kz 2236-2291 *)
Section Column.
Variables (a b d : nat -> R).
(** m, kz 2257-2259 and 2271-2273 with l of 2267-2269. *)
Fixpoint pivot (k : nat) : R := match k with O => a 0%nat | S i => a (S i) - b i / pivot i * b i end.
(** y, kz 2261-2263 and 2275-2277. *)
Fixpoint forward (k : nat) : R := match k with O => d 0%nat | S i => d (S i) - b i / pivot i * forward i end.
(** x from the last row upwards, kz 2280-2290: row n - 1 - r. *)
Fixpoint backward (n r : nat) : R :=
  match r with
  | O => forward (n - 1) / pivot (n - 1)
  | S s => (forward (n - 1 - S s) - b (n - 1 - S s)%nat * backward n s) / pivot (n - 1 - S s)
  end.
End Column.
(** The new x. If x has more rows and fewer columns than y, elements of other rows are overwritten as well (not modelled; the caller fails then). *)
Definition thomas (a b Ld x : mat) : outcome mat :=
  let n := mrows a in
  if ((n =? 0) || (mrows b + 1 <? n) || (mrows Ld <? n) || (mrows x <? n))%nat then Undefined
  else Done (Mat (mrows x) (mcols x) (fun i j =>
    if ((i <? n) && (j <? mcols x))%nat then backward (fun k => entry a k j) (fun k => entry b k j) (fun k => entry Ld k j) n (n - 1 - i) else entry x i j)).

(** ** The two directions *)
Section Step.
(** Members allocated by kz 83-95 for images of [height] rows and [width] columns; all have this size but bx_, by_, qr_ and qc_, and only Ltx_ and Lty_ matter before they are assigned to. *)
Variables (height width : nat).
(** qr_, kz 2169-2173. *)
Definition qr (c : mat) : mat := Mat (height - 1) width (fun i j => entry c i j + entry c (i + 1)%nat j).
(** py_, kz 2175-2187. *)
Definition py (q : mat) : mat := Mat height width (fun i j => if (i =? 0)%nat then entry q 0%nat j else if (i =? height - 1)%nat then entry q (mrows q - 1)%nat j else entry q (i - 1)%nat j + entry q i j).
(** AOS_Rows, kz 2166-2196. *)
Definition aos_rows (Ldprev c : mat) (stepsize : R) (Lty : mat) : outcome mat :=
  if (height <? 2)%nat then Undefined
  else
    let q := qr c in let p := py q in
    thomas (Mat height width (fun i j => 1 + stepsize * entry p i j)) (Mat (height - 1) width (fun i j => - stepsize * entry q i j)) Ldprev Lty.
(** qc_, kz 2202-2206. *)
Definition qc (c : mat) : mat := Mat height (width - 1) (fun i j => entry c i j + entry c i (j + 1)%nat).
(** px_, kz 2208-2220. *)
Definition px (q : mat) : mat := Mat height width (fun i j => if (j =? 0)%nat then entry q i 0%nat else if (j =? width - 1)%nat then entry q i (mcols q - 1)%nat else entry q i (j - 1)%nat + entry q i j).
(** AOS_Columns, kz 2199-2233. The assignments to ax_ and bx_ change their sizes. *)
Definition aos_columns (Ldprev c : mat) (stepsize : R) (Ltx : mat) : outcome mat :=
  if (width <? 2)%nat then Undefined
  else
    let q := qc c in let p := transpose (px q) in let qt := transpose q in
    thomas (Mat width height (fun i j => 1 + stepsize * entry p i j)) (Mat (width - 1) height (fun i j => - stepsize * entry qt i j)) (transpose Ldprev) Ltx.
(** AOS_Step_Scalar, kz 2143-2163: the new Ld. *)
Definition aos_step (Ldprev c : mat) (stepsize : R) (Ltx Lty : mat) : outcome mat :=
  match aos_rows Ldprev c stepsize Lty, aos_columns Ldprev c stepsize Ltx with
  | Done y, Done x =>
      let xt := transpose x in
      if ((mrows y =? mrows xt) && (mcols y =? mcols xt))%nat then Done (Mat (mrows y) (mcols y) (fun i j => / 2 * (entry y i j + entry xt i j))) else Threw
  | Threw, _ | _, Threw => Threw
  | _, _ => Undefined
  end.
(** kz 85-86. *)
Definition allocated (e : nat -> nat -> R) : mat := Mat height width e.
End Step.
