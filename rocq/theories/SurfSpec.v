(** Specification of descriptors and of interpolation. *)
From Coq Require Import ZArith Reals List.
Local Open Scope R_scope.

Definition sum_of_squares (l : list R) : R := fold_right Rplus 0 (map (fun x => x ^ 2) l).
Definition unit_vector (n : nat) (l : list R) : Prop := length l = n /\ sum_of_squares l = 1.
(** Image functions, and values at their pixels. *)
Definition affine (a b c y x : R) : R := a + b * x + c * y.
Definition within (low high : R) (height width : Z) (L : Z -> Z -> R) : Prop := forall y x, (0 <= y < height)%Z -> (0 <= x < width)%Z -> low <= L y x <= high.
(** A rotation of the axes by t: gradient and Hessian in the new coordinates. *)
Definition rotated_gradient (t gx gy : R) : R * R := (cos t * gx + sin t * gy, - sin t * gx + cos t * gy).
Definition rotated_hessian (t hxx hxy hyy : R) : R * R * R :=
  (cos t * cos t * hxx + 2 * (cos t * sin t) * hxy + sin t * sin t * hyy,
   - (cos t * sin t) * hxx + (cos t * cos t - sin t * sin t) * hxy + cos t * sin t * hyy,
   sin t * sin t * hxx - 2 * (cos t * sin t) * hxy + cos t * cos t * hyy).
(** Derivatives as functions of the offset (dx, dy) from the keypoint, and those of the image turned by t about it. *)
Record field := Field { fx : R -> R -> R; fy : R -> R -> R; fxx : R -> R -> R; fxy : R -> R -> R; fyy : R -> R -> R }.
Definition linear (f : R -> R -> R) : Prop := exists p q r, forall dx dy, f dx dy = p + q * dx + r * dy.
Definition linear_field (F : field) : Prop := linear (fx F) /\ linear (fy F) /\ linear (fxx F) /\ linear (fxy F) /\ linear (fyy F).
Definition turned (t : R) (F : field) : field :=
  let back (f : R -> R -> R) (dx dy : R) := let '(u, v) := rotated_gradient t dx dy in f u v in
  let grad dx dy := rotated_gradient (- t) (back (fx F) dx dy) (back (fy F) dx dy) in
  let hess dx dy := rotated_hessian (- t) (back (fxx F) dx dy) (back (fxy F) dx dy) (back (fyy F) dx dy) in
  Field (fun dx dy => fst (grad dx dy)) (fun dx dy => snd (grad dx dy)) (fun dx dy => fst (fst (hess dx dy))) (fun dx dy => snd (fst (hess dx dy))) (fun dx dy => snd (hess dx dy)).
