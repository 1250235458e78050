(** Model of the numerical differentiation behind TEST_JACOBIAN_FINITE_DIFFERENCE.

    Source: aslam_cv_common/include/aslam/common/numdiff-jacobian-tester.h ("nd") 48-62, 100-198.

    Real numbers instead of the scalar type. A functor is a function with the values [f x i] and whether the evaluation at x succeeds, [ok x]; its analytical Jacobian is an argument of the test. Matrices are functions of row and column, [jac] before the call is whatever the matrix contains. [epsilon] is NumTraits<double>::epsilon(). *)
From Coq Require Import Reals List Bool Arith.
Import ListNotations.
Local Open Scope R_scope.

(** nd 103-107. *)
Inductive mode := Forward | Central | CentralSecond.
(** x[j] and x[j] = v. *)
Definition get (x : list R) (j : nat) : R := nth j x 0.
Fixpoint put (x : list R) (j : nat) (v : R) : list R :=
  match x, j with
  | [], _ => []
  | _ :: r, O => v :: r
  | a :: r, S j => a :: put r j v
  end.
Definition matrix : Type := nat -> nat -> R.
(** jac.col(j) = v. *)
Definition put_column (jac : matrix) (j : nat) (v : nat -> R) : matrix := fun i k => if Nat.eqb k j then v i else jac i k.
Definition epsilon : R := / 2 ^ 52.
(** nd 150. *)
Definition eps_of (epsfcn : R) : R := sqrt (Rmax epsfcn epsilon).
(** The step of a coordinate, nd 158-161. *)
Definition step (eps xj : R) : R :=
  let h := eps * Rabs xj in
  if Req_EM_T h 0 then eps else h.
Section Functor.
Variable f : list R -> nat -> R.
Variable ok : list R -> bool.
(** The body of the loop, nd 158-191: the vector x, the Jacobian and success. *)
Definition body (m : mode) (x0 : list R) (eps : R) (s : list R * matrix * bool) (j : nat) : list R * matrix * bool :=
  let '(x, jac, success) := s in
  let h := step eps (get x j) in
  match m with
  | Forward =>
      let val1 := f x in let success := success && ok x in
      let x := put x j (get x j + h) in
      let val2 := f x in let success := success && ok x in
      let x := put x j (get x0 j) in
      (x, put_column jac j (fun i => (val2 i - val1 i) / h), success)
  | Central =>
      let x := put x j (get x j + h) in
      let val2 := f x in let success := success && ok x in
      let x := put x j (get x j - 2 * h) in
      let val1 := f x in let success := success && ok x in
      let x := put x j (get x0 j) in
      (x, put_column jac j (fun i => (val2 i - val1 i) / (2 * h)), success)
  | CentralSecond =>
      let x := put x j (get x j + 2 * h) in
      let val1 := f x in let success := success && ok x in
      let x := put x j (get x j - h) in
      let val2 := f x in let success := success && ok x in
      let x := put x j (get x j - 2 * h) in
      let val3 := f x in let success := success && ok x in
      let x := put x j (get x j - h) in
      let val4 := f x in let success := success && ok x in
      let x := put x j (get x0 j) in
      (x, put_column jac j (fun i => (8 * val2 i + val4 i - val1 i - 8 * val3 i) / (h * 12)), success)
  end.
(** getJacobianNumerical, nd 143-194. *)
Definition jacobian_numerical (m : mode) (epsfcn : R) (x0 : list R) (jac : matrix) : matrix * bool :=
  let eps := eps_of epsfcn in
  let '(_, jac, success) := fold_left (body m x0 eps) (seq 0 (length x0)) (x0, jac, true) in
  (jac, success).
(** The test, nd 48-62, with the default scheme CentralSecond: all expectations hold. [rows]: number of values of the functor. EIGEN_MATRIX_NEAR compares all elements. *)
Definition test_passes (epsfcn tolerance : R) (rows : nat) (x0 : list R) (garbage symbolic : matrix) : Prop :=
  let '(numeric, success) := jacobian_numerical CentralSecond epsfcn x0 garbage in
  success = true /\ ok x0 = true /\ forall i j, (i < rows)%nat -> (j < length x0)%nat -> Rabs (numeric i j - symbolic i j) <= tolerance.
End Functor.
