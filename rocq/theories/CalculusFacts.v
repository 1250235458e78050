(** Facts about derivatives along curves. *)
From Coq Require Import Reals Lra Psatz.
From Coquelicot Require Import Coquelicot.
From Verif Require Import CalculusSpec.
Local Open Scope R_scope.

(** A derivative is unique: a wrong Jacobian entry is refutable. *)
Lemma jac2_unique f x y a b a' b' : jac2 f x y a b -> jac2 f x y a' b' -> a = a' /\ b = b'.
Proof.
  intros H H'.
  assert (D1 : forall c : R, is_derive (fun s : R => c + s) 0 1) by (intros c; auto_derive; [trivial|ring]).
  assert (D0 : forall c : R, is_derive (fun _ : R => c) 0 0) by (intros c; auto_derive; [trivial|ring]).
  split.
  - pose proof (is_derive_unique _ _ _ (H _ _ 0 _ _ (D1 x) (D0 y) ltac:(cbv beta; ring) eq_refl)) as E.
    pose proof (is_derive_unique _ _ _ (H' _ _ 0 _ _ (D1 x) (D0 y) ltac:(cbv beta; ring) eq_refl)) as E'. lra.
  - pose proof (is_derive_unique _ _ _ (H _ _ 0 _ _ (D0 x) (D1 y) eq_refl ltac:(cbv beta; ring))) as E.
    pose proof (is_derive_unique _ _ _ (H' _ _ 0 _ _ (D0 x) (D1 y) eq_refl ltac:(cbv beta; ring))) as E'. lra.
Qed.
Lemma jac1_unique f x a a' : jac1 f x a -> jac1 f x a' -> a = a'.
Proof.
  intros H H'. assert (D1 : is_derive (fun s : R => x + s) 0 1) by (auto_derive; [trivial|ring]).
  pose proof (is_derive_unique _ _ _ (H _ 0 _ D1 ltac:(cbv beta; ring))) as E.
  pose proof (is_derive_unique _ _ _ (H' _ 0 _ D1 ltac:(cbv beta; ring))) as E'. lra.
Qed.
(** The partial derivatives. *)
Lemma jac2_partial f x y a b : jac2 f x y a b -> is_derive (fun s => f s y) x a /\ is_derive (fun s => f x s) y b.
Proof.
  intros H.
  assert (D1 : forall c : R, is_derive (fun s : R => s) c 1) by (intros c; auto_derive; [trivial|ring]).
  assert (D0 : forall c u : R, is_derive (fun _ : R => c) u 0) by (intros c u; auto_derive; [trivial|ring]).
  split.
  - pose proof (H _ _ x _ _ (D1 x) (D0 y x) eq_refl eq_refl) as E. replace (a * 1 + b * 0) with a in E by ring. exact E.
  - pose proof (H _ _ y _ _ (D0 x y) (D1 y) eq_refl eq_refl) as E. replace (a * 0 + b * 1) with b in E by ring. exact E.
Qed.
(** ** Combinators for derivatives of real functions of one variable *)
Lemma der_const (c t : R) : is_derive (fun _ : R => c) t 0.
Proof. auto_derive; [trivial|ring]. Qed.
Lemma der_plus (f g : R -> R) (t a b : R) : is_derive f t a -> is_derive g t b -> is_derive (fun s => f s + g s) t (a + b).
Proof. intros. apply (is_derive_plus (V := R_NormedModule) f g t a b); assumption. Qed.
Lemma der_opp (f : R -> R) (t a : R) : is_derive f t a -> is_derive (fun s => - f s) t (- a).
Proof. intros. apply (is_derive_opp (V := R_NormedModule) f t a); assumption. Qed.
Lemma der_minus (f g : R -> R) (t a b : R) : is_derive f t a -> is_derive g t b -> is_derive (fun s => f s - g s) t (a - b).
Proof. intros. apply (is_derive_minus (V := R_NormedModule) f g t a b); assumption. Qed.
Lemma der_mult (f g : R -> R) (t a b : R) : is_derive f t a -> is_derive g t b -> is_derive (fun s => f s * g s) t (a * g t + f t * b).
Proof. intros. apply (is_derive_mult f g t a b); [assumption|assumption|]. intros n m. apply Rmult_comm. Qed.
Lemma der_inv (f : R -> R) (t a : R) : is_derive f t a -> f t <> 0 -> is_derive (fun s => / f s) t (- a / (f t * f t)).
Proof. intros H N. replace (f t * f t) with (f t ^ 2) by ring. apply is_derive_inv; assumption. Qed.
Lemma der_div (f g : R -> R) (t a b : R) : is_derive f t a -> is_derive g t b -> g t <> 0 ->
  is_derive (fun s => f s / g s) t ((a * g t - f t * b) / (g t * g t)).
Proof. intros. replace (g t * g t) with (g t ^ 2) by ring. apply is_derive_div; assumption. Qed.
Lemma der_comp (f g : R -> R) (t a b : R) : is_derive f (g t) a -> is_derive g t b -> is_derive (fun s => f (g s)) t (b * a).
Proof. intros. apply (is_derive_comp (V := R_NormedModule) f g t a b); assumption. Qed.
Lemma der_sqrt (f : R -> R) (t a : R) : is_derive f t a -> 0 < f t -> is_derive (fun s => sqrt (f s)) t (a / (2 * sqrt (f t))).
Proof. intros H P. apply is_derive_sqrt; assumption. Qed.
Lemma der_atan (f : R -> R) (t a : R) : is_derive f t a -> is_derive (fun s => atan (f s)) t (a / (1 + f t * f t)).
Proof.
  intros H. replace (a / (1 + f t * f t)) with (a * / (1 + (f t) ^ 2)) by (unfold Rdiv; f_equal; f_equal; ring).
  apply (der_comp atan f); [|assumption]. apply is_derive_Reals. apply derivable_pt_lim_atan.
Qed.
Lemma der_eq (f : R -> R) (t a b : R) : is_derive f t a -> a = b :> R -> is_derive f t b.
Proof. intros H <-. exact H. Qed.
(** Near a point, conditions on a differentiable function persist. *)
Lemma near_gt (f : R -> R) (t a c : R) : is_derive f t a -> c < f t -> locally t (fun s => c < f s).
Proof.
  intros H L. assert (C : continuous f t). { apply (ex_derive_continuous (V := R_NormedModule)). exists a. exact H. }
  apply (C (fun u => c < u)). apply (open_gt c). exact L.
Qed.
Lemma near_lt (f : R -> R) (t a c : R) : is_derive f t a -> f t < c -> locally t (fun s => f s < c).
Proof.
  intros H L. assert (C : continuous f t). { apply (ex_derive_continuous (V := R_NormedModule)). exists a. exact H. }
  apply (C (fun u => u < c)). apply (open_lt c). exact L.
Qed.
Lemma der_near (f g : R -> R) (t a : R) (P : R -> Prop) : locally t P -> (forall s, P s -> f s = g s) -> is_derive f t a -> is_derive g t a.
Proof.
  intros HP E H. apply (is_derive_ext_loc f g t a); [|exact H]. eapply filter_imp; [|exact HP]. exact E.
Qed.
