(** C89: rotating a covariance. *)
From Coq Require Import Reals List Arith Lia Lra.
From Verif Require Import PredictModel PredictSpec PredictProps CovarianceModel CovarianceSpec.
Import ListNotations.
Local Open Scope R_scope.

(** ** Sums *)
Lemma sum_ext n f g : (forall i, (i < n)%nat -> f i = g i) -> sum n f = sum n g.
Proof. induction n as [|n IH]; intros H; cbn; [reflexivity|]. rewrite IH by (intros; apply H; lia). rewrite H by lia. reflexivity. Qed.
Lemma sum_plus n f g : sum n (fun i => f i + g i) = sum n f + sum n g.
Proof. induction n as [|n IH]; cbn; [ring|]. rewrite IH. ring. Qed.
Lemma sum_scale_l n c f : c * sum n f = sum n (fun i => c * f i).
Proof. induction n as [|n IH]; cbn; [ring|]. rewrite <- IH. ring. Qed.
Lemma sum_scale_r n c f : sum n f * c = sum n (fun i => f i * c).
Proof. induction n as [|n IH]; cbn; [ring|]. rewrite <- IH. ring. Qed.
Lemma sum_zero n : sum n (fun _ => 0) = 0.
Proof. induction n as [|n IH]; cbn; [reflexivity|]. rewrite IH. ring. Qed.
Lemma sum_swap n m f : sum n (fun i => sum m (fun j => f i j)) = sum m (fun j => sum n (fun i => f i j)).
Proof. induction n as [|n IH]; cbn; [symmetry; apply sum_zero|]. rewrite IH, <- sum_plus. reflexivity. Qed.

(** The quadratic form of T a T' in vectors. *)
Definition form (a : matrix) (u v : nat -> R) : R := sum 6 (fun i => sum 6 (fun j => u i * a i j * v j)).
Lemma form_product t a u v : form (product (product t a) (transpose t)) u v = form a (fun k => sum 6 (fun i => t i k * u i)) (fun k => sum 6 (fun i => t i k * v i)).
Proof.
  unfold form, product, transpose.
  transitivity (sum 6 (fun i => sum 6 (fun j => sum 6 (fun k => sum 6 (fun l => u i * t i l * a l k * t j k * v j))))).
  { apply sum_ext. intros i _. apply sum_ext. intros j _. rewrite sum_scale_l, sum_scale_r. apply sum_ext. intros k _. rewrite sum_scale_r, sum_scale_l, sum_scale_r. apply sum_ext. intros l _. ring. }
  transitivity (sum 6 (fun l => sum 6 (fun k => sum 6 (fun i => sum 6 (fun j => u i * t i l * a l k * t j k * v j))))).
  { transitivity (sum 6 (fun i => sum 6 (fun l => sum 6 (fun k => sum 6 (fun j => u i * t i l * a l k * t j k * v j))))).
    - apply sum_ext. intros i _. transitivity (sum 6 (fun j => sum 6 (fun l => sum 6 (fun k => u i * t i l * a l k * t j k * v j)))).
      + apply sum_ext. intros j _. apply sum_swap.
      + rewrite sum_swap. apply sum_ext. intros l _. apply sum_swap.
    - rewrite sum_swap. apply sum_ext. intros l _. apply sum_swap. }
  apply sum_ext. intros l _. apply sum_ext. intros k _. rewrite sum_scale_r, sum_scale_r. apply sum_ext. intros i _. rewrite sum_scale_l. apply sum_ext. intros j _. ring.
Qed.
Lemma covariance_form a u v : covariance a u v = form a (component u) (component v).
Proof. reflexivity. Qed.
Lemma form_ext a u u' v v' : (forall i, (i < 6)%nat -> u i = u' i) -> (forall i, (i < 6)%nat -> v i = v' i) -> form a u v = form a u' v'.
Proof. intros U V. apply sum_ext. intros i Hi. apply sum_ext. intros j Hj. rewrite U, V by assumption. reflexivity. Qed.
Lemma unit_conj q : unit_quaternion q -> unit_quaternion (qconj q).
Proof. unfold unit_quaternion. intros <-. cbn. ring. Qed.
Lemma conj_conj q : qconj (qconj q) = q.
Proof. destruct q as [w x y z]. unfold qconj. cbn. rewrite !Ropp_involutive. reflexivity. Qed.
(** Multiplication with the transposed transformation turns back. *)
Lemma transformation_transposed q u k : unit_quaternion q -> (k < 6)%nat -> sum 6 (fun i => covariance_transformation q i k * component u i) = component (turn_direction (qconj q) u) k.
Proof.
  intros U K. unfold turn_direction. rewrite <- !rotate_turn by (apply unit_conj; exact U). destruct u as [[[x y] z] [[a b] c]]. destruct q as [w i j l].
  do 6 (destruct k as [|k]; [cbn; ring|]). lia.
Qed.
Lemma turn_back q u : unit_quaternion q -> turn_direction (qconj q) (turn_direction q u) = u.
Proof.
  intros U. destruct u as [t r]. unfold turn_direction. cbn [d_translation d_rotation]. rewrite <- !turn_mul, !turn_inverse by exact U. reflexivity.
Qed.

(** The covariance of two directions does not depend on the frame in which directions and covariance are given. *)
Theorem cvx_frame_independent q a u v : unit_quaternion q -> covariance (rotate_covariance q a) (turn_direction q u) (turn_direction q v) = covariance a u v.
Proof.
  intros U. rewrite !covariance_form. unfold rotate_covariance. rewrite form_product. apply form_ext; intros k Hk; rewrite transformation_transposed by assumption; rewrite turn_back by exact U; reflexivity.
Qed.
Print Assumptions cvx_frame_independent.
Lemma covariance_rotated q a u v : unit_quaternion q -> covariance (rotate_covariance q a) u v = covariance a (turn_direction (qconj q) u) (turn_direction (qconj q) v).
Proof. intros U. rewrite !covariance_form. unfold rotate_covariance. rewrite form_product. apply form_ext; intros k Hk; apply transformation_transposed; assumption. Qed.

(** Coefficients are covariances of the axes. *)
Definition basis (i : nat) : direction :=
  match i with
  | 0%nat => Direction (1, 0, 0) (0, 0, 0) | 1%nat => Direction (0, 1, 0) (0, 0, 0) | 2%nat => Direction (0, 0, 1) (0, 0, 0)
  | 3%nat => Direction (0, 0, 0) (1, 0, 0) | 4%nat => Direction (0, 0, 0) (0, 1, 0) | _ => Direction (0, 0, 0) (0, 0, 1)
  end.
Lemma covariance_basis a i j : (i < 6)%nat -> (j < 6)%nat -> covariance a (basis i) (basis j) = a i j.
Proof. intros I J. do 6 (destruct i as [|i]; [do 6 (destruct j as [|j]; [cbn; ring|]); lia|]). lia. Qed.
Lemma covariance_determines a b : (forall u v, covariance a u v = covariance b u v) -> same_matrix a b.
Proof. intros H i j I J. rewrite <- !covariance_basis by assumption. apply H. Qed.
Lemma covariance_symmetric a u v : symmetric a -> covariance a u v = covariance a v u.
Proof.
  intros S. unfold covariance. rewrite sum_swap. apply sum_ext. intros i Hi. apply sum_ext. intros j Hj. rewrite (S j i) by assumption. ring.
Qed.
(** A covariance stays one: symmetric and positive semidefinite. *)
Theorem cvx_covariance q a : unit_quaternion q -> (symmetric a -> symmetric (rotate_covariance q a)) /\ (positive_semidefinite a -> positive_semidefinite (rotate_covariance q a)).
Proof.
  intros U. split.
  - intros S i j I J. rewrite <- !(covariance_basis (rotate_covariance q a)) by assumption. rewrite !covariance_rotated by exact U. apply covariance_symmetric. exact S.
  - intros P v. rewrite covariance_rotated by exact U. apply P.
Qed.
Print Assumptions cvx_covariance.
Lemma unit_product p q : unit_quaternion p -> unit_quaternion q -> unit_quaternion (qmul p q).
Proof.
  unfold unit_quaternion. intros P Q. transitivity ((q_w p * q_w p + q_x p * q_x p + q_y p * q_y p + q_z p * q_z p) * (q_w q * q_w q + q_x q * q_x q + q_y q * q_y q + q_z q * q_z q)); [cbn; ring|]. rewrite P, Q. ring.
Qed.
(** Rotating twice is rotating by the product, rotating back gives the covariance back. *)
Theorem cvx_compose p q a : unit_quaternion p -> unit_quaternion q ->
  same_matrix (rotate_covariance p (rotate_covariance q a)) (rotate_covariance (qmul p q) a).
Proof.
  intros P Q. pose proof (unit_product _ _ P Q) as PQ. apply covariance_determines. intros u v. rewrite !covariance_rotated by assumption.
  assert (qconj (qmul p q) = qmul (qconj q) (qconj p)) as -> by (destruct p as [w x y z], q as [w' x' y' z']; unfold qconj, qmul; cbn; f_equal; ring).
  unfold turn_direction. cbn [d_translation d_rotation]. rewrite !turn_mul. reflexivity.
Qed.
Print Assumptions cvx_compose.
Theorem cvx_inverse q a : unit_quaternion q -> same_matrix (rotate_covariance (qconj q) (rotate_covariance q a)) a.
Proof.
  intros U. apply covariance_determines. intros u v. rewrite !covariance_rotated by (try apply unit_conj; exact U). rewrite conj_conj. rewrite !turn_back by exact U. reflexivity.
Qed.
Print Assumptions cvx_inverse.
(** The total variances of translation and rotation are preserved. *)
Lemma columns_orthonormal q k l : unit_quaternion q -> (k < 3)%nat -> (l < 3)%nat ->
  rotation_matrix q 0%nat k * rotation_matrix q 0%nat l + rotation_matrix q 1%nat k * rotation_matrix q 1%nat l + rotation_matrix q 2%nat k * rotation_matrix q 2%nat l = identity k l.
Proof.
  unfold unit_quaternion. destruct q as [w x y z]. intros U K L. cbn [q_w q_x q_y q_z] in U. assert (w * w = 1 - x * x - y * y - z * z) as W by lra.
  do 3 (destruct k as [|k]; [do 3 (destruct l as [|l]; [unfold rotation_matrix, identity; cbn; ring_simplify; replace (w ^ 2) with (1 - x * x - y * y - z * z) by (rewrite <- W; ring); ring|]); lia|]). lia.
Qed.
Theorem cvx_total_variance q a : unit_quaternion q ->
  translation_variance (rotate_covariance q a) = translation_variance a /\ rotation_variance (rotate_covariance q a) = rotation_variance a.
Proof.
  intros U. pose proof (fun k l => columns_orthonormal q k l U) as O.
  pose proof (O 0%nat 0%nat ltac:(lia) ltac:(lia)) as O00. pose proof (O 0%nat 1%nat ltac:(lia) ltac:(lia)) as O01. pose proof (O 0%nat 2%nat ltac:(lia) ltac:(lia)) as O02.
  pose proof (O 1%nat 1%nat ltac:(lia) ltac:(lia)) as O11. pose proof (O 1%nat 2%nat ltac:(lia) ltac:(lia)) as O12. pose proof (O 2%nat 2%nat ltac:(lia) ltac:(lia)) as O22. clear O.
  unfold translation_variance, rotation_variance, rotate_covariance, product, transpose, covariance_transformation, set_block, identity in *. set (r := rotation_matrix q) in *. clearbody r. cbn in *. split.
  - transitivity ((r 0%nat 0%nat * r 0%nat 0%nat + r 1%nat 0%nat * r 1%nat 0%nat + r 2%nat 0%nat * r 2%nat 0%nat) * a 0%nat 0%nat + (r 0%nat 1%nat * r 0%nat 1%nat + r 1%nat 1%nat * r 1%nat 1%nat + r 2%nat 1%nat * r 2%nat 1%nat) * a 1%nat 1%nat + (r 0%nat 2%nat * r 0%nat 2%nat + r 1%nat 2%nat * r 1%nat 2%nat + r 2%nat 2%nat * r 2%nat 2%nat) * a 2%nat 2%nat +
      (r 0%nat 0%nat * r 0%nat 1%nat + r 1%nat 0%nat * r 1%nat 1%nat + r 2%nat 0%nat * r 2%nat 1%nat) * (a 0%nat 1%nat + a 1%nat 0%nat) + (r 0%nat 0%nat * r 0%nat 2%nat + r 1%nat 0%nat * r 1%nat 2%nat + r 2%nat 0%nat * r 2%nat 2%nat) * (a 0%nat 2%nat + a 2%nat 0%nat) + (r 0%nat 1%nat * r 0%nat 2%nat + r 1%nat 1%nat * r 1%nat 2%nat + r 2%nat 1%nat * r 2%nat 2%nat) * (a 1%nat 2%nat + a 2%nat 1%nat)); [ring|].
    rewrite O00, O01, O02, O11, O12, O22. unfold identity. cbn. ring.
  - transitivity ((r 0%nat 0%nat * r 0%nat 0%nat + r 1%nat 0%nat * r 1%nat 0%nat + r 2%nat 0%nat * r 2%nat 0%nat) * a 3%nat 3%nat + (r 0%nat 1%nat * r 0%nat 1%nat + r 1%nat 1%nat * r 1%nat 1%nat + r 2%nat 1%nat * r 2%nat 1%nat) * a 4%nat 4%nat + (r 0%nat 2%nat * r 0%nat 2%nat + r 1%nat 2%nat * r 1%nat 2%nat + r 2%nat 2%nat * r 2%nat 2%nat) * a 5%nat 5%nat +
      (r 0%nat 0%nat * r 0%nat 1%nat + r 1%nat 0%nat * r 1%nat 1%nat + r 2%nat 0%nat * r 2%nat 1%nat) * (a 3%nat 4%nat + a 4%nat 3%nat) + (r 0%nat 0%nat * r 0%nat 2%nat + r 1%nat 0%nat * r 1%nat 2%nat + r 2%nat 0%nat * r 2%nat 2%nat) * (a 3%nat 5%nat + a 5%nat 3%nat) + (r 0%nat 1%nat * r 0%nat 2%nat + r 1%nat 1%nat * r 1%nat 2%nat + r 2%nat 1%nat * r 2%nat 2%nat) * (a 4%nat 5%nat + a 5%nat 4%nat)); [ring|].
    rewrite O00, O01, O02, O11, O12, O22. unfold identity. cbn. ring.
Qed.
Print Assumptions cvx_total_variance.
(** A quarter turn about z exchanges the variances of x and y. *)
Definition quarter : quaternion := {| q_w := sqrt 2 / 2; q_x := 0; q_y := 0; q_z := sqrt 2 / 2 |}.
Example cvx_ex : unit_quaternion quarter /\ rotate_covariance quarter (fun i j => if ((i =? 0) && (j =? 0))%nat%bool then 1 else 0) 1%nat 1%nat = 1.
Proof.
  assert (sqrt 2 * sqrt 2 = 2) as S by (apply sqrt_sqrt; lra). split.
  - unfold unit_quaternion, quarter. cbn. lra.
  - unfold rotate_covariance, product, transpose, covariance_transformation, set_block, rotation_matrix, rotate, quarter. cbn. replace (sqrt 2 / 2 * (sqrt 2 / 2)) with (1 / 2) by lra. field.
Qed.
