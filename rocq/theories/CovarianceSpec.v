(** Specification of covariances: variances of linear combinations. *)
From Coq Require Import Reals List.
From Verif Require Import CovarianceModel PredictModel PredictSpec.
Import ListNotations.
Local Open Scope R_scope.

(** A direction in the space of transformations: a translational and a rotational part. *)
Record direction := Direction { d_translation : R * R * R; d_rotation : R * R * R }.
Definition component (v : direction) (i : nat) : R :=
  let '(x, y, z) := d_translation v in let '(a, b, c) := d_rotation v in nth i [x; y; z; a; b; c] 0.
(** The covariance of the combinations [u] and [v] of the six components under the covariance matrix [a]. *)
Definition covariance (a : matrix) (u v : direction) : R := sum 6 (fun i => sum 6 (fun j => component u i * a i j * component v j)).
(** The same direction in the other frame. *)
Definition turn_direction (q : quaternion) (v : direction) : direction := Direction (turn q (d_translation v)) (turn q (d_rotation v)).
Definition same_matrix (a b : matrix) : Prop := forall i j, (i < 6)%nat -> (j < 6)%nat -> a i j = b i j.
Definition symmetric (a : matrix) : Prop := forall i j, (i < 6)%nat -> (j < 6)%nat -> a i j = a j i.
Definition positive_semidefinite (a : matrix) : Prop := forall v, 0 <= covariance a v v.
(** The total variances of translation and rotation. *)
Definition translation_variance (a : matrix) : R := a 0%nat 0%nat + a 1%nat 1%nat + a 2%nat 2%nat.
Definition rotation_variance (a : matrix) : R := a 3%nat 3%nat + a 4%nat 4%nat + a 5%nat 5%nat.
