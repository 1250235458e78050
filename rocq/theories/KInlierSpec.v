(** Vocabulary for C146; [flat], [selected] and [maps_near] are those of C118. *)
From Coq Require Import Reals ZArith List.
From Verif Require Import KUtilModel KUtilSpec.
Import ListNotations.
Local Open Scope R_scope.

(** The pairs whose status is 1, in their order. *)
Fixpoint chosen (ps : list ((R * R) * (R * R))) (status : list Z) : list ((R * R) * (R * R)) :=
  match ps, status with p :: ps, s :: status => if Z.eq_dec s 1 then p :: chosen ps status else chosen ps status | _, _ => [] end.
(** [z] is the pixel that contains the coordinate [r]: pixels are centred on the integers. *)
Definition pixel (z : Z) (r : R) : Prop := IZR z - / 2 <= r < IZR z + / 2.
(** A status that says of every pair whether the homography maps it to within the error. *)
Definition judges (H : homography) (e : R) (ps : list ((R * R) * (R * R))) (status : list Z) : Prop :=
  Forall2 (fun pq s => (maps_near H e (fst pq) (snd pq) /\ s = 1%Z) \/ (~ maps_near H e (fst pq) (snd pq) /\ s = 0%Z)) ps status.
