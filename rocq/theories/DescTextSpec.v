(** Specification of the blocks of descriptors of a frame. *)
From Coq Require Import ZArith Reals List Strings.Byte.
From Verif Require Import SerializationModel SerializationSpec DescTextModel.
Import ListNotations.
Open Scope Z_scope.

(** The frame has the blocks [bs]: matrices with their types, in order. *)
Definition has_blocks (f : dframe) (bs : list (matrix * Z)) : Prop := descriptors f = Some (map fst bs) /\ types f = Some (map snd bs).
(** No block of the type. *)
Definition lacks (t : Z) (bs : list (matrix * Z)) : Prop := forall m, ~ In (m, t) bs.
Definition columns (bs : list (matrix * Z)) : Z := fold_right (fun b n => m_cols (fst b) + n) 0 bs.
(** Matrices of descriptors that can be stored with the memory at hand. *)
Definition storable (lim esz : Z) (ms : list matrix) : Prop :=
  lim < 2^63 /\ esz * Z.of_nat (length ms) <= lim /\ 8 + fold_right (fun m r => 16 + m_rows m * m_cols m + r) 0 ms <= lim /\
  Forall (wf_matrix U8) ms /\ Forall (fun m => m_rows m < 2^31 /\ m_cols m < 2^31) ms.

(** Histories of a frame. *)
Inductive change :=
| Set_block (m : matrix) (index : nat) (t : Z)
| Extend (m : matrix) (t : Z)
| Restore (text : list byte)
| Set_types (ts : list Z)
| Set_measurements (kps : list (R * R)).
Definition change_frame (lim esz : Z) (f : dframe) (c : change) : outcome dframe :=
  match c with
  | Set_block m index t => set_descriptors f m index t
  | Extend m t => extend_descriptors f m t
  | Restore text => deserialize_descriptors lim esz f text
  | Set_types ts => set_types f ts
  | Set_measurements kps => Done {| measurements := Some kps; descriptors := descriptors f; types := types f |}
  end.
Inductive reaches (lim esz : Z) (f : dframe) : list change -> dframe -> Prop :=
| reaches_start : reaches lim esz f [] f
| reaches_step cs c g h : reaches lim esz f cs g -> change_frame lim esz g c = Done h -> reaches lim esz f (cs ++ [c]) h.
(** Nothing restored since the types were last set. *)
Definition restored (c : change) : Prop := match c with Restore _ => True | _ => False end.
Definition settled (cs : list change) : Prop := forall before text after, cs = before ++ Restore text :: after -> exists ts, In (Set_types ts) after.
Definition new_frame : dframe := {| measurements := None; descriptors := None; types := None |}.
