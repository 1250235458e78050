(** Specification of track ids: connected components of the matches applied so far. *)
From Coq Require Import ZArith Relations.
From stdpp Require Import list.
From Verif Require Import TrackModel.
Local Open Scope nat_scope.

(** A keypoint: frame and position. *)
Notation point := (nat * nat)%type.
(** Its track id; -1 if the frame has no track ids yet. *)
Definition id_at (w : world) (p : point) : option Z :=
  f ← frames w !! p.1;
  match track f with
  | Some l => l !! p.2
  | None => if decide (p.2 < num_keypoints f) then Some (-1)%Z else None
  end.

(** The matches applied by a history. *)
Definition edges_of (a b : nat) (ms : list (Z * Z)) : list (point * point) :=
  (fun m : Z * Z => ((a, Z.to_nat m.1), (b, Z.to_nat m.2))) <$> ms.
Fixpoint applied (acts : list act) : list (point * point) :=
  match acts with
  | [] => []
  | AApply a b ms :: acts' => edges_of a b ms ++ applied acts'
  | _ :: acts' => applied acts'
  end.
Definition touched (E : list (point * point)) (p : point) : Prop := exists e, e ∈ E /\ (e.1 = p \/ e.2 = p).
Definition connected (E : list (point * point)) : point -> point -> Prop :=
  clos_refl_sym_trans _ (fun p q => (p, q) ∈ E).

Definition no_reset (x : act) : Prop := match x with AReset => False | _ => True end.
