(** Specification of the occupancy grid, without reference to how cells are processed. *)
From Coq Require Import ZArith.
From stdpp Require Import list.
From Verif Require Import StlHelpersModel OccupancyGridModel.
Open Scope Z_scope.

(** Oracles behave as the standard guarantees. *)
Definition good_op (o : op) : Prop :=
  match o with
  | OAddNear _ _ order => forall es, order es ≡ₚ es
  | ORemoveOverfull _ ps | ORemoveUntil _ ps => forall n l, partial_sorted stronger n l (ps n l)
  | _ => True
  end.

(** All points offered to the grid so far (since the last reset), with their current weight. *)
Fixpoint offered_from (acc : list point) (os : list op) : list point :=
  match os with
  | [] => acc
  | OReset :: os' => offered_from [] os'
  | OAdd p :: os' | OAddCell p _ :: os' | OAddNear p _ _ :: os' => offered_from (p :: acc) os'
  | OSetWeight x :: os' =>
    offered_from ((fun p => Pt (u_rows p) (v_cols p) x (pid p)) <$> acc) os'
  | _ :: os' => offered_from acc os'
  end.
Definition offered (os : list op) : list point := offered_from [] os.

(** The points of the grid. *)
Definition contents (g : grid) : list point := concat (cells g).

(** The rectangle of the cell in row [i] and column [j]. *)
Definition in_rect (c : config) (i j : Z) (p : point) : Prop :=
  i * cell_rows c <= u_rows p < (i + 1) * cell_rows c /\
  j * cell_cols c <= v_cols p < (j + 1) * cell_cols c.

(** Squared distance. *)
Definition dist2 (p q : point) : Z :=
  (u_rows p - u_rows q) ^ 2 + (v_cols p - v_cols q) ^ 2.

(** [kept] are the [n] strongest of [all] (all of them, if there are at most [n]). *)
Definition strongest (n : nat) (all kept : list point) : Prop :=
  exists dropped, kept ++ dropped ≡ₚ all /\ (length kept <= n)%nat /\
    (dropped <> [] -> length kept = n) /\
    (forall x y, x ∈ kept -> y ∈ dropped -> weight y <= weight x).
