(** Specification of channel groups: a list of independent finite maps from names to data. *)
From Coq Require Import ZArith Bool.
From stdpp Require Import list gmap strings.
From Verif Require Import ChannelModel.

Global Instance data_eq_dec : EqDecision data.
Proof. solve_decision. Defined.
Notation abstract := (list (gmap string data)).

(** The comparison walks through the names in some order and stops at the first difference; two values
    of different types cannot be compared. *)
Fixpoint spec_equal (order : list string) (l r : gmap string data) : option bool :=
  match order with
  | [] => Some true
  | n :: order' =>
    match l !! n, r !! n with
    | Some x, Some y =>
      if decide (data_type x = data_type y)
      then if decide (x = y) then spec_equal order' l r else Some false
      else None
    | Some _, None => Some false
    | None, _ => None
    end
  end.
Definition spec_step (s : abstract) (a : act) : option (abstract * out) :=
  match a with
  | ANew => Some (s ++ [∅], OUnit)
  | AAdd g n t =>
    m ← s !! g;
    match m !! n with Some _ => None | None => Some (<[g := <[n := default_data t]> m]> s, OUnit) end
  | AGet g n t =>
    m ← s !! g; d ← m !! n; if decide (data_type d = t) then Some (s, OData d) else None
  | AWrite g n d =>
    m ← s !! g; d' ← m !! n;
    if decide (data_type d' = data_type d) then Some (<[g := <[n := d]> m]> s, OUnit) else None
  | AHas g n => m ← s !! g; Some (s, OBool (bool_decide (is_Some (m !! n))))
  | ARemove g n =>
    m ← s !! g; match m !! n with None => None | Some _ => Some (<[g := delete n m]> s, OUnit) end
  | AClone g => m ← s !! g; Some (s ++ [m], OUnit)
  | AAssign g g' => _ ← s !! g; m' ← s !! g'; Some (<[g := m']> s, OUnit)
  | AEqual g g' order =>
    if (g =? g')%nat then Some (s, OBool true)
    else
      l ← s !! g; r ← s !! g';
      if negb (size l =? size r)%nat then Some (s, OBool false)
      else if is_order order (map_to_list l).*1
           then b ← spec_equal order l r; Some (s, OBool b) else None
  | APixels g n z =>
    m ← s !! g; d ← m !! n;
    if decide (data_type d = TImage) then Some (<[g := <[n := DImage z]> m]> s, OUnit) else None
  end.
Fixpoint spec_run (s : abstract) (acts : list act) : option (abstract * list out) :=
  match acts with
  | [] => Some (s, [])
  | a :: acts' =>
    '(s', o) ← spec_step s a;
    '(s'', os) ← spec_run s' acts';
    Some (s'', o :: os)
  end.

(** Operations that do not alias: no plain copy of a group, no writing into the pixels of an image. *)
Definition no_alias (a : act) : bool :=
  match a with AAssign _ _ | APixels _ _ _ => false | _ => true end.
