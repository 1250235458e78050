(** Model of aslam::common::WeightedOccupancyGrid.

    Source: aslam_cv_common/include/aslam/common/occupancy-grid.h ("h") and
            aslam_cv_common/include/aslam/common/occupancy-grid-inl.h ("inl").

    Simplifications:
    - coordinates, cell sizes and weights are integers (every finite double is an integer multiple
      of 2^-1074) and arithmetic is exact: floor(u / cell_size) is the floor of the exact quotient;
    - the cells are stored row by row in one list; size_t/int conversions do not overflow;
    - std::partial_sort is an oracle with the guarantee of the standard (StlHelpersModel);
    - the iteration order of the unordered_map of violating points is an oracle (a permutation);
    - getOccupancyMask (drawing with OpenCV) is not modelled. *)
From Coq Require Import ZArith Bool.
From stdpp Require Import list list_numbers.
From Verif Require Import StlHelpersModel.
Open Scope Z_scope.

(** WeightedKeypoint, h 15-38. *)
Record point := Pt { u_rows : Z; v_cols : Z; weight : Z; pid : Z }.

(** Constructor arguments, and numeric_limits<WeightType>::lowest(). *)
Record config := Config { max_rows : Z; max_cols : Z; cell_rows : Z; cell_cols : Z; lowest : Z }.

Record grid := Grid { cells : list (list point); num_points : Z }.

(** inl 29-32: ceil of the quotient. *)
Definition num_rows (c : config) : nat := Z.to_nat ((max_rows c + cell_rows c - 1) / cell_rows c).
Definition num_cols (c : config) : nat := Z.to_nat ((max_cols c + cell_cols c - 1) / cell_cols c).

(** Constructor, inl 13-37, with initializeGrid, 40-45.  Non-positive cell sizes (not checked by the
    code, except that they give no rows or columns) are outside the model: [None] means CHECK failed. *)
Definition create (c : config) : option grid :=
  if (0 <? max_rows c) && (0 <? max_cols c) && (cell_rows c <=? max_rows c) && (cell_cols c <=? max_cols c)
     && (0 <? cell_rows c) && (0 <? cell_cols c)
  then Some (Grid (replicate (num_rows c * num_cols c) []) 0) else None.

(** reset, inl 48-55. *)
Definition reset (g : grid) : grid := Grid ((fun _ => []) <$> cells g) 0.

(** isValidInputCoordinate, inl 361-368. *)
Definition valid_input (c : config) (p : point) : bool :=
  (0 <=? u_rows p) && (0 <=? v_cols p) && (u_rows p <? max_rows c) && (v_cols p <? max_cols c).

(** inputToGridCoordinates, inl 378-389. *)
Definition grid_row (c : config) (p : point) : nat := Z.to_nat (u_rows p / cell_rows c).
Definition grid_col (c : config) (p : point) : nat := Z.to_nat (v_cols p / cell_cols c).
Definition flat (c : config) (i j : nat) : nat := i * num_cols c + j.

(** isValidGridCoordinates, inl 371-375. *)
Definition valid_cell (c : config) (i j : nat) : bool := (i <? num_rows c)%nat && (j <? num_cols c)%nat.

(** The flat index of the cell of a point; [None]: a CHECK in inputToGridCoordinates or getGridCell
    (inl 343-355) fails. *)
Definition cell_of (c : config) (p : point) : option nat :=
  if valid_input c p && valid_cell c (grid_row c p) (grid_col c p)
  then Some (flat c (grid_row c p) (grid_col c p)) else None.

(** addPointUnconditional, inl 58-63. *)
Definition add_unconditional (c : config) (p : point) (g : grid) : result grid :=
  match cell_of c p with
  | None => Abort
  | Some k => Ok (Grid (alter (fun cell => cell ++ [p]) k (cells g)) (num_points g + 1))
  end.

(** std::min_element with operator< on weights: position of the first smallest element. *)
Fixpoint min_from (l : list point) (pos best : nat) (bw : Z) : nat :=
  match l with
  | [] => best
  | p :: l' => if weight p <? bw then min_from l' (S pos) pos (weight p) else min_from l' (S pos) best bw
  end.
Definition min_element (l : list point) : nat :=
  match l with [] => 0%nat | p :: l' => min_from l' 1 0 (weight p) end.

(** addPointOrReplaceWeakestIfCellFull, inl 66-92. *)
Definition add_cell (c : config) (p : point) (max_points : nat) (g : grid) : result (grid * bool) :=
  if (max_points =? 0)%nat then Abort
  else match cell_of c p with
  | None => Abort
  | Some k =>
    match cells g !! k with
    | None => Ub
    | Some cell =>
      if (length cell <? max_points)%nat
      then Ok (Grid (<[k := cell ++ [p]]> (cells g)) (num_points g + 1), true)
      else match cell !! min_element cell with
           | None => Ub
           | Some q =>
             if weight q <? weight p
             then Ok (Grid (<[k := <[min_element cell := p]> cell]> (cells g)) (num_points g), true)
             else Ok (g, false)
           end
    end
  end.

(** inl 125-134 *)
Definition too_close (p : point) (d : Z) (q : point) : bool :=
  (u_rows p - u_rows q) * (u_rows p - u_rows q) + (v_cols p - v_cols q) * (v_cols p - v_cols q) <? d * d.

(** inl 107-112: the row or column range (min .. max) around [i]. *)
Definition around (i n : nat) : list nat :=
  seq (i - 1) (Nat.min (i + 1) (n - 1) + 1 - (i - 1)).
Definition neighbours (c : config) (p : point) : list nat :=
  i ← around (grid_row c p) (num_rows c);
  j ← around (grid_col c p) (num_cols c);
  [flat c i j].

Notation entry := (nat * list nat)%type.   (* cell, indices of points in it *)

(** inl 120-138: entries are created only for cells with a violating point. *)
Fixpoint violating_indices (p : point) (d : Z) (cell : list point) (pos : nat) : list nat :=
  match cell with
  | [] => []
  | q :: cell' =>
    if too_close p d q then pos :: violating_indices p d cell' (S pos)
    else violating_indices p d cell' (S pos)
  end.
Definition violations (p : point) (d : Z) (cs : list (list point)) (nb : list nat) : list entry :=
  filter (fun e : entry => e.2 <> [])
         ((fun k => (k, violating_indices p d (default [] (cs !! k)) 0)) <$> nb).

(** map[k].emplace_back(i), inl 152 *)
Fixpoint append_entry (k i : nat) (es : list entry) : list entry :=
  match es with
  | [] => [(k, [i])]
  | (k', is) :: es' => if (k =? k')%nat then (k', is ++ [i]) :: es' else (k', is) :: append_entry k i es'
  end.

(** inl 155-177: strongest violator (its cell and its position in the index list of the cell). *)
Fixpoint scan_entry (cell : list point) (k pos : nat) (is : list nat) (best : Z * option (nat * nat))
  : result (Z * option (nat * nat)) :=
  match is with
  | [] => Ok best
  | i :: is' =>
    match cell !! i with
    | None => Ub
    | Some q =>
      scan_entry cell k (S pos) is' (if best.1 <? weight q then (weight q, Some (k, pos)) else best)
    end
  end.
Fixpoint scan (cs : list (list point)) (es : list entry) (best : Z * option (nat * nat))
  : result (Z * option (nat * nat)) :=
  match es with
  | [] => Ok best
  | (k, is) :: es' =>
    match cs !! k with
    | None => Ub
    | Some cell =>
      match scan_entry cell k 0 is best with Ok b => scan cs es' b | Abort => Abort | Ub => Ub end
    end
  end.

(** inl 184-185 *)
Definition exclude (k pos : nat) (es : list entry) : list entry :=
  (fun e : entry => if (e.1 =? k)%nat then (e.1, delete pos e.2) else e) <$> es.

(** inl 188-196 *)
Fixpoint remove_entries (cs : list (list point)) (n : Z) (es : list entry) : result grid :=
  match es with
  | [] => Ok (Grid cs n)
  | (k, is) :: es' =>
    match cs !! k with
    | None => Ub
    | Some cell =>
      match erase_vector cell is with
      | Ok cell' => remove_entries (<[k := cell']> cs) (n - Z.of_nat (length is)) es'
      | Abort => Abort
      | Ub => Ub
      end
    end
  end.

(** addPointOrReplaceWeakestNearestPoints, inl 95-197.  [order]: iteration order of the map. *)
Definition add_near (c : config) (p : point) (d : Z) (order : list entry -> list entry) (g : grid)
  : result grid :=
  if negb (0 <? d) || negb (d <=? Z.min (cell_cols c) (cell_rows c)) then Abort
  else match cell_of c p with
  | None => Abort
  | Some k =>
    let viol := violations p d (cells g) (neighbours c p) in
    let cs := alter (fun cell => cell ++ [p]) k (cells g) in
    let n := num_points g + 1 in
    match viol with
    | [] => Ok (Grid cs n)
    | _ =>
      match cs !! k with
      | None => Ub
      | Some input_cell =>
        let es := order (append_entry k (length input_cell - 1) viol) in
        match scan cs es (lowest c, None) with
        | Ok (_, Some (kb, pos)) => remove_entries cs n (exclude kb pos es)
        | Ok (_, None) => Abort                            (* inl 178-180 *)
        | Abort => Abort
        | Ub => Ub
        end
      end
    end
  end.

(** getAllPointsInGrid, inl 200-216. *)
Definition get_all (g : grid) : result (list point) :=
  if Z.of_nat (length (concat (cells g))) =? num_points g then Ok (concat (cells g)) else Abort.

(** setConstantWeightForAllPointsInGrid, inl 219-230. *)
Definition set_weight (x : Z) (p : point) : point := Pt (u_rows p) (v_cols p) x (pid p).
Definition set_constant_weight (x : Z) (g : grid) : grid :=
  Grid ((fun cell : list point => set_weight x <$> cell) <$> cells g) (num_points g).

(** getFullestGridCell, inl 248-261: row-major scan, strict comparison, starting with cell (0,0). *)
Fixpoint fullest_from (cs : list (list point)) (pos best size : nat) : nat :=
  match cs with
  | [] => best
  | cell :: cs' =>
    if (size <? length cell)%nat then fullest_from cs' (S pos) pos (length cell)
    else fullest_from cs' (S pos) best size
  end.
Definition fullest (g : grid) : nat := fullest_from (cells g) 0 0 0.

(** removeWeightedPointsFromOverfullCell, inl 276-293; [ps n l] is the cell after
    partial_sort(begin, begin + n, end, greater). *)
Definition stronger (a b : point) : bool := weight b <? weight a.
Definition remove_overfull (ps : nat -> list point -> list point) (k m : nat) (g : grid)
  : result (grid * nat) :=
  if (m =? 0)%nat then Abort
  else match cells g !! k with
  | None => Abort
  | Some cell =>
    if (length cell <=? m)%nat then Ok (g, 0%nat)
    else Ok (Grid (<[k := take m (ps (m + 1)%nat cell)]> (cells g))
                  (num_points g - Z.of_nat (length cell - m)), (length cell - m)%nat)
  end.

(** removeWeightedPointsFromOverfullCells, inl 296-308. *)
Fixpoint remove_overfull_list (ps : nat -> list point -> list point) (ks : list nat) (m : nat) (g : grid)
  (removed : nat) : result (grid * nat) :=
  match ks with
  | [] => Ok (g, removed)
  | k :: ks' =>
    match remove_overfull ps k m g with
    | Ok (g', r) => remove_overfull_list ps ks' m g' (removed + r)
    | Abort => Abort
    | Ub => Ub
    end
  end.
Definition remove_overfull_all (ps : nat -> list point -> list point) (m : nat) (g : grid)
  : result (grid * nat) :=
  if (m =? 0)%nat then Abort else remove_overfull_list ps (seq 0 (length (cells g))) m g 0.

(** removePointsFromFullestCellsUntilSize, inl 264-273.  [fuel] bounds the number of iterations;
    running out of it is [Ub] (the proofs show that it does not happen). *)
Fixpoint until_loop (ps : nat -> list point -> list point) (fuel : nat) (max_total : Z) (g : grid)
  : result grid :=
  if negb (max_total <? num_points g) then Ok g
  else match fuel with
  | O => Ub
  | S fuel' =>
    match cells g !! fullest g with
    | None => Abort
    | Some cell =>
      match remove_overfull ps (fullest g) (length cell - 1) g with
      | Ok (g', _) => until_loop ps fuel' max_total g'
      | Abort => Abort
      | Ub => Ub
      end
    end
  end.
Definition remove_until (ps : nat -> list point -> list point) (max_total : Z) (g : grid) : result grid :=
  if negb (0 <? max_total) then Abort else until_loop ps (Z.to_nat (num_points g)) max_total g.

(** Histories. *)
Inductive op :=
| OReset
| OAdd (p : point)
| OAddCell (p : point) (m : nat)
| OAddNear (p : point) (d : Z) (order : list entry -> list entry)
| OSetWeight (x : Z)
| ORemoveOverfull (m : nat) (ps : nat -> list point -> list point)
| ORemoveUntil (n : Z) (ps : nat -> list point -> list point).

Definition step (c : config) (g : grid) (o : op) : result grid :=
  match o with
  | OReset => Ok (reset g)
  | OAdd p => add_unconditional c p g
  | OAddCell p m => match add_cell c p m g with Ok (g', _) => Ok g' | Abort => Abort | Ub => Ub end
  | OAddNear p d order => add_near c p d order g
  | OSetWeight x => Ok (set_constant_weight x g)
  | ORemoveOverfull m ps => match remove_overfull_all ps m g with Ok (g', _) => Ok g' | Abort => Abort | Ub => Ub end
  | ORemoveUntil n ps => remove_until ps n g
  end.
Fixpoint run (c : config) (g : grid) (os : list op) : result grid :=
  match os with
  | [] => Ok g
  | o :: os' => match step c g o with Ok g' => run c g' os' | Abort => Abort | Ub => Ub end
  end.
