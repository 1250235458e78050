(** Model of the calibration targets: the april grid, its detector and the observations.

    Source: aslam_cv_calibration/src/target-aprilgrid.cc ("ag"), aslam_cv_calibration/src/target-base.cc ("tb"),
            aslam_cv_calibration/include/aslam/calibration/target-base.h ("tbh"),
            aslam_cv_calibration/include/aslam/calibration/target-observation.h ("to").

    Simplifications: doubles and floats are real numbers. size_t is unbounded; the 32-bit arithmetic on the corner indices is
    modelled. The tag detector (ag 102) is the list of its detections, cv::cornerSubPix (ag 208) is the function that gives
    the refined position of every entry of the corner list. The image shown for duplicate tags is left out. *)
From Coq Require Import Reals ZArith List Bool Arith.
From Verif Require Import StlHelpersModel.
Import ListNotations.
Local Open Scope nat_scope.

Definition point3 : Type := R * R * R.
Definition point2 : Type := R * R.

(** ** The target *)
Record configuration := { tag_rows : nat; tag_cols : nat; tag_size : R; tag_space : R }.
(** Loop body, ag 76-81. *)
Definition grid_point (c : configuration) (row col : nat) : point3 :=
  (INR (col / 2) * (tag_size c + tag_space c) + INR (col mod 2) * tag_size c,
   INR (row / 2) * (tag_size c + tag_space c) + INR (row mod 2) * tag_size c, 0)%R.
(** createAprilGridPoints, ag 55-87: the columns of the matrix. *)
Definition april_grid_points (c : configuration) : list point3 :=
  flat_map (fun row => map (grid_point c row) (seq 0 (2 * tag_cols c))) (seq 0 (2 * tag_rows c)).
Record target := { rows : nat; cols : nat; points : list point3 }.
(** tbh 52. *)
Definition size (t : target) : nat := rows t * cols t.
(** The constructors, ag 46-53 and tb 12-18. *)
Definition make_target (c : configuration) : result target :=
  if Rlt_dec 0 (tag_size c) then if Rlt_dec 0 (tag_space c) then
    let t := {| rows := 2 * tag_rows c; cols := 2 * tag_cols c; points := april_grid_points c |} in
    if (0 <? rows t) && (0 <? cols t) && (size t =? length (points t)) then Ok t else Abort
  else Abort else Abort.
(** point, tb 24-27. *)
Definition target_point (t : target) (i : nat) : result point3 :=
  if i <? size t then match nth_error (points t) i with Some p => Ok p | None => Ub end else Abort.
(** pointToGridCoordinates, tb 29-33. *)
Definition point_to_grid (t : target) (i : nat) : nat * nat := (i mod cols t, i / cols t).
(** gridCoordinatesToPoint, tb 35-42. *)
Definition grid_to_point (t : target) (row col : nat) : result nat :=
  if (row <? rows t) && (col <? cols t) then
    let i := cols t * row + col in if i <? size t then Ok i else Abort
  else Abort.
(** gridPoint, tb 44-46. *)
Definition target_grid_point (t : target) (row col : nat) : result point3 :=
  match grid_to_point t row col with
  | Ok i => match nth_error (points t) i with Some p => Ok p | None => Ub end
  | Abort => Abort | Ub => Ub
  end.
(** width and height, tb 53-65. *)
Definition target_width (t : target) : result R :=
  match target_grid_point t 0 (cols t - 1), target_grid_point t 0 0 with
  | Ok (x1, _, _), Ok (x0, _, _) => Ok (Rabs (x1 - x0))
  | Ub, _ | _, Ub => Ub | _, _ => Abort
  end.
Definition target_height (t : target) : result R :=
  match target_grid_point t (rows t - 1) 0, target_grid_point t 0 0 with
  | Ok (_, y1, _), Ok (_, y0, _) => Ok (Rabs (y1 - y0))
  | Ub, _ | _, Ub => Ub | _, _ => Abort
  end.

(** ** The detector *)
Record detection := { id : Z; good : bool; corner : nat -> point2 }.
Record detector := { refine_corners : bool; max_displacement_sq : R; min_tags : nat; min_border : R }.
(** A corner is inside the image border, ag 110-117. *)
Definition corner_inside (k : detector) (width height : R) (p : point2) : bool :=
  if Rlt_dec (fst p) (min_border k) then false
  else if Rlt_dec (width - min_border k) (fst p) then false
  else if Rlt_dec (snd p) (min_border k) then false
  else if Rlt_dec (height - min_border k) (snd p) then false else true.
(** The detection stays in the list, ag 104-140; [n] is the size of the target. *)
Definition keep (k : detector) (n : nat) (width height : R) (d : detection) : bool :=
  forallb (fun i => corner_inside k width height (corner d i)) (seq 0 4) && good d && negb (Z.of_nat (n / 4) <=? id d)%Z.
(** Sorting by id, ag 149. For equal ids the order is not specified, but then the result does not depend on it (ag 152-181). *)
Fixpoint insert (d : detection) (l : list detection) : list detection :=
  match l with [] => [d] | e :: l' => if (id d <=? id e)%Z then d :: l else e :: insert d l' end.
Definition sort (l : list detection) : list detection := fold_right insert [] l.
(** Neighbours with the same id, ag 152-181. *)
Fixpoint duplicates (l : list detection) : bool :=
  match l with d :: ((e :: _) as l') => (id d =? id e)%Z || duplicates l' | _ => false end.
(** The four indices of a tag, ag 226-235: unsigned int arithmetic, stored in a vector of int (ag 249). *)
Definition to_u32 (z : Z) : Z := (z mod 2 ^ 32)%Z.
Definition to_i32 (z : Z) : Z := (if z mod 2 ^ 32 <? 2 ^ 31 then z mod 2 ^ 32 else z mod 2 ^ 32 - 2 ^ 32)%Z.
Definition corner_index (columns : nat) (tag : Z) (k : nat) : Z :=
  let tag_id := to_u32 tag in
  let c := Z.of_nat columns in
  let base := to_u32 (tag_id * 2 + tag_id / (c / 2) * c)%Z in
  to_i32 match k with 0 => base | 1 => to_u32 (base + 1) | 2 => to_u32 (base + to_u32 (c + 1)) | _ => to_u32 (base + to_u32 c) end.
(** One observation: corner id and image position. *)
Definition corner_observation : Type := Z * point2.
Definition distance_sq (p q : point2) : R := ((fst p - fst q) * (fst p - fst q) + (snd p - snd q) * (snd p - snd q))%R.
(** Corner [j] of the detection at position [i], ag 238-253; writing behind the end of the arrays of [n] entries (ag 221-222) is undefined. *)
Definition add_corner (k : detector) (refine : nat -> point2 -> point2) (n columns i : nat) (d : detection) (j : nat) (obs : list corner_observation) : result (list corner_observation) :=
  let raw := corner d j in
  let refined := if refine_corners k then refine (4 * i + j) raw else raw in
  if Rle_dec (distance_sq refined raw) (max_displacement_sq k) then
    if length obs <? n then Ok (obs ++ [(corner_index columns (id d) j, refined)]) else Ub
  else Ok obs.
Fixpoint add_corners (k : detector) (refine : nat -> point2 -> point2) (n columns i : nat) (d : detection) (js : list nat) (obs : list corner_observation) : result (list corner_observation) :=
  match js with
  | [] => Ok obs
  | j :: js' => match add_corner k refine n columns i d j obs with Ok obs' => add_corners k refine n columns i d js' obs' | Abort => Abort | Ub => Ub end
  end.
(** The loop over the tags, ag 225-254. *)
Fixpoint add_tags (k : detector) (refine : nat -> point2 -> point2) (n columns i : nat) (ds : list detection) (obs : list corner_observation) : result (list corner_observation) :=
  match ds with
  | [] => Ok obs
  | d :: ds' => match add_corners k refine n columns i d (seq 0 4) obs with Ok obs' => add_tags k refine n columns (S i) ds' obs' | Abort => Abort | Ub => Ub end
  end.
(** detectTargetInImage, ag 100-260; [None]: nullptr. *)
Definition detect (t : target) (k : detector) (width height : R) (refine : nat -> point2 -> point2) (ds : list detection) : result (option (list corner_observation)) :=
  let kept := filter (keep k (size t) width height) ds in
  if length kept <? min_tags k then Ok None
  else
    let sorted := sort kept in
    if duplicates sorted then Ok None
    else match add_tags k refine (size t) (cols t) 0 sorted [] with Ok obs => Ok (Some obs) | Abort => Abort | Ub => Ub end.

(** ** The observation *)
(** observedCornerId, to 53-56; the map has an entry exactly for the ids in the list (to 116-121). *)
Definition observed_corner_id (t : target) (obs : list corner_observation) (c : nat) : result bool :=
  if c <? size t then Ok (existsb (fun o => (fst o =? Z.of_nat c)%Z) obs) else Abort.
(** getObservedCornerById, to 80-90. *)
Definition corner_by_id (obs : list corner_observation) (c : Z) : result (option point2) :=
  if (c <? Z.of_nat (length obs))%Z then Ok (option_map snd (find (fun o => (c =? fst o)%Z) obs)) else Abort.
(** allCornersObservered, to 58-61. *)
Definition all_observed (t : target) (obs : list corner_observation) : bool := size t =? length obs.
(** getCorrespondingTargetPoints, to 107-113; the int becomes a size_t. *)
Fixpoint corresponding_points (t : target) (obs : list corner_observation) : result (list point3) :=
  match obs with
  | [] => Ok []
  | (c, _) :: obs' =>
      match (if (0 <=? c)%Z then target_point t (Z.to_nat c) else Abort), corresponding_points t obs' with
      | Ok p, Ok l => Ok (p :: l)
      | Ub, _ => Ub | Abort, _ => Abort | _, Ub => Ub | _, Abort => Abort
      end
  end.
