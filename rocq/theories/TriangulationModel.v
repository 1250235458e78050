(** Model of the triangulation functions.

    Source: aslam_cv_triangulation/src/triangulation.cc ("tr").

    Simplifications: doubles are real numbers. Rotations are 3x3 matrices; that they are orthogonal is a hypothesis where it matters.
    Eigen::ColPivHouseholderQR is modelled in exact arithmetic: in every step the column with the largest remaining norm becomes the next
    pivot and its direction is removed from the other columns; the rank is the number of pivots above threshold times the largest pivot
    (the documented meaning of setThreshold), solve computes with all non-zero pivots, independently of the threshold. A long vector (3
    entries per view) is the list of its blocks.
    Divisions by zero in the bearing-vector variant (zero bearing vector) and inside the Gauss-Newton iteration are not modelled. *)
From Coq Require Import Reals ZArith List Bool Arith.
From Verif Require Import StlHelpersModel.
Import ListNotations.
Local Open Scope R_scope.

Definition vec3 : Type := R * R * R.
Definition zero3 : vec3 := (0, 0, 0).
Definition add3 (a b : vec3) : vec3 := let '(x, y, z) := a in let '(u, v, w) := b in (x + u, y + v, z + w).
Definition scale3 (k : R) (a : vec3) : vec3 := let '(x, y, z) := a in (k * x, k * y, k * z).
Definition sub3 (a b : vec3) : vec3 := add3 a (scale3 (-1) b).
Definition dot3 (a b : vec3) : R := let '(x, y, z) := a in let '(u, v, w) := b in x * u + y * v + z * w.
(** 3x3 matrices by rows. *)
Definition mat3 : Type := vec3 * vec3 * vec3.
Definition apply3 (m : mat3) (v : vec3) : vec3 := let '(a, b, c) := m in (dot3 a v, dot3 b v, dot3 c v).
Definition identity3 : mat3 := ((1, 0, 0), (0, 1, 0), (0, 0, 1)).
Definition transpose3 (m : mat3) : mat3 :=
  let '((a, b, c), (d, e, f), (g, h, i)) := m in ((a, d, g), (b, e, h), (c, f, i)).
Definition column3 (m : mat3) (j : nat) : vec3 :=
  match transpose3 m, j with (a, _, _), 0%nat => a | (_, b, _), 1%nat => b | (_, _, c), _ => c end.
Definition mul3 (m n : mat3) : mat3 := transpose3 (apply3 m (column3 n 0), apply3 m (column3 n 1), apply3 m (column3 n 2)).
(** Rigid transformations. *)
Record transformation := { rotation : mat3; position : vec3 }.
Definition transform (t : transformation) (p : vec3) : vec3 := add3 (apply3 (rotation t) p) (position t).
Definition inverse (t : transformation) : transformation :=
  {| rotation := transpose3 (rotation t); position := scale3 (-1) (apply3 (transpose3 (rotation t)) (position t)) |}.
Definition compose (s t : transformation) : transformation :=
  {| rotation := mul3 (rotation s) (rotation t); position := transform s (position t) |}.

(** ** The QR decomposition *)
Notation long := (list vec3).
Fixpoint dot (a b : long) : R := match a, b with x :: a', y :: b' => dot3 x y + dot a' b' | _, _ => 0 end.
Definition scale_long (k : R) (a : long) : long := map (scale3 k) a.
Fixpoint add_long (a b : long) : long := match a, b with x :: a', y :: b' => add3 x y :: add_long a' b' | _, _ => [] end.
Definition norm (a : long) : R := sqrt (dot a a).
(** The part of [c] orthogonal to [q]. *)
Definition remove (q c : long) : long := add_long c (scale_long (- (dot c q / dot q q)) q).
(** A column with its number. *)
Notation column := (nat * list vec3)%type.
(** The first column of maximal norm, and the others. *)
Fixpoint select (best : column) (seen rest : list column) : column * list column :=
  match rest with
  | [] => (best, rev seen)
  | c :: rest' => if Rlt_dec (norm (snd best)) (norm (snd c)) then select c (best :: seen) rest' else select best (c :: seen) rest'
  end.
Definition reduce (q : long) (cs : list column) : list column := map (fun c => (fst c, remove q (snd c))) cs.
(** The absolute values of the diagonal of R. *)
Fixpoint pivots (fuel : nat) (cs : list column) : list R :=
  match fuel, cs with
  | S f, c :: cs' => let '(q, rest) := select c [] cs' in norm (snd q) :: pivots f (reduce (snd q) rest)
  | _, _ => []
  end.
Definition rank (threshold : R) (cs : list column) : nat :=
  let ps := pivots (length cs) cs in
  let largest := fold_right Rmax 0 ps in
  length (filter (fun p => if Rlt_dec (threshold * largest) p then true else false) ps).
(** The coefficients by column number. *)
Fixpoint solve (fuel : nat) (cs : list column) (b : long) : list (nat * R) :=
  match fuel, cs with
  | S f, c :: cs' =>
      let '(q, rest) := select c [] cs' in
      let xs := solve f (reduce (snd q) rest) (remove (snd q) b) in
      let others := fold_right (fun c s => match find (fun x => fst x =? fst c)%nat xs with Some x => snd x * dot (snd c) (snd q) + s | None => s end) 0 rest in
      (fst q, (dot b (snd q) - others) / dot (snd q) (snd q)) :: xs
  | _, _ => []
  end.
Definition coefficient (xs : list (nat * R)) (i : nat) : R := match find (fun x => fst x =? i)%nat xs with Some x => snd x | None => 0 end.
(** qr.solve(b).head<3>(). *)
Definition solve_head3 (cs : list column) (b : long) : vec3 :=
  let xs := solve (length cs) cs b in (coefficient xs 0, coefficient xs 1, coefficient xs 2).

(** ** Triangulation from normalised measurements *)
Inductive status := Successful | TooFewMeasurements | Unobservable.
(** Result and output argument ([None]: not written). *)
Definition answer : Type := status * option vec3.
Definition unit3 (j : nat) : vec3 := match j with 0%nat => (1, 0, 0) | 1%nat => (0, 1, 0) | _ => (0, 0, 1) end.
(** The columns of A: three stacks of identity columns, and for view i the negative ray in block i, tr 31-45. *)
Fixpoint place (n i : nat) (v : vec3) : long :=
  match n with O => [] | S n' => match i with O => v :: repeat zero3 n' | S i' => zero3 :: place n' i' v end end.
Definition system (rays : list vec3) : list column :=
  let n := length rays in
  map (fun j => (j, repeat (unit3 j) n)) [0; 1; 2]%nat ++
  map (fun i => ((3 + i)%nat, place n i (scale3 (-1) (nth i rays zero3)))) (seq 0 n).
(** (rank - n) < 3 in unsigned 64-bit arithmetic, tr 52 and 146. *)
Definition rank_check (rank n : nat) : bool := ((Z.of_nat rank - Z.of_nat n) mod 2 ^ 64 <? 3)%Z.
Definition rank_loss_tolerance : R := 1 / 1000.
(** The common part of tr 47-58 and tr 142-151. *)
Definition triangulate_rays (rays centres : list vec3) : answer :=
  let A := system rays in
  if rank_check (rank rank_loss_tolerance A) (length rays) then (Unobservable, None)
  else (Successful, Some (solve_head3 A centres)).
(** linearTriangulateFromNViews, tr 17-59. *)
Definition ray_of (T_G_B T_B_C : transformation) (m : R * R) : vec3 :=
  apply3 (rotation T_G_B) (apply3 (rotation T_B_C) (fst m, snd m, 1)).
Definition centre_of (T_G_B T_B_C : transformation) : vec3 := add3 (position T_G_B) (apply3 (rotation T_G_B) (position T_B_C)).
Definition linear_triangulate (ms : list (R * R)) (T_G_Bs : list transformation) (T_B_C : transformation) : result answer :=
  if negb (length ms =? length T_G_Bs)%nat then Abort
  else if (length ms <? 2)%nat then Ok (TooFewMeasurements, None)
  else Ok (triangulate_rays (map (fun x => ray_of (snd x) T_B_C (fst x)) (combine ms T_G_Bs)) (map (fun T => centre_of T T_B_C) T_G_Bs)).
(** linearTriangulateFromNViewsMultiCam, tr 110-152. *)
Fixpoint multi_cam_views (ms : list (R * R)) (cams : list nat) (T_G_Bs T_B_Cs : list transformation) : result (list (vec3 * vec3)) :=
  match ms, cams, T_G_Bs with
  | m :: ms', k :: cams', T :: Ts' =>
      match nth_error T_B_Cs k with
      | None => Abort
      | Some T_B_C =>
          match multi_cam_views ms' cams' Ts' T_B_Cs with
          | Ok l => Ok ((ray_of T T_B_C m, transform T (position T_B_C)) :: l)
          | Abort => Abort | Ub => Ub
          end
      end
  | _, _, _ => Ok []
  end.
Definition multi_cam_triangulate (ms : list (R * R)) (cams : list nat) (T_G_Bs T_B_Cs : list transformation) : result answer :=
  if negb (length ms =? length T_G_Bs)%nat || negb (length ms =? length cams)%nat then Abort
  else if (length ms <? 2)%nat then Ok (TooFewMeasurements, None)
  else match multi_cam_views ms cams T_G_Bs T_B_Cs with
       | Ok l => Ok (triangulate_rays (map fst l) (map snd l))
       | Abort => Abort | Ub => Ub
       end.

(** ** Triangulation from bearing vectors *)
Definition sum3 (l : list vec3) : vec3 := fold_right add3 zero3 l.
(** Column j of AxtAx = n I - sum (v v^T / v.v), tr 91-94. *)
Definition normal_column (vs : list vec3) (j : nat) : vec3 :=
  sub3 (scale3 (INR (length vs)) (unit3 j)) (sum3 (map (fun v => scale3 (dot3 v (unit3 j) / dot3 v v) v) vs)).
(** Axtbx, tr 95-96. *)
Definition normal_rhs (vs ps : list vec3) : vec3 :=
  sub3 (sum3 ps) (sum3 (map (fun x => scale3 (dot3 (fst x) (snd x) / dot3 (fst x) (fst x)) (fst x)) (combine vs ps))).
Definition normal_system (vs : list vec3) : list column := map (fun j => (j, [normal_column vs j])) [0; 1; 2]%nat.
Definition bearing_tolerance : R := / 10 ^ 5.
(** linearTriangulateFromNViews for bearing vectors, tr 61-108. The columns of the two matrices; with different numbers of columns
    the products in tr 96 are out of bounds. *)
Definition bearing_triangulate (vs ps : list vec3) : result answer :=
  if (length vs <? 2)%nat then Ok (TooFewMeasurements, None)
  else if negb (length vs =? length ps)%nat then Ub
  else
    let A := normal_system vs in
    if (rank bearing_tolerance A <? 3)%nat then Ok (Unobservable, None)
    else Ok (Successful, Some (solve_head3 A [normal_rhs vs ps])).

(** ** Feature tracks *)
(** An observation of a track: T_C_B of its camera and the back-projected ray. *)
Record track_observation := { obs_T_C_B : transformation; obs_ray : vec3 }.
(** triangulateFeatureTrack, tr 264-311. Rays with third component 0 give infinite coordinates, which is not modelled. *)
Definition triangulate_track (track : list track_observation) (T_W_Bs : list transformation) : result answer :=
  if negb (1 <? length track)%nat || negb (length track =? length T_W_Bs)%nat then Abort
  else match track with
       | first :: _ =>
           linear_triangulate (map (fun o => let '(x, y, z) := obs_ray o in (x / z, y / z)) track) T_W_Bs (inverse (obs_T_C_B first))
       | [] => Abort
       end.
(** fastTriangulateFeatureTrack, tr 313-361. [index] (tr 334) is never incremented, so only column 0 of the two matrices is written; the
    entries of the other columns are [None]: uninitialised. *)
Fixpoint write_column {A} (l : list (option A)) (i : nat) (x : A) : list (option A) :=
  match l, i with _ :: l', O => Some x :: l' | y :: l', S i' => y :: write_column l' i' x | [], _ => [] end.
Fixpoint fast_loop (index : nat) (track : list track_observation) (T_W_Bs : list transformation) (cols : list (option (vec3 * vec3))) : result (list (option (vec3 * vec3))) :=
  match track with
  | [] => Ok cols
  | o :: track' =>
      match nth_error T_W_Bs index with
      | None => Ub
      | Some T_W_B =>
          let T_W_C := compose T_W_B (inverse (obs_T_C_B o)) in
          fast_loop index track' T_W_Bs (write_column cols index (apply3 (rotation T_W_C) (obs_ray o), position T_W_C))
      end
  end.
Fixpoint all_written {A} (l : list (option A)) : option (list A) :=
  match l with
  | [] => Some []
  | Some x :: l' => match all_written l' with Some r => Some (x :: r) | None => None end
  | None :: _ => None
  end.
Definition fast_triangulate_track (track : list track_observation) (T_W_Bs : list transformation) : result answer :=
  if negb (1 <? length track)%nat || negb (length track =? length T_W_Bs)%nat then Abort
  else match fast_loop 0 track T_W_Bs (repeat None (length track)) with
       | Ok cols =>
           match all_written cols with
           | Some l => bearing_triangulate (map fst l) (map snd l)
           | None => Ub
           end
       | Abort => Abort | Ub => Ub
       end.

(** ** Gauss-Newton *)
(** The constants of a view, tr 190-198: R_Ci_Cn and p_Ci_Cn. [anchor] is the vector called p_G_Cn (tr 185): the position of T_Cn_G. *)
Definition first_camera (T_G_B T_B_C : transformation) : transformation := compose (inverse T_B_C) (inverse T_G_B).
Definition anchor (T_G_B0 T_B_C : transformation) : vec3 := position (first_camera T_G_B0 T_B_C).
Definition view_constants (T_G_B0 T_B_C T_G_B : transformation) : mat3 * vec3 :=
  let T_Ci_G := first_camera T_G_B T_B_C in
  let R_Ci_G := rotation T_Ci_G in
  let p_G_Ci := position (inverse T_Ci_G) in
  (mul3 R_Ci_G (transpose3 (rotation (first_camera T_G_B0 T_B_C))),
   sub3 (apply3 R_Ci_G (anchor T_G_B0 T_B_C)) (apply3 R_Ci_G p_G_Ci)).
(** The predicted point, tr 216-217. *)
Definition predicted (c : mat3 * vec3) (alpha beta rho : R) : vec3 := add3 (apply3 (fst c) (alpha, beta, 1)) (scale3 rho (snd c)).
(** Residual of a view, tr 219-222. *)
Definition residual (c : mat3 * vec3) (m : R * R) (alpha beta rho : R) : R * R :=
  let '(x, y, z) := predicted c alpha beta rho in (fst m - x / z, snd m - y / z).
(** The two Jacobian rows of a view, tr 225-242. *)
Definition residual_jacobian (c : mat3 * vec3) (alpha beta rho : R) : vec3 * vec3 :=
  let '(x, y, z) := predicted c alpha beta rho in
  let row0 := (-1 / z, 0, x / (z * z)) in
  let row1 := (0, -1 / z, y / (z * z)) in
  let ja := apply3 (fst c) (1, 0, 0) in
  let jb := apply3 (fst c) (0, 1, 0) in
  let jc := snd c in
  ((dot3 row0 ja, dot3 row0 jb, dot3 row0 jc), (dot3 row1 ja, dot3 row1 jb, dot3 row1 jc)).
(** The iteration, tr 200-256. [ldlt] is the solution of the normal equations (an input). *)
Record newton_state := { alpha : R; beta : R; rho : R; norm_last : R; norm_now : R }.
Definition newton_step (ldlt : list vec3 -> list R -> vec3) (cs : list (mat3 * vec3)) (ms : list (R * R)) (s : newton_state) : newton_state :=
  let rs := map (fun x => residual (fst x) (snd x) (alpha s) (beta s) (rho s)) (combine cs ms) in
  let residuals := flat_map (fun r => [fst r; snd r]) rs in
  let jacobian := flat_map (fun c => let '(r0, r1) := residual_jacobian c (alpha s) (beta s) (rho s) in [r0; r1]) cs in
  let '(da, db, dr) := ldlt jacobian residuals in
  {| alpha := alpha s - da; beta := beta s - db; rho := rho s - dr;
     norm_last := norm_now s; norm_now := fold_right (fun r n => r * r + n) 0 residuals |}.
Fixpoint newton_loop (fuel : nat) (ldlt : list vec3 -> list R -> vec3) (cs : list (mat3 * vec3)) (ms : list (R * R)) (s : newton_state) : newton_state :=
  match fuel with
  | O => s
  | S f => if Rlt_dec (/ 10 ^ 5) (norm_last s - norm_now s) then newton_loop f ldlt cs ms (newton_step ldlt cs ms s) else s
  end.
(** The output, tr 259-260; [None]: rho is 0, the coordinates are not finite. *)
Definition newton_point (T_G_B0 T_B_C : transformation) (s : newton_state) : option vec3 :=
  if Req_EM_T (rho s) 0 then None
  else Some (add3 (scale3 (1 / rho s) (apply3 (transpose3 (rotation (first_camera T_G_B0 T_B_C))) (alpha s, beta s, 1))) (anchor T_G_B0 T_B_C)).
(** iterativeGaussNewtonTriangulateFromNViews, tr 158-262. *)
Definition newton_triangulate (ldlt : list vec3 -> list R -> vec3) (ms : list (R * R)) (T_G_Bs : list transformation) (T_B_C : transformation) : result answer :=
  if negb (length ms =? length T_G_Bs)%nat then Abort
  else if (length ms <? 2)%nat then Ok (TooFewMeasurements, None)
  else match T_G_Bs with
       | [] => Ub
       | T0 :: _ =>
           let cs := map (view_constants T0 T_B_C) T_G_Bs in
           let s := newton_loop 10 ldlt cs ms {| alpha := 0; beta := 0; rho := 0; norm_last := 1000; norm_now := 100 |} in
           Ok (Successful, newton_point T0 T_B_C s)
       end.
