(** Model of the regions of the line segment detector and of their rectangles.

    Source: aslam_cv_detector/src/lsd/lsd-opencv.cc ("lsd") 91-133, 547-644, 745-979, 1246-1262.

    Real numbers instead of doubles and floats; cv::fastAtan2 is exact. A pixel is (x, y); the addresses x + y * img_width of different pixels differ. NOTDEF is [None]. The vector reg with reg_size is the list of its first reg_size points, its angles and gradients are those of the pixels. double_equal(z, 0) holds exactly for 0 (the code also takes some numbers below 1e-321 for 0). The rest of the third level of refinement (LSD_REFINE_ADV, lsd 608-613) is not modelled here; the detector of the library uses LSD_REFINE_STD. *)
From Coq Require Import ZArith Reals List Bool.
Import ListNotations.
From Verif Require Import OrientModel LsdOrderModel.
Local Open Scope R_scope.

(** [Throw]: CV_Assert fails; [Fuel]: a loop has not ended after the given number of rounds. *)
Inductive outcome (A : Type) := Ok (a : A) | Throw | Fuel.
Arguments Ok {A} a.
Arguments Throw {A}.
Arguments Fuel {A}.
Definition bind {A B} (o : outcome A) (f : A -> outcome B) : outcome B := match o with Ok a => f a | Throw => Throw | Fuel => Fuel end.

Definition pixel : Type := (Z * Z)%type.
Definition same (p q : pixel) : bool := (fst p =? fst q)%Z && (snd p =? snd q)%Z.
Definition mark (used : pixel -> bool) (p : pixel) (b : bool) : pixel -> bool := fun q => if same q p then b else used q.
(** from a to b. *)
Definition between (a b : Z) : list Z := map (fun k => a + Z.of_nat k)%Z (seq 0 (Z.to_nat (b - a + 1))).

(** distSq and dist, lsd 91-101. *)
Definition dist_sq (x1 y1 x2 y2 : R) : R := (x2 - x1) * (x2 - x1) + (y2 - y1) * (y2 - y1).
Definition dist (x1 y1 x2 y2 : R) : R := sqrt (dist_sq x1 y1 x2 y2).
(** The two loops of angle_diff_signed, lsd 104-110, with at most [n] rounds, and angle_diff, lsd 113-116. *)
Fixpoint wrap_up (n : nat) (d : R) : R := match n with O => d | S n => if Rle_dec d (- PI) then wrap_up n (d + 2 * PI) else d end.
Fixpoint wrap_down (n : nat) (d : R) : R := match n with O => d | S n => if Rlt_dec PI d then wrap_down n (d - 2 * PI) else d end.
Definition angle_diff_signed (a b : R) : R := wrap_down 2 (wrap_up 2 (a - b)).
Definition angle_diff (a b : R) : R := Rabs (angle_diff_signed a b).

(** isAligned for an address that is not negative, lsd 1249-1261. *)
Definition is_aligned (theta prec : R) (a : option R) : bool :=
  match a with
  | None => false
  | Some a =>
      let n_theta := theta - a in
      let n_theta := if Rlt_dec n_theta 0 then - n_theta else n_theta in
      let n_theta := if Rlt_dec (3 * PI / 2) n_theta then let n_theta := n_theta - 2 * PI in if Rlt_dec n_theta 0 then - n_theta else n_theta else n_theta in
      if Rle_dec n_theta prec then true else false
  end.

(** struct rect without prec and p, which are those of the call. *)
Record rect := Rect { x1 : R; y1 : R; x2 : R; y2 : R; width : R; cx : R; cy : R; theta : R; rdx : R; rdy : R }.

Section Region.
Variables (w h : Z) (ang : pixel -> option R) (grad : pixel -> R).

(** The state of region_grow: the map used, reg and reg_size, sumdx, sumdy and reg_angle. *)
Record growth := Growth { used : pixel -> bool; reg : list pixel; sumdx : R; sumdy : R; reg_angle : R }.
(** lsd 766-771. *)
Definition neighbours (p : pixel) : list pixel :=
  let '(x, y) := p in
  flat_map (fun yy => map (fun xx => (xx, yy)) (between (Z.max (x - 1) 0) (Z.min (x + 1) (w - 1)))) (between (Z.max (y - 1) 0) (Z.min (y + 1) (h - 1))).
(** lsd 773-792. *)
Definition try_point (prec : R) (st : growth) (q : pixel) : growth :=
  let 'Growth used reg sumdx sumdy reg_angle := st in
  if negb (used q) && is_aligned reg_angle prec (ang q) then
    match ang q with
    | Some a => Growth (mark used q true) (reg ++ [q]) (sumdx + cos a) (sumdy + sin a) (fast_atan2 (sumdy + sin a) (sumdx + cos a))
    | None => st
    end
  else st.
(** The loop over the points of the region, lsd 763-795. *)
Fixpoint grow_from (fuel : nat) (prec : R) (i : nat) (st : growth) : outcome growth :=
  match nth_error (reg st) i with
  | None => Ok st
  | Some p => match fuel with
              | O => Fuel
              | S fuel => grow_from fuel prec (S i) (fold_left (try_point prec) (neighbours p) st)
              end
  end.
(** region_grow from a pixel with an angle, lsd 748-796. *)
Definition region_grow (used : pixel -> bool) (s : pixel) (prec : R) : outcome growth :=
  match ang s with
  | None => Throw
  | Some a => grow_from (Z.to_nat (w * h)) prec 0 (Growth (mark used s true) [s] (cos a) (sin a) a)
  end.

(** The weighted sums x, y and sum, lsd 801-809. *)
Definition sums (reg : list pixel) : R * R * R := fold_left (fun '(x, y, sum) p => (x + IZR (fst p) * grad p, y + IZR (snd p) * grad p, sum + grad p)) reg (0, 0, 0).
(** Ixx, Iyy and Ixy, lsd 859-874. *)
Definition inertia (reg : list pixel) (x y : R) : R * R * R :=
  fold_left (fun '(Ixx, Iyy, Ixy) p =>
    let weight := grad p in
    let dx := IZR (fst p) - x in
    let dy := IZR (snd p) - y in
    (Ixx + dy * dy * weight, Iyy + dx * dx * weight, Ixy - dx * dy * weight)) reg (0, 0, 0).
(** get_theta, lsd 856-892. *)
Definition get_theta (reg : list pixel) (x y reg_angle prec : R) : outcome R :=
  let '(Ixx, Iyy, Ixy) := inertia reg x y in
  let zero r := if Req_EM_T r 0 then true else false in
  if zero Ixx && zero Iyy && zero Ixy then Throw
  else
    let lambda := / 2 * (Ixx + Iyy - sqrt ((Ixx - Iyy) * (Ixx - Iyy) + 4 * Ixy * Ixy)) in
    let theta := if Rlt_dec (Rabs Iyy) (Rabs Ixx) then fast_atan2 (lambda - Ixx) Ixy else fast_atan2 Ixy (lambda - Iyy) in
    Ok (if Rlt_dec prec (angle_diff theta reg_angle) then theta + PI else theta).
(** l and w of a point, lsd 826-830, and the extent l_min, l_max, w_min, w_max, lsd 822-836. *)
Definition along (x y dx dy : R) (p : pixel) : R := (IZR (fst p) - x) * dx + (IZR (snd p) - y) * dy.
Definition across (x y dx dy : R) (p : pixel) : R := - (IZR (fst p) - x) * dy + (IZR (snd p) - y) * dx.
Definition widen (e : R * R) (v : R) : R * R := let '(low, high) := e in if Rlt_dec high v then (low, v) else if Rlt_dec v low then (v, high) else (low, high).
Definition extent (f : pixel -> R) (reg : list pixel) : R * R := fold_left (fun e p => widen e (f p)) reg (0, 0).
(** region2rect, lsd 798-854. *)
Definition region2rect (reg : list pixel) (reg_angle prec : R) : outcome rect :=
  let '(x, y, sum) := sums reg in
  if Rlt_dec 0 sum then
    let x := x / sum in
    let y := y / sum in
    bind (get_theta reg x y reg_angle prec) (fun theta =>
    let dx := cos theta in
    let dy := sin theta in
    let '(l_min, l_max) := extent (along x y dx dy) reg in
    let '(w_min, w_max) := extent (across x y dx dy) reg in
    let width := w_max - w_min in
    Ok (Rect (x + l_min * dx) (y + l_min * dy) (x + l_max * dx) (y + l_max * dy) (if Rlt_dec width 1 then 1 else width) x y theta dx dy))
  else Throw.

(** density < density_th for a region of n points, lsd 897-899, 930-932, 952 and 974: a density with the divisor 0 is infinite. *)
Definition low_density (rec : rect) (n : nat) (density_th : R) : bool :=
  let area := dist (x1 rec) (y1 rec) (x2 rec) (y2 rec) * width rec in
  if Req_EM_T area 0 then false else if Rlt_dec (INR n / area) density_th then true else false.
(** The loop that removes points, lsd 956-966: the last point takes the place of a point removed, which is tried again. *)
Fixpoint set_nth (l : list pixel) (i : nat) (p : pixel) : list pixel :=
  match l, i with
  | [], _ => []
  | _ :: l, O => p :: l
  | q :: l, S i => q :: set_nth l i p
  end.
Fixpoint remove_far (fuel : nat) (xc yc rad_sq : R) (i : nat) (used : pixel -> bool) (reg : list pixel) : (pixel -> bool) * list pixel :=
  match fuel, nth_error reg i with
  | S fuel, Some p =>
      if Rlt_dec rad_sq (dist_sq xc yc (IZR (fst p)) (IZR (snd p))) then
        remove_far fuel xc yc rad_sq i (mark used p false) (removelast (set_nth reg i (last reg p)))
      else remove_far fuel xc yc rad_sq (S i) used reg
  | _, _ => (used, reg)
  end.
(** The loop of reduce_region_radius, lsd 952-978. *)
Fixpoint reduce (fuel : nat) (reg_angle prec density_th xc yc rad_sq : R) (used : pixel -> bool) (reg : list pixel) (rec : rect) : outcome ((pixel -> bool) * list pixel * rect * bool) :=
  if low_density rec (length reg) density_th then
    match fuel with
    | O => Fuel
    | S fuel =>
        let rad_sq := rad_sq * (75 / 100 * (75 / 100)) in
        let '(used, reg) := remove_far (length reg) xc yc rad_sq 0 used reg in
        if (length reg <? 2)%nat then Ok (used, reg, rec, false)
        else bind (region2rect reg reg_angle prec) (fun rec => reduce fuel reg_angle prec density_th xc yc rad_sq used reg rec)
    end
  else Ok (used, reg, rec, true).
Definition reduce_region_radius (fuel : nat) (reg_angle prec density_th : R) (used : pixel -> bool) (reg : list pixel) (rec : rect) : outcome ((pixel -> bool) * list pixel * rect * bool) :=
  let s := hd (0, 0)%Z reg in
  let xc := IZR (fst s) in
  let yc := IZR (snd s) in
  let rad_sq1 := dist_sq xc yc (x1 rec) (y1 rec) in
  let rad_sq2 := dist_sq xc yc (x2 rec) (y2 rec) in
  reduce fuel reg_angle prec density_th xc yc (if Rlt_dec rad_sq2 rad_sq1 then rad_sq1 else rad_sq2) used reg rec.
(** sum, s_sum and n, lsd 905-919, and tau, lsd 920-922. The angle of a point with none is not used. *)
Definition the_angle (p : pixel) : R := match ang p with Some a => a | None => 0 end.
Definition tolerance (reg : list pixel) (width : R) : R :=
  let s := hd (0, 0)%Z reg in
  let '(sum, s_sum, n) := fold_left (fun '(sum, s_sum, n) p =>
    if Rlt_dec (dist (IZR (fst s)) (IZR (snd s)) (IZR (fst p)) (IZR (snd p))) width then
      let ang_d := angle_diff_signed (the_angle p) (the_angle s) in (sum + ang_d, s_sum + ang_d * ang_d, n + 1)
    else (sum, s_sum, n)) reg (0, 0, 0) in
  let mean_angle := sum / n in
  2 * sqrt ((s_sum - 2 * mean_angle * sum) / n + mean_angle * mean_angle).
(** refine, lsd 894-940. *)
Definition refine (fuel : nat) (reg_angle prec density_th : R) (used : pixel -> bool) (reg : list pixel) (rec : rect) : outcome ((pixel -> bool) * list pixel * rect * bool) :=
  if low_density rec (length reg) density_th then
    let used := fold_left (fun u p => mark u p false) reg used in
    bind (region_grow used (hd (0, 0)%Z reg) (tolerance reg (width rec))) (fun '(Growth used reg _ _ reg_angle) =>
    if (length reg <? 2)%nat then Ok (used, reg, rec, false)
    else bind (region2rect reg reg_angle prec) (fun rec =>
      if low_density rec (length reg) density_th then reduce_region_radius fuel reg_angle prec density_th used reg rec
      else Ok (used, reg, rec, true)))
  else Ok (used, reg, rec, true).

(** One round of the loop of flsd, lsd 586-642: the map used, and the segments found with their regions. *)
Definition found : Type := (list pixel * rect)%type.
Definition try_seed (fuel : nat) (std : bool) (prec density_th : R) (min_reg_size : Z) (st : (pixel -> bool) * list found) (s : pixel) : outcome ((pixel -> bool) * list found) :=
  let '(used, lines) := st in
  match used s, ang s with
  | false, Some _ =>
      bind (region_grow used s prec) (fun '(Growth used reg _ _ reg_angle) =>
      if (Z.of_nat (length reg) <? min_reg_size)%Z then Ok (used, lines)
      else bind (region2rect reg reg_angle prec) (fun rec =>
        if std then bind (refine fuel reg_angle prec density_th used reg rec) (fun '(used, reg, rec, good) => Ok (used, if good : bool then lines ++ [(reg, rec)] else lines))
        else Ok (used, lines ++ [(reg, rec)])))
  | _, _ => Ok (used, lines)
  end.
Fixpoint try_seeds (fuel : nat) (std : bool) (prec density_th : R) (min_reg_size : Z) (st : (pixel -> bool) * list found) (l : list pixel) : outcome ((pixel -> bool) * list found) :=
  match l with
  | [] => Ok st
  | s :: l => bind (try_seed fuel std prec density_th min_reg_size st s) (fun st => try_seeds fuel std prec density_th min_reg_size st l)
  end.
End Region.

(** log10, LOG_NT and min_reg_size, lsd 575-576. *)
Definition log10 (r : R) : R := ln r / ln 10.
Definition log_nt (w h : Z) : R := 5 * (log10 (IZR w) + log10 (IZR h)) / 2 + log10 11.
Definition min_reg_size (w h : Z) (p : R) : Z := trunc (- log_nt w h / log10 p).
(** The coordinates stored, lsd 619-631. *)
Definition stored (scale : R) (v : R) : Z := trunc ((v + / 2) / scale).
Definition line_of (scale : R) (r : rect) : Z * Z * Z * Z := (stored scale (x1 r), stored scale (y1 r), stored scale (x2 r), stored scale (y2 r)).
(** flsd for the scaled image [data]; [fuel] bounds the rounds of reduce_region_radius. *)
Definition flsd_regions (fuel : nat) (std : bool) (w h : Z) (data : Z -> R) (quant ang_th density_th : R) (n_bins : nat) : outcome (list found) :=
  let prec := PI * ang_th / 180 in
  let p := ang_th / 180 in
  let rho := quant / sin prec in
  let ang q := angle w h data rho (fst q) (snd q) in
  bind (try_seeds w h ang (norm_at w data) fuel std prec density_th (min_reg_size w h p) (fun _ => false, []) (seeds w h data rho n_bins)) (fun '(_, lines) => Ok lines).
Definition flsd (fuel : nat) (std : bool) (w h : Z) (data : Z -> R) (scale quant ang_th density_th : R) (n_bins : nat) : outcome (list (Z * Z * Z * Z)) :=
  bind (flsd_regions fuel std w h data quant ang_th density_th n_bins) (fun lines => Ok (map (fun l => line_of scale (snd l)) lines)).
