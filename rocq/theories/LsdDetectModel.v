(** Model of the constructor and of detect of the line segment detector: the checks of the parameters and of the image, the three levels of refinement, and the values returned with the segments.

    Sources: aslam_cv_detector/src/lsd/lsd-opencv.cc ("lsd") 511-644; aslam_cv_detector/src/line-segment-detector.cc ("wrap") 12-16; aslam_cv_detector/include/lsd/lsd-opencv.h 57-91.

    Real numbers instead of doubles, unbounded integers instead of ints. The regions and their rectangles are those of [LsdRegionModel], rect_improve and the counts of rect_nfa those of [LsdImproveModel], nfa that of [LsdNfaModel]. GaussianBlur and resize are one function given from outside, which may throw. The members that hold intermediate results (angles, modgrad, used, the flags) are written by every call before they are read, so a call is a function of its arguments. *)
From Coq Require Import ZArith Reals List Bool.
Import ListNotations.
From Verif Require Import OrientModel LsdOrderModel LsdRegionModel LsdImproveModel LsdNfaModel.
Local Open Scope R_scope.

(** The parameters, lsd 523-525. *)
Record params := Params { p_refine : Z; p_scale : R; p_sigma : R; p_quant : R; p_ang_th : R; p_log_eps : R; p_density : R; p_bins : Z }.
Definition lt (a b : R) : bool := if Rlt_dec a b then true else false.
Definition le (a b : R) : bool := if Rle_dec a b then true else false.
(** The constructor, lsd 522-530. *)
Definition construct (p : params) : outcome params :=
  if lt 0 (p_scale p) && lt 0 (p_sigma p) && le 0 (p_quant p) && lt 0 (p_ang_th p) && lt (p_ang_th p) 180 && le 0 (p_density p) && lt (p_density p) 1 && (0 <? p_bins p)%Z
  then Ok p else Throw.
(** The parameters of aslam, wrap 14-15; LSD_REFINE_STD is 1. *)
Definition aslam_params : params := Params 1 (4 / 5) (3 / 5) 2 (33 / 2) 0 (13 / 20) 1024.

(** An image: rows and columns, channels, whether the elements are doubles, and the elements row by row with the channels of a pixel side by side. *)
Record mat := Mat { rows : Z; cols : Z; channels : Z; doubles : bool; element : Z -> R }.
(** Mat_<double> img = _image.getMat(), lsd 535: a matrix of doubles is shared and reshaped to one channel; others are converted, with the same channels. *)
Definition to_doubles (m : mat) : mat :=
  if doubles m then Mat (rows m) (cols m * channels m) 1 true (element m) else Mat (rows m) (cols m) (channels m) true (element m).
Definition empty (m : mat) : bool := ((rows m =? 0) || (cols m =? 0))%Z.

(** What is known of a segment at lsd 615: the rectangle with its tolerance, and log_nfa. *)
Record segment := Segment { s_box : box; s_theta : R; s_nfa : R }.
(** prec and p are those of the detector at this point, lsd 602, 608 and 849-850. *)
Definition box_of (prec p : R) (r : rect) : box := Box (x1 r) (y1 r) (x2 r) (y2 r) (width r) (rdx r) (rdy r) prec p.

Section Segments.
Variables (log_gamma : R -> R) (w h : Z) (ang : pixel -> option R) (grad : pixel -> R).
(** rect_nfa, lsd 1085-1206. *)
Definition rect_nfa (theta : R) (r : box) : R := nfa log_gamma (log_nt w h) (total_pts w h r) (alg_pts w h ang theta r) (bp r).
(** One round of the loop of flsd, lsd 586-614. *)
Definition round (fuel : nat) (level : Z) (log_eps prec p density_th : R) (min_reg_size : Z) (st : (pixel -> bool) * list segment) (s : pixel) : outcome ((pixel -> bool) * list segment) :=
  let '(used, segs) := st in
  match used s, ang s with
  | false, Some _ =>
      bind (region_grow w h ang used s prec) (fun '(Growth used reg _ _ reg_angle) =>
      if (Z.of_nat (length reg) <? min_reg_size)%Z then Ok (used, segs)
      else bind (region2rect grad reg reg_angle prec) (fun rec =>
        if (0 <? level)%Z then
          bind (refine w h ang grad fuel reg_angle prec density_th used reg rec) (fun '(used, reg, rec, good) =>
          if good : bool then
            if (2 <=? level)%Z then
              let '(b, log_nfa) := rect_improve (rect_nfa (theta rec)) log_eps (box_of prec p rec) in
              if le log_nfa log_eps then Ok (used, segs) else Ok (used, segs ++ [Segment b (theta rec) log_nfa])
            else Ok (used, segs ++ [Segment (box_of prec p rec) (theta rec) (-1)])
          else Ok (used, segs))
        else Ok (used, segs ++ [Segment (box_of prec p rec) (theta rec) (-1)])))
  | _, _ => Ok (used, segs)
  end.
(** The loop, lsd 585. *)
Fixpoint rounds (fuel : nat) (level : Z) (log_eps prec p density_th : R) (min_reg_size : Z) (st : (pixel -> bool) * list segment) (l : list pixel) {struct l} : outcome ((pixel -> bool) * list segment) :=
  match l with
  | [] => Ok st
  | s :: l => bind (round fuel level log_eps prec p density_th min_reg_size st s) (fun st => rounds fuel level log_eps prec p density_th min_reg_size st l)
  end.
End Segments.
(** flsd for the scaled image up to the segments, lsd 551-554, 575-614. *)
Definition segments (log_gamma : R -> R) (fuel : nat) (d : params) (w h : Z) (data : Z -> R) : outcome (list segment) :=
  let prec := PI * p_ang_th d / 180 in
  let p := p_ang_th d / 180 in
  let rho := p_quant d / sin prec in
  let ang q := angle w h data rho (fst q) (snd q) in
  bind (rounds log_gamma w h ang (norm_at w data) fuel (p_refine d) (p_log_eps d) prec p (p_density d) (min_reg_size w h p) (fun _ => false, []) (seeds w h data rho (Z.to_nat (p_bins d)))) (fun '(_, segs) => Ok segs).

(** The vectors lines, w, p and n of detect, lsd 541-542. *)
Record vectors := Vectors { v_lines : list (Z * Z * Z * Z); v_widths : list R; v_precs : list R; v_nfas : list R }.
(** Storing a segment, lsd 616-634. *)
Definition store (w_needed p_needed n_needed : bool) (d : params) (v : vectors) (s : segment) : vectors :=
  let b := s_box s in
  let scaled r := if Req_EM_T (p_scale d) 1 then r else r / p_scale d in
  Vectors (v_lines v ++ [(trunc (scaled (bx1 b + / 2)), trunc (scaled (by1 b + / 2)), trunc (scaled (bx2 b + / 2)), trunc (scaled (by2 b + / 2)))])
          (if w_needed then v_widths v ++ [scaled (bw b)] else v_widths v)
          (if p_needed then v_precs v ++ [bp b] else v_precs v)
          (if n_needed && (2 <=? p_refine d)%Z then v_nfas v ++ [s_nfa s] else v_nfas v).

(** sigma and the radius h of the kernel, lsd 560-563. *)
Definition ceiling (r : R) : Z := (- Int_part (- r))%Z.
Definition blur_sigma (d : params) : R := if Rlt_dec (p_scale d) 1 then p_sigma d / p_scale d else p_sigma d.
Definition blur_radius (d : params) : Z := ceiling (blur_sigma d * sqrt (2 * 3 * ln 10)).
(** The output arrays of the caller; None is cv::noArray(). *)
Record arrays := Arrays { a_lines : list (Z * Z * Z * Z); a_widths : option (list R); a_precs : option (list R); a_nfas : option (list R) }.
Definition needed (a : option (list R)) : bool := match a with Some _ => true | None => false end.
Definition copy_to (l : list R) (a : option (list R)) : option (list R) := match a with Some _ => Some l | None => None end.

Section Detect.
(** log_gamma, and GaussianBlur and resize with sigma, the side of the kernel and the scale. *)
Variables (log_gamma : R -> R) (shrink : R -> Z -> R -> mat -> option mat).
(** detect with flsd, lsd 532-644: the arrays afterwards. They are unchanged if it throws. *)
Definition detect (fuel : nat) (d : params) (m : mat) (a : arrays) : outcome arrays :=
  let img := to_doubles m in
  if empty img || negb (channels img =? 1)%Z then Throw
  else if needed (a_nfas a) && (p_refine d <? 2)%Z then Throw
  else
    match (if Req_EM_T (p_scale d) 1 then Some img else shrink (blur_sigma d) (1 + 2 * blur_radius d)%Z (p_scale d) img) with
    | None => Throw
    | Some image =>
        bind (segments log_gamma fuel d (cols image) (rows image) (element image)) (fun segs =>
        let v := fold_left (store (needed (a_widths a)) (needed (a_precs a)) (needed (a_nfas a)) d) segs (Vectors [] [] [] []) in
        Ok (Arrays (v_lines v) (copy_to (v_widths v) (a_widths a)) (copy_to (v_precs v) (a_precs a)) (copy_to (v_nfas v) (a_nfas a))))
    end.
End Detect.
