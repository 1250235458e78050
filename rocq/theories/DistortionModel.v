(** Model of the lens distortion models.

    Source: aslam_cv_cameras/src/distortion-radtan.cc ("rt"), aslam_cv_cameras/src/distortion-equidistant.cc ("eq"),
            aslam_cv_cameras/src/distortion-fisheye.cc ("fe"),
            aslam_cv_cameras/include/aslam/cameras/distortion-null.h ("null").

    Simplifications: doubles are real numbers (no rounding); divisions by zero are only reached in the singular
    Newton step, which is None. Points are pairs, 2x2 matrices are pairs of rows. The size checks of the
    parameter vectors are met by construction. pow(a, 3.0 / 2.0) is Rpower, pow(a, n) for integers the power. *)
From Coq Require Import Reals.
Local Open Scope R_scope.

Definition vec2 : Type := R * R.
(** ((a, b), (c, d)): rows. *)
Definition mat2 : Type := (R * R) * (R * R).
(** A row of a Jacobian with respect to four parameters. *)
Definition row4 : Type := R * R * R * R.

(** ** No distortion, null 59-65 and 120-124. *)
Definition null_distort (p : vec2) : vec2 := p.
Definition null_jacobian (p : vec2) : mat2 := ((1, 0), (0, 1)).
Definition null_undistort (p : vec2) : vec2 := p.

(** ** Radial-tangential *)
(** rt 33-37, 63-64. *)
Definition radtan_distort (k1 k2 p1 p2 : R) (p : vec2) : vec2 :=
  let (x, y) := p in
  let mx2_u := x * x in let my2_u := y * y in let mxy_u := x * y in
  let rho2_u := mx2_u + my2_u in
  let rad_dist_u := k1 * rho2_u + k2 * rho2_u * rho2_u in
  (x + (x * rad_dist_u + 2 * p1 * mxy_u + p2 * (rho2_u + 2 * mx2_u)),
   y + (y * rad_dist_u + 2 * p2 * mxy_u + p1 * (rho2_u + 2 * my2_u))).
(** rt 39-61. *)
Definition radtan_jacobian (k1 k2 p1 p2 : R) (p : vec2) : mat2 :=
  let (x, y) := p in
  let mx2_u := x * x in let my2_u := y * y in let mxy_u := x * y in
  let rho2_u := mx2_u + my2_u in
  let rad_dist_u := k1 * rho2_u + k2 * rho2_u * rho2_u in
  let duf_du := 1 + rad_dist_u + 2 * k1 * mx2_u + 4 * k2 * rho2_u * mx2_u + 2 * p1 * y + 6 * p2 * x in
  let duf_dv := 2 * k1 * mxy_u + 4 * k2 * rho2_u * mxy_u + 2 * p1 * x + 2 * p2 * y in
  let dvf_du := duf_dv in
  let dvf_dv := 1 + rad_dist_u + 2 * k1 * my2_u + 4 * k2 * rho2_u * my2_u + 2 * p2 * x + 6 * p1 * y in
  ((duf_du, duf_dv), (dvf_du, dvf_dv)).
(** distortParameterJacobian, rt 67-91. *)
Definition radtan_param_jacobian (p : vec2) : row4 * row4 :=
  let (y0, y1) := p in
  let r2 := y0 * y0 + y1 * y1 in
  let r4 := r2 * r2 in
  ((y0 * r2, y0 * r4, 2 * y0 * y1, r2 + 2 * y0 * y0),
   (y1 * r2, y1 * r4, r2 + 2 * y1 * y1, 2 * y0 * y1)).

(** ** Newton iteration, rt 98-117 and eq 160-172 *)
(** du = (F^T F)^-1 F^T e; None when F^T F is singular (inverse() then has no finite entries). *)
Definition newton_step (F : mat2) (e : vec2) : option vec2 :=
  let '((a, b), (c, d)) := F in
  let (e0, e1) := e in
  let m00 := a * a + c * c in let m01 := a * b + c * d in let m11 := b * b + d * d in
  let det := m00 * m11 - m01 * m01 in
  if Req_EM_T det 0 then None
  else
    let g0 := a * e0 + c * e1 in let g1 := b * e0 + d * e1 in
    Some ((m11 * g0 - m01 * g1) / det, (m00 * g1 - m01 * g0) / det).
(** The loop with [n] iterations left; the flag tells whether the tolerance was reached. *)
Fixpoint newton_loop (dist : vec2 -> vec2) (jac : vec2 -> mat2) (tol : R) (n : nat) (y ybar : vec2) : option (vec2 * bool) :=
  match n with
  | O => Some (ybar, false)
  | S n' =>
    let y_tmp := dist ybar in
    let e := (fst y - fst y_tmp, snd y - snd y_tmp) in
    match newton_step (jac ybar) e with
    | None => None
    | Some du =>
      let ybar' := (fst ybar + fst du, snd ybar + snd du) in
      if Rle_dec (fst e * fst e + snd e * snd e) tol then Some (ybar', true)
      else newton_loop dist jac tol n' y ybar'
    end
  end.
(** rt 93-118; tol is FLAGS_acv_inv_distortion_tolerance. *)
Definition radtan_undistort (k1 k2 p1 p2 tol : R) (p : vec2) : option (vec2 * bool) :=
  newton_loop (radtan_distort k1 k2 p1 p2) (radtan_jacobian k1 k2 p1 p2) tol 30 p p.

(** ** Equidistant *)
(** eq 33-50, 104-106. *)
Definition equi_distort (k1 k2 k3 k4 : R) (p : vec2) : vec2 :=
  let (x, y) := p in
  let x2 := x * x in let y2 := y * y in
  let r := sqrt (x2 + y2) in
  if Rlt_dec r (/ 10 ^ 10) then (x, y)
  else
    let theta := atan r in
    let theta2 := theta * theta in let theta4 := theta2 * theta2 in
    let theta6 := theta2 * theta4 in let theta8 := theta4 * theta4 in
    let thetad := theta * (1 + k1 * theta2 + k2 * theta4 + k3 * theta6 + k4 * theta8) in
    let scaling := if Rlt_dec (/ 10 ^ 8) r then thetad / r else 1 in
    (x * scaling, y * scaling).
(** eq 38-42, 52-102. *)
Definition equi_jacobian (k1 k2 k3 k4 : R) (p : vec2) : mat2 :=
  let (x, y) := p in
  let x2 := x * x in let y2 := y * y in
  let r := sqrt (x2 + y2) in
  if Rlt_dec r (/ 10 ^ 10) then ((0, 0), (0, 0))
  else
    let theta := atan r in
    let theta2 := theta * theta in let theta4 := theta2 * theta2 in
    let theta6 := theta2 * theta4 in let theta8 := theta4 * theta4 in
    let theta3 := theta2 * theta in let theta5 := theta4 * theta in let theta7 := theta6 * theta in
    let duf_du := theta * 1 / r * (k1 * theta2 + k2 * theta4 + k3 * theta6 + k4 * theta8 + 1)
      + x * theta * 1 / r * ((k2 * x * theta3 * 1 / r * 4) / (x2 + y2 + 1) + (k3 * x * theta5 * 1 / r * 6) / (x2 + y2 + 1)
        + (k4 * x * theta7 * 1 / r * 8) / (x2 + y2 + 1) + (k1 * x * theta * 1 / r * 2) / (x2 + y2 + 1))
      + (x2 * (k1 * theta2 + k2 * theta4 + k3 * theta6 + k4 * theta8 + 1)) / ((x2 + y2) * (x2 + y2 + 1))
      - x2 * theta * 1 / Rpower (x2 + y2) (3 / 2) * (k1 * theta2 + k2 * theta4 + k3 * theta6 + k4 * theta8 + 1) in
    let duf_dv := x * theta * 1 / r * ((k2 * y * theta3 * 1 / r * 4) / (x2 + y2 + 1) + (k3 * y * theta5 * 1 / r * 6) / (x2 + y2 + 1)
        + (k4 * y * theta7 * 1 / r * 8) / (x2 + y2 + 1) + (k1 * y * theta * 1 / r * 2) / (x2 + y2 + 1))
      + (x * y * (k1 * theta2 + k2 * theta4 + k3 * theta6 + k4 * theta8 + 1)) / ((x2 + y2) * (x2 + y2 + 1))
      - x * y * theta * 1 / Rpower (x2 + y2) (3 / 2) * (k1 * theta2 + k2 * theta4 + k3 * theta6 + k4 * theta8 + 1) in
    let dvf_du := y * theta * 1 / r * ((k2 * x * theta3 * 1 / r * 4) / (x2 + y2 + 1) + (k3 * x * theta5 * 1 / r * 6) / (x2 + y2 + 1)
        + (k4 * x * theta7 * 1 / r * 8) / (x2 + y2 + 1) + (k1 * x * theta * 1 / r * 2) / (x2 + y2 + 1))
      + (x * y * (k1 * theta2 + k2 * theta4 + k3 * theta6 + k4 * theta8 + 1)) / ((x2 + y2) * (x2 + y2 + 1))
      - x * y * theta * 1 / Rpower (x2 + y2) (3 / 2) * (k1 * theta2 + k2 * theta4 + k3 * theta6 + k4 * theta8 + 1) in
    let dvf_dv := theta * 1 / r * (k1 * theta2 + k2 * theta4 + k3 * theta6 + k4 * theta8 + 1)
      + y * theta * 1 / r * ((k2 * y * theta3 * 1 / r * 4) / (x2 + y2 + 1) + (k3 * y * theta5 * 1 / r * 6) / (x2 + y2 + 1)
        + (k4 * y * theta7 * 1 / r * 8) / (x2 + y2 + 1) + (k1 * y * theta * 1 / r * 2) / (x2 + y2 + 1))
      + (y2 * (k1 * theta2 + k2 * theta4 + k3 * theta6 + k4 * theta8 + 1)) / ((x2 + y2) * (x2 + y2 + 1))
      - y2 * theta * 1 / Rpower (x2 + y2) (3 / 2) * (k1 * theta2 + k2 * theta4 + k3 * theta6 + k4 * theta8 + 1) in
    ((duf_du, duf_dv), (dvf_du, dvf_dv)).
(** distortParameterJacobian, eq 109-142. *)
Definition equi_param_jacobian (p : vec2) : row4 * row4 :=
  let (x, y) := p in
  let r := sqrt (x * x + y * y) in
  let theta := atan r in
  if Rlt_dec r (/ 10 ^ 10) then ((0, 0, 0, 0), (0, 0, 0, 0))
  else ((x * theta ^ 3 * 1 / r, x * theta ^ 5 * 1 / r, x * theta ^ 7 * 1 / r, x * theta ^ 9 * 1 / r),
        (y * theta ^ 3 * 1 / r, y * theta ^ 5 * 1 / r, y * theta ^ 7 * 1 / r, y * theta ^ 9 * 1 / r)).
(** eq 144-173. *)
Definition equi_undistort (k1 k2 k3 k4 tol : R) (p : vec2) : option (vec2 * bool) :=
  if Rlt_dec (fst p * fst p + snd p * snd p) (/ 10 ^ 6) then Some (p, true)
  else newton_loop (equi_distort k1 k2 k3 k4) (equi_jacobian k1 k2 k3 k4) tol 30 p p.

(** ** Fisheye *)
(** fe 24-42, 79. *)
Definition fisheye_distort (w : R) (p : vec2) : vec2 :=
  let (u, v) := p in
  let r_u := sqrt (u * u + v * v) in
  let tanwhalf := tan (w / 2) in
  let atan_wrd := atan (2 * tanwhalf * r_u) in
  let r_rd :=
    if Rlt_dec (w * w) (/ 10 ^ 5) then 1
    else if Rlt_dec (r_u * r_u) (/ 10 ^ 5) then 2 * tanwhalf / w
    else atan_wrd / (r_u * w) in
  (u * r_rd, v * r_rd).
(** fe 48-77. *)
Definition fisheye_jacobian (w : R) (p : vec2) : mat2 :=
  let (u, v) := p in
  let r_u := sqrt (u * u + v * v) in
  let r_u_cubed := r_u * r_u * r_u in
  let tanwhalf := tan (w / 2) in
  let tanwhalfsq := tanwhalf * tanwhalf in
  let atan_wrd := atan (2 * tanwhalf * r_u) in
  if Rlt_dec (w * w) (/ 10 ^ 5) then ((1, 0), (0, 1))
  else if Rlt_dec (r_u * r_u) (/ 10 ^ 5) then ((1 * (2 * tanwhalf / w), 0 * (2 * tanwhalf / w)), (0 * (2 * tanwhalf / w), 1 * (2 * tanwhalf / w)))
  else
    let duf_du := atan_wrd / (w * r_u) - (u * u * atan_wrd) / (w * r_u_cubed)
      + (2 * u * u * tanwhalf) / (w * (u * u + v * v) * (4 * tanwhalfsq * (u * u + v * v) + 1)) in
    let duf_dv := (2 * u * v * tanwhalf) / (w * (u * u + v * v) * (4 * tanwhalfsq * (u * u + v * v) + 1))
      - (u * v * atan_wrd) / (w * r_u_cubed) in
    let dvf_du := (2 * u * v * tanwhalf) / (w * (u * u + v * v) * (4 * tanwhalfsq * (u * u + v * v) + 1))
      - (u * v * atan_wrd) / (w * r_u_cubed) in
    let dvf_dv := atan_wrd / (w * r_u) - (v * v * atan_wrd) / (w * r_u_cubed)
      + (2 * v * v * tanwhalf) / (w * (u * u + v * v) * (4 * tanwhalfsq * (u * u + v * v) + 1)) in
    ((duf_du, duf_dv), (dvf_du, dvf_dv)).
(** distortParameterJacobian, fe 82-117: the two entries. *)
Definition fisheye_param_jacobian (w : R) (p : vec2) : R * R :=
  let (u, v) := p in
  let tanwhalf := tan (w / 2) in
  let tanwhalfsq := tanwhalf * tanwhalf in
  let r_u := sqrt (u * u + v * v) in
  let atan_wrd := atan (2 * tanwhalf * r_u) in
  if Rlt_dec (w * w) (/ 10 ^ 5) then (0, 0)
  else if Rlt_dec (r_u * r_u) (/ 10 ^ 5) then
    (1 * ((w - sin w) / (w * w * cos (w / 2) * cos (w / 2))), 1 * ((w - sin w) / (w * w * cos (w / 2) * cos (w / 2))))
  else
    ((2 * u * (tanwhalfsq / 2 + / 2)) / (w * (4 * tanwhalfsq * r_u * r_u + 1)) - (u * atan_wrd) / (w * w * r_u),
     (2 * v * (tanwhalfsq / 2 + / 2)) / (w * (4 * tanwhalfsq * r_u * r_u + 1)) - (v * atan_wrd) / (w * w * r_u)).
(** distortion-fisheye.h: kMaxValidAngle, kMinValidW, kMaxValidW. *)
Definition max_valid_angle : R := 89 * PI / 180.
(** fe 119-143. *)
Definition fisheye_undistort (w : R) (p : vec2) : vec2 :=
  let (x, y) := p in
  let mul2tanwby2 := tan (w / 2) * 2 in
  let r_d := sqrt (x * x + y * y) in
  if Req_EM_T mul2tanwby2 0 then (x, y)
  else if Req_EM_T r_d 0 then (x, y)
  else if Rle_dec (Rabs (r_d * w)) max_valid_angle then
    let r_u := tan (r_d * w) / (r_d * mul2tanwby2) in (x * r_u, y * r_u)
  else (x, y).
(** areParametersValid, fe 145-156. *)
Definition fisheye_valid (w : R) : Prop := Rabs w < / 10 ^ 16 \/ / 2 <= w <= 3 / 2.
