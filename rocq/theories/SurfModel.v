(** Model of the descriptors of KAZE keypoints.

    Source: aslam_cv_detector/src/kaze/KAZE.cpp ("kz") 716-2138, 2321-2344: the twelve functions Get_{SURF,MSURF,GSURF}[_Upright]_Descriptor_{64,128}.

    Real numbers instead of floats. The half size of a keypoint rounds to at least 1 (sizes of keypoints are at least twice options_.soffset), so that gaussian does not divide by zero. The products with a factor 1 for SURF and G-SURF (which have no weights) are not in the code. *)
From Coq Require Import ZArith Reals List Bool.
From Verif Require Import OrientModel.
Import ListNotations.
Local Open Scope R_scope.

Inductive family := Surf | Msurf | Gsurf.
Record variant := Variant { kind : family; upright : bool; extended : bool }.
(** The derivatives of one level. *)
Record derivatives := Derivatives { dLx : Z -> Z -> R; dLy : Z -> Z -> R; dLxx : Z -> Z -> R; dLxy : Z -> Z -> R; dLyy : Z -> Z -> R }.

Section Descriptor.
Variables (height width : Z).
(** checkDescriptorLimits, kz 2326-2339. *)
Definition limit (size z : Z) : Z := let z := if (z <? 0)%Z then 0%Z else z in if (size - 1 <? z)%Z then (size - 1)%Z else z.
(** res1, ..., res4 and their combination, kz 757-764 and the like. *)
Definition bilinear (L : Z -> Z -> R) (y1 x1 y2 x2 : Z) (sample_y sample_x : R) : R :=
  let fx := sample_x - IZR x1 in
  let fy := sample_y - IZR y1 in
  (1 - fx) * (1 - fy) * L y1 x1 + fx * (1 - fy) * L y1 x2 + (1 - fx) * fy * L y2 x1 + fx * fy * L y2 x2.
(** kz 747-758 and the like; for rotated M-SURF descriptors fRound instead of the conversion for y1 and x1, kz 1066-1067 and 1784-1785. *)
Definition interpolate (v : variant) (L : Z -> Z -> R) (sample_y sample_x : R) : R :=
  let first r := match kind v, upright v with Msurf, false => fround (r - / 2) | _, _ => trunc (r - / 2) end in
  bilinear L (limit height (first sample_y)) (limit width (first sample_x)) (limit height (trunc (sample_y + / 2))) (limit width (trunc (sample_x + / 2))) sample_y sample_x.
(** sample_y and sample_x: kz 744-745, 829-830, 938-939 and so on; the upright G-SURF descriptor of length 64 (kz 1154-1155) exchanges k and l, the one of length 128 (kz 1895-1896) does not. *)
Definition position (v : variant) (xf yf co si : R) (scale k l : Z) : R * R :=
  if upright v then
    match kind v, extended v with
    | Gsurf, false => (yf + IZR (l * scale), xf + IZR (k * scale))
    | _, _ => (IZR (k * scale) + yf, IZR (l * scale) + xf)
    end
  else (yf + (IZR (l * scale) * co + IZR (k * scale) * si), xf + (- IZR (l * scale) * si + IZR (k * scale) * co)).
(** Second derivatives in gauge coordinates: lww and lvv, kz 1182-1213. *)
Definition gauge (rx ry rxx rxy ryy : R) : R * R :=
  let modg := rx * rx + ry * ry in
  if Req_EM_T modg 0 then (0, 0)
  else ((rx * rx * rxx + 2 * rx * rxy * ry + ry * ry * ryy) / modg, (-2 * rx * rxy * ry + rxx * (ry * ry) + rx * rx * ryy) / modg).
(** The two values of the sample (k, l) of the cell starting at (i, j): rx and ry, rrx and rry, or lww and lvv (exchanged in the descriptors of length 128, kz 1957-1974). *)
Definition sample_values (v : variant) (D : derivatives) (xf yf co si : R) (scale i j k l : Z) : R * R :=
  let '(sample_y, sample_x) := position v xf yf co si scale k l in
  let I L := interpolate v L sample_y sample_x in
  let rx := I (dLx D) in
  let ry := I (dLy D) in
  match kind v with
  | Surf => if upright v then (rx, ry) else (- rx * si + ry * co, rx * co + ry * si)
  | Msurf =>
      let '(ys, xs) := position v xf yf co si scale (i + 5) (j + 5) in
      let gauss_s1 := gaussian (xs - sample_x) (ys - sample_y) (5 / 2 * IZR scale) in
      if upright v then (gauss_s1 * rx, gauss_s1 * ry) else (gauss_s1 * (- rx * si + ry * co), gauss_s1 * (rx * co + ry * si))
  | Gsurf => let '(lww, lvv) := gauge rx ry (I (dLxx D)) (I (dLxy D)) (I (dLyy D)) in if extended v then (lvv, lww) else (lww, lvv)
  end.
(** dx, dy, mdx, mdy, kz 772-776. *)
Definition cell4 (values : list (R * R)) : list R :=
  let '(dx, dy, mdx, mdy) := fold_left (fun '(dx, dy, mdx, mdy) '(x, y) => (dx + x, dy + y, mdx + Rabs x, mdy + Rabs y)) values (0, 0, 0, 0) in [dx; dy; mdx; mdy].
(** dxp, dxn, mdxp, mdxn, dyp, dyn, mdyp, mdyn, kz 1423-1440. *)
Definition cell8 (values : list (R * R)) : list R :=
  let '(dxp, dxn, mdxp, mdxn, dyp, dyn, mdyp, mdyn) := fold_left (fun '(dxp, dxn, mdxp, mdxn, dyp, dyn, mdyp, mdyn) '(x, y) =>
    let '(dxp, dxn, mdxp, mdxn) := if Rle_dec 0 y then (dxp + x, dxn, mdxp + Rabs x, mdxn) else (dxp, dxn + x, mdxp, mdxn + Rabs x) in
    let '(dyp, dyn, mdyp, mdyn) := if Rle_dec 0 x then (dyp + y, dyn, mdyp + Rabs y, mdyn) else (dyp, dyn + y, mdyp, mdyn + Rabs y) in
    (dxp, dxn, mdxp, mdxn, dyp, dyn, mdyp, mdyn)) values (0, 0, 0, 0, 0, 0, 0, 0) in
  [dxp; dxn; mdxp; mdxn; dyp; dyn; mdyp; mdyn].
(** for (k = a; k < a + n; k++). *)
Definition count (a : Z) (n : nat) : list Z := map (fun k => a + Z.of_nat k)%Z (seq 0 n).
(** The cells: their starts (kz 735-736; for M-SURF -8 - 4, then steps of 9 - 4, kz 912-928), their size, and the weight gauss_s2 of the n-th row and m-th column (cx and cy are n + 0.5 and m + 0.5, kz 981). *)
Definition starts (v : variant) : list (nat * Z) := match kind v with Msurf => [(0%nat, -12); (1%nat, -7); (2%nat, -2); (3%nat, 3)]%Z | _ => [(0%nat, -10); (1%nat, -5); (2%nat, 0); (3%nat, 5)]%Z end.
Definition cell_size (v : variant) : nat := match kind v with Msurf => 9 | _ => 5 end.
Definition cell_weight (v : variant) (n m : nat) : R := match kind v with Msurf => gaussian (INR n + / 2 - 2) (INR m + / 2 - 2) (3 / 2) | _ => 1 end.
Definition cells (v : variant) (D : derivatives) (xf yf co si : R) (scale : Z) : list (R * list (R * R)) :=
  flat_map (fun '(n, i) => map (fun '(m, j) =>
    (cell_weight v n m, flat_map (fun k => map (fun l => sample_values v D xf yf co si scale i j k l) (count j (cell_size v))) (count i (cell_size v)))) (starts v)) (starts v).
Definition squares (l : list R) : R := fold_right (fun x s => x * x + s) 0 l.
(** desc and len: kz 780-796 and the like. [None]: len is 0, and all elements become NaN. *)
Definition accumulate (cell : list (R * R) -> list R) (cs : list (R * list (R * R))) : list R * R :=
  fold_left (fun '(desc, len) '(gauss_s2, values) => let v := cell values in (desc ++ map (fun x => x * gauss_s2) v, len + squares v * gauss_s2 * gauss_s2)) cs ([], 0).
Definition descriptor (v : variant) (D : derivatives) (xf yf size angle : R) : option (list R) :=
  let scale := fround (size / 2) in
  let '(desc, len) := accumulate (if extended v then cell8 else cell4) (cells v D xf yf (cos angle) (sin angle) scale) in
  let len := sqrt len in
  if Req_EM_T len 0 then None else Some (map (fun d => d / len) desc).
End Descriptor.
