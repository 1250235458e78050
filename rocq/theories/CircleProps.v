(** Property C51: circle intersection and circle fitting. *)
From Coq Require Import Reals List Lra Psatz.
From Verif Require Import CircleModel CircleSpec.
Import ListNotations.
Local Open Scope R_scope.

Lemma hypot_sq a b : hypot a b * hypot a b = a * a + b * b.
Proof. unfold hypot, square. apply sqrt_sqrt. nra. Qed.
Lemma hypot_nonneg a b : 0 <= hypot a b. Proof. apply sqrt_pos. Qed.

(** ** Intersection *)
(** The quantities of the computation: a, h and the relation between them. *)
Lemma intersect_core (d r1 r2 : R) : 0 < d -> d <= r1 + r2 -> Rabs (r1 - r2) <= d ->
  let a := (square r1 - square r2 + square d) / (2 * d) in let h := sqrt (square r1 - square a) in
  0 <= h /\ h * h + a * a = r1 * r1 /\ 2 * d * a = r1 * r1 - r2 * r2 + d * d.
Proof.
  intros Hd Hs Hr a h. assert (E : 2 * d * a = r1 * r1 - r2 * r2 + d * d) by (unfold a, square; field; lra).
  assert (P : 0 <= square r1 - square a).
  { assert (K : 4 * (d * d) * (square r1 - square a) = ((r1 + r2) * (r1 + r2) - d * d) * (d * d - (r1 - r2) * (r1 - r2))).
    { unfold square. replace (4 * (d * d) * (r1 * r1 - a * a)) with (4 * (d * d) * (r1 * r1) - (2 * d * a) * (2 * d * a)) by ring. rewrite E. ring. }
    assert (K1 : 0 <= (r1 + r2) * (r1 + r2) - d * d) by nra.
    assert (K2 : 0 <= d * d - (r1 - r2) * (r1 - r2)). { assert (Q : - d <= r1 - r2 <= d) by (unfold Rabs in Hr; destruct (Rcase_abs (r1 - r2)); lra). nra. }
    pose proof (Rmult_le_pos _ _ K1 K2) as K3. rewrite <- K in K3. apply (Rmult_le_reg_l (4 * (d * d))); [nra|]. rewrite Rmult_0_r. exact K3. }
  split; [apply sqrt_pos|]. split; [|exact E]. unfold h. rewrite sqrt_sqrt by exact P. unfold square. ring.
Qed.
Lemma two_points (x1 y1 r1 x2 y2 r2 d a h s : R) : 0 < d -> d * d = (x1 - x2) * (x1 - x2) + (y1 - y2) * (y1 - y2) -> h * h + a * a = r1 * r1 ->
  2 * d * a = r1 * r1 - r2 * r2 + d * d -> s * s = 1 ->
  let p := (x1 + a * (x2 - x1) / d + s * (h * (y2 - y1) / d), y1 + a * (y2 - y1) / d - s * (h * (x2 - x1) / d)) in
  on_circle x1 y1 r1 p /\ on_circle x2 y2 r2 p.
Proof.
  intros Hd HD H1 H2 HS. cbv zeta. unfold on_circle. cbn [fst snd].
  set (u := (x2 - x1) / d). set (v := (y2 - y1) / d).
  assert (UV : u * u + v * v = 1). { unfold u, v. replace (_ + _) with ((x1 - x2) * (x1 - x2) / (d * d) + (y1 - y2) * (y1 - y2) / (d * d)) by (field; lra).
    rewrite <- Rdiv_plus_distr, <- HD. field. lra. }
  assert (X2 : x2 = x1 + d * u) by (unfold u; field; lra). assert (Y2 : y2 = y1 + d * v) by (unfold v; field; lra).
  replace (a * (x2 - x1) / d) with (a * u) by (unfold u; field; lra). replace (a * (y2 - y1) / d) with (a * v) by (unfold v; field; lra).
  replace (h * (x2 - x1) / d) with (h * u) by (unfold u; field; lra). replace (h * (y2 - y1) / d) with (h * v) by (unfold v; field; lra).
  split.
  - replace (_ + _) with ((a * a + s * s * (h * h)) * (u * u + v * v)) by ring. rewrite UV, HS. lra.
  - clearbody u v. subst x2 y2. replace (_ + _) with (((a - d) * (a - d) + s * s * (h * h)) * (u * u + v * v)) by ring. rewrite UV, HS. nra.
Qed.
(** Whenever the centres differ and the circles do not nearly touch, the function appends exactly the common points of the two circles:
    every appended point is on both, and every point on both is appended. Circles that do not meet leave the list as it is. *)
Theorem ix_intersection_partial x1 y1 r1 x2 y2 r2 out : 0 <= r1 -> 0 <= r2 -> (x1, y1) <> (x2, y2) ->
  exists new, intersect_circles x1 y1 r1 x2 y2 r2 out = out ++ map Some new /\
    (forall p, on_circle x1 y1 r1 p -> on_circle x2 y2 r2 p -> (length new = 1%nat \/ In p new)) /\
    (length new <> 1%nat -> forall p, In p new -> on_circle x1 y1 r1 p /\ on_circle x2 y2 r2 p) /\
    (forall q, new = [q] -> exists h, 0 <= h < / 10 ^ 10 /\ exists ux uy, ux * ux + uy * uy = 1 /\ forall p,
       on_circle x1 y1 r1 p /\ on_circle x2 y2 r2 p <-> p = (fst q + h * uy, snd q - h * ux) \/ p = (fst q - h * uy, snd q + h * ux)).
Proof.
  intros Hr1 Hr2 HN. unfold intersect_circles. set (d := hypot (x1 - x2) (y1 - y2)).
  assert (HD : d * d = (x1 - x2) * (x1 - x2) + (y1 - y2) * (y1 - y2)) by apply hypot_sq.
  assert (Hd0 : 0 <= d) by apply hypot_nonneg.
  assert (Hd : 0 < d). { destruct (Req_dec d 0) as [Z|Z]; [|lra]. exfalso. apply HN. rewrite Z, Rmult_0_l in HD. symmetry in HD. apply Rplus_sqr_eq_0 in HD. f_equal; lra. }
  clearbody d.
  assert (COM : forall p, on_circle x1 y1 r1 p -> on_circle x2 y2 r2 p -> d <= r1 + r2 /\ Rabs (r1 - r2) <= d).
  { intros [px py] P1 P2. unfold on_circle in P1, P2. cbn [fst snd] in *.
    set (ux := px - x1) in *. set (uy := py - y1) in *. set (wx := px - x2) in *. set (wy := py - y2) in *.
    assert (DD : d * d = (wx - ux) * (wx - ux) + (wy - uy) * (wy - uy)) by (rewrite HD; unfold wx, ux, wy, uy; ring).
    assert (CS : Rabs (ux * wx + uy * wy) <= r1 * r2).
    { rewrite <- (Rabs_pos_eq (r1 * r2)) by (apply Rmult_le_pos; assumption). apply Rsqr_le_abs_0. unfold Rsqr.
      replace (r1 * r2 * (r1 * r2)) with (r1 * r1 * (r2 * r2)) by ring. rewrite <- P1, <- P2. pose proof (Rle_0_sqr (ux * wy - uy * wx)) as S. unfold Rsqr in S. lra. }
    assert (CS2 : - (r1 * r2) <= ux * wx + uy * wy <= r1 * r2). { unfold Rabs in CS. destruct (Rcase_abs _); lra. }
    split; [|unfold Rabs; destruct (Rcase_abs _)]; nra. }
  destruct (Rlt_dec (r1 + r2) d) as [A|A].
  { exists []. rewrite app_nil_r. split; [reflexivity|]. split; [|split; [intros _ p []|intros q F; discriminate]]. intros p P1 P2. destruct (COM p P1 P2). lra. }
  destruct (Rlt_dec d (Rabs (r1 - r2))) as [B|B].
  { exists []. rewrite app_nil_r. split; [reflexivity|]. split; [|split; [intros _ p []|intros q F; discriminate]]. intros p P1 P2. destruct (COM p P1 P2). lra. }
  destruct (Req_EM_T d 0) as [Z|_]; [lra|].
  destruct (intersect_core d r1 r2 Hd ltac:(lra) ltac:(lra)) as (Hh & E1 & E2).
  set (a := (square r1 - square r2 + square d) / (2 * d)) in *. set (h := sqrt (square r1 - square a)) in *. clearbody a h. cbv zeta.
  pose (P := fun s : R => (x1 + a * (x2 - x1) / d + s * (h * (y2 - y1) / d), y1 + a * (y2 - y1) / d - s * (h * (x2 - x1) / d))).
  assert (PP : forall s, s * s = 1 -> on_circle x1 y1 r1 (P s) /\ on_circle x2 y2 r2 (P s)) by (intros s S; apply two_points; assumption).
  assert (ONLY : forall p, on_circle x1 y1 r1 p -> on_circle x2 y2 r2 p -> p = P 1 \/ p = P (-1)).
  { intros [px py] P1 P2. unfold on_circle in P1, P2. cbn [fst snd] in *.
    set (u := (x2 - x1) / d). set (v := (y2 - y1) / d).
    assert (UV : u * u + v * v = 1). { unfold u, v. replace (_ + _) with ((x1 - x2) * (x1 - x2) / (d * d) + (y1 - y2) * (y1 - y2) / (d * d)) by (field; lra).
      rewrite <- Rdiv_plus_distr, <- HD. field. lra. }
    assert (X2 : x2 = x1 + d * u) by (unfold u; field; lra). assert (Y2 : y2 = y1 + d * v) by (unfold v; field; lra).
    set (s := (px - x1) * u + (py - y1) * v). set (t := (px - x1) * v - (py - y1) * u).
    assert (SX : px - x1 = s * u + t * v) by (unfold s, t; replace (_ + _) with ((px - x1) * (u * u + v * v)) by ring; rewrite UV; ring).
    assert (SY : py - y1 = s * v - t * u) by (unfold s, t; replace (_ * v - _) with ((py - y1) * (u * u + v * v)) by ring; rewrite UV; ring).
    assert (N1 : s * s + t * t = r1 * r1). { rewrite <- P1, SX, SY. replace (_ + _ : R) with ((s * s + t * t) * 1) by ring. rewrite <- UV. ring. }
    assert (N2 : (s - d) * (s - d) + t * t = r2 * r2).
    { rewrite <- P2, X2, Y2. replace (px - (x1 + d * u)) with ((s - d) * u + t * v) by (replace (px - (x1 + d * u)) with (px - x1 - d * u) by ring; rewrite SX; ring).
      replace (py - (y1 + d * v)) with ((s - d) * v - t * u) by (replace (py - (y1 + d * v)) with (py - y1 - d * v) by ring; rewrite SY; ring).
      replace ((s - d) * (s - d) + t * t) with (((s - d) * (s - d) + t * t) * 1) by ring. rewrite <- UV. ring. }
    assert (SA : s = a). { apply (Rmult_eq_reg_l (2 * d)); [|lra]. rewrite E2. nra. }
    assert (TH : (t - h) * (t + h) = 0). { rewrite SA in N1. nra. }
    assert (QX : px = x1 + a * (x2 - x1) / d + t * (y2 - y1) / d). { replace (a * (x2 - x1) / d) with (a * u) by (unfold u; field; lra). replace (t * (y2 - y1) / d) with (t * v) by (unfold v; field; lra). rewrite <- SA. lra. }
    assert (QY : py = y1 + a * (y2 - y1) / d - t * (x2 - x1) / d). { replace (a * (y2 - y1) / d) with (a * v) by (unfold v; field; lra). replace (t * (x2 - x1) / d) with (t * u) by (unfold u; field; lra). rewrite <- SA. lra. }
    clearbody s t u v.
    apply Rmult_integral in TH. destruct TH as [TH|TH]; [left|right]; unfold P; (replace t with h in * by lra) || (replace t with (- h) in * by lra); rewrite QX, QY; f_equal; field; lra. }
  destruct (Rlt_dec h (/ 10 ^ 10)) as [C|C].
  - exists [(x1 + a * (x2 - x1) / d, y1 + a * (y2 - y1) / d)]. split; [reflexivity|]. split; [left; reflexivity|]. split; [intros F; contradiction F; reflexivity|].
    intros q Q. injection Q as <-. exists h. split; [lra|]. exists ((x2 - x1) / d), ((y2 - y1) / d). split.
    { replace (_ + _) with ((x1 - x2) * (x1 - x2) / (d * d) + (y1 - y2) * (y1 - y2) / (d * d)) by (field; lra). rewrite <- Rdiv_plus_distr, <- HD. field. lra. }
    cbn [fst snd]. assert (G1 : P 1 = (x1 + a * (x2 - x1) / d + h * ((y2 - y1) / d), y1 + a * (y2 - y1) / d - h * ((x2 - x1) / d))) by (unfold P; f_equal; field; lra).
    assert (G2 : P (-1) = (x1 + a * (x2 - x1) / d - h * ((y2 - y1) / d), y1 + a * (y2 - y1) / d + h * ((x2 - x1) / d))) by (unfold P; f_equal; field; lra).
    rewrite <- G1, <- G2. intros p. split.
    + intros [P1 P2]. apply ONLY; assumption.
    + intros [->| ->]; apply PP; ring.
  - exists [P 1; P (-1)]. split.
    { assert (G1 : P 1 = (x1 + a * (x2 - x1) / d + h * (y2 - y1) / d, y1 + a * (y2 - y1) / d - h * (x2 - x1) / d)) by (unfold P; f_equal; field; lra).
      assert (G2 : P (-1) = (x1 + a * (x2 - x1) / d - h * (y2 - y1) / d, y1 + a * (y2 - y1) / d + h * (x2 - x1) / d)) by (unfold P; f_equal; field; lra).
      rewrite G1, G2. reflexivity. }
    split; [|split; [|intros q F; discriminate]].
    + intros p P1 P2. right. destruct (ONLY p P1 P2) as [-> | ->]; simpl; tauto.
    + intros _ p [<-|[<-|[]]]; apply PP; ring.
Qed.
Print Assumptions ix_intersection_partial.
Example ix_case : 0 <= 5 /\ 0 <= 5 /\ (0, 0) <> (6, 0).
Proof. repeat split; try lra. intros E. injection E. lra. Qed.
(** A concrete answer: circles of radius five around (0,0) and (6,0) meet at (3,-4) and (3,4). *)
Example ix_concrete : intersect_circles 0 0 5 6 0 5 [] = [Some (3, -4); Some (3, 4)].
Proof.
  assert (S : forall x y : R, 0 <= y -> x = y * y -> sqrt x = y). { intros x y Hy ->. apply sqrt_square, Hy. }
  unfold intersect_circles. replace (hypot (0 - 6) (0 - 0)) with 6 by (unfold hypot, square; rewrite (S _ 6); lra).
  destruct (Rlt_dec (5 + 5) 6) as [A|_]; [lra|]. rewrite (Rminus_diag_eq 5 5 eq_refl), Rabs_R0. destruct (Rlt_dec 6 0) as [A|_]; [lra|].
  destruct (Req_EM_T 6 0) as [A|_]; [lra|]. cbv zeta. replace (sqrt _) with 4 by (symmetry; apply S; [lra|unfold square; field]).
  assert (/ 10 ^ 10 < 4). { apply Rmult_lt_reg_l with (10 ^ 10); [lra|]. rewrite Rinv_r by lra. lra. }
  destruct (Rlt_dec 4 _) as [A|_]; [lra|]. unfold square. simpl. repeat f_equal; field.
Qed.
(** Circles that nearly touch: the single answer lies on neither circle. *)
Theorem ix_touch_refuted : exists x1 y1 r1 x2 y2 r2 p, 0 < r1 /\ 0 < r2 /\ intersect_circles x1 y1 r1 x2 y2 r2 [] = [Some p] /\
  ~ on_circle x1 y1 r1 p /\ ~ on_circle x2 y2 r2 p.
Proof.
  pose (e := / 10 ^ 11). assert (E : 0 < e /\ 4 * e < / 10 ^ 10).
  { unfold e. split; [apply Rinv_0_lt_compat; lra|]. apply Rmult_lt_reg_l with (10 ^ 11); [lra|]. replace (10 ^ 11 * (4 * / 10 ^ 11)) with 4 by (field; lra). replace (10 ^ 11 * / 10 ^ 10) with 10 by (field; lra). lra. }
  clearbody e. exists 0, 0, (5 * e), (6 * e), 0, (5 * e), (3 * e, 0).
  assert (S : forall x y : R, 0 <= y -> x = y * y -> sqrt x = y). { intros x y Hy ->. apply sqrt_square, Hy. }
  split; [lra|]. split; [lra|]. split; [|unfold on_circle; cbn [fst snd]; nra].
  unfold intersect_circles. replace (hypot (0 - 6 * e) (0 - 0)) with (6 * e) by (unfold hypot, square; rewrite (S _ (6 * e)); [reflexivity|lra|ring]).
  destruct (Rlt_dec (5 * e + 5 * e) (6 * e)) as [A|_]; [lra|]. rewrite (Rminus_diag_eq (5 * e) (5 * e) eq_refl), Rabs_R0. destruct (Rlt_dec (6 * e) 0) as [A|_]; [lra|].
  destruct (Req_EM_T (6 * e) 0) as [A|_]; [lra|]. cbv zeta. replace (sqrt _) with (4 * e) by (symmetry; apply S; [lra|unfold square; field; lra]).
  destruct (Rlt_dec (4 * e) _) as [_|A]; [|lra]. cbn [app]. apply (f_equal (fun p => [Some p])). unfold square. f_equal; field; lra.
Qed.
Print Assumptions ix_touch_refuted.
(** Equal circles: two NaN points are appended. *)
Theorem ix_equal_refuted x y r out : 0 <= r -> intersect_circles x y r x y r out = out ++ [None; None].
Proof.
  intros Hr. unfold intersect_circles. assert (D : hypot (x - x) (y - y) = 0). { unfold hypot, square. rewrite !(Rminus_diag_eq _ _ eq_refl), Rmult_0_l, Rplus_0_l. apply sqrt_0. }
  rewrite D, (Rminus_diag_eq r r eq_refl), Rabs_R0. destruct (Rlt_dec (r + r) 0) as [A|_]; [lra|]. destruct (Rlt_dec 0 0) as [A|_]; [lra|]. destruct (Req_EM_T 0 0) as [_|A]; [reflexivity|contradiction A; reflexivity].
Qed.
Print Assumptions ix_equal_refuted.

(** ** Fit *)
Lemma sum_acc f l a : fold_left (fun s p => s + f p) l a = a + sum f l.
Proof. unfold sum. revert a. induction l as [|p l IH]; intros a; simpl; [ring|]. rewrite IH, (IH (0 + f p)). ring. Qed.
Lemma sum_nil f : sum f [] = 0. Proof. reflexivity. Qed.
Lemma sum_cons f p l : sum f (p :: l) = f p + sum f l.
Proof. unfold sum at 1. simpl. rewrite sum_acc. ring. Qed.
Lemma sum_lin f g a b l : sum (fun p => a * f p + b * g p) l = a * sum f l + b * sum g l.
Proof. induction l as [|p l IH]; [rewrite !sum_nil; ring|]. rewrite !sum_cons, IH. ring. Qed.
Lemma sum_ext f g l : (forall p, In p l -> f p = g p) -> sum f l = sum g l.
Proof. induction l as [|p l IH]; intros H; [reflexivity|]. rewrite !sum_cons, IH by (intros q Hq; apply H; right; exact Hq). rewrite (H p (or_introl eq_refl)). reflexivity. Qed.
Lemma sum_const c l : sum (fun _ => c) l = INR (length l) * c.
Proof. induction l as [|p l IH]; [rewrite sum_nil; simpl; ring|]. rewrite sum_cons, IH. cbn [length]. rewrite S_INR. ring. Qed.
Lemma sum_sq_zero f l : sum (fun p => f p * f p) l = 0 -> forall p, In p l -> f p = 0.
Proof.
  assert (NN : forall l, 0 <= sum (fun p => f p * f p) l). { clear. induction l as [|p l IH]; [rewrite sum_nil; lra|]. rewrite sum_cons. nra. }
  induction l as [|q l IH]; intros H p; [intros []|]. rewrite sum_cons in H. specialize (NN l). assert (Q : f q * f q = 0) by nra.
  intros [<-|Hp]; [nra|]. apply IH; [lra|exact Hp].
Qed.
(** If n times the sum of squares is the square of the sum, all terms are the same. *)
Lemma no_variance w l : INR (length l) * sum (fun p => w p * w p) l = sum w l * sum w l -> forall p, In p l -> INR (length l) * w p = sum w l.
Proof.
  intros H. set (n := INR (length l)) in *. set (S := sum w l) in *.
  assert (Z : sum (fun p => (n * w p - S) * (n * w p - S)) l = 0).
  { transitivity (sum (fun p => 1 * (n * n * (w p * w p) + (- (2 * n * S)) * w p) + 1 * (S * S)) l). { apply sum_ext. intros. ring. }
    rewrite (sum_lin (fun p => n * n * (w p * w p) + - (2 * n * S) * w p) (fun _ => S * S)), (sum_lin (fun p => w p * w p) w), sum_const. fold n S. replace (n * n * sum (fun p => w p * w p) l) with (n * (n * sum (fun p => w p * w p) l)) by ring. rewrite H. ring. }
  intros p Hp. pose proof (sum_sq_zero _ _ Z p Hp). cbv beta in *. lra.
Qed.
(** The quadratic form of the scatter matrix. *)
Lemma scatter p q l : let n := INR (length l) in let sx := sum fst l in let sy := sum snd l in
  let w := fun z : point => p * fst z + q * snd z in
  n * sum (fun z => w z * w z) l - sum w l * sum w l =
  p * p * (n * sum (fun z => fst z * fst z) l - sx * sx) + 2 * p * q * (n * sum (fun z => fst z * snd z) l - sx * sy) + q * q * (n * sum (fun z => snd z * snd z) l - sy * sy).
Proof.
  cbv zeta. rewrite (sum_lin fst snd).
  assert (E : sum (fun z : point => (p * fst z + q * snd z) * (p * fst z + q * snd z)) l =
    p * p * sum (fun z => fst z * fst z) l + 2 * p * q * sum (fun z => fst z * snd z) l + q * q * sum (fun z => snd z * snd z) l).
  { transitivity (sum (fun z : point => 1 * (p * p * (fst z * fst z) + 2 * p * q * (fst z * snd z)) + q * q * (snd z * snd z)) l). { apply sum_ext. intros. ring. }
    rewrite (sum_lin (fun z => p * p * (fst z * fst z) + 2 * p * q * (fst z * snd z)) (fun z => snd z * snd z)), (sum_lin (fun z => fst z * fst z) (fun z => fst z * snd z)). ring. }
  rewrite E. ring.
Qed.
(** The determinant vanishes exactly for collinear points. *)
Lemma det_collinear l : let n := INR (length l) in let sx := sum fst l in let sy := sum snd l in
  (n * sum (fun z => fst z * fst z) l - square sx) * (n * sum (fun z => snd z * snd z) l - square sy) - square (n * sum (fun z => fst z * snd z) l - sx * sy) = 0 <-> collinear l.
Proof.
  cbv zeta. unfold square. set (A := _ - sum fst l * sum fst l). set (C := _ - sum snd l * sum snd l). set (B := _ - sum fst l * sum snd l). split.
  - intros H. destruct l as [|z l]. { exists 1, 0, 0. split; [left; lra|intros p []]. } remember (z :: l) as L eqn:EL.
    assert (HN : INR (length L) <> 0). { rewrite EL. cbn [length]. rewrite S_INR. pose proof (pos_INR (length l)). lra. }
    destruct (Req_dec C 0) as [HC|HC].
    + (* all y equal *) pose proof (scatter 0 1 L) as Q. cbv zeta in Q.
      assert (V : forall p, In p L -> INR (length L) * (0 * fst p + 1 * snd p) = sum (fun z => 0 * fst z + 1 * snd z) L).
      { apply no_variance. fold A B C in Q. unfold A, B, C in *. nra. }
      exists 0, 1, (sum (fun z => 0 * fst z + 1 * snd z) L / INR (length L)). split; [right; lra|]. intros p Hp. rewrite <- (V p Hp). field. exact HN.
    + pose proof (scatter C (- B) L) as Q. cbv zeta in Q.
      assert (V : forall p, In p L -> INR (length L) * (C * fst p + - B * snd p) = sum (fun z => C * fst z + - B * snd z) L).
      { apply no_variance. fold A B C in Q. replace (C * C * A + 2 * C * - B * B + - B * - B * C) with (C * (A * C - B * B)) in Q by ring. rewrite H, Rmult_0_r in Q. lra. }
      exists C, (- B), (sum (fun z => C * fst z + - B * snd z) L / INR (length L)). split; [left; exact HC|]. intros p Hp. rewrite <- (V p Hp). field. exact HN.
  - intros (p & q & c & HPQ & HL). pose proof (scatter p q l) as Q. cbv zeta in Q. fold A B C in Q.
    assert (K : forall r s, INR (length l) * sum (fun z => (p * fst z + q * snd z) * (r * fst z + s * snd z)) l = sum (fun z => p * fst z + q * snd z) l * sum (fun z => r * fst z + s * snd z) l).
    { intros r s. rewrite (sum_ext (fun z => p * fst z + q * snd z) (fun _ => c)) by exact HL. rewrite sum_const.
      rewrite (sum_ext _ (fun z => c * (r * fst z + s * snd z) + 0 * 0)) by (intros z Hz; rewrite (HL z Hz); ring).
      rewrite (sum_lin (fun z => r * fst z + s * snd z) (fun _ => 0)), sum_const. ring. }
    assert (K1 : p * A + q * B = 0).
    { pose proof (K 1 0) as K1. rewrite (sum_ext _ (fun z => p * (fst z * fst z) + q * (fst z * snd z))) in K1 by (intros; ring).
      rewrite (sum_lin (fun z => fst z * fst z) (fun z => fst z * snd z)), (sum_lin fst snd p q), (sum_lin fst snd 1 0) in K1. unfold A, B. lra. }
    assert (K2 : p * B + q * C = 0).
    { pose proof (K 0 1) as K2. rewrite (sum_ext _ (fun z => p * (fst z * snd z) + q * (snd z * snd z))) in K2 by (intros; ring).
      rewrite (sum_lin (fun z => fst z * snd z) (fun z => snd z * snd z)), (sum_lin fst snd p q), (sum_lin fst snd 0 1) in K2. unfold B, C. lra. }
    clearbody A B C. destruct HPQ as [HP|HQ].
    + apply (Rmult_eq_reg_l p); [|exact HP]. rewrite Rmult_0_r. replace (p * (A * C - B * B)) with ((p * A) * C - (p * B) * B) by ring.
      replace (p * A) with (- q * B) by lra. replace (p * B) with (- q * C) by lra. ring.
    + apply (Rmult_eq_reg_l q); [|exact HQ]. rewrite Rmult_0_r. replace (q * (A * C - B * B)) with ((q * C) * A - (q * B) * B) by ring.
      replace (q * C) with (- p * B) by lra. replace (q * B) with (- p * A) by lra. ring.
Qed.
(** The fit fails (divides by zero) exactly if the points are collinear. *)
Theorem jx_defined l : fit_circle l = None <-> collinear l.
Proof.
  rewrite <- det_collinear. cbv zeta. unfold fit_circle. destruct (Req_EM_T _ 0) as [E|E]; split; intros H; [exact E|reflexivity|discriminate|contradiction].
Qed.
Print Assumptions jx_defined.
Lemma on_circle_sum a b r l f : (forall p, In p l -> on_circle a b r p) ->
  sum (fun p => f p * (fst p * fst p + snd p * snd p)) l = 2 * a * sum (fun p => f p * fst p) l + 2 * b * sum (fun p => f p * snd p) l + (r * r - a * a - b * b) * sum f l.
Proof.
  intros H. transitivity (sum (fun p => 1 * (2 * a * (f p * fst p) + 2 * b * (f p * snd p)) + (r * r - a * a - b * b) * f p) l).
  - apply sum_ext. intros p Hp. specialize (H p Hp). unfold on_circle in H. replace (fst p * fst p + snd p * snd p) with (2 * a * fst p + 2 * b * snd p + (r * r - a * a - b * b)) by lra. ring.
  - rewrite (sum_lin (fun p => 2 * a * (f p * fst p) + 2 * b * (f p * snd p)) f), (sum_lin (fun p => f p * fst p) (fun p => f p * snd p)). ring.
Qed.
(** Points on a circle that are not on one line: the fit is that circle. *)
Theorem jx_exact l a b r : 0 <= r -> (forall p, In p l -> on_circle a b r p) -> ~ collinear l ->
  fit_circle l = Some {| center_x := a; center_y := b; radius := r |}.
Proof.
  intros Hr H HC. unfold fit_circle. destruct (Req_EM_T _ 0) as [E|E]. { exfalso. apply HC, det_collinear. exact E. }
  assert (H0 := on_circle_sum a b r l (fun _ => 1) H). assert (H1 := on_circle_sum a b r l fst H). assert (H2 := on_circle_sum a b r l snd H).
  rewrite (sum_ext (fun p => 1 * _) (fun p => 1 * (fst p * fst p) + 1 * (snd p * snd p))), (sum_lin (fun p => fst p * fst p) (fun p => snd p * snd p)), (sum_ext (fun p => 1 * fst p) fst), (sum_ext (fun p => 1 * snd p) snd), sum_const in H0 by (intros; ring).
  rewrite (sum_ext _ (fun p => 1 * (fst p * fst p * fst p) + 1 * (fst p * snd p * snd p))), (sum_lin (fun p => fst p * fst p * fst p) (fun p => fst p * snd p * snd p)) in H1 by (intros; ring).
  rewrite (sum_ext _ (fun p => 1 * (fst p * fst p * snd p) + 1 * (snd p * snd p * snd p))), (sum_lin (fun p => fst p * fst p * snd p) (fun p => snd p * snd p * snd p)) in H2 by (intros; ring).
  rewrite (sum_ext (fun p => snd p * fst p) (fun p => fst p * snd p)) in H2 by (intros; ring).
  change (INR (@length (R * R) l)) with (INR (@length point l)) in *. set (n := INR (@length point l)) in *. set (sx := sum fst l) in *. set (sy := sum snd l) in *. set (sxx := sum (fun p => fst p * fst p) l) in *. set (sxy := sum (fun p => fst p * snd p) l) in *. set (syy := sum (fun p => snd p * snd p) l) in *.
  set (sxxx := sum (fun p => fst p * fst p * fst p) l) in *. set (sxxy := sum (fun p => fst p * fst p * snd p) l) in *. set (sxyy := sum (fun p => fst p * snd p * snd p) l) in *. set (syyy := sum (fun p => snd p * snd p * snd p) l) in *.
  assert (ED : / 2 * (n * sxyy - sx * syy + n * sxxx - sx * sxx) = a * (n * sxx - square sx) + b * (n * sxy - sx * sy)).
  { unfold square. replace (n * sxyy - sx * syy + n * sxxx - sx * sxx) with (n * (1 * sxxx + 1 * sxyy) - sx * (1 * sxx + 1 * syy)) by ring. rewrite H1, H0. field. }
  assert (EE : / 2 * (n * sxxy - sy * sxx + n * syyy - sy * syy) = a * (n * sxy - sx * sy) + b * (n * syy - square sy)).
  { unfold square. replace (n * sxxy - sy * sxx + n * syyy - sy * syy) with (n * (1 * sxxy + 1 * syyy) - sy * (1 * sxx + 1 * syy)) by ring. rewrite H2, H0. field. }
  cbv zeta. change (@length (R * R) l) with (@length point l) in *. rewrite ED, EE.
  set (A := n * sxx - square sx) in *. set (B := n * sxy - sx * sy) in *. set (C := n * syy - square sy) in *.
  assert (CX : ((a * A + b * B) * C - B * (a * B + b * C)) / (A * C - square B) = a). { unfold square in *. field. exact E. }
  assert (CY : (A * (a * B + b * C) - B * (a * A + b * B)) / (A * C - square B) = b). { unfold square in *. field. exact E. }
  rewrite CX, CY. f_equal. f_equal. rewrite (sum_ext _ (fun _ => r)).
  - rewrite sum_const. fold n. field. intros Z. apply HC. destruct l as [|z l']; [exists 1, 0, 0; split; [left; lra|intros p []]|]. exfalso; apply (not_0_INR (length (z :: l'))); [discriminate|exact Z].
  - intros p Hp. specialize (H p Hp). unfold hypot, square. unfold on_circle in H. rewrite H. apply sqrt_square, Hr.
Qed.
Print Assumptions jx_exact.
Example jx_case : (forall p, In p [(3, 2); (-1, 2); (1, 4); (1, 0)] -> on_circle 1 2 2 p) /\ ~ collinear [(3, 2); (-1, 2); (1, 4); (1, 0)].
Proof.
  split.
  - simpl. intros p [<-|[<-|[<-|[<-|[]]]]]; unfold on_circle; cbn [fst snd]; lra.
  - intros (a & b & c & N & H). pose proof (H _ (or_introl eq_refl)) as H1. pose proof (H _ (or_intror (or_introl eq_refl))) as H2. pose proof (H _ (or_intror (or_intror (or_introl eq_refl)))) as H3. cbn [fst snd] in *. lra.
Qed.
