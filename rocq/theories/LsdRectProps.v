(** C102: the rectangles of the line segment detector. *)
From Coq Require Import ZArith Reals Lra Lia List Bool Arith FinFun.
Import ListNotations.
From Verif Require Import OrientModel OrientSpec OrientProps LsdOrderModel LsdRegionModel LsdRegionSpec LsdGrowProofs LsdGrowProps LsdRectSpec.
Local Open Scope R_scope.

(** ** Sums *)
Section Sums.
Variable grad : pixel -> R.
Notation W := (weighted grad).
Lemma weighted_ext f g l : (forall p, In p l -> f p = g p) -> W f l = W g l.
Proof. induction l as [|p l IH]; intros E; [reflexivity|]. cbn. rewrite E by (left; reflexivity). f_equal. apply IH. intros; apply E; right; assumption. Qed.
Lemma weighted_lin a f b g l : W (fun p => a * f p + b * g p) l = a * W f l + b * W g l.
Proof. induction l as [|p l IH]; [cbn; ring|]. cbn. unfold weighted in IH. rewrite IH. ring. Qed.
Lemma sums_spec l : sums grad l = (W (fun p => IZR (fst p)) l, W (fun p => IZR (snd p)) l, W (fun _ => 1) l).
Proof.
  unfold sums. assert (forall x y s, fold_left (fun '(x, y, sum) p => (x + IZR (fst p) * grad p, y + IZR (snd p) * grad p, sum + grad p)) l (x, y, s) = (x + W (fun p => IZR (fst p)) l, y + W (fun p => IZR (snd p)) l, s + W (fun _ => 1) l)) as E; [|rewrite E; f_equal; [f_equal|]; ring].
  induction l as [|p l IH]; intros x y s; [cbn; f_equal; [f_equal|]; ring|]. cbn [fold_left weighted fold_right]. rewrite IH. unfold weighted. f_equal; [f_equal|]; ring.
Qed.
Lemma inertia_spec l x y : inertia grad l x y = (W (fun p => (IZR (snd p) - y) ^ 2) l, W (fun p => (IZR (fst p) - x) ^ 2) l, - W (fun p => (IZR (fst p) - x) * (IZR (snd p) - y)) l).
Proof.
  unfold inertia. cbv zeta. match goal with |- fold_left ?f _ _ = _ => assert (forall a b c, fold_left f l (a, b, c) = (a + W (fun p => (IZR (snd p) - y) ^ 2) l, b + W (fun p => (IZR (fst p) - x) ^ 2) l, c - W (fun p => (IZR (fst p) - x) * (IZR (snd p) - y)) l)) as E; [|rewrite E; f_equal; [f_equal|]; ring] end.
  induction l as [|p l IH]; intros a b c; [cbn; f_equal; [f_equal|]; ring|]. cbn [fold_left weighted fold_right]. rewrite IH. unfold weighted. f_equal; [f_equal|]; ring.
Qed.
Lemma weighted_nonneg f l : (forall p, In p l -> 0 < grad p) -> (forall p, In p l -> 0 <= f p) -> 0 <= W f l.
Proof. induction l as [|p l IH]; intros positive N; [cbn; lra|]. cbn. assert (0 <= W f l) by (apply IH; intros; [apply positive|apply N]; right; assumption). unfold weighted in *. pose proof (Rmult_le_pos _ _ (Rlt_le _ _ (positive p (or_introl eq_refl))) (N p (or_introl eq_refl))). lra. Qed.
Lemma weighted_zero f l : (forall p, In p l -> 0 < grad p) -> (forall p, In p l -> 0 <= f p) -> W f l = 0 -> forall p, In p l -> f p = 0.
Proof.
  induction l as [|q l IH]; intros positive N E p I; [destruct I|]. cbn in E. fold (W f l) in E. assert (0 <= W f l) as H by (apply weighted_nonneg; intros; [apply positive|apply N]; right; assumption). pose proof (positive q (or_introl eq_refl)) as Q. pose proof (Rmult_le_pos _ _ (Rlt_le _ _ Q) (N q (or_introl eq_refl))) as H'. destruct I as [<-|I].
  - assert (grad q * f q = 0) as Z by lra. apply Rmult_integral in Z as [Z|Z]; [lra|exact Z].
  - apply IH; [intros; apply positive; right; assumption|intros; apply N; right; assumption|lra|exact I].
Qed.
Lemma weighted_pos l : (forall p, In p l -> 0 < grad p) -> l <> [] -> 0 < W (fun _ => 1) l.
Proof. destruct l as [|p l]; [contradiction|]. intros positive _. cbn. assert (0 <= W (fun _ => 1) l) by (apply weighted_nonneg; intros; [apply positive; right; assumption|lra]). unfold weighted in *. pose proof (positive p (or_introl eq_refl)). lra. Qed.
End Sums.

(** ** The smaller eigenvalue of a symmetric matrix *)
Section Eigen.
Variables a b c : R.
Definition form (u v : R) : R := a * (u * u) + 2 * c * (u * v) + b * (v * v).
Definition small : R := / 2 * (a + b - sqrt ((a - b) * (a - b) + 4 * c * c)).
Lemma root : let s := sqrt ((a - b) * (a - b) + 4 * c * c) in 0 <= s /\ s * s = (a - b) * (a - b) + 4 * c * c.
Proof. cbv zeta. split; [apply sqrt_pos|]. apply sqrt_sqrt. pose proof (Rle_0_sqr (a - b)). pose proof (Rle_0_sqr c). unfold Rsqr in *. lra. Qed.
Lemma root_le x : Rabs x <= sqrt ((a - b) * (a - b) + 4 * c * c) <-> x * x <= (a - b) * (a - b) + 4 * c * c.
Proof.
  destruct root as [R1 R2]. set (s := sqrt _) in *. rewrite <- R2. split; intros H.
  - apply Rsqr_le_abs_1. rewrite (Rabs_right s) by lra. exact H.
  - rewrite <- (Rabs_right s) by lra. apply Rsqr_le_abs_0. exact H.
Qed.
Lemma small_char : (small - a) * (small - b) = c * c.
Proof. destruct root as [R1 R2]. unfold small. set (s := sqrt _) in *. nra. Qed.
Lemma small_le : small <= a /\ small <= b.
Proof.
  pose proof (proj2 (root_le (a - b))) as H. destruct root as [R1 R2]. unfold small. set (s := sqrt _) in *. assert (Rabs (a - b) <= s) as L by (apply H; pose proof (Rle_0_sqr c); unfold Rsqr in *; lra). pose proof (Rle_abs (a - b)). pose proof (Rle_abs (- (a - b))) as N. rewrite Rabs_Ropp in N. lra.
Qed.
Lemma form_ge u v : small * (u * u + v * v) <= form u v.
Proof.
  destruct small_le as [LA LB]. pose proof small_char as C. unfold form. set (m := a - small). set (n := b - small). assert (0 <= m /\ 0 <= n /\ m * n = c * c) as (M & N & E) by (unfold m, n; split; [lra|]; split; [lra|]; rewrite <- C; ring).
  assert (0 <= m * (u * u) + 2 * c * (u * v) + n * (v * v)) as P; [|unfold m, n in P; lra].
  destruct (Req_dec m 0) as [Z|Z].
  - assert (c = 0) as -> by (rewrite Z in E; nra). rewrite Z. pose proof (Rle_0_sqr v) as V. unfold Rsqr in V. nra.
  - apply Rmult_le_reg_l with m; [lra|]. rewrite Rmult_0_r. replace (m * (m * (u * u) + 2 * c * (u * v) + n * (v * v))) with ((m * u + c * v) * (m * u + c * v) + (m * n - c * c) * (v * v)) by ring. rewrite E. pose proof (Rle_0_sqr (m * u + c * v)) as Q. unfold Rsqr in Q. lra.
Qed.
Lemma form_first : form c (small - a) = small * (c * c + (small - a) * (small - a)).
Proof. pose proof small_char as C. unfold form. replace (small * (c * c + (small - a) * (small - a))) with (a * (c * c) + 2 * c * (c * (small - a)) + b * ((small - a) * (small - a)) + (small - a) * ((small - a) * (small - b) - c * c)) by ring. rewrite C. ring. Qed.
Lemma form_second : form (small - b) c = small * ((small - b) * (small - b) + c * c).
Proof. pose proof small_char as C. unfold form. replace (small * ((small - b) * (small - b) + c * c)) with (a * ((small - b) * (small - b)) + 2 * c * ((small - b) * c) + b * (c * c) + (small - b) * ((small - a) * (small - b) - c * c)) by ring. rewrite C. ring. Qed.
(** The direction chosen by the code. *)
Lemma form_theta t : 0 <= a -> 0 <= b -> t = (if Rlt_dec (Rabs b) (Rabs a) then fast_atan2 (small - a) c else fast_atan2 c (small - b)) -> form (cos t) (sin t) = small.
Proof.
  intros A B ->. pose proof small_char as C. pose proof small_le as [LA LB].
  assert (forall x y, (x <> 0 \/ y <> 0) -> form x y = small * (x * x + y * y) -> form (cos (fast_atan2 y x)) (sin (fast_atan2 y x)) = small) as D.
  { intros x y N F. destruct (fast_atan2_direction x y N) as (_ & r & R & E1 & E2). set (t := fast_atan2 y x) in *. rewrite E1, E2 in F. unfold form in *. pose proof (sin2_cos2 t) as S. unfold Rsqr in S. replace (r * cos t * (r * cos t) + r * sin t * (r * sin t)) with (r * r * (sin t * sin t + cos t * cos t)) in F by ring. rewrite S in F. apply Rmult_eq_reg_l with (r * r); [|nra]. replace (r * r * (a * (cos t * cos t) + 2 * c * (cos t * sin t) + b * (sin t * sin t))) with (a * (r * cos t * (r * cos t)) + 2 * c * (r * cos t * (r * sin t)) + b * (r * sin t * (r * sin t))) by ring. rewrite F. ring. }
  destruct (Rlt_dec (Rabs b) (Rabs a)) as [L|L].
  - rewrite !Rabs_right in L by lra. apply D; [|apply form_first]. right. lra.
  - rewrite !Rabs_right in L by lra. destruct (Req_dec c 0) as [Z|Z]; [destruct (Req_dec (small - b) 0) as [Z'|Z']|].
    + rewrite Z, Z', fast_atan2_zero, cos_0, sin_0. unfold form. assert (a = small) by lra. rewrite Z. lra.
    + apply D; [left; exact Z'|apply form_second].
    + apply D; [right; exact Z|apply form_second].
Qed.
End Eigen.

(** ** Extents *)
Lemma extent_spec f l : let '(low, high) := extent f l in low <= 0 <= high /\ (forall p, In p l -> low <= f p <= high) /\ (low = 0 \/ exists p, In p l /\ low = f p) /\ (high = 0 \/ exists p, In p l /\ high = f p).
Proof.
  unfold extent. assert (forall lo hi, lo <= 0 <= hi -> let '(low, high) := fold_left (fun e p => widen e (f p)) l (lo, hi) in low <= lo /\ hi <= high /\ (forall p, In p l -> low <= f p <= high) /\ (low = lo \/ exists p, In p l /\ low = f p) /\ (high = hi \/ exists p, In p l /\ high = f p)) as G.
  { induction l as [|p l IH]; intros lo hi B; cbn [fold_left]; [split; [lra|]; split; [lra|]; split; [intros ? []|]; split; left; reflexivity|].
    assert (exists lo' hi', widen (lo, hi) (f p) = (lo', hi') /\ lo' <= lo /\ hi <= hi' /\ lo' <= f p <= hi' /\ (lo' = lo \/ lo' = f p) /\ (hi' = hi \/ hi' = f p)) as (lo' & hi' & -> & B1 & B2 & B3 & C1 & C2).
    { unfold widen. destruct (Rlt_dec hi (f p)); [exists lo, (f p)|destruct (Rlt_dec (f p) lo); [exists (f p), hi|exists lo, hi]]; (split; [reflexivity|]; split; [lra|]; split; [lra|]; split; [lra|]; auto). }
    specialize (IH lo' hi' ltac:(lra)). destruct (fold_left _ l (lo', hi')) as [low high]. destruct IH as (I1 & I2 & I3 & I4 & I5). split; [lra|]. split; [lra|]. split; [|split].
    - intros q [<-|I]; [lra|apply I3, I].
    - destruct I4 as [->|(q & I & ->)]; [|right; exists q; split; [right; exact I|reflexivity]]. destruct C1 as [->| ->]; [left; reflexivity|right; exists p; split; [left; reflexivity|reflexivity]].
    - destruct I5 as [->|(q & I & ->)]; [|right; exists q; split; [right; exact I|reflexivity]]. destruct C2 as [->| ->]; [left; reflexivity|right; exists p; split; [left; reflexivity|reflexivity]]. }
  specialize (G 0 0 ltac:(lra)). destruct (fold_left _ l (0, 0)) as [low high]. destruct G as (G1 & G2 & G3 & G4 & G5). split; [lra|auto].
Qed.
(** Where the weighted mean is 0, the ends are attained. *)
Lemma extent_attained grad f l : (forall p, In p l -> 0 < grad p) -> l <> [] -> weighted grad f l = 0 ->
  let '(low, high) := extent f l in exists p q, In p l /\ In q l /\ low = f p /\ high = f q /\ forall r, In r l -> f p <= f r <= f q.
Proof.
  intros G N E. pose proof (extent_spec f l) as S. destruct (extent f l) as [low high]. destruct S as (S1 & S2 & S3 & S4).
  assert (low = 0 -> exists p, In p l /\ low = f p) as L.
  { intros ->. destruct l as [|p l]; [contradiction|]. exists p. split; [left; reflexivity|]. symmetry. apply (weighted_zero grad f (p :: l)); [exact G|intros q I; apply S2, I|exact E|left; reflexivity]. }
  assert (high = 0 -> exists p, In p l /\ high = f p) as H.
  { intros ->. destruct l as [|p l]; [contradiction|]. exists p. split; [left; reflexivity|]. assert (- f p = 0); [|lra]. apply (weighted_zero grad (fun p => - f p) (p :: l)); [exact G|intros q I; specialize (S2 q I); lra| |left; reflexivity]. replace 0 with (-1 * weighted grad f (p :: l) + 0 * weighted grad f (p :: l)) by (rewrite E; ring). rewrite <- weighted_lin. apply weighted_ext. intros; ring. }
  assert (exists p, In p l /\ low = f p) as (p & IP & EP) by (destruct S3 as [Z|S3]; auto). assert (exists q, In q l /\ high = f q) as (q & IQ & EQ) by (destruct S4 as [Z|S4]; auto). exists p, q. split; [exact IP|]. split; [exact IQ|]. split; [exact EP|]. split; [exact EQ|]. intros r I. rewrite <- EP, <- EQ. apply S2, I.
Qed.

(** ** Angle differences *)
Lemma angle_diff_spec a b : 0 <= a < 2 * PI -> 0 <= b < 2 * PI -> angle_diff a b <= PI /\ (exists k : Z, angle_diff_signed a b = a - b + 2 * PI * IZR k) /\ - PI < angle_diff_signed a b <= PI.
Proof.
  intros A B. pose proof PI_RGT_0 as PP. assert ((exists k : Z, angle_diff_signed a b = a - b + 2 * PI * IZR k) /\ - PI < angle_diff_signed a b <= PI) as [K R].
  { unfold angle_diff_signed. cbn [wrap_up]. destruct (Rle_dec (a - b) (- PI)) as [L|L].
    - destruct (Rle_dec (a - b + 2 * PI) (- PI)); [lra|]. cbn [wrap_down]. destruct (Rlt_dec PI (a - b + 2 * PI)); [lra|]. split; [exists 1%Z; ring|lra].
    - cbn [wrap_down]. destruct (Rlt_dec PI (a - b)) as [U|U]; [|split; [exists 0%Z; ring|lra]]. destruct (Rlt_dec PI (a - b - 2 * PI)); [lra|]. split; [exists (-1)%Z; ring|lra]. }
  split; [|auto]. unfold angle_diff. apply Rabs_le. lra.
Qed.
Lemma angle_diff_similar a b d : 0 <= a < 2 * PI -> 0 <= b < 2 * PI -> angle_diff a b <= d <-> similar a b d.
Proof.
  intros A B. destruct (angle_diff_spec a b A B) as (D & (k & K) & R). pose proof PI_RGT_0 as PP. unfold angle_diff in *. split.
  - intros L. exists k. rewrite <- K. exact L.
  - intros (m & M). set (v := angle_diff_signed a b) in *. replace (a - b + 2 * PI * IZR m) with (v + 2 * PI * IZR (m - k)) in M by (rewrite K, minus_IZR; ring). destruct (IZR_cases (m - k)) as [C|[C|[C|[C|C]]]].
    + assert (2 * PI * IZR (m - k) <= 2 * PI * -2) by (apply Rmult_le_compat_l; lra). unfold Rabs in *. destruct (Rcase_abs v); destruct (Rcase_abs (v + 2 * PI * IZR (m - k))); lra.
    + rewrite C in M. unfold Rabs in *. destruct (Rcase_abs v); destruct (Rcase_abs (v + 2 * PI * -1)); lra.
    + rewrite C in M. replace (v + 2 * PI * 0) with v in M by ring. exact M.
    + rewrite C in M. unfold Rabs in *. destruct (Rcase_abs v); destruct (Rcase_abs (v + 2 * PI * 1)); lra.
    + assert (2 * PI * 2 <= 2 * PI * IZR (m - k)) by (apply Rmult_le_compat_l; lra). unfold Rabs in *. destruct (Rcase_abs v); destruct (Rcase_abs (v + 2 * PI * IZR (m - k))); lra.
Qed.

(** ** The rectangle *)
Section Rectangle.
Variables (grad : pixel -> R) (reg : list pixel) (reg_angle prec : R).
Hypothesis positive : forall p, In p reg -> 0 < grad p.
Hypothesis nonempty : reg <> [].
Notation W := (weighted grad).

Lemma aside_form cx cy u v : W (fun p => offset_aside cx cy u v p ^ 2) reg = form (W (fun p => (IZR (snd p) - cy) ^ 2) reg) (W (fun p => (IZR (fst p) - cx) ^ 2) reg) (- W (fun p => (IZR (fst p) - cx) * (IZR (snd p) - cy)) reg) u v.
Proof.
  unfold form. transitivity (1 * W (fun p => u * u * (IZR (snd p) - cy) ^ 2 + v * v * (IZR (fst p) - cx) ^ 2) reg + (-2 * (u * v)) * W (fun p => (IZR (fst p) - cx) * (IZR (snd p) - cy)) reg).
  - rewrite <- weighted_lin. apply weighted_ext. intros p _. unfold offset_aside. ring.
  - rewrite weighted_lin. ring.
Qed.
Lemma centre_spec x y sum : sums grad reg = (x, y, sum) -> 0 < sum /\ centroid grad reg (x / sum) (y / sum).
Proof.
  rewrite sums_spec. intros [= <- <- <-]. pose proof (weighted_pos grad reg positive nonempty) as P. split; [exact P|]. set (s := W (fun _ => 1) reg) in *. split.
  - transitivity (1 * W (fun p => IZR (fst p)) reg + (- (W (fun p => IZR (fst p)) reg / s)) * W (fun _ => 1) reg).
    + rewrite <- weighted_lin. apply weighted_ext. intros p _. ring.
    + fold s. field. lra.
  - transitivity (1 * W (fun p => IZR (snd p)) reg + (- (W (fun p => IZR (snd p)) reg / s)) * W (fun _ => 1) reg).
    + rewrite <- weighted_lin. apply weighted_ext. intros p _. ring.
    + fold s. field. lra.
Qed.
Lemma offsets_zero cx cy dx dy : centroid grad reg cx cy -> W (offset_along cx cy dx dy) reg = 0 /\ W (offset_aside cx cy dx dy) reg = 0.
Proof.
  intros [C1 C2]. split.
  - transitivity (dx * W (fun p => IZR (fst p) - cx) reg + dy * W (fun p => IZR (snd p) - cy) reg); [|rewrite C1, C2; ring]. rewrite <- weighted_lin. apply weighted_ext. intros p _. unfold offset_along. ring.
  - transitivity (dx * W (fun p => IZR (snd p) - cy) reg + (- dy) * W (fun p => IZR (fst p) - cx) reg); [|rewrite C1, C2; ring]. rewrite <- weighted_lin. apply weighted_ext. intros p _. unfold offset_aside. ring.
Qed.
(** The centre is the centre of mass, the axis the best one, the end points are the outermost projections, the width is the extent across the axis, but at least 1. *)
Theorem lcx_rect rec : region2rect grad reg reg_angle prec = Ok rec ->
  centroid grad reg (cx rec) (cy rec) /\ best_axis grad reg (cx rec) (cy rec) (rdx rec) (rdy rec) /\ rdx rec = cos (theta rec) /\ rdy rec = sin (theta rec) /\
  spans reg (cx rec) (cy rec) (rdx rec) (rdy rec) (x1 rec) (y1 rec) (x2 rec) (y2 rec) /\ exists b, breadth reg (cx rec) (cy rec) (rdx rec) (rdy rec) b /\ width rec = Rmax 1 b.
Proof.
  unfold region2rect. destruct (sums grad reg) as [[x y] sum] eqn:ES. destruct (centre_spec x y sum ES) as [P C]. destruct (Rlt_dec 0 sum) as [_|]; [|contradiction]. set (mx := x / sum) in *. set (my := y / sum) in *. unfold get_theta. rewrite inertia_spec. set (A := W (fun p => (IZR (snd p) - my) ^ 2) reg). set (B := W (fun p => (IZR (fst p) - mx) ^ 2) reg). set (D := - W (fun p => (IZR (fst p) - mx) * (IZR (snd p) - my)) reg). cbv zeta.
  destruct (_ && _ && _); [discriminate|]. cbn [bind]. change (/ 2 * (A + B - sqrt ((A - B) * (A - B) + 4 * D * D))) with (small A B D). set (t0 := if Rlt_dec (Rabs B) (Rabs A) then fast_atan2 (small A B D - A) D else fast_atan2 D (small A B D - B)). set (t := if Rlt_dec prec (angle_diff t0 reg_angle) then t0 + PI else t0).
  assert (form A B D (cos t) (sin t) = small A B D) as F.
  { assert (0 <= A) as NA by (apply weighted_nonneg; [exact positive|intros; apply pow2_ge_0]). assert (0 <= B) as NB by (apply weighted_nonneg; [exact positive|intros; apply pow2_ge_0]). pose proof (form_theta A B D t0 NA NB eq_refl) as F0. unfold t. destruct (Rlt_dec prec (angle_diff t0 reg_angle)); [|exact F0]. rewrite neg_cos, neg_sin. unfold form in *. rewrite <- F0. ring. }
  destruct (offsets_zero mx my (cos t) (sin t) C) as [Z1 Z2].
  pose proof (extent_attained grad (along mx my (cos t) (sin t)) reg positive nonempty Z1) as X1. destruct (extent (along mx my (cos t) (sin t)) reg) as [l_min l_max].
  assert (W (across mx my (cos t) (sin t)) reg = 0) as Z3 by (rewrite <- Z2; apply weighted_ext; intros p _; unfold across, offset_aside; ring). pose proof (extent_attained grad (across mx my (cos t) (sin t)) reg positive nonempty Z3) as X2. destruct (extent (across mx my (cos t) (sin t)) reg) as [w_min w_max].
  intros [= <-]. cbn [cx cy rdx rdy theta x1 y1 x2 y2 width]. split; [exact C|]. split.
  { split; [pose proof (sin2_cos2 t) as S; unfold Rsqr in S; lra|]. intros ux uy U. rewrite !aside_form. fold A B D. rewrite F. pose proof (form_ge A B D ux uy) as G. rewrite U, Rmult_1_r in G. exact G. }
  split; [reflexivity|]. split; [reflexivity|]. split.
  - destruct X1 as (p & q & IP & IQ & -> & -> & R). exists p, q. split; [exact IP|]. split; [exact IQ|]. split; [exact R|]. split; [reflexivity|]. split; [reflexivity|]. split; reflexivity.
  - destruct X2 as (p & q & IP & IQ & -> & -> & R). exists (across mx my (cos t) (sin t) q - across mx my (cos t) (sin t) p). split.
    + assert (forall r, across mx my (cos t) (sin t) r = offset_aside mx my (cos t) (sin t) r) as EA by (intros; unfold across, offset_aside; ring). exists p, q. split; [exact IP|]. split; [exact IQ|]. split; [intros r I; rewrite <- !EA; apply R, I|rewrite <- !EA; reflexivity].
    + destruct (Rlt_dec _ 1) as [L|L]; [rewrite Rmax_left; lra|rewrite Rmax_right; lra].
Qed.
(** The call fails exactly if there are not two different pixels. *)
Theorem lcx_throw : region2rect grad reg reg_angle prec = Throw <-> forall p q, In p reg -> In q reg -> p = q.
Proof.
  unfold region2rect. destruct (sums grad reg) as [[x y] sum] eqn:ES. destruct (centre_spec x y sum ES) as [P C]. destruct (Rlt_dec 0 sum) as [_|]; [|contradiction]. set (mx := x / sum) in *. set (my := y / sum) in *. unfold get_theta. rewrite inertia_spec. set (A := W (fun p => (IZR (snd p) - my) ^ 2) reg). set (B := W (fun p => (IZR (fst p) - mx) ^ 2) reg). set (D := - W (fun p => (IZR (fst p) - mx) * (IZR (snd p) - my)) reg). cbv zeta.
  assert (A = 0 /\ B = 0 /\ D = 0 <-> forall p q, In p reg -> In q reg -> p = q) as E.
  { split.
    - intros (EA & EB & _). assert (forall p, In p reg -> IZR (fst p) = mx /\ IZR (snd p) = my) as H.
      { intros p I. pose proof (weighted_zero grad _ reg positive (fun q _ => pow2_ge_0 (IZR (fst q) - mx)) EB p I) as H1. pose proof (weighted_zero grad _ reg positive (fun q _ => pow2_ge_0 (IZR (snd q) - my)) EA p I) as H2. cbv beta in H1, H2. split; nra. }
      intros [px py] [qx qy] IP IQ. destruct (H _ IP) as [P1 P2]. destruct (H _ IQ) as [Q1 Q2]. cbn [fst snd] in *. f_equal; apply eq_IZR; lra.
    - intros H. assert (exists p, In p reg) as (p & IP) by (clear - nonempty; destruct reg as [|p l]; [contradiction|exists p; left; reflexivity]). assert (forall f, W f reg = f p * W (fun _ => 1) reg) as K.
      { intros f. transitivity (f p * W (fun _ => 1) reg + 0 * W (fun _ => 1) reg); [|ring]. rewrite <- weighted_lin. apply weighted_ext. intros q I. rewrite (H q p I IP). ring. }
      destruct C as [C1 C2]. pose proof (weighted_pos grad reg positive nonempty) as WP. rewrite K in C1, C2. apply Rmult_integral in C1, C2. assert (IZR (fst p) - mx = 0 /\ IZR (snd p) - my = 0) as [E1 E2] by (split; lra). unfold A, B, D. rewrite (K (fun p => (IZR (snd p) - my) ^ 2)), (K (fun p => (IZR (fst p) - mx) ^ 2)), (K (fun p => (IZR (fst p) - mx) * (IZR (snd p) - my))). cbv beta. rewrite E1, E2. split; [ring|]. split; ring. }
  destruct (Req_EM_T A 0) as [EA|EA]; [destruct (Req_EM_T B 0) as [EB|EB]; [destruct (Req_EM_T D 0) as [ED|ED]|]|]; cbn [andb bind].
  - split; [intros _; apply E; auto|reflexivity].
  - split; [destruct (extent _ reg); destruct (extent _ reg); discriminate|intros H; apply E in H; exfalso; tauto].
  - split; [destruct (extent _ reg); destruct (extent _ reg); discriminate|intros H; apply E in H; exfalso; tauto].
  - split; [destruct (extent _ reg); destruct (extent _ reg); discriminate|intros H; apply E in H; exfalso; tauto].
Qed.
(** If the axis, taken in one of its two directions, is within the tolerance of the angle of the region, so is the direction chosen. *)
Theorem lcx_oriented rec : region2rect grad reg reg_angle prec = Ok rec -> 0 <= reg_angle < 2 * PI -> similar (theta rec) reg_angle prec \/ similar (theta rec + PI) reg_angle prec -> similar (theta rec) reg_angle prec.
Proof.
  unfold region2rect. destruct (sums grad reg) as [[x y] sum]. destruct (Rlt_dec 0 sum); [|discriminate]. unfold get_theta. destruct (inertia grad reg (x / sum) (y / sum)) as [[A B] D]. cbv zeta. destruct (_ && _ && _); [discriminate|]. cbn [bind]. set (t0 := if Rlt_dec (Rabs B) (Rabs A) then _ else _). assert (0 <= t0 < 2 * PI) as T by (unfold t0; destruct (Rlt_dec (Rabs B) (Rabs A)); apply fast_atan2_range). clearbody t0. set (t := if Rlt_dec prec _ then _ else _). destruct (extent _ reg) as [? ?]. destruct (extent _ reg) as [? ?]. intros [= <-]. cbn [theta]. intros RA S. unfold t in *. destruct (Rlt_dec prec (angle_diff t0 reg_angle)) as [L|L].
  - destruct S as [S|(k & K)]; [exact S|]. exfalso. assert (similar t0 reg_angle prec) as S'.
    { exists (k + 1)%Z. rewrite plus_IZR. replace (t0 - reg_angle + 2 * PI * (IZR k + 1)) with (t0 + PI + PI - reg_angle + 2 * PI * IZR k) by ring. exact K. }
    apply angle_diff_similar in S'; [lra|exact T|exact RA].
  - apply angle_diff_similar; [exact T|exact RA|lra].
Qed.
End Rectangle.

(** ** Concrete regions, all weights 1 *)
Lemma region2rect_cases grad reg reg_angle prec : region2rect grad reg reg_angle prec = Throw \/ exists rec, region2rect grad reg reg_angle prec = Ok rec.
Proof.
  unfold region2rect. destruct (sums grad reg) as [[x y] sum]. destruct (Rlt_dec 0 sum); [|left; reflexivity]. unfold get_theta. destruct (inertia grad reg (x / sum) (y / sum)) as [[A B] D]. cbv zeta. destruct (_ && _ && _); [left; reflexivity|]. cbn [bind]. destruct (extent _ reg). destruct (extent _ reg). right. eexists. reflexivity.
Qed.
Lemma rect_parts grad reg reg_angle prec rec : region2rect grad reg reg_angle prec = Ok rec ->
  let '(x, y, sum) := sums grad reg in cx rec = x / sum /\ cy rec = y / sum /\ get_theta grad reg (cx rec) (cy rec) reg_angle prec = Ok (theta rec).
Proof.
  unfold region2rect. destruct (sums grad reg) as [[x y] sum]. destruct (Rlt_dec 0 sum); [|discriminate]. destruct (get_theta grad reg (x / sum) (y / sum) reg_angle prec) as [t| |] eqn:T; [|discriminate|discriminate]. cbn [bind]. destruct (extent _ reg). destruct (extent _ reg). intros [= <-]. cbn [cx cy theta]. auto.
Qed.
Definition one (_ : pixel) : R := 1.
Definition zsum (f : pixel -> Z) (l : list pixel) : Z := fold_right (fun p s => f p + s)%Z 0%Z l.
Lemma weighted_one f l : weighted one (fun p => IZR (f p)) l = IZR (zsum f l).
Proof. induction l as [|p l IH]; [reflexivity|]. change (one p * IZR (f p) + weighted one (fun p => IZR (f p)) l = IZR (f p + zsum f l)). rewrite plus_IZR, IH. unfold one. ring. Qed.
Lemma moments l x y (S1 Sx Sy Sxx Sxy Syy : Z) : zsum (fun _ => 1%Z) l = S1 -> zsum fst l = Sx -> zsum snd l = Sy -> zsum (fun p => fst p * fst p)%Z l = Sxx -> zsum (fun p => fst p * snd p)%Z l = Sxy -> zsum (fun p => snd p * snd p)%Z l = Syy ->
  sums one l = (IZR Sx, IZR Sy, IZR S1) /\
  inertia one l x y = (IZR Syy - 2 * y * IZR Sy + y * y * IZR S1, IZR Sxx - 2 * x * IZR Sx + x * x * IZR S1, - (IZR Sxy - x * IZR Sy - y * IZR Sx + x * y * IZR S1)).
Proof.
  intros <- <- <- <- <- <-. rewrite sums_spec, inertia_spec. rewrite <- !weighted_one. cbv beta. split; [reflexivity|].
  assert (forall f a g b k c m d l, (forall p, f p = a * g p + b * k p + (c * m p + d * 1)) -> weighted one f l = a * weighted one g l + b * weighted one k l + (c * weighted one m l + d * weighted one (fun _ => 1) l)) as E.
  { intros f a g b k c m d l' H. rewrite <- !weighted_lin. transitivity (1 * weighted one (fun p => a * g p + b * k p) l' + 1 * weighted one (fun p => c * m p + d * 1) l'); [|ring]. rewrite <- weighted_lin. apply weighted_ext. intros p _. rewrite H. ring. }
  f_equal; [f_equal|].
  - rewrite (E _ 1 (fun p => IZR (snd p * snd p)) (- (2 * y)) (fun p => IZR (snd p)) 0 (fun p => IZR (snd p)) (y * y)); [ring|]. intros p. rewrite mult_IZR. ring.
  - rewrite (E _ 1 (fun p => IZR (fst p * fst p)) (- (2 * x)) (fun p => IZR (fst p)) 0 (fun p => IZR (fst p)) (x * x)); [ring|]. intros p. rewrite mult_IZR. ring.
  - rewrite (E _ 1 (fun p => IZR (fst p * snd p)) (- x) (fun p => IZR (snd p)) (- y) (fun p => IZR (fst p)) (x * y)); [ring|]. intros p. rewrite mult_IZR. ring.
Qed.
Lemma one_positive l (p : pixel) : In p l -> 0 < one p.
Proof. intros _. unfold one. lra. Qed.

(** A pixel may lie outside the rectangle: the rectangle has the middle line of the axis, the pixels need not. *)
Definition bump : list pixel := [(0, 0); (1, 0); (2, 0); (1, 1)]%Z.
Lemma bump_rect : exists rec, region2rect one bump 0 (PI / 8) = Ok rec /\ cx rec = 1 /\ cy rec = 1 / 4 /\ rdx rec = 1 /\ rdy rec = 0 /\ width rec = 1 /\ theta rec = 2 * PI.
Proof.
  destruct (region2rect_cases one bump 0 (PI / 8)) as [T|(rec & E)].
  { pose proof (proj1 (lcx_throw one bump 0 (PI / 8) (one_positive bump) ltac:(discriminate)) T (0, 0)%Z (1, 0)%Z ltac:(left; reflexivity) ltac:(right; left; reflexivity)). discriminate. }
  exists rec. split; [exact E|]. pose proof (rect_parts _ _ _ _ _ E) as P. destruct (moments bump (cx rec) (cy rec) 4 4 1 6 1 1 eq_refl eq_refl eq_refl eq_refl eq_refl eq_refl) as [M1 M2]. rewrite M1 in P. destruct P as (PX & PY & PT). assert (cx rec = 1) as X by lra. assert (cy rec = 1 / 4) as Y by lra. unfold get_theta in PT. rewrite M2 in PT. rewrite X, Y in PT. cbv zeta in PT.
  replace (1 - 2 * (1 / 4) * 1 + 1 / 4 * (1 / 4) * 4) with (3 / 4) in PT by lra. replace (6 - 2 * 1 * 4 + 1 * 1 * 4) with 2 in PT by lra. replace (- (1 - 1 * 1 - 1 / 4 * 4 + 1 * (1 / 4) * 4)) with 0 in PT by lra. destruct (Req_EM_T (3 / 4) 0); [lra|]. cbn [andb] in PT.
  destruct (Rlt_dec (Rabs 2) (Rabs (3 / 4))) as [L|_]; [rewrite !Rabs_right in L by lra; lra|]. replace ((3 / 4 - 2) * (3 / 4 - 2) + 4 * 0 * 0) with (5 / 4 * (5 / 4)) in PT by lra. rewrite sqrt_square in PT by lra. replace (/ 2 * (3 / 4 + 2 - 5 / 4) - 2) with (- (5 / 4)) in PT by lra.
  pose proof PI_RGT_0 as PP. assert (fast_atan2 0 (- (5 / 4)) = PI) as A.
  { apply (direction_unique (- (5 / 4)) 0); [apply fast_atan2_direction; left; lra|]. split; [lra|]. exists (5 / 4). rewrite cos_PI, sin_PI. split; [lra|]. split; ring. }
  rewrite A in PT. assert (angle_diff PI 0 = PI) as AD.
  { unfold angle_diff, angle_diff_signed. cbn [wrap_up]. destruct (Rle_dec (PI - 0) (- PI)); [lra|]. cbn [wrap_down]. destruct (Rlt_dec PI (PI - 0)); [lra|]. rewrite Rabs_right; lra. }
  rewrite AD in PT. destruct (Rlt_dec (PI / 8) PI); [|lra]. injection PT as PT. assert (theta rec = 2 * PI) as TH by lra. destruct (lcx_rect one bump 0 (PI / 8) (one_positive bump) ltac:(discriminate) rec E) as (_ & _ & DX & DY & _ & b & (p & q & IP & IQ & R & EB) & WB). rewrite TH in DX, DY. rewrite cos_2PI in DX. rewrite sin_2PI in DY.
  split; [exact X|]. split; [exact Y|]. split; [exact DX|]. split; [exact DY|]. split; [|exact TH]. rewrite WB, EB, X, Y, DX, DY. unfold offset_aside. apply Rmax_left. cbn [bump In] in IP, IQ. destruct IP as [<-|[<-|[<-|[<-|[]]]]]; destruct IQ as [<-|[<-|[<-|[<-|[]]]]]; cbn [fst snd]; lra.
Qed.
Theorem lcx_cover_refuted : exists reg reg_angle prec rec p, region2rect one reg reg_angle prec = Ok rec /\ NoDup reg /\ In p reg /\ width rec / 2 < Rabs (offset_aside (cx rec) (cy rec) (rdx rec) (rdy rec) p).
Proof.
  destruct bump_rect as (rec & E & X & Y & DX & DY & WD & _). exists bump, 0, (PI / 8), rec, (1, 1)%Z. split; [exact E|]. split; [unfold bump; repeat (constructor; [cbn; intuition congruence|]); constructor|]. split; [right; right; right; left; reflexivity|]. rewrite X, Y, DX, DY, WD. unfold offset_aside. cbn [fst snd]. rewrite Rabs_right; lra.
Qed.

(** A band along the diagonal that is cut by the left border. *)
Definition band : list pixel := filter (fun p => (fst p <=? snd p) && (snd p <=? fst p + 8))%Z (list_prod (map Z.of_nat (seq 0 25)) (map Z.of_nat (seq 0 25))).
Lemma band_in x y : In (x, y) band <-> (0 <= x /\ y <= 24 /\ x <= y <= x + 8)%Z.
Proof.
  unfold band. rewrite filter_In, in_prod_iff, !in_map_iff. cbn [fst snd]. rewrite andb_true_iff, !Z.leb_le. split.
  - intros (((n & <- & N) & m & <- & M) & L). apply in_seq in N, M. lia.
  - intros (X & Y & L). split; [|lia]. split; [exists (Z.to_nat x)|exists (Z.to_nat y)]; (split; [lia|]; apply in_seq; lia).
Qed.
Lemma cos_5PI4 : cos (5 * (PI / 4)) = - / sqrt 2 /\ sin (5 * (PI / 4)) = - / sqrt 2.
Proof. replace (5 * (PI / 4)) with (PI / 4 + PI) by field. rewrite neg_cos, neg_sin, cos_PI4, sin_PI4. unfold Rdiv. split; ring. Qed.
Lemma band_rect : exists rec, region2rect one band (5 * (PI / 4)) (PI / 8) = Ok rec /\ x1 rec = 24 - 116 / 63 /\ y1 rec = 24 + 116 / 63 /\ x2 rec = - (116 / 63) /\ y2 rec = 116 / 63 /\ width rec = 8 / sqrt 2.
Proof.
  destruct (region2rect_cases one band (5 * (PI / 4)) (PI / 8)) as [T|(rec & E)].
  { pose proof (proj1 (lcx_throw one band (5 * (PI / 4)) (PI / 8) (one_positive band) ltac:(discriminate)) T (0, 0)%Z (1, 1)%Z (proj2 (band_in 0 0) ltac:(lia)) (proj2 (band_in 1 1) ltac:(lia))). discriminate. }
  exists rec. split; [exact E|]. pose proof (rect_parts _ _ _ _ _ E) as P. destruct (moments band (cx rec) (cy rec) 189 1920 2616 27060 33510 43764 ltac:(vm_compute; reflexivity) ltac:(vm_compute; reflexivity) ltac:(vm_compute; reflexivity) ltac:(vm_compute; reflexivity) ltac:(vm_compute; reflexivity) ltac:(vm_compute; reflexivity)) as [M1 M2]. rewrite M1 in P. destruct P as (PX & PY & PT). assert (cx rec = 640 / 63) as X by lra. assert (cy rec = 872 / 63) as Y by lra. clear PX PY. unfold get_theta in PT. rewrite M2 in PT. clear M1 M2. rewrite X, Y in PT. cbv zeta in PT.

  replace (43764 - 2 * (872 / 63) * 2616 + 872 / 63 * (872 / 63) * 189) with (158660 / 21) in PT by lra. replace (27060 - 2 * (640 / 63) * 1920 + 640 / 63 * (640 / 63) * 189) with (158660 / 21) in PT by lra. replace (- (33510 - 640 / 63 * 2616 - 872 / 63 * 1920 + 640 / 63 * (872 / 63) * 189)) with (- (145630 / 21)) in PT by lra.
  set (a := 158660 / 21) in PT. set (k := 145630 / 21) in PT. assert (0 < a) as PA by (unfold a; lra). assert (0 < k) as PK by (unfold k; lra). clearbody a k. destruct (Req_EM_T a 0); [lra|]. cbn [andb] in PT. destruct (Rlt_dec (Rabs a) (Rabs a)) as [L|_]; [lra|]. replace ((a - a) * (a - a) + 4 * - k * - k) with (2 * k * (2 * k)) in PT by ring. rewrite sqrt_square in PT by lra. replace (/ 2 * (a + a - 2 * k) - a) with (- k) in PT by field.
  pose proof PI_RGT_0 as PP. destruct cos_5PI4 as [C5 S5]. pose proof (sqrt_lt_R0 2 ltac:(lra)) as Q2. pose proof (sqrt_sqrt 2 ltac:(lra)) as QQ. assert (fast_atan2 (- k) (- k) = 5 * (PI / 4)) as FA.
  { apply (direction_unique (- k) (- k)); [apply fast_atan2_direction; left; lra|]. split; [lra|]. exists (k * sqrt 2). rewrite C5, S5. split; [apply Rmult_lt_0_compat; lra|]. split; field; lra. }
  rewrite FA in PT. assert (angle_diff (5 * (PI / 4)) (5 * (PI / 4)) = 0) as AD.
  { unfold angle_diff, angle_diff_signed. rewrite Rminus_eq_0. cbn [wrap_up]. destruct (Rle_dec 0 (- PI)); [lra|]. cbn [wrap_down]. destruct (Rlt_dec PI 0); [lra|]. apply Rabs_R0. }
  rewrite AD in PT. destruct (Rlt_dec (PI / 8) 0); [lra|]. injection PT as TH. destruct (lcx_rect one band (5 * (PI / 4)) (PI / 8) (one_positive band) ltac:(discriminate) rec E) as (_ & _ & DX & DY & (p & q & IP & IQ & R & EX1 & EY1 & EX2 & EY2) & b & (u & v & IU & IV & R' & EB) & WB). rewrite <- TH in DX, DY. rewrite C5 in DX. rewrite S5 in DY. set (i2 := / sqrt 2) in *. assert (i2 * i2 = / 2) as II by (unfold i2; rewrite <- Rinv_mult, QQ; reflexivity). assert (0 < i2) as IP2 by (apply Rinv_0_lt_compat, Q2).
  assert (forall r s, offset_along (cx rec) (cy rec) (rdx rec) (rdy rec) r <= offset_along (cx rec) (cy rec) (rdx rec) (rdy rec) s -> (fst s + snd s <= fst r + snd r)%Z) as OA.
  { intros r s. unfold offset_along. rewrite DX, DY. intros L. apply le_IZR. rewrite !plus_IZR. apply Rmult_le_reg_l with i2; [exact IP2|]. lra. }
  assert (forall r s, offset_aside (cx rec) (cy rec) (rdx rec) (rdy rec) r <= offset_aside (cx rec) (cy rec) (rdx rec) (rdy rec) s -> (fst s - snd s >= fst r - snd r)%Z) as OS.
  { intros r s. unfold offset_aside. rewrite DX, DY. intros L. apply Z.le_ge, le_IZR. rewrite !minus_IZR. apply Rmult_le_reg_l with i2; [exact IP2|]. lra. }
  assert (IZR (fst p) + IZR (snd p) = 48) as EP.
  { destruct (R (24, 24)%Z (proj2 (band_in 24 24) ltac:(lia))) as [L _]. apply OA in L. destruct p as [px py]. apply band_in in IP. cbn [fst snd] in *. rewrite <- plus_IZR. f_equal. lia. }
  assert (IZR (fst q) + IZR (snd q) = 0) as EQ.
  { destruct (R (0, 0)%Z (proj2 (band_in 0 0) ltac:(lia))) as [_ L]. apply OA in L. destruct q as [qx qy]. apply band_in in IQ. cbn [fst snd] in *. rewrite <- plus_IZR. f_equal. lia. }
  assert (IZR (fst u) - IZR (snd u) = -8) as EU.
  { destruct (R' (0, 8)%Z (proj2 (band_in 0 8) ltac:(lia))) as [L _]. apply OS in L. destruct u as [ux uy]. apply band_in in IU. cbn [fst snd] in *. rewrite <- minus_IZR. f_equal. lia. }
  assert (IZR (fst v) - IZR (snd v) = 0) as EV.
  { destruct (R' (0, 0)%Z (proj2 (band_in 0 0) ltac:(lia))) as [_ L]. apply OS in L. destruct v as [vx vy]. apply band_in in IV. cbn [fst snd] in *. rewrite <- minus_IZR. f_equal. lia. }
  rewrite EX1, EY1, EX2, EY2, WB, EB. unfold offset_along, offset_aside. rewrite DX, DY, X, Y.
  assert (forall c c' (r : pixel), (IZR (fst r) - c) * - i2 + (IZR (snd r) - c') * - i2 = - i2 * (IZR (fst r) + IZR (snd r) - c - c')) as AL by (intros; ring).
  rewrite !AL, EP, EQ. 
  split; [replace (640 / 63 + - i2 * (48 - 640 / 63 - 872 / 63) * - i2) with (640 / 63 + i2 * i2 * (48 - 640 / 63 - 872 / 63)) by ring; rewrite II; lra|].
  split; [replace (872 / 63 + - i2 * (48 - 640 / 63 - 872 / 63) * - i2) with (872 / 63 + i2 * i2 * (48 - 640 / 63 - 872 / 63)) by ring; rewrite II; lra|].
  split; [replace (640 / 63 + - i2 * (0 - 640 / 63 - 872 / 63) * - i2) with (640 / 63 + i2 * i2 * (0 - 640 / 63 - 872 / 63)) by ring; rewrite II; lra|].
  split; [replace (872 / 63 + - i2 * (0 - 640 / 63 - 872 / 63) * - i2) with (872 / 63 + i2 * i2 * (0 - 640 / 63 - 872 / 63)) by ring; rewrite II; lra|].
  match goal with |- Rmax 1 ?e = _ => assert (e = 8 * i2) as -> end.
  { transitivity (i2 * ((IZR (fst v) - IZR (snd v)) - (IZR (fst u) - IZR (snd u)))); [ring|]. rewrite EU, EV. ring. }
  unfold Rdiv. fold i2. apply Rmax_right. apply Rsqr_incr_0_var; [unfold Rsqr; replace (8 * i2 * (8 * i2)) with (64 * (i2 * i2)) by ring; rewrite II; lra|lra].
Qed.
Lemma NoDup_app_intro {A} (l1 l2 : list A) : NoDup l1 -> NoDup l2 -> (forall x, In x l1 -> In x l2 -> False) -> NoDup (l1 ++ l2).
Proof. intros N1 N2 D. induction N1 as [|a l1 H N1 IH]; [exact N2|]. cbn. constructor; [|apply IH; intros x I; apply D; right; exact I]. intros I. apply in_app_or in I as [I|I]; [contradiction|exact (D a (or_introl eq_refl) I)]. Qed.
Lemma trunc_negative r : r <= -1 -> (trunc r < 0)%Z.
Proof. intros L. unfold trunc. destruct (Rle_dec 0 r); [lra|]. destruct (base_Int_part (- r)) as [_ B]. assert (0 < Int_part (- r))%Z; [|lia]. apply lt_IZR. lra. Qed.
(** The end points may lie outside the image, and are stored so: here the second has a negative coordinate, for the scale 1 and the scale 0.8 of the detector, though the pixels fill the rectangle enough. *)
Theorem lcx_outside_refuted : exists reg reg_angle prec rec, region2rect one reg reg_angle prec = Ok rec /\ NoDup reg /\ (forall p, In p reg -> in_image 25 25 p) /\ low_density rec (length reg) (65 / 100) = false /\
  (forall scale, scale = 1 \/ scale = 8 / 10 -> let '(_, _, x, _) := line_of scale rec in (x < 0)%Z).
Proof.
  destruct band_rect as (rec & E & X1 & Y1 & X2 & Y2 & WD). exists band, (5 * (PI / 4)), (PI / 8), rec. split; [exact E|]. split; [|split; [|split]].
  - unfold band. apply NoDup_filter. assert (NoDup (map Z.of_nat (seq 0 25))) as N by (apply FinFun.Injective_map_NoDup; [intros a b H; apply Nat2Z.inj, H|apply seq_NoDup]). revert N. generalize (map Z.of_nat (seq 0 25)). intros l N. assert (forall l1 : list Z, NoDup l1 -> NoDup (list_prod l1 l)) as G; [|apply G, N]. intros l1 N1. induction N1 as [|a l1 A N1 IH]; [constructor|]. cbn [list_prod]. apply NoDup_app_intro; [apply FinFun.Injective_map_NoDup; [intros b c [= H]; exact H|exact N]|exact IH|]. intros [b c] I J. apply in_map_iff in I as (d & [= <- <-] & _). apply in_prod_iff in J as [J _]. contradiction.
  - intros [x y] I. apply band_in in I. unfold in_image. cbn [fst snd]. lia.
  - replace (length band) with 189%nat by (vm_compute; reflexivity). unfold low_density. pose proof (sqrt_lt_R0 2 ltac:(lra)) as Q2. assert (dist (x1 rec) (y1 rec) (x2 rec) (y2 rec) * width rec = 192) as ->.
    { unfold dist, dist_sq. rewrite X1, Y1, X2, Y2, WD. match goal with |- sqrt ?e * _ = _ => replace e with (24 * 24 * 2) by field end. rewrite sqrt_mult_alt, sqrt_square by lra. field. lra. }
    destruct (Req_EM_T 192 0); [reflexivity|]. destruct (Rlt_dec (INR 189 / 192) (65 / 100)) as [L|]; [|reflexivity]. exfalso. replace (INR 189) with 189 in L by (rewrite INR_IZR_INZ; reflexivity). lra.
  - intros scale S. unfold line_of, stored. rewrite X2. apply trunc_negative. destruct S as [-> | ->]; lra.
Qed.

(** Examples: the region [bump] and a region of one pixel. *)
Example lcx_rect_ex : exists rec, (forall p, In p bump -> 0 < one p) /\ bump <> [] /\ region2rect one bump 0 (PI / 8) = Ok rec /\ 0 <= 0 < 2 * PI /\ similar (theta rec + PI) 0 PI /\ similar (theta rec) 0 (PI / 8).
Proof.
  destruct bump_rect as (rec & E & _ & _ & _ & _ & _ & TH). pose proof PI_RGT_0. exists rec. split; [apply one_positive|]. split; [discriminate|]. split; [exact E|]. split; [lra|]. split; [|exists (-1)%Z; rewrite TH; replace (2 * PI - 0 + 2 * PI * -1) with 0 by ring; rewrite Rabs_R0; lra]. exists (-1)%Z. rewrite TH. replace (2 * PI + PI - 0 + 2 * PI * -1) with PI by ring. rewrite Rabs_right; lra.
Qed.
Example lcx_throw_ex : region2rect one [(3, 4)%Z] 0 (PI / 8) = Throw.
Proof. apply lcx_throw; [apply one_positive|discriminate|]. intros p q [<-|[]] [<-|[]]. reflexivity. Qed.
Print Assumptions lcx_rect.
Print Assumptions lcx_throw.
Print Assumptions lcx_oriented.
Print Assumptions lcx_cover_refuted.
Print Assumptions lcx_outside_refuted.
