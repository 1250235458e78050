(** C98: the main orientation of KAZE keypoints. *)
From Coq Require Import ZArith Reals List Bool Lia Lra.
From Verif Require Import OrientModel OrientSpec.
Import ListNotations.
Local Open Scope R_scope.

(** ** The angle *)
Lemma polar x y : x <> 0 -> exists r, 0 < r /\ Rabs x = r * cos (atan (y / x)) /\ y * (Rabs x / x) = r * sin (atan (y / x)).
Proof.
  intros N. assert (0 < 1 + (y / x)²) as P by (pose proof (Rle_0_sqr (y / x)); lra). pose proof (sqrt_lt_R0 _ P) as Q. pose proof (Rabs_pos_lt x N) as A. exists (Rabs x * sqrt (1 + (y / x)²)). split; [apply Rmult_lt_0_compat; assumption|]. rewrite cos_atan, sin_atan. split; field; lra.
Qed.
Lemma atan_range x y : x <> 0 -> - PI / 2 < atan (y / x) < PI / 2.
Proof. intros _. pose proof (atan_bound (y / x)). lra. Qed.
Lemma fast_atan2_direction x y : x <> 0 \/ y <> 0 -> direction x y (fast_atan2 y x).
Proof.
  intros N. pose proof PI_RGT_0 as PP. unfold fast_atan2. destruct (Rlt_dec 0 x) as [X|X]; [|destruct (Rlt_dec x 0) as [X'|X']].
  - destruct (polar x y ltac:(lra)) as (r & R & E1 & E2). pose proof (atan_range x y ltac:(lra)) as B. rewrite Rabs_right in E1, E2 by lra. replace (y * (x / x)) with y in E2 by (field; lra). destruct (Rle_dec 0 y) as [Y|Y].
    + split; [|exists r; auto]. split; [|lra]. destruct (Rle_lt_or_eq_dec 0 y Y) as [Y'|<-].
      * left. rewrite <- atan_0. apply atan_increasing. apply Rdiv_lt_0_compat; assumption.
      * unfold Rdiv. rewrite Rmult_0_l, atan_0. lra.
    + split; [|exists r; rewrite cos_plus, sin_plus, cos_2PI, sin_2PI; split; [exact R|split; lra]]. split; [lra|]. assert (atan (y / x) < 0); [|lra]. rewrite <- atan_0. apply atan_increasing. assert (0 < - y / x) by (apply Rdiv_lt_0_compat; lra). unfold Rdiv in *. lra.
  - destruct (polar x y ltac:(lra)) as (r & R & E1 & E2). pose proof (atan_range x y ltac:(lra)) as B. rewrite Rabs_left in E1, E2 by lra. replace (y * (- x / x)) with (- y) in E2 by (field; lra). split; [lra|]. exists r. rewrite neg_cos, neg_sin. split; [exact R|]. split; lra.
  - assert (x = 0) as -> by lra. destruct (Rlt_dec 0 y) as [Y|Y]; [|destruct (Rlt_dec y 0) as [Y'|Y']; [|lra]].
    + split; [lra|]. exists y. rewrite cos_PI2, sin_PI2. split; [exact Y|]. split; lra.
    + split; [lra|]. exists (- y). replace (3 * (PI / 2)) with (PI / 2 + PI) by lra. rewrite neg_cos, neg_sin, cos_PI2, sin_PI2. split; [lra|]. split; lra.
Qed.
Lemma direction_unique x y t t' : direction x y t -> direction x y t' -> t = t'.
Proof.
  intros ([A B] & r & R & E1 & E2) ([A' B'] & r' & R' & E1' & E2').
  assert (r = r') as <-.
  { assert (r * r = r' * r') as E. { pose proof (sin2_cos2 t) as S. pose proof (sin2_cos2 t') as S'. unfold Rsqr in S, S'. replace (r * r) with (x * x + y * y) by (rewrite E1, E2; replace (r * cos t * (r * cos t) + r * sin t * (r * sin t)) with (r * r * (sin t * sin t + cos t * cos t)) by ring; rewrite S; ring). rewrite E1', E2'. replace (r' * cos t' * (r' * cos t') + r' * sin t' * (r' * sin t')) with (r' * r' * (sin t' * sin t' + cos t' * cos t')) by ring. rewrite S'. ring. }
    apply Rsqr_inj; [lra|lra|exact E]. }
  assert (cos t = cos t') as C by (apply Rmult_eq_reg_l with r; lra). assert (sin t = sin t') as S by (apply Rmult_eq_reg_l with r; lra).
  assert (cos (t - t') = 1) as CC. { rewrite cos_minus, C, S. pose proof (sin2_cos2 t') as Q. unfold Rsqr in Q. lra. }
  assert (forall u, 0 < u < 2 * PI -> cos u < 1) as LT.
  { intros u U. replace u with (2 * (u / 2)) by lra. rewrite cos_2a_sin. assert (0 < sin (u / 2)) by (apply sin_gt_0; lra). assert (0 < sin (u / 2) * sin (u / 2)) by (apply Rmult_lt_0_compat; assumption). lra. }
  destruct (Rtotal_order t t') as [L|[L|L]]; [|exact L|].
  - specialize (LT (t' - t) ltac:(lra)). rewrite <- cos_neg in LT. replace (- (t' - t)) with (t - t') in LT by lra. lra.
  - specialize (LT (t - t') ltac:(lra)). lra.
Qed.
Lemma fast_atan2_scale c x y : 0 < c -> fast_atan2 (c * y) (c * x) = fast_atan2 y x.
Proof.
  intros C. assert (x <> 0 \/ y <> 0 -> fast_atan2 (c * y) (c * x) = fast_atan2 y x) as M.
  { intros N. apply (direction_unique (c * x) (c * y)); [apply fast_atan2_direction; destruct N; [left|right]; apply Rmult_integral_contrapositive_currified; lra|]. destruct (fast_atan2_direction x y N) as (B & r & R & E1 & E2). split; [exact B|]. exists (c * r). split; [apply Rmult_lt_0_compat; assumption|]. rewrite !Rmult_assoc, <- E1, <- E2. auto. }
  destruct (Req_dec x 0) as [->|X]; [destruct (Req_dec y 0) as [->|Y]|]; [rewrite !Rmult_0_r; reflexivity|auto|auto].
Qed.
(** ** The windows *)
Lemma in_window_after a t : 0 <= a < 2 * PI -> 0 <= t < 2 * PI -> in_window a t = true <-> after a t /\ t <> 0.
Proof.
  intros A T. pose proof PI_RGT_0 as PP. unfold in_window, after. destruct (Rlt_dec (2 * PI) (a + PI / 3)) as [W|W]; cbv zeta.
  - destruct (Rlt_dec a (a - 5 * PI / 3)); [lra|]. cbn [andb]. destruct (Rlt_dec (a - 5 * PI / 3) a); [|lra]. cbn [andb]. destruct (Rlt_dec 0 t), (Rlt_dec t (a - 5 * PI / 3)), (Rlt_dec a t), (Rlt_dec t (2 * PI)); cbn [andb orb]; (split; [intros Q; try discriminate Q; split; lra|intros [Q1 Q2]; try reflexivity; exfalso; lra]).
  - destruct (Rlt_dec a (a + PI / 3)); [|lra]. destruct (Rlt_dec (a + PI / 3) a); [lra|]. destruct (Rlt_dec a t), (Rlt_dec t (a + PI / 3)); cbn [andb orb]; (split; [intros Q; try discriminate Q; split; lra|intros [Q1 Q2]; try reflexivity; exfalso; lra]).
Qed.
Lemma window_sum_shift (res : list (R * R)) a : forall X Y, fold_left (fun '(sumX, sumY) '(x, y) => if in_window a (fast_atan2 y x) then (sumX + x, sumY + y) else (sumX, sumY)) res (X, Y) =
  (X + fst (window_sum res a), Y + snd (window_sum res a)).
Proof.
  unfold window_sum. induction res as [|[x y] res IH]; intros X Y; cbn [fold_left].
  - cbn [fst snd]. rewrite !Rplus_0_r. reflexivity.
  - destruct (in_window a (fast_atan2 y x)); rewrite IH; [|reflexivity]. rewrite (IH (0 + x) (0 + y)). cbn [fst snd]. f_equal; ring.
Qed.
Lemma window_sum_cons x y res a : window_sum ((x, y) :: res) a = if in_window a (fast_atan2 y x) then (x + fst (window_sum res a), y + snd (window_sum res a)) else window_sum res a.
Proof.
  unfold window_sum at 1. cbn [fold_left]. destruct (in_window a (fast_atan2 y x)).
  - rewrite window_sum_shift. f_equal; ring.
  - rewrite window_sum_shift, !Rplus_0_l. destruct (window_sum res a); reflexivity.
Qed.
(** The loop takes 42 rounds. *)
Lemma INR_fact_S n : INR (fact (S n)) = (INR n + 1) * INR (fact n).
Proof. rewrite fact_simpl, mult_INR, S_INR. reflexivity. Qed.
Ltac expand_cos := unfold cos_approx, cos_term; cbn [sum_f_R0 Nat.mul Nat.add]; rewrite !INR_fact_S; change (INR (fact 0)) with 1; rewrite !S_INR; change (INR 0) with 0; cbn [pow].
Lemma PI_lower : 615 / 100 < 2 * PI.
Proof.
  assert (0 < cos (3075 / 2000)) as C.
  { apply Rlt_le_trans with (cos_approx (3075 / 2000) (2 * 1 + 1)); [expand_cos; lra|]. apply pre_cos_bound; lra. }
  destruct (Rlt_dec (3075 / 2000) (PI / 2)) as [L|L]; [lra|]. pose proof PI2_3_2. pose proof (cos_le_0 (3075 / 2000) ltac:(lra) ltac:(lra)). lra.
Qed.
Lemma PI_upper : 2 * PI < 63 / 10.
Proof.
  assert (cos (63 / 40) < 0) as C.
  { apply Rle_lt_trans with (cos_approx (63 / 40) (2 * (1 + 1))); [apply pre_cos_bound; lra|]. expand_cos. lra. }
  destruct (Rlt_dec (PI / 2) (63 / 40)) as [L|L]; [lra|]. pose proof (cos_ge_0 (63 / 40) ltac:(lra) ltac:(lra)). lra.
Qed.
Lemma windows_range a : In a windows -> 0 <= a < 2 * PI.
Proof.
  unfold windows. rewrite in_map_iff. intros (k & <- & K). apply in_seq in K. assert (INR k <= 41) as U by (replace 41 with (INR 41) by (rewrite INR_IZR_INZ; reflexivity); apply le_INR; lia). pose proof (pos_INR k). pose proof PI_lower. lra.
Qed.
Theorem orx_windows k : In (15 / 100 * INR k) windows <-> 15 / 100 * INR k < 2 * PI.
Proof.
  split; [intros I; apply windows_range, I|]. intros L. unfold windows. apply in_map_iff. exists k. split; [reflexivity|]. apply in_seq. split; [lia|]. pose proof PI_upper. assert (INR k < INR 42) as B by (rewrite (INR_IZR_INZ 42); cbn [Z.of_nat Pos.of_succ_nat Pos.succ]; lra). apply INR_lt in B. exact B.
Qed.
Print Assumptions orx_windows.
(** ** The longest sum *)
Lemma no_direction_zero t : ~ direction 0 0 t.
Proof.
  intros (_ & r & R & E1 & E2). assert (cos t = 0) as C by (apply Rmult_eq_reg_l with r; lra). assert (sin t = 0) as S by (apply Rmult_eq_reg_l with r; lra). pose proof (sin2_cos2 t) as Q. rewrite C, S in Q. unfold Rsqr in Q. lra.
Qed.
Lemma fast_atan2_zero : fast_atan2 0 0 = 0.
Proof. unfold fast_atan2. destruct (Rlt_dec 0 0); [lra|]. reflexivity. Qed.
Lemma window_zero a : 0 <= a < 2 * PI -> in_window a 0 = false.
Proof. intros A. destruct (in_window a 0) eqn:W; [|reflexivity]. apply in_window_after in W as [_ N]; [congruence|exact A|]. pose proof PI_RGT_0. lra. Qed.
Lemma window_spec a res : 0 <= a < 2 * PI -> (forall x y, In (x, y) res -> ~ direction x y 0) -> sum_over (after a) res (fst (window_sum res a)) (snd (window_sum res a)).
Proof.
  intros A. induction res as [|[x y] res IH]; intros N; [constructor|]. specialize (IH (fun x y I => N x y (or_intror I))). rewrite window_sum_cons.
  assert ((x = 0 /\ y = 0) \/ (x <> 0 \/ y <> 0)) as [[-> ->]|Z] by (destruct (Req_dec x 0), (Req_dec y 0); auto).
  - rewrite fast_atan2_zero, window_zero by exact A. constructor. exact IH.
  - pose proof (fast_atan2_direction x y Z) as D. destruct (in_window a (fast_atan2 y x)) eqn:W.
    + apply in_window_after in W as [W _]; [|exact A|apply D]. cbn [fst snd]. eapply sum_in; eauto.
    + eapply sum_out; eauto. intros F. assert (in_window a (fast_atan2 y x) = true) as W'; [|congruence]. apply in_window_after; [exact A|apply D|]. split; [exact F|]. intros E. rewrite E in D. exact (N x y (or_introl eq_refl) D).
Qed.
Lemma sum_over_unique range res X Y X' Y' : sum_over range res X Y -> sum_over range res X' Y' -> X = X' /\ Y = Y'.
Proof.
  intros H. revert X' Y'. induction H as [|x y l X Y t D I H IH|x y l X Y t D I H IH|l X Y H IH]; intros X' Y' H'; inversion H' as [|x0 y0 l0 X0 Y0 t' D' I' G|x0 y0 l0 X0 Y0 t' D' I' G|l0 X0 Y0 G]; subst; auto;
    try (exfalso; eapply no_direction_zero; eassumption); try (destruct (IH _ _ G); subst; auto; fail); exfalso; rewrite (direction_unique _ _ _ _ D D') in I; contradiction.
Qed.
Definition win_length (res : list (R * R)) (a : R) : R := squared (fst (window_sum res a)) (snd (window_sum res a)).
Lemma slide_eq res m angle a : slide res (m, angle) a = if Rlt_dec m (win_length res a) then (win_length res a, fast_atan2 (snd (window_sum res a)) (fst (window_sum res a))) else (m, angle).
Proof. unfold slide, win_length, squared. destruct (window_sum res a) as [X Y]. reflexivity. Qed.
Lemma slides res ws : forall m angle m' angle', fold_left (slide res) ws (m, angle) = (m', angle') ->
  m <= m' /\ (forall a, In a ws -> win_length res a <= m') /\ ((m' = m /\ angle' = angle) \/ exists a, In a ws /\ m < m' /\ m' = win_length res a /\ angle' = fast_atan2 (snd (window_sum res a)) (fst (window_sum res a))).
Proof.
  induction ws as [|a ws IH]; intros m angle m' angle' E; cbn [fold_left] in E.
  - injection E as <- <-. split; [lra|]. split; [intros a []|]. left. auto.
  - rewrite slide_eq in E. destruct (Rlt_dec m (win_length res a)) as [L|L]; apply IH in E as (A & B & C).
    + split; [lra|]. split; [intros b [<-|I]; [exact A|exact (B b I)]|]. right. destruct C as [[-> ->]|(b & I & C1 & C2 & C3)]; [exists a; split; [left; reflexivity|auto]|exists b; split; [right; exact I|]; split; [lra|auto]].
    + split; [exact A|]. split; [intros b [<-|I]; [lra|exact (B b I)]|]. destruct C as [C|(b & I & C)]; [auto|right; exists b; split; [right; exact I|exact C]].
Qed.
Section Theorems.
Variables (height width : Z) (Lx Ly : Z -> Z -> R).
Theorem orx_longest xf yf size angle : let res := responses height width Lx Ly xf yf (fround (size / 2)) in (forall x y, In (x, y) res -> ~ direction x y 0) ->
  let result := main_orientation height width Lx Ly xf yf size angle in
  (result = angle /\ forall a X Y, In a windows -> sum_over (after a) res X Y -> X = 0 /\ Y = 0) \/
  exists a X Y, In a windows /\ sum_over (after a) res X Y /\ direction X Y result /\ forall a' X' Y', In a' windows -> sum_over (after a') res X' Y' -> squared X' Y' <= squared X Y.
Proof.
  intros res N result. unfold result, main_orientation. fold res. destruct (fold_left (slide res) windows (0, angle)) as [m angle'] eqn:E. apply slides in E as (_ & B & C). cbn [snd].
  assert (forall a X Y, In a windows -> sum_over (after a) res X Y -> squared X Y = win_length res a) as U.
  { intros a X Y I S. destruct (sum_over_unique _ _ _ _ _ _ S (window_spec a res (windows_range a I) N)) as [-> ->]. reflexivity. }
  destruct C as [[-> ->]|(a & I & P & -> & ->)].
  - left. split; [reflexivity|]. intros a X Y I S. pose proof (B a I) as L. rewrite <- (U a X Y I S) in L. unfold squared in L. pose proof (Rle_0_sqr X). pose proof (Rle_0_sqr Y). unfold Rsqr in *. split; apply Rsqr_0_uniq; unfold Rsqr; lra.
  - right. exists a, (fst (window_sum res a)), (snd (window_sum res a)). split; [exact I|]. split; [apply window_spec; [apply windows_range, I|exact N]|]. split.
    + apply fast_atan2_direction. unfold win_length, squared in P. destruct (Req_dec (fst (window_sum res a)) 0) as [E|]; [|auto]. right. intros E'. rewrite E, E' in P. lra.
    + intros a' X' Y' I' S'. rewrite (U a' X' Y' I' S'). exact (B a' I').
Qed.
(** Contrast does not matter. *)
Lemma window_sum_scale c res a : 0 < c -> window_sum (map (fun '(x, y) => (c * x, c * y)) res) a = (c * fst (window_sum res a), c * snd (window_sum res a)).
Proof.
  intros C. induction res as [|[x y] res IH]; [unfold window_sum; cbn; f_equal; ring|]. cbn [map]. rewrite !window_sum_cons, fast_atan2_scale by exact C. destruct (in_window a (fast_atan2 y x)); [|exact IH]. rewrite IH. cbn [fst snd]. f_equal; ring.
Qed.
Lemma slides_scale c res ws : 0 < c -> forall m angle, snd (fold_left (slide (map (fun '(x, y) => (c * x, c * y)) res)) ws (c * c * m, angle)) = snd (fold_left (slide res) ws (m, angle)).
Proof.
  intros C. induction ws as [|a ws IH]; intros m angle; cbn [fold_left]; [reflexivity|]. rewrite !slide_eq. unfold win_length. rewrite window_sum_scale by exact C. cbn [fst snd]. assert (squared (c * fst (window_sum res a)) (c * snd (window_sum res a)) = c * c * squared (fst (window_sum res a)) (snd (window_sum res a))) as -> by (unfold squared; ring). assert (0 < c * c) as CC by (apply Rmult_lt_0_compat; exact C).
  destruct (Rlt_dec m (squared (fst (window_sum res a)) (snd (window_sum res a)))) as [L|L]; destruct (Rlt_dec (c * c * m) (c * c * squared (fst (window_sum res a)) (snd (window_sum res a)))) as [L'|L'].
  - rewrite fast_atan2_scale by exact C. apply IH.
  - exfalso. apply L'. apply Rmult_lt_compat_l; assumption.
  - exfalso. apply L. apply Rmult_lt_reg_l with (c * c); assumption.
  - apply IH.
Qed.
Theorem orx_contrast c xf yf size angle : 0 < c -> main_orientation height width (fun y x => c * Lx y x) (fun y x => c * Ly y x) xf yf size angle = main_orientation height width Lx Ly xf yf size angle.
Proof.
  intros C. unfold main_orientation. rewrite <- (slides_scale c (responses height width Lx Ly xf yf (fround (size / 2))) windows C 0 angle). rewrite Rmult_0_r. f_equal. f_equal. f_equal. unfold responses. rewrite map_map. apply map_ext. intros [i j]. unfold response. destruct (_ && _)%bool; cbv beta iota zeta; f_equal; ring.
Qed.
(** The 109 places of the vectors are all filled, and only pixels of the image are read. *)
Theorem orx_samples xf yf s : length (responses height width Lx Ly xf yf s) = 109%nat.
Proof. unfold responses. rewrite map_length. reflexivity. Qed.
Theorem orx_reads (Lx' Ly' : Z -> Z -> R) xf yf size angle : (forall y x, (0 <= y < height)%Z -> (0 <= x < width)%Z -> Lx' y x = Lx y x /\ Ly' y x = Ly y x) -> main_orientation height width Lx' Ly' xf yf size angle = main_orientation height width Lx Ly xf yf size angle.
Proof.
  intros E. unfold main_orientation. f_equal. f_equal. f_equal. unfold responses. apply map_ext. intros [i j]. unfold response. destruct (_ && _)%bool eqn:B; [|reflexivity]. rewrite !andb_true_iff, !Z.leb_le, !Z.ltb_lt in B. destruct (E (fround (yf + IZR (j * fround (size / 2)))) (fround (xf + IZR (i * fround (size / 2))))) as [-> ->]; [lia|lia|reflexivity].
Qed.
End Theorems.
Print Assumptions orx_longest.
Print Assumptions orx_contrast.
Print Assumptions orx_samples.
Print Assumptions orx_reads.
(** ** Responses in the direction of the x axis are in no window *)
Definition Lx_ex (y x : Z) : R := if ((y =? 10) && (x =? 11))%Z then 100 else 0.
Definition Ly_ex (y x : Z) : R := if ((y =? 10) && (x =? 10))%Z then 1 else 0.
Lemma fround_IZR z : (0 <= z)%Z -> fround (IZR z) = z.
Proof.
  intros N. apply IZR_le in N. unfold fround, trunc. destruct (Rle_dec 0 (IZR z + / 2)) as [P|P]; [|lra].
  destruct (base_Int_part (IZR z + / 2)) as [A B]. assert (IZR (Int_part (IZR z + / 2)) < IZR (z + 1) /\ IZR (z - 1) < IZR (Int_part (IZR z + / 2))) as [C D] by (rewrite plus_IZR, minus_IZR; lra). apply lt_IZR in C, D. lia.
Qed.
Definition weight_ex : R := gaussian 0 1 (5 / 2 * 1) * 100.
Definition simple (p : Z * Z) : R * R := if ((fst p =? 1) && (snd p =? 0))%Z then (weight_ex, 0) else if ((fst p =? 0) && (snd p =? 0))%Z then (0, 1) else (0, 0).
Lemma responses_ex : responses 21 21 Lx_ex Ly_ex 10 10 1 = map simple pattern.
Proof.
  unfold responses. apply map_ext_in. intros [i j] I. assert (-6 <= i <= 6 /\ -6 <= j <= 6)%Z as [I1 I2].
  { unfold pattern in I. apply filter_In in I as [I _]. apply in_flat_map in I as (i' & I1 & I). apply in_map_iff in I as (j' & [= <- <-] & I2). unfold offsets in I1, I2. apply in_map_iff in I1 as (a & <- & A). apply in_map_iff in I2 as (b & <- & B). apply in_seq in A, B. lia. }
  unfold response. replace (10 + IZR (j * 1)) with (IZR (10 + j)) by (rewrite plus_IZR, Z.mul_1_r; reflexivity). replace (10 + IZR (i * 1)) with (IZR (10 + i)) by (rewrite plus_IZR, Z.mul_1_r; reflexivity). rewrite !fround_IZR by lia.
  destruct (Z.leb_spec 0 (10 + j)); [|lia]. destruct (Z.ltb_spec (10 + j) 21); [|lia]. destruct (Z.leb_spec 0 (10 + i)); [|lia]. destruct (Z.ltb_spec (10 + i) 21); [|lia]. cbn [andb]. unfold Lx_ex, Ly_ex, simple. cbn [fst snd].
  destruct (Z.eqb_spec j 0) as [->|J].
  - destruct (Z.eqb_spec i 1) as [->|I3]; [|destruct (Z.eqb_spec i 0) as [->|I4]].
    + cbn [Z.add Pos.add Z.eqb Pos.eqb andb Pos.succ]. unfold weight_ex, gaussian. f_equal; [f_equal; f_equal; lra|ring].
    + cbn [Z.add Z.eqb Pos.eqb andb]. unfold gaussian. f_equal; [ring|]. replace (- ((10 - 10) * (10 - 10) + (10 - 10) * (10 - 10)) / (2 * (5 / 2 * 1) * (5 / 2 * 1))) with 0 by field. rewrite exp_0. ring.
    + destruct (Z.eqb_spec (10 + i) 11); [lia|]. destruct (Z.eqb_spec (10 + i) 10); [lia|]. cbn [Z.add Z.eqb Pos.eqb andb]. f_equal; ring.
  - destruct (Z.eqb_spec (10 + j) 10); [lia|]. rewrite !andb_false_r. cbn [andb]. f_equal; ring.
Qed.
Definition nonzero (p : Z * Z) : bool := ((fst p =? 1) && (snd p =? 0) || (fst p =? 0) && (snd p =? 0))%Z.
Lemma weight_large : 1 < weight_ex.
Proof. unfold weight_ex, gaussian. replace (- (0 * 0 + 1 * 1) / (2 * (5 / 2 * 1) * (5 / 2 * 1))) with (- (2 / 25)) by field. pose proof (exp_ineq1 (- (2 / 25)) ltac:(lra)). lra. Qed.
Lemma sum_filter range l X Y : sum_over range (map simple (filter nonzero l)) X Y -> sum_over range (map simple l) X Y.
Proof.
  revert X Y. induction l as [|p l IH]; intros X Y H; [exact H|]. cbn [filter map] in *. unfold nonzero in H. unfold simple at 1. destruct ((fst p =? 1) && (snd p =? 0))%Z eqn:E1; [|destruct ((fst p =? 0) && (snd p =? 0))%Z eqn:E2]; cbn [orb map] in H.
  - unfold simple at 1 in H. rewrite E1 in H. inversion H; subst; [eapply sum_in; eauto|eapply sum_out; eauto|]. exfalso. pose proof weight_large. lra.
  - unfold simple at 1 in H. rewrite E1, E2 in H. inversion H; subst; [eapply sum_in; eauto|eapply sum_out; eauto|]. exfalso. lra.
  - constructor. apply IH. exact H.
Qed.
Lemma direction_x r : 0 < r -> direction r 0 0.
Proof. intros P. pose proof PI_RGT_0. split; [lra|]. exists r. rewrite cos_0, sin_0. split; [exact P|]. split; ring. Qed.
Lemma direction_y : direction 0 1 (PI / 2).
Proof. pose proof PI_RGT_0. split; [lra|]. exists 1. rewrite cos_PI2, sin_PI2. split; [lra|]. split; ring. Qed.
Lemma sum_ex (range : R -> Prop) (b0 : {range 0} + {~ range 0}) (c : {range (PI / 2)} + {~ range (PI / 2)}) : sum_over range (map simple pattern) (if b0 then weight_ex else 0) (if c then 1 else 0).
Proof.
  apply sum_filter. replace (filter nonzero pattern) with [(0, 0); (1, 0)]%Z by (vm_compute; reflexivity). cbn [map]. unfold simple. cbn [fst snd Z.eqb Pos.eqb andb]. pose proof weight_large as W.
  assert (sum_over range [(weight_ex, 0)] (if b0 then weight_ex else 0) 0) as S.
  { destruct b0 as [B|B].
    - replace weight_ex with (weight_ex + 0) at 2 by ring. replace 0 with (0 + 0) at 3 by ring. eapply sum_in; [apply direction_x; lra|exact B|constructor].
    - eapply sum_out; [apply direction_x; lra|exact B|constructor]. }
  destruct c as [C|C].
  - replace (if b0 then weight_ex else 0) with (0 + (if b0 then weight_ex else 0)) by ring. replace 1 with (1 + 0) at 2 by ring. eapply sum_in; [apply direction_y|exact C|exact S].
  - eapply sum_out; [apply direction_y|exact C|exact S].
Qed.
Theorem orx_axis_refuted : exists height width Lx Ly xf yf size angle a X Y, let res := responses height width Lx Ly xf yf (fround (size / 2)) in
  In a windows /\ sum_over (from a) res X Y /\ direction X Y 0 /\ 1 < squared X Y /\ (forall a' X' Y', 0 <= a' < 2 * PI -> sum_over (from a') res X' Y' -> squared X' Y' <= squared X Y) /\
  main_orientation height width Lx Ly xf yf size angle = PI / 2.
Proof.
  exists 21%Z, 21%Z, Lx_ex, Ly_ex, 10, 10, 2, 0, 0, weight_ex, 0. replace (fround (2 / 2)) with 1%Z by (replace (2 / 2) with (IZR 1) by lra; symmetry; apply fround_IZR; lia). cbv zeta. rewrite responses_ex.
  pose proof PI_RGT_0 as PP. pose proof weight_large as W. pose proof PI_lower as PL. pose proof PI_upper as PU.
  assert (forall a t, {from a t} + {~ from a t}) as FD by (intros a t; unfold from; destruct (Rle_dec a t), (Rlt_dec t (a + PI / 3)), (Rle_dec a (t + 2 * PI)), (Rlt_dec (t + 2 * PI) (a + PI / 3)); (left; lra) || (right; lra)).
  assert (1 < weight_ex * weight_ex) as W2. { rewrite <- (Rmult_1_l 1) at 1. apply Rmult_le_0_lt_compat; lra. }
  split; [unfold windows; apply in_map_iff; exists 0%nat; split; [cbn [INR]; lra|apply in_seq; lia]|]. split.
  { pose proof (sum_ex (from 0) (FD 0 0) (FD 0 (PI / 2))) as S. destruct (FD 0 0) as [_|N]; [|exfalso; apply N; unfold from; lra]. destruct (FD 0 (PI / 2)) as [N|_]; [exfalso; unfold from in N; lra|exact S]. }
  split; [apply direction_x; lra|]. split; [unfold squared; lra|]. split.
  { intros a X Y A S. destruct (sum_over_unique _ _ _ _ _ _ S (sum_ex (from a) (FD a 0) (FD a (PI / 2)))) as [-> ->]. unfold squared. destruct (FD a 0) as [F0|], (FD a (PI / 2)) as [F1|]; [exfalso; unfold from in F0, F1; lra|lra|lra|lra]. }
  unfold main_orientation. replace (fround (2 / 2)) with 1%Z by (replace (2 / 2) with (IZR 1) by lra; symmetry; apply fround_IZR; lia). rewrite responses_ex. destruct (fold_left (slide (map simple pattern)) windows (0, 0)) as [m angle] eqn:E. apply slides in E as (_ & B & C). cbn [snd].
  assert (forall a, 0 <= a < 2 * PI -> window_sum (map simple pattern) a = (0, if in_window a (PI / 2) then 1 else 0)) as WS.
  { intros a A. assert (forall l, window_sum (map simple l) a = window_sum (map simple (filter nonzero l)) a) as FL.
    { induction l as [|p l IH]; [reflexivity|]. cbn [filter map]. destruct (nonzero p) eqn:NZ.
      - cbn [map]. destruct (simple p) as [x y]. rewrite !window_sum_cons, IH. reflexivity.
      - unfold nonzero in NZ. apply orb_false_iff in NZ as [N1 N2]. unfold simple at 1. rewrite N1, N2, window_sum_cons, fast_atan2_zero, window_zero by exact A. exact IH. }
    rewrite FL. replace (filter nonzero pattern) with [(0, 0); (1, 0)]%Z by (vm_compute; reflexivity). cbn [map]. unfold simple. cbn [fst snd Z.eqb Pos.eqb andb]. rewrite !window_sum_cons. rewrite (direction_unique _ _ _ _ (fast_atan2_direction weight_ex 0 ltac:(left; lra)) (direction_x weight_ex ltac:(lra))), (direction_unique _ _ _ _ (fast_atan2_direction 0 1 ltac:(right; lra)) direction_y), window_zero by exact A. unfold window_sum. cbn [fold_left fst snd]. destruct (in_window a (PI / 2)); f_equal; lra. }
  destruct C as [[-> ->]|(a & I & P & -> & ->)].
  - exfalso. assert (In (15 / 100 * INR 10) windows) as I by (unfold windows; apply in_map_iff; exists 10%nat; split; [reflexivity|apply in_seq; lia]). pose proof (windows_range _ I) as AR. specialize (B _ I). unfold win_length in B. rewrite (WS _ AR) in B. cbn [fst snd] in B. assert (in_window (15 / 100 * INR 10) (PI / 2) = true) as IW; [|rewrite IW in B; unfold squared in B; lra].
    apply in_window_after; [exact AR|lra|]. rewrite (INR_IZR_INZ 10) in *. cbn [Z.of_nat Pos.of_succ_nat Pos.succ] in *. split; [left; split; lra|lra].
  - rewrite (WS _ (windows_range a I)). unfold win_length in P. rewrite (WS _ (windows_range a I)) in P. cbn [fst snd] in *. destruct (in_window a (PI / 2)); [|unfold squared in P; lra]. apply (direction_unique 0 1); [apply fast_atan2_direction; right; lra|apply direction_y].
Qed.
Print Assumptions orx_axis_refuted.
(** A case of [orx_longest]: a single response upwards. *)
Example orx_longest_ex : (forall x y, In (x, y) (responses 21 21 (fun _ _ => 0) (fun _ _ => 1) 10 10 1) -> ~ direction x y 0).
Proof.
  intros x y I (_ & r & R & E1 & E2). rewrite cos_0, Rmult_1_r in E1. subst. unfold responses in I. apply in_map_iff in I as ([i j] & E & _). unfold response in E. destruct (_ && _)%bool; injection E as E1 _; lra.
Qed.
