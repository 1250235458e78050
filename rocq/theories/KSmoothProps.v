(** C132: Gaussian smoothing. *)
From Coq Require Import Reals ZArith List Lia Lra Arith Bool.
From Verif Require Import KSmoothModel KSmoothSpec.
Import ListNotations.
Local Open Scope R_scope.

(** ** Sums *)
Lemma total_app a b : total (a ++ b) = total a + total b.
Proof. unfold total. induction a as [|x a IH]; cbn [app fold_right]; [ring|]. rewrite IH. ring. Qed.
Definition sum (n : nat) (f : nat -> R) : R := total (map f (seq 0 n)).
Lemma sum_S n f : sum (S n) f = sum n f + f n.
Proof. unfold sum. rewrite seq_S, map_app, total_app. unfold total at 2. cbn [map fold_right Nat.add]. ring. Qed.
Lemma sum_ext n f g : (forall t, (t < n)%nat -> f t = g t) -> sum n f = sum n g.
Proof. induction n as [|n IH]; intros H; [reflexivity|]. rewrite !sum_S, H, IH by auto with arith. reflexivity. Qed.
Lemma sum_le n f g : (forall t, (t < n)%nat -> f t <= g t) -> sum n f <= sum n g.
Proof. induction n as [|n IH]; intros H; [apply Rle_refl|]. rewrite !sum_S. apply Rplus_le_compat; [apply IH; auto with arith|apply H; lia]. Qed.
Lemma sum_scale n c f : sum n (fun t => c * f t) = c * sum n f.
Proof. induction n as [|n IH]; [unfold sum, total; cbn [seq map fold_right]; ring|]. rewrite !sum_S, IH. ring. Qed.
Lemma sum_plus n f g : sum n (fun t => f t + g t) = sum n f + sum n g.
Proof. induction n as [|n IH]; [unfold sum, total; cbn [seq map fold_right]; ring|]. rewrite !sum_S, IH. ring. Qed.
Lemma sum_first n f : sum (S n) f = f 0%nat + sum n (fun t => f (S t)).
Proof. induction n as [|n IH]; [unfold sum, total; cbn [seq map fold_right]; ring|]. rewrite sum_S, IH, sum_S. ring. Qed.
Lemma sum_rev n f : sum n f = sum n (fun t => f (n - 1 - t)%nat).
Proof.
  revert f. induction n as [|n IH]; intros f; [reflexivity|]. rewrite sum_S, sum_first. replace (S n - 1 - 0)%nat with n by lia. rewrite (IH f). rewrite Rplus_comm. f_equal.
  apply sum_ext. intros t L. f_equal. lia.
Qed.
Lemma sum_pos n f : (0 < n)%nat -> (forall t, 0 < f t) -> 0 < sum n f.
Proof. intros L H. destruct n as [|n]; [lia|]. clear L. induction n as [|n IH]; [unfold sum, total; cbn [seq map fold_right]; specialize (H 0%nat); lra|]. rewrite sum_S. specialize (H (S n)). lra. Qed.
Lemma sum_one n f k : (k < n)%nat -> (forall t, (t < n)%nat -> t <> k -> f t = 0) -> sum n f = f k.
Proof.
  revert k. induction n as [|n IH]; intros k L H; [lia|]. rewrite sum_S. destruct (Nat.eq_dec k n) as [->|N].
  - rewrite (sum_ext n f (fun _ => 0 * 0)); [rewrite sum_scale; ring|]. intros t T. rewrite H by lia. ring.
  - rewrite (IH k) by (try lia; intros; apply H; lia). rewrite (H n) by lia. ring.
Qed.
Lemma sum_none n f : (forall t, (t < n)%nat -> f t = 0) -> sum n f = 0.
Proof. intros H. rewrite (sum_ext n f (fun _ => 0 * 0)); [rewrite sum_scale; ring|]. intros t T. rewrite H by lia. ring. Qed.

(** ** The kernel *)
Definition weight (n : nat) (sigma : R) (t : nat) : R := bell n sigma t / sum n (bell n sigma).
Lemma bell_pos n sigma t : 0 < bell n sigma t.
Proof. apply exp_pos. Qed.
Lemma total_pos n sigma : (0 < n)%nat -> 0 < sum n (bell n sigma).
Proof. intros L. apply sum_pos; [exact L|]. apply bell_pos. Qed.
Lemma weight_pos n sigma t : (0 < n)%nat -> 0 < weight n sigma t.
Proof. intros L. apply Rdiv_lt_0_compat; [apply bell_pos|apply total_pos, L]. Qed.
Lemma weight_sum n sigma : (0 < n)%nat -> sum n (weight n sigma) = 1.
Proof.
  intros L. pose proof (total_pos n sigma L) as P. rewrite (sum_ext n _ (fun t => / sum n (bell n sigma) * bell n sigma t)) by (intros; unfold weight, Rdiv; ring).
  rewrite sum_scale. field. lra.
Qed.
Lemma bell_sym n sigma t : (t < n)%nat -> bell n sigma (n - 1 - t) = bell n sigma t.
Proof. intros L. unfold bell. f_equal. replace (n - 1 - t)%nat with (n - (1 + t))%nat by lia. rewrite minus_INR, plus_INR by lia. change (INR 1) with 1. set (q := 1 / (2 * sigma * sigma)). field. Qed.
Lemma correlate_sum n sigma f : correlate (gaussian_kernel n sigma) f = sum n (fun t => weight n sigma t * f (Z.of_nat t - Z.of_nat (n / 2))%Z).
Proof.
  unfold correlate, gaussian_kernel. change (fun t => bell n sigma t / total (map (bell n sigma) (seq 0 n))) with (weight n sigma). rewrite map_length, seq_length. apply sum_ext. intros t L. f_equal.
  rewrite (nth_indep _ 0 (weight n sigma 0%nat)) by (rewrite map_length, seq_length; exact L). rewrite map_nth, seq_nth by exact L. reflexivity.
Qed.
Lemma odd_half n : Nat.Odd n -> (n = 2 * (n / 2) + 1)%nat.
Proof. intros [k ->]. replace (2 * k + 1)%nat with (1 + k * 2)%nat by lia. rewrite Nat.div_add by lia. cbn. lia. Qed.

Section Correlate.
Variables (n : nat) (sigma : R).
Hypothesis odd : Nat.Odd n.
Let r := Z.of_nat (n / 2).
Lemma n_pos : (0 < n)%nat.
Proof. destruct odd as [k ->]. lia. Qed.
Lemma correlate_range lo hi f : (forall i, (- r <= i <= r)%Z -> lo <= f i <= hi) -> lo <= correlate (gaussian_kernel n sigma) f <= hi.
Proof.
  intros H. rewrite correlate_sum. pose proof (weight_sum n sigma n_pos) as W. pose proof (odd_half n odd) as O.
  assert (forall t, (t < n)%nat -> lo <= f (Z.of_nat t - Z.of_nat (n / 2))%Z <= hi) as B by (intros t L; apply H; unfold r; lia).
  split.
  - apply Rle_trans with (sum n (fun t => lo * weight n sigma t)); [rewrite sum_scale, W; lra|]. apply sum_le. intros t L. pose proof (weight_pos n sigma t n_pos). specialize (B t L). rewrite Rmult_comm. apply Rmult_le_compat_l; lra.
  - apply Rle_trans with (sum n (fun t => hi * weight n sigma t)); [|rewrite sum_scale, W; lra]. apply sum_le. intros t L. pose proof (weight_pos n sigma t n_pos). specialize (B t L). rewrite (Rmult_comm hi). apply Rmult_le_compat_l; lra.
Qed.
Lemma correlate_ext f g : (forall i, (- r <= i <= r)%Z -> f i = g i) -> correlate (gaussian_kernel n sigma) f = correlate (gaussian_kernel n sigma) g.
Proof. intros H. rewrite !correlate_sum. apply sum_ext. intros t L. rewrite H; [reflexivity|]. pose proof (odd_half n odd). unfold r. lia. Qed.
Lemma correlate_affine a b f : correlate (gaussian_kernel n sigma) (fun i => a * f i + b) = a * correlate (gaussian_kernel n sigma) f + b.
Proof.
  rewrite !correlate_sum. rewrite (sum_ext n _ (fun t => a * (weight n sigma t * f (Z.of_nat t - Z.of_nat (n / 2))%Z) + b * weight n sigma t)) by (intros; ring).
  rewrite sum_plus, !sum_scale, weight_sum by exact n_pos. ring.
Qed.
Lemma correlate_plus f g : correlate (gaussian_kernel n sigma) (fun i => f i + g i) = correlate (gaussian_kernel n sigma) f + correlate (gaussian_kernel n sigma) g.
Proof. rewrite !correlate_sum, <- sum_plus. apply sum_ext. intros. ring. Qed.
Lemma correlate_opp f : correlate (gaussian_kernel n sigma) (fun i => f (- i)%Z) = correlate (gaussian_kernel n sigma) f.
Proof.
  rewrite !correlate_sum, (sum_rev n). apply sum_ext. intros t L. unfold weight. rewrite bell_sym by exact L. f_equal. f_equal. pose proof (odd_half n odd). lia.
Qed.
Lemma correlate_const c : correlate (gaussian_kernel n sigma) (fun _ => c) = c.
Proof. destruct (correlate_range c c (fun _ => c)) as [A B]; [intros; lra|]. lra. Qed.
Lemma correlate_linear a b : correlate (gaussian_kernel n sigma) (fun i => a * IZR i + b) = b.
Proof.
  rewrite correlate_affine. assert (correlate (gaussian_kernel n sigma) IZR = 0) as ->; [|ring].
  assert (correlate (gaussian_kernel n sigma) (fun i => IZR (- i)%Z) = - correlate (gaussian_kernel n sigma) IZR) as E.
  { transitivity (correlate (gaussian_kernel n sigma) (fun i => -1 * IZR i + 0)); [apply correlate_ext; intros; rewrite opp_IZR; ring|]. rewrite correlate_affine. ring. }
  rewrite (correlate_opp IZR) in E. lra.
Qed.
Definition top : R := / sum n (bell n sigma).
Lemma correlate_point k f : (forall i, (- r <= i <= r)%Z -> i <> k -> f i = 0) ->
  correlate (gaussian_kernel n sigma) f = if (Z.abs k <=? r)%Z then top * exp (- (IZR k * IZR k) / (2 * sigma * sigma)) * f k else 0.
Proof.
  intros H. rewrite correlate_sum. pose proof (odd_half n odd) as O. unfold r in *. destruct (Z.leb_spec (Z.abs k) (Z.of_nat (n / 2))) as [L|L].
  - rewrite (sum_one n _ (Z.to_nat (k + Z.of_nat (n / 2)))) by (try lia; intros t T N; rewrite H by lia; ring).
    rewrite Z2Nat.id by lia. replace (k + Z.of_nat (n / 2) - Z.of_nat (n / 2))%Z with k by lia. unfold weight, top, bell. unfold Rdiv at 1. rewrite (Rmult_comm (exp _)). f_equal. f_equal. f_equal.
    assert (INR n = 2 * INR (n / 2) + 1) as E. { rewrite O at 1. rewrite plus_INR, mult_INR. reflexivity. }
    rewrite E, !INR_IZR_INZ, Z2Nat.id, plus_IZR by lia. set (m := IZR (Z.of_nat (n / 2))). replace ((2 * m + 1 - 1) / 2) with m by field. unfold Rdiv. ring.
  - apply sum_none. intros t T. rewrite H by lia. ring.
Qed.
Lemma top_pos : 0 < top.
Proof. apply Rinv_0_lt_compat, total_pos, n_pos. Qed.
End Correlate.

(** ** The sizes *)
Lemma make_odd_spec n : Nat.Odd (make_odd n) /\ (n <= make_odd n)%nat /\ forall m, Nat.Odd m -> (n <= m)%nat -> (make_odd n <= m)%nat.
Proof.
  unfold make_odd. pose proof (Nat.div_mod n 2). destruct (Nat.eqb_spec (n mod 2) 0) as [E|E].
  - split; [exists (n / 2)%nat; lia|]. split; [lia|]. intros m [k ->] L. lia.
  - pose proof (Nat.mod_upper_bound n 2). split; [exists (n / 2)%nat; lia|]. split; [lia|]. intros m _ L. exact L.
Qed.
Lemma ceiling_spec r : r <= IZR (ceiling r) < r + 1.
Proof. unfold ceiling. destruct (base_Int_part (- r)) as [A B]. rewrite opp_IZR. lra. Qed.
Lemma automatic_spec sigma : (35 / 100 < sigma -> exists n, automatic sigma = Fine n /\ smallest_odd (2 * (1 + (sigma - 8 / 10) / (3 / 10))) (make_odd n)) /\ (sigma <= 35 / 100 -> automatic sigma = Undefined).
Proof.
  unfold automatic. set (v := 2 * (1 + (sigma - 8 / 10) / (3 / 10))). destruct (ceiling_spec v) as [A B]. assert (v = 2 + 20 / 3 * (sigma - 8 / 10)) as V by (unfold v; field). split; intros H.
  - destruct (Z.ltb_spec (ceiling v) 0) as [L|L]. { assert (ceiling v <= -1)%Z as W by lia. apply IZR_le in W. lra. }
    eexists. split; [reflexivity|]. destruct (make_odd_spec (Z.to_nat (ceiling v))) as (O & Q & S'). split; [exact O|]. apply le_INR in Q. rewrite INR_IZR_INZ, Z2Nat.id in Q by lia. split; [lra|].
    intros m M K. apply S'; [exact M|]. assert (IZR (ceiling v) < IZR (Z.of_nat m) + 1) as X by (rewrite <- INR_IZR_INZ; lra). rewrite <- plus_IZR in X. apply lt_IZR in X. lia.
  - destruct (Z.ltb_spec (ceiling v) 0) as [L|L]; [reflexivity|]. apply IZR_le in L. lra.
Qed.
Definition given (ksize_x ksize_y : nat) (sigma : R) : Prop := (ksize_x <> 0 /\ ksize_y <> 0)%nat /\ sigma <= INR ksize_x /\ sigma <= INR ksize_y.
Lemma sizes_spec kx ky sigma :
  (given kx ky sigma -> sizes kx ky sigma = Fine (make_odd kx, make_odd ky)) /\
  (~ given kx ky sigma -> sizes kx ky sigma = bind (automatic sigma) (fun n => Fine (make_odd n, make_odd n))).
Proof.
  unfold sizes, given. split; intros H.
  - destruct H as ((A & B) & C & D). destruct (Rlt_dec (INR kx) sigma); [lra|]. destruct (Rlt_dec (INR ky) sigma); [lra|]. apply Nat.eqb_neq in A, B. rewrite A, B. reflexivity.
  - destruct (Rlt_dec (INR kx) sigma); [destruct (automatic sigma); reflexivity|]. destruct (Rlt_dec (INR ky) sigma); [destruct (automatic sigma); reflexivity|].
    destruct (Nat.eqb_spec kx 0); [destruct (automatic sigma); reflexivity|]. destruct (Nat.eqb_spec ky 0); [destruct (automatic sigma); reflexivity|]. exfalso. apply H. split; [split; assumption|lra].
Qed.
Lemma odd_of n : smallest_odd (INR n) (make_odd n).
Proof. destruct (make_odd_spec n) as (A & B & C). split; [exact A|]. split; [apply le_INR, B|]. intros m M L. apply C; [exact M|apply INR_le, L]. Qed.

Lemma result rows cols src kx ky sigma dst : gaussian_2D_convolution rows cols src kx ky sigma = Fine dst -> exists nx ny, sizes kx ky sigma = Fine (nx, ny) /\ Nat.Odd nx /\ Nat.Odd ny /\ dst = blur rows cols src nx ny sigma.
Proof.
  unfold gaussian_2D_convolution. destruct (sizes kx ky sigma) as [[nx ny]|] eqn:E; [|intros [=]]. cbn. intros H. assert (dst = blur rows cols src nx ny sigma) as -> by congruence. exists nx, ny. split; [reflexivity|].
  unfold sizes in E. assert (forall a : nat * nat, bind (Fine a) (fun '(x, y) => Fine (make_odd x, make_odd y)) = Fine (nx, ny) -> Nat.Odd nx /\ Nat.Odd ny) as G.
  { intros [x y] Q. cbn in Q. injection Q as <- <-. split; apply make_odd_spec. }
  assert (Nat.Odd nx /\ Nat.Odd ny) as [A B]; [|auto].
  destruct (Rlt_dec _ _); [|destruct (Rlt_dec _ _); [|destruct (_ || _)]]; try (destruct (automatic sigma); [|discriminate E]); cbn [bind] in E; try exact (G (_, _) E).
Qed.
Lemma clamp_inside len p : (0 <= p < len)%Z -> clamp len p = p.
Proof. intros H. unfold clamp. destruct (Z.ltb_spec p 0); [lia|]. destruct (Z.leb_spec len p); lia. Qed.
Lemma clamp_range len p : (1 <= len)%Z -> (0 <= clamp len p < len)%Z.
Proof. intros H. unfold clamp. destruct (Z.ltb_spec p 0); [lia|]. destruct (Z.leb_spec len p); lia. Qed.

(** Which calls are defined, and which window they use: the smallest odd sizes from the given ones, or from sigma if a given one is 0 or smaller than sigma. The response to
    one bright pixel is the Gaussian of sigma, cut at the window. *)
Theorem kgx_response rows cols kx ky sigma : 0 < sigma -> given kx ky sigma \/ 35 / 100 < sigma ->
  exists nx ny top, (given kx ky sigma -> smallest_odd (INR kx) nx /\ smallest_odd (INR ky) ny) /\ (~ given kx ky sigma -> nx = ny /\ smallest_odd (2 * (1 + (sigma - 8 / 10) / (3 / 10))) nx) /\ 0 < top /\
    forall v u, pixel rows cols v u -> exists dst, gaussian_2D_convolution rows cols (impulse v u) kx ky sigma = Fine dst /\
      forall y x, inside rows cols (Z.of_nat (ny / 2)) (Z.of_nat (nx / 2)) y x ->
        dst y x = if ((Z.abs (y - v) <=? Z.of_nat (ny / 2)) && (Z.abs (x - u) <=? Z.of_nat (nx / 2)))%Z%bool then top * exp (- (IZR (x - u) ^ 2 + IZR (y - v) ^ 2) / (2 * sigma ^ 2)) else 0.
Proof.
  intros P D. destruct (sizes_spec kx ky sigma) as [S1 S2]. destruct (automatic_spec sigma) as [A _].
  assert (exists nx ny, sizes kx ky sigma = Fine (nx, ny) /\ Nat.Odd nx /\ Nat.Odd ny /\ (given kx ky sigma -> smallest_odd (INR kx) nx /\ smallest_odd (INR ky) ny) /\
    (~ given kx ky sigma -> nx = ny /\ smallest_odd (2 * (1 + (sigma - 8 / 10) / (3 / 10))) nx)) as (nx & ny & E & Ox & Oy & H1 & H2).
  { assert (given kx ky sigma \/ ~ given kx ky sigma) as [G|G].
    { unfold given. destruct (Nat.eq_dec kx 0), (Nat.eq_dec ky 0), (Rle_dec sigma (INR kx)), (Rle_dec sigma (INR ky)); tauto. }
    - exists (make_odd kx), (make_odd ky). split; [exact (S1 G)|]. split; [apply make_odd_spec|]. split; [apply make_odd_spec|]. split; [intros _; split; apply odd_of|contradiction].
    - destruct D as [D|D]; [contradiction|]. destruct (A D) as (n & En & Sn). exists (make_odd n), (make_odd n). rewrite (S2 G), En. split; [reflexivity|]. split; [apply make_odd_spec|]. split; [apply make_odd_spec|]. split; [contradiction|]. intros _. split; [reflexivity|exact Sn]. }
  exists nx, ny, (top nx sigma * top ny sigma). split; [exact H1|]. split; [exact H2|]. split; [apply Rmult_lt_0_compat; apply top_pos; assumption|].
  intros v u V. unfold gaussian_2D_convolution. rewrite E. cbn [bind]. eexists. split; [reflexivity|]. intros y x [Iy Ix]. unfold blur.
  rewrite (correlate_ext ny sigma Oy _ (fun j => correlate (gaussian_kernel nx sigma) (fun i => impulse v u (y + j) (x + i)))).
  2:{ intros j J. apply correlate_ext; [exact Ox|]. intros i I. rewrite !clamp_inside by lia. reflexivity. }
  rewrite (correlate_point ny sigma Oy (v - y)).
  2:{ intros j _ N. transitivity (correlate (gaussian_kernel nx sigma) (fun _ => 0)); [|apply correlate_const, Ox]. apply correlate_ext; [exact Ox|]. intros i _. unfold impulse. destruct (Z.eqb_spec (y + j) v); [lia|reflexivity]. }
  rewrite (correlate_point nx sigma Ox (u - x)).
  2:{ intros i _ N. unfold impulse. destruct (Z.eqb_spec (x + i) u); [lia|rewrite andb_false_r; reflexivity]. }
  replace (Z.abs (v - y)) with (Z.abs (y - v)) by lia. replace (Z.abs (u - x)) with (Z.abs (x - u)) by lia.
  destruct (Z.leb_spec (Z.abs (y - v)) (Z.of_nat (ny / 2))), (Z.leb_spec (Z.abs (x - u)) (Z.of_nat (nx / 2))); cbn [andb]; try ring.
  unfold impulse. replace (y + (v - y) =? v)%Z with true by (symmetry; apply Z.eqb_eq; lia). replace (x + (u - x) =? u)%Z with true by (symmetry; apply Z.eqb_eq; lia). cbn [andb].
  transitivity (top nx sigma * top ny sigma * (exp (- (IZR (v - y) * IZR (v - y)) / (2 * sigma * sigma)) * exp (- (IZR (u - x) * IZR (u - x)) / (2 * sigma * sigma)))); [ring|]. f_equal. rewrite <- exp_plus. f_equal.
  rewrite !minus_IZR. field. lra.
Qed.
Print Assumptions kgx_response.
(** Brightness and contrast pass through. *)
Theorem kgx_contrast rows cols src kx ky sigma a b dst : gaussian_2D_convolution rows cols src kx ky sigma = Fine dst ->
  exists dst', gaussian_2D_convolution rows cols (fun y x => a * src y x + b) kx ky sigma = Fine dst' /\ forall y x, dst' y x = a * dst y x + b.
Proof.
  intros H. destruct (result _ _ _ _ _ _ _ H) as (nx & ny & E & Ox & Oy & ->). unfold gaussian_2D_convolution. rewrite E. cbn [bind]. eexists. split; [reflexivity|]. intros y x. unfold blur.
  rewrite <- (correlate_affine ny sigma Oy). apply correlate_ext; [exact Oy|]. intros j _. apply (correlate_affine nx sigma Ox).
Qed.
Print Assumptions kgx_contrast.
(** Smoothing of a sum is the sum of the smoothed images. *)
Theorem kgx_sum rows cols a b kx ky sigma da db : gaussian_2D_convolution rows cols a kx ky sigma = Fine da -> gaussian_2D_convolution rows cols b kx ky sigma = Fine db ->
  exists dst, gaussian_2D_convolution rows cols (fun y x => a y x + b y x) kx ky sigma = Fine dst /\ forall y x, dst y x = da y x + db y x.
Proof.
  intros H K. destruct (result _ _ _ _ _ _ _ H) as (nx & ny & E & Ox & Oy & ->), (result _ _ _ _ _ _ _ K) as (mx & my & E' & _ & _ & ->). rewrite E in E'. injection E' as <- <-.
  unfold gaussian_2D_convolution. rewrite E. cbn [bind]. eexists. split; [reflexivity|]. intros y x. unfold blur. rewrite <- correlate_plus by exact Oy. apply correlate_ext; [exact Oy|]. intros j _. apply correlate_plus.
Qed.
Print Assumptions kgx_sum.
(** No value is darker than the darkest pixel or brighter than the brightest one, at the border as well. *)
Theorem kgx_range rows cols src kx ky sigma lo hi dst : (1 <= rows)%Z -> (1 <= cols)%Z -> between lo hi rows cols src -> gaussian_2D_convolution rows cols src kx ky sigma = Fine dst -> forall y x, lo <= dst y x <= hi.
Proof.
  intros R C B H. destruct (result _ _ _ _ _ _ _ H) as (nx & ny & E & Ox & Oy & ->). intros y x. unfold blur. apply correlate_range; [exact Oy|]. intros j _. apply correlate_range; [exact Ox|]. intros i _.
  apply B. split; apply clamp_range; assumption.
Qed.
Print Assumptions kgx_range.
(** Nothing is moved: a ramp stays what it is, and a mirrored image gives the mirrored result. *)
Theorem kgx_ramp rows cols c cx cy kx ky sigma dst : gaussian_2D_convolution rows cols (affine c cx cy) kx ky sigma = Fine dst ->
  exists rx ry, forall y x, inside rows cols ry rx y x -> dst y x = affine c cx cy y x.
Proof.
  intros H. destruct (result _ _ _ _ _ _ _ H) as (nx & ny & E & Ox & Oy & ->). exists (Z.of_nat (nx / 2)), (Z.of_nat (ny / 2)). intros y x [Iy Ix]. unfold blur.
  transitivity (correlate (gaussian_kernel ny sigma) (fun j => cy * IZR j + affine c cx cy y x)); [|apply correlate_linear, Oy]. apply correlate_ext; [exact Oy|]. intros j J.
  transitivity (correlate (gaussian_kernel nx sigma) (fun i => cx * IZR i + (cy * IZR j + affine c cx cy y x))); [|apply correlate_linear, Ox]. apply correlate_ext; [exact Ox|]. intros i I. rewrite !clamp_inside by lia.
  unfold affine. rewrite !plus_IZR. ring.
Qed.
Print Assumptions kgx_ramp.
Theorem kgx_mirror rows cols src kx ky sigma dst : gaussian_2D_convolution rows cols src kx ky sigma = Fine dst ->
  exists dst' dst'', gaussian_2D_convolution rows cols (fun y x => src y (cols - 1 - x)%Z) kx ky sigma = Fine dst' /\ gaussian_2D_convolution rows cols (fun y x => src (rows - 1 - y)%Z x) kx ky sigma = Fine dst'' /\
    forall y x, pixel rows cols y x -> dst' y x = dst y (cols - 1 - x)%Z /\ dst'' y x = dst (rows - 1 - y)%Z x.
Proof.
  intros H. destruct (result _ _ _ _ _ _ _ H) as (nx & ny & E & Ox & Oy & ->). unfold gaussian_2D_convolution. rewrite E. cbn [bind]. eexists _, _. split; [reflexivity|]. split; [reflexivity|]. intros y x P. unfold blur.
  assert (forall len p i, (0 <= p < len)%Z -> (len - 1 - clamp len (p + i))%Z = clamp len (len - 1 - p + - i)) as M.
  { intros len p i L. unfold clamp. destruct (Z.ltb_spec (p + i) 0), (Z.ltb_spec (len - 1 - p + - i) 0), (Z.leb_spec len (p + i)), (Z.leb_spec len (len - 1 - p + - i)); lia. }
  destruct P as [Py Px]. split.
  - apply correlate_ext; [exact Oy|]. intros j _. rewrite <- (correlate_opp nx sigma Ox (fun i => src _ (clamp cols (cols - 1 - x + i)))). apply correlate_ext; [exact Ox|]. intros i _. rewrite M by exact Px. reflexivity.
  - rewrite <- (correlate_opp ny sigma Oy (fun j => correlate _ (fun i => src (clamp rows (rows - 1 - y + j)) _))). apply correlate_ext; [exact Oy|]. intros j _. apply correlate_ext; [exact Ox|]. intros i _. rewrite M by exact Py. reflexivity.
Qed.
Print Assumptions kgx_mirror.

Lemma blur_one rows cols src sigma y x : pixel rows cols y x -> blur rows cols src 1 1 sigma y x = src y x.
Proof.
  intros [Py Px]. unfold blur. assert (Nat.Odd 1) as O by (exists 0%nat; reflexivity). rewrite (correlate_ext 1 sigma O _ (fun _ => src y x)); [apply correlate_const, O|]. intros j J. cbn in J. assert (j = 0%Z) as -> by lia.
  rewrite (correlate_ext 1 sigma O _ (fun _ => src y x)); [apply correlate_const, O|]. intros i I. cbn in I. assert (i = 0%Z) as -> by lia. rewrite !Z.add_0_r, !clamp_inside by lia. reflexivity.
Qed.
(** A small sigma, with automatic sizes: the image is not smoothed at all. *)
Theorem kgx_none_refuted rows cols src sigma : 35 / 100 < sigma <= 65 / 100 -> exists dst, gaussian_2D_convolution rows cols src 0 0 sigma = Fine dst /\ forall y x, pixel rows cols y x -> dst y x = src y x.
Proof.
  intros S'. destruct (automatic_spec sigma) as [A _]. destruct A as (n & En & O & _ & M); [lra|]. assert (make_odd n = 1)%nat as E1.
  { specialize (M 1%nat). destruct O as [k Hk]. assert (make_odd n <= 1)%nat; [|lia]. apply M; [exists 0%nat; reflexivity|]. change (INR 1) with 1. replace (2 * (1 + (sigma - 8 / 10) / (3 / 10))) with (2 + 20 / 3 * (sigma - 8 / 10)) by field. lra. }
  unfold gaussian_2D_convolution. rewrite (proj2 (sizes_spec 0 0 sigma)) by (intros [[F _] _]; apply F; reflexivity). rewrite En. cbn [bind]. rewrite E1. eexists. split; [reflexivity|]. intros y x P. apply blur_one, P.
Qed.
Print Assumptions kgx_none_refuted.
(** A smaller one: a negative number is converted to an unsigned size. *)
Theorem kgx_negative_refuted rows cols src kx ky sigma : sigma <= 35 / 100 -> (kx = 0 \/ ky = 0)%nat -> gaussian_2D_convolution rows cols src kx ky sigma = Undefined.
Proof.
  intros S' K. unfold gaussian_2D_convolution. rewrite (proj2 (sizes_spec kx ky sigma)) by (intros [[F F'] _]; destruct K; contradiction). rewrite (proj2 (automatic_spec sigma) S'). reflexivity.
Qed.
Print Assumptions kgx_negative_refuted.
(** A given window of one pixel is used for every sigma up to 1. *)
Theorem kgx_window_refuted rows cols src sigma : 0 < sigma <= 1 -> exists dst, gaussian_2D_convolution rows cols src 1 1 sigma = Fine dst /\ forall y x, pixel rows cols y x -> dst y x = src y x.
Proof.
  intros S'. unfold gaussian_2D_convolution. rewrite (proj1 (sizes_spec 1 1 sigma)). 2:{ split; [lia|]. change (INR 1) with 1. lra. }
  cbn [bind]. change (make_odd 1) with 1%nat. eexists. split; [reflexivity|]. intros y x P. apply blur_one, P.
Qed.
Print Assumptions kgx_window_refuted.
(** The default sigmas 1.6 and 1: windows of 9 and 5 pixels. *)
Example kgx_ex : given 3 5 2 /\ 35 / 100 < 16 / 10 /\ smallest_odd (2 * (1 + (16 / 10 - 8 / 10) / (3 / 10))) 9 /\ smallest_odd (2 * (1 + (1 - 8 / 10) / (3 / 10))) 5 /\ ~ given 0 0 (16 / 10) /\
  exists dst, gaussian_2D_convolution 20 20 (impulse 10 10) 0 0 (16 / 10) = Fine dst.
Proof.
  assert (forall k r, INR (2 * k) < r + 1 -> r <= INR (2 * k + 1) -> smallest_odd r (2 * k + 1)) as G.
  { intros k r A B. split; [exists k; reflexivity|]. split; [exact B|]. intros m [l ->] M. assert (INR (2 * k) < INR (2 * l + 1 + 1)) as X by (rewrite (plus_INR _ 1); change (INR 1) with 1; lra). apply INR_lt in X. lia. }
  split; [split; [lia|]; rewrite !INR_IZR_INZ; cbn [Z.of_nat Pos.of_succ_nat Pos.succ]; lra|]. split; [lra|]. split; [apply (G 4%nat); rewrite !INR_IZR_INZ; cbn [Nat.mul Nat.add Z.of_nat Pos.of_succ_nat Pos.succ]; lra|]. split; [apply (G 2%nat); rewrite !INR_IZR_INZ; cbn [Nat.mul Nat.add Z.of_nat Pos.of_succ_nat Pos.succ]; lra|]. split; [intros [[F _] _]; apply F; reflexivity|].
  destruct (kgx_response 20 20 0 0 (16 / 10)) as (nx & ny & t & _ & _ & _ & H); [lra|right; lra|]. destruct (H 10%Z 10%Z) as (dst & E & _); [split; lia|]. exists dst. exact E.
Qed.
