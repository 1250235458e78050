(** C103: the segments of the line segment detector. *)
From Coq Require Import ZArith Reals Lra Lia List Bool Arith.
Import ListNotations.
From Verif Require Import OrientModel LsdOrderModel LsdOrderSpec LsdOrderProps LsdRegionModel LsdRegionSpec LsdGrowProofs LsdGrowProps LsdRectSpec LsdRectProps LsdSegmentSpec LsdSegmentProofs.
Local Open Scope R_scope.

(** ** The tolerance of refine is twice the standard deviation of the angles near the seed. *)
Lemma sum_squares l m : sum (map (fun v => (v - m) ^ 2) l) = sum (map (fun v => v * v) l) - 2 * m * sum l + m * m * INR (length l).
Proof. induction l as [|a l IH]; [cbn; ring|]. cbn [map length]. rewrite S_INR. unfold sum in *. cbn [fold_right]. rewrite IH. ring. Qed.
Theorem lfx_tolerance (ang : pixel -> option R) s reg width : 0 < width ->
  tolerance ang (s :: reg) width = 2 * deviation (map (fun p => angle_diff_signed (the_angle ang p) (the_angle ang s)) (filter (fun p => if Rlt_dec (dist (IZR (fst s)) (IZR (snd s)) (IZR (fst p)) (IZR (snd p))) width then true else false) (s :: reg))).
Proof.
  intros P. unfold tolerance. set (near := fun p => if Rlt_dec _ width then true else false). set (d := fun p => angle_diff_signed _ _). change (hd (0, 0)%Z (s :: reg)) with s.
  assert (forall l a b c, fold_left (fun '(sum, s_sum, n) p => if Rlt_dec (dist (IZR (fst s)) (IZR (snd s)) (IZR (fst p)) (IZR (snd p))) width then let ang_d := angle_diff_signed (the_angle ang p) (the_angle ang s) in (sum + ang_d, s_sum + ang_d * ang_d, n + 1) else (sum, s_sum, n)) l (a, b, c) =
    (a + sum (map d (filter near l)), b + sum (map (fun v => v * v) (map d (filter near l))), c + INR (length (map d (filter near l))))) as F.
  { induction l as [|p l IH]; intros a b c; [cbn; f_equal; [f_equal|]; ring|]. cbn [fold_left filter]. destruct (Rlt_dec (dist (IZR (fst s)) (IZR (snd s)) (IZR (fst p)) (IZR (snd p))) width) eqn:NP; [replace (near p) with true by (unfold near; rewrite NP; reflexivity)|replace (near p) with false by (unfold near; rewrite NP; reflexivity); apply IH]. cbn [map length]. rewrite S_INR. unfold sum in *. cbn [fold_right]. cbv zeta. rewrite IH. fold (d p). f_equal; [f_equal|]; ring. }
  rewrite F. set (l := map d (filter near (s :: reg))). rewrite !Rplus_0_l. assert (0 < INR (length l)) as N.
  { apply lt_0_INR. unfold l. cbn [filter]. unfold near at 1. unfold dist, dist_sq. rewrite !Rminus_eq_0, Rmult_0_l, Rplus_0_l, sqrt_0. destruct (Rlt_dec 0 width); [cbn; lia|contradiction]. }
  unfold deviation. f_equal. f_equal. unfold mean at 1. rewrite sum_squares, map_length. fold (mean l). unfold mean. field. lra.
Qed.

Lemma low_density_filled rec n th : 1 <= width rec -> low_density rec n th = false -> filled_to th (x1 rec) (y1 rec) (x2 rec) (y2 rec) (width rec) n.
Proof.
  intros W. unfold low_density, filled_to, dist, dist_sq. replace ((x2 rec - x1 rec) * (x2 rec - x1 rec) + (y2 rec - y1 rec) * (y2 rec - y1 rec)) with ((x2 rec - x1 rec) ^ 2 + (y2 rec - y1 rec) ^ 2) by ring. set (a := sqrt _ * width rec). assert (0 <= a) as A by (apply Rmult_le_pos; [apply sqrt_pos|lra]). destruct (Req_EM_T a 0) as [->|Z]; [intros _; rewrite Rmult_0_r; apply pos_INR|]. destruct (Rlt_dec (INR n / a) th) as [|L]; [discriminate|]. intros _. apply Rnot_lt_le in L. apply Rmult_le_compat_r with (r := a) in L; [|exact A]. replace (INR n / a * a) with (INR n) in L by (field; exact Z). exact L.
Qed.

Section Flsd.
Variables (std : bool) (w h : Z) (data : Z -> R) (quant ang_th density_th : R) (n_bins : nat).
Hypothesis size_w : (1 <= w)%Z.
Hypothesis size_h : (1 <= h)%Z.
Hypothesis quant_ok : 0 <= quant.
Hypothesis ang_ok : 0 < ang_th < 180.
Hypothesis bins_ok : (0 < n_bins)%nat.
Notation prec := (PI * ang_th / 180).
Notation rho := (quant / sin (PI * ang_th / 180)).
Notation ang := (fun q : pixel => angle w h data rho (fst q) (snd q)).
Notation flsd_regions fuel := (flsd_regions fuel std w h data quant ang_th density_th n_bins).

Lemma rho_nonneg : 0 <= rho.
Proof. pose proof PI_RGT_0. apply Rmult_le_pos; [exact quant_ok|]. apply Rlt_le, Rinv_0_lt_compat, sin_gt_0; [apply Rmult_lt_0_compat; [apply Rmult_lt_0_compat; lra|lra]|]. apply Rmult_lt_reg_r with (180 / PI); [apply Rmult_lt_0_compat; [lra|apply Rinv_0_lt_compat; lra]|]. replace (PI * ang_th / 180 * (180 / PI)) with ang_th by (field; lra). replace (PI * (180 / PI)) with 180 by (field; lra). lra. Qed.
Lemma weights_positive p : in_image w h p -> ang p <> None -> 0 < norm_at w data p.
Proof. intros _. destruct p as [x y]. cbn [fst snd]. unfold angle, norm_at. destruct (_ || _); [congruence|]. cbv zeta. destruct (Rle_dec _ _) as [|L]; [congruence|]. intros _. pose proof rho_nonneg. lra. Qed.
Lemma seeds_image s : In s (seeds w h data rho n_bins) -> in_image w h s.
Proof.
  destruct (lsx_seeds w h data rho n_bins bins_ok size_w size_h) as (l & -> & _ & I). intros J. apply in_app_or in J as [J|J].
  - apply I in J. unfold inner, in_image in *. lia.
  - apply repeat_spec in J as ->. unfold in_image. cbn. lia.
Qed.
Lemma start_ok : state_ok w h ang (norm_at w data) prec density_th std (min_reg_size w h (ang_th / 180)) (fun _ => false, []).
Proof. split; [constructor|]. split; [intros p []|constructor]. Qed.

Lemma flsd_eq fuel : flsd_regions fuel = bind (try_seeds w h ang (norm_at w data) fuel std prec density_th (min_reg_size w h (ang_th / 180)) (fun _ => false, []) (seeds w h data rho n_bins)) (fun '(_, lines) => Ok lines).
Proof. reflexivity. Qed.

(** The supports are disjoint, each consists of pixels of the image with a direction, and the segment is that of its support. With refinement the pixels fill the rectangle to the share asked for. *)
Theorem lfx_segments fuel lines : flsd_regions fuel = Ok lines -> disjoint_supports (map fst lines) /\
  forall l rec, In (l, rec) lines -> l <> [] /\ directed w h ang l /\ fitted (norm_at w data) l (x1 rec) (y1 rec) (x2 rec) (y2 rec) (width rec) /\
  (if std then (2 <= length l)%nat /\ filled_to density_th (x1 rec) (y1 rec) (x2 rec) (y2 rec) (width rec) (length l) else (min_reg_size w h (ang_th / 180) <= Z.of_nat (length l))%Z).
Proof.
  rewrite !flsd_eq. intros E. destruct (try_seeds_ok w h ang (norm_at w data) prec density_th weights_positive std (min_reg_size w h (ang_th / 180)) fuel (seeds w h data rho n_bins) seeds_image (fun _ => false, []) start_ok) as [F|[[F _]|([u found] & F & N & _ & S)]]; rewrite F in E; [discriminate|discriminate|]. cbn [bind] in E. injection E as <-. split; [exact N|]. intros l rec I. rewrite Forall_forall in S. destruct (S _ I) as (L & D & (a & R) & C). cbn [fst snd] in *.
  assert (l <> []) as NE by (destruct l; [cbn in L; lia|discriminate]). destruct (lcx_rect (norm_at w data) l a prec ltac:(intros p P; apply weights_positive; apply D, P) NE rec R) as (R1 & R2 & _ & _ & R3 & b & R4 & R5). split; [exact NE|]. split; [exact D|]. split; [exists (cx rec), (cy rec), (rdx rec), (rdy rec), b; auto|]. destruct std; [|exact C]. destruct C as [C1 C2]. split; [exact C1|]. apply low_density_filled; [rewrite R5; apply Rmax_l|exact C2].
Qed.
(** The call ends: from some number of rounds on, the outcome is the same. *)
Theorem lfx_ends : exists rounds o, o <> Fuel /\ forall fuel, (rounds <= fuel)%nat -> flsd_regions fuel = o.
Proof.
  destruct (try_seeds_ends w h ang (norm_at w data) prec density_th weights_positive std (min_reg_size w h (ang_th / 180)) (seeds w h data rho n_bins) seeds_image (fun _ => false, [])) as (f & F). exists f, (flsd_regions f). split.
  - rewrite !flsd_eq. destruct (try_seeds _ _ _ _ _ _ _ _ _ _ _) as [[u found]| |]; [discriminate|discriminate|contradiction].
  - intros fuel L. replace fuel with (f + (fuel - f))%nat by lia. rewrite !flsd_eq. rewrite try_seeds_most by exact F. reflexivity.
Qed.
(** It does not throw if regions of one pixel are ignored. *)
Theorem lfx_safe fuel : (2 <= min_reg_size w h (ang_th / 180))%Z -> flsd_regions fuel <> Throw.
Proof.
  intros M. rewrite !flsd_eq. destruct (try_seeds_ok w h ang (norm_at w data) prec density_th weights_positive std (min_reg_size w h (ang_th / 180)) fuel (seeds w h data rho n_bins) seeds_image (fun _ => false, []) start_ok) as [F|[[F L]|([u found] & F & _)]]; rewrite F; [discriminate|lia|discriminate].
Qed.
(** Without any gradient above the threshold there is no segment. *)
Lemma try_seeds_skip (ang' : pixel -> option R) grad fuel std' prec' th size used lines l : (forall s, In s l -> used s = true \/ ang' s = None) -> try_seeds w h ang' grad fuel std' prec' th size (used, lines) l = Ok (used, lines).
Proof. induction l as [|s l IH]; intros H; [reflexivity|]. cbn [try_seeds try_seed]. destruct (H s (or_introl eq_refl)) as [->| ->]; [|destruct (used s)]; cbn [bind]; apply IH; intros; apply H; right; assumption. Qed.
Theorem lfx_flat fuel : (forall p, inner w h p -> norm_at w data p <= rho) -> flsd_regions fuel = Ok [].
Proof.
  intros F. rewrite !flsd_eq. rewrite try_seeds_skip; [reflexivity|]. intros s I. right. pose proof (seeds_image s I) as B. destruct s as [x y]. cbn [fst snd]. unfold angle. destruct (_ || _) eqn:E; [reflexivity|]. cbv zeta. destruct (Rle_dec _ _) as [|L]; [reflexivity|]. exfalso. apply L. apply (F (x, y)). apply orb_false_iff in E as [E1 E2]. apply Z.eqb_neq in E1, E2. unfold inner, in_image in *. cbn [fst snd] in *. lia.
Qed.
End Flsd.

(** ** The smallest size of a region *)
Lemma trunc_ge r n : (0 <= n)%Z -> IZR n <= r -> (n <= trunc r)%Z.
Proof. intros N L. pose proof (IZR_le 0 n N). unfold trunc. destruct (Rle_dec 0 r) as [_|]; [|lra]. destruct (base_Int_part r) as [_ B]. assert (n < Int_part r + 1)%Z; [|lia]. apply lt_IZR. rewrite plus_IZR. lra. Qed.
Lemma ln_mono_le x y : 0 < x -> x <= y -> ln x <= ln y.
Proof. intros X [L|<-]; [left; apply ln_increasing; assumption|right; reflexivity]. Qed.
Lemma size_two w h ang_th : (2 <= w)%Z -> (2 <= h)%Z -> 10 <= ang_th < 180 -> (2 <= min_reg_size w h (ang_th / 180))%Z.
Proof.
  intros W H A. unfold min_reg_size. apply trunc_ge; [lia|]. unfold log_nt, log10. pose proof (ln_increasing 1 10 ltac:(lra) ltac:(lra)) as T. rewrite ln_1 in T. set (t := ln 10) in *.
  assert (ln (ang_th / 180) < 0) as N by (rewrite <- ln_1; apply ln_increasing; lra). assert (- ln 18 <= ln (ang_th / 180)) as M by (rewrite <- ln_Rinv by lra; apply ln_mono_le; lra).
  assert (ln 2 <= ln (IZR w)) as LW by (apply ln_mono_le; [lra|apply (IZR_le 2), W]). assert (ln 2 <= ln (IZR h)) as LH by (apply ln_mono_le; [lra|apply (IZR_le 2), H]).
  assert (2 * ln 18 <= 5 * ln 2 + ln 11) as K.
  { replace (2 * ln 18) with (ln (18 * 18)) by (rewrite ln_mult by lra; ring). replace (5 * ln 2 + ln 11) with (ln (2 * (2 * (2 * (2 * (2 * 11)))))) by (rewrite !ln_mult by lra; ring). apply ln_mono_le; lra. }
  replace (- (5 * (ln (IZR w) / t + ln (IZR h) / t) / 2 + ln 11 / t) / (ln (ang_th / 180) / t)) with ((5 * (ln (IZR w) + ln (IZR h)) / 2 + ln 11) / (- ln (ang_th / 180))) by (field; lra). apply Rmult_le_reg_r with (- ln (ang_th / 180)); [lra|]. unfold Rdiv. rewrite Rmult_assoc, Rinv_l by lra. lra.
Qed.
(** The segments returned are those of the regions, in the coordinates of the image before scaling. *)
Lemma stored_means scale v : 0 < scale -> means_coordinate scale (stored scale v) v.
Proof.
  intros S. exists ((v + / 2) / scale). split; [field; lra|]. unfold stored, trunc. set (c := (v + / 2) / scale). destruct (Rle_dec 0 c) as [P|P].
  - destruct (base_Int_part c) as [B1 B2]. assert (0 <= Int_part c)%Z as I. { assert (-1 < Int_part c)%Z; [|lia]. apply lt_IZR. lra. } apply IZR_le in I. rewrite !(Rabs_right) by lra. split; lra.
  - destruct (base_Int_part (- c)) as [B1 B2]. assert (0 <= Int_part (- c))%Z as I. { assert (-1 < Int_part (- c))%Z; [|lia]. apply lt_IZR. lra. } apply IZR_le in I. rewrite opp_IZR, Rabs_Ropp, (Rabs_right (IZR _)) by lra. rewrite (Rabs_left c) by lra. split; [lra|]. rewrite Rabs_left1; lra.
Qed.
Theorem lfx_scaled fuel std w h data scale quant ang_th density_th n_bins segments : 0 < scale -> flsd fuel std w h data scale quant ang_th density_th n_bins = Ok segments ->
  exists lines, flsd_regions fuel std w h data quant ang_th density_th n_bins = Ok lines /\ length segments = length lines /\
  forall n l rec xa ya xb yb, nth_error lines n = Some (l, rec) -> nth_error segments n = Some (xa, ya, xb, yb) ->
  means_coordinate scale xa (x1 rec) /\ means_coordinate scale ya (y1 rec) /\ means_coordinate scale xb (x2 rec) /\ means_coordinate scale yb (y2 rec).
Proof.
  intros S. unfold flsd. destruct (flsd_regions fuel std w h data quant ang_th density_th n_bins) as [lines| |]; cbn [bind]; [|discriminate|discriminate]. intros E. injection E as <-. exists lines. split; [reflexivity|]. split; [apply map_length|]. intros n l rec xa ya xb yb N. rewrite (map_nth_error _ _ _ N). cbn [snd]. unfold line_of. intros E. injection E as <- <- <- <-.
  split; [apply stored_means; exact S|]. split; [apply stored_means; exact S|]. split; apply stored_means; exact S.
Qed.
(** For angle thresholds of at least 10 degrees, as the default of 16.5, nothing throws. *)
Theorem lfx_default fuel std w h data quant ang_th density_th n_bins : (1 <= w)%Z -> (1 <= h)%Z -> 0 <= quant -> 10 <= ang_th < 180 -> (0 < n_bins)%nat -> flsd_regions fuel std w h data quant ang_th density_th n_bins <> Throw.
Proof.
  intros W H Q A B. destruct (Z_lt_le_dec w 2) as [L|W2]; [|destruct (Z_lt_le_dec h 2) as [L|H2]].
  - rewrite lfx_flat; [discriminate|exact W|exact H|exact B|]. intros [x y] I. unfold inner in I. cbn [fst snd] in I. lia.
  - rewrite lfx_flat; [discriminate|exact W|exact H|exact B|]. intros [x y] I. unfold inner in I. cbn [fst snd] in I. lia.
  - apply lfx_safe; try assumption; [lra|]. apply size_two; assumption.
Qed.
(** ** For small angle thresholds a single pixel makes the call throw. *)
Definition columns (i : Z) : R := if Z.odd i then 255 else 0.
Lemma columns_norm : norm_at 2 columns (0, 0)%Z = 255.
Proof. unfold norm_at, modgrad, gradient, columns. cbn -[sqrt]. replace ((255 - 0 + (255 - 0)) * (255 - 0 + (255 - 0)) + (255 - 0 - (255 - 0)) * (255 - 0 - (255 - 0))) with ((2 * 255) * (2 * 255)) by ring. replace (2 * 255 * (2 * 255) / 4) with (255 * 255) by field. apply sqrt_square. lra. Qed.
Lemma sin_times n x : Rabs (sin (INR n * x)) <= INR n * Rabs (sin x).
Proof.
  induction n as [|n IH]; [cbn; rewrite !Rmult_0_l, sin_0, Rabs_R0; lra|]. rewrite S_INR, Rmult_plus_distr_r, Rmult_1_l, sin_plus. eapply Rle_trans; [apply Rabs_triang|]. rewrite !Rabs_mult. pose proof (Rabs_pos (sin (INR n * x))). pose proof (Rabs_pos (sin x)).
  assert (forall y, Rabs (cos y) <= 1) as C by (intros y; apply Rabs_le; pose proof (COS_bound y); lra). pose proof (Rmult_le_compat_l _ _ _ H (C x)). pose proof (Rmult_le_compat_r _ _ _ H0 (C (INR n * x))). lra.
Qed.
Lemma columns_rho : 2 / sin (PI * 1 / 180) < 255.
Proof.
  pose proof PI_RGT_0. set (a := PI * 1 / 180). assert (0 < sin a) as P by (apply sin_gt_0; unfold a; lra). pose proof (sin_times 30 a) as B. replace (INR 30) with 30 in B by (rewrite INR_IZR_INZ; reflexivity). replace (30 * a) with (PI / 6) in B by (unfold a; field). rewrite sin_PI6, !Rabs_right in B by lra.
  apply Rmult_lt_reg_r with (sin a); [lra|]. unfold Rdiv. rewrite Rmult_assoc, Rinv_l by lra. lra.
Qed.
Lemma columns_size : (min_reg_size 2 2 (1 / 180) <= 1)%Z.
Proof.
  unfold min_reg_size, log_nt, log10. pose proof (ln_increasing 1 10 ltac:(lra) ltac:(lra)) as T. rewrite ln_1 in T. set (t := ln 10) in *. replace (1 / 180) with (/ 180) by lra. rewrite ln_Rinv by lra. pose proof (ln_increasing 1 180 ltac:(lra) ltac:(lra)) as N. rewrite ln_1 in N.
  replace (- (5 * (ln 2 / t + ln 2 / t) / 2 + ln 11 / t) / (- ln 180 / t)) with ((5 * ln 2 + ln 11) / ln 180) by (field; lra). assert (5 * ln 2 + ln 11 < 2 * ln 180) as K.
  { replace (2 * ln 180) with (ln (180 * 180)) by (rewrite ln_mult by lra; ring). replace (5 * ln 2 + ln 11) with (ln (2 * (2 * (2 * (2 * (2 * 11)))))) by (rewrite !ln_mult by lra; ring). apply ln_increasing; lra. }
  set (r := _ / ln 180). assert (r < 2) as R by (apply Rmult_lt_reg_r with (ln 180); [lra|]; unfold r, Rdiv; rewrite Rmult_assoc, Rinv_l by lra; lra). unfold trunc. destruct (Rle_dec 0 r) as [L|L]; [pose proof (Int_part_bounds r 0 2 L R); lia|]. pose proof (base_Int_part (- r)) as [_ B]. assert (-1 < Int_part (- r))%Z; [|lia]. apply lt_IZR. lra.
Qed.
Theorem lfx_throw_refuted : exists w h data quant ang_th density_th n_bins, (1 <= w)%Z /\ (1 <= h)%Z /\ (forall i, 0 <= data i <= 255) /\ quant = 2 /\ 0 < ang_th < 180 /\ (0 < n_bins)%nat /\ forall fuel std, flsd_regions fuel std w h data quant ang_th density_th n_bins = Throw.
Proof.
  exists 2%Z, 2%Z, columns, 2, 1, (65 / 100), 1024%nat. split; [lia|]. split; [lia|]. split; [intros i; unfold columns; destruct (Z.odd i); lra|]. split; [reflexivity|]. split; [lra|]. split; [lia|]. intros fuel std.
  rewrite flsd_eq. destruct (lsx_seeds 2 2 columns (2 / sin (PI * 1 / 180)) 1024 ltac:(lia) ltac:(lia) ltac:(lia)) as (l & -> & _ & I). pose proof (proj2 (I (0, 0)%Z) ltac:(unfold inner; cbn; lia)) as I0. destruct l as [|s l]; [destruct I0|]. assert (s = (0, 0)%Z) as ->.
  { pose proof (proj1 (I s) (or_introl eq_refl)) as B. destruct s as [x y]. unfold inner in B. cbn [fst snd] in B. f_equal; lia. }
  set (rho := 2 / sin (PI * 1 / 180)). set (ang := fun q : pixel => angle 2 2 columns rho (fst q) (snd q)). cbn [app try_seeds]. assert (exists a, ang (0, 0)%Z = Some a) as (a & A).
  { unfold ang, angle. change ((fst (0, 0)%Z =? 2 - 1) || (snd (0, 0)%Z =? 2 - 1))%Z with false. cbv iota zeta. change (modgrad 2 columns (fst (0, 0)%Z + snd (0, 0)%Z * 2)) with (norm_at 2 columns (0, 0)%Z). rewrite columns_norm. destruct (Rle_dec 255 rho) as [L|_]; [pose proof columns_rho; fold rho in H; lra|]. destruct (gradient _ _ _). eauto. }
  destruct (grow_ok 2 2 ang (fun _ => false) (0, 0)%Z (PI * 1 / 180) ltac:(unfold in_image; cbn; lia) ltac:(congruence) eq_refl) as (st & G & H & [ND O] & _). unfold try_seed. cbv iota beta. rewrite A. match goal with |- context [region_grow ?a ?b ?c ?d ?e ?f] => replace (region_grow a b c d e f) with (Ok st) by (symmetry; exact G) end. cbn [bind]. destruct st as [u r ? ? a1]. cbn [reg] in *. assert (forall p, In p r -> p = (0, 0)%Z) as E.
  { intros [x y] P. destruct (O _ P) as ([B1 B2] & B3 & _). cbn [fst snd] in *. unfold ang, angle in B3. cbn [fst snd] in B3. destruct ((x =? 2 - 1) || (y =? 2 - 1))%Z eqn:B; [congruence|]. apply orb_false_iff in B as [B4 B5]. apply Z.eqb_neq in B4, B5. f_equal; lia. }
  assert (r <> []) as NE by (destruct r; discriminate). replace (Z.of_nat (length r) <? min_reg_size 2 2 (1 / 180))%Z with false; [|symmetry; apply Z.ltb_ge; pose proof columns_size; destruct r; [contradiction|cbn [length]; lia]].
  replace (region2rect (norm_at 2 columns) r a1 (PI * 1 / 180)) with (@Throw rect); [reflexivity|]. symmetry. apply lcx_throw; [|exact NE|intros p q P Q; rewrite (E p P), (E q Q); reflexivity]. intros p P. rewrite (E p P), columns_norm. lra.
Qed.
(** Example: a step from 0 to 255 in a picture of 6 x 5 pixels with the default parameters. *)
Example lfx_ex : (1 <= 6)%Z /\ (1 <= 5)%Z /\ 0 <= 2 /\ 10 <= 33 / 2 < 180 /\ (0 < 1024)%nat /\ (2 <= min_reg_size 6 5 (33 / 2 / 180))%Z.
Proof. split; [lia|]. split; [lia|]. split; [lra|]. split; [lra|]. split; [lia|]. apply size_two; [lia|lia|lra]. Qed.
Print Assumptions lfx_tolerance.
Print Assumptions lfx_segments.
Print Assumptions lfx_ends.
Print Assumptions lfx_safe.
Print Assumptions lfx_flat.
Print Assumptions lfx_default.
Print Assumptions lfx_throw_refuted.
Print Assumptions lfx_scaled.
