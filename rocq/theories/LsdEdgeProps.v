(** C104: an ideal edge gives one segment. *)
From Coq Require Import ZArith Reals Lra Lia List Bool Arith Permutation Sorted.
Import ListNotations.
From Verif Require Import OrientModel OrientSpec OrientProps SurfProps LsdOrderModel LsdOrderSpec LsdOrderProps LsdRegionModel LsdRegionSpec LsdGrowProofs LsdGrowProps LsdRectSpec LsdRectProps LsdSegmentSpec LsdSegmentProofs LsdSegmentProps LsdEdgeSpec.
Local Open Scope R_scope.

Lemma same_direction u t : 0 <= t < 2 * PI -> cos u = cos t -> sin u = sin t -> exists k : Z, u + 2 * PI * IZR k = t.
Proof.
  intros T C S. assert (exists k : Z, 0 <= u + 2 * PI * IZR k < 2 * PI) as (k & K).
  { destruct (reduce_angle u) as (m & M). pose proof PI_RGT_0. destruct (Rle_dec 0 (u + 2 * PI * IZR m)) as [L|L]; [exists m; lra|]. exists (m + 1)%Z. rewrite plus_IZR. lra. }
  exists k. apply (direction_unique (cos t) (sin t)); [|split; [exact T|exists 1; lra]]. split; [exact K|]. exists 1. rewrite cos_periodZ, sin_periodZ. lra.
Qed.
Lemma total_const f (ang : pixel -> option R) t l : (forall p, In p l -> ang p = Some t) -> total f ang l = INR (length l) * f t.
Proof. induction l as [|p l IH]; intros H; [cbn; ring|]. cbn [total fold_right length]. rewrite (H p) by (left; reflexivity). fold (total f ang l). rewrite IH by (intros; apply H; right; assumption). rewrite S_INR. ring. Qed.

Section Edge.
Variables (w h c : Z) (a b : R) (data : Z -> R) (quant ang_th density_th : R) (n_bins : nat).
Hypothesis edge : step_edge w h c a b data.
Hypothesis column : (0 <= c < w - 1)%Z.
Hypothesis rows : (3 <= h)%Z.
Hypothesis quant_ok : 0 <= quant.
Hypothesis ang_ok : 0 < ang_th < 90.
Hypothesis bins_ok : (0 < n_bins)%nat.
Hypothesis density_ok : density_th <= 1.
Notation prec := (PI * ang_th / 180).
Notation rho := (quant / sin (PI * ang_th / 180)).
Hypothesis contrast : rho < Rabs (b - a).
Hypothesis long : (min_reg_size w h (ang_th / 180) <= h - 1)%Z.
Notation ang := (fun q : pixel => angle w h data rho (fst q) (snd q)).
Notation grad := (norm_at w data).
(** 90 or 270 degrees. *)
Definition up : R := if Rlt_dec a b then PI / 2 else 3 * (PI / 2).
Definition sign : R := if Rlt_dec a b then 1 else -1.
Lemma different : a <> b.
Proof. intros E. pose proof (rho_nonneg quant ang_th quant_ok ltac:(lra)) as R. revert contrast. rewrite E, Rminus_eq_0, Rabs_R0. lra. Qed.
Lemma up_range : 0 <= up < 2 * PI.
Proof. unfold up. pose proof PI_RGT_0. destruct (Rlt_dec a b); lra. Qed.
Lemma up_cos : cos up = 0 /\ sin up = sign.
Proof. unfold up, sign. destruct (Rlt_dec a b); [rewrite cos_PI2, sin_PI2; auto|]. replace (3 * (PI / 2)) with (PI / 2 + PI) by field. rewrite neg_cos, neg_sin, cos_PI2, sin_PI2. split; ring. Qed.
Lemma sign_sq : sign * sign = 1.
Proof. unfold sign. destruct (Rlt_dec a b); lra. Qed.
Lemma gradient_at x y : inner w h (x, y) -> gradient w data (x + y * w) = if (x =? c)%Z then (2 * (b - a), 0) else (0, 0).
Proof.
  intros [B1 B2]. cbn [fst snd] in *. unfold gradient. replace (x + y * w + w + 1)%Z with (x + 1 + (y + 1) * w)%Z by ring. replace (x + y * w + 1)%Z with (x + 1 + y * w)%Z by ring. replace (x + y * w + w)%Z with (x + (y + 1) * w)%Z by ring. rewrite !edge by lia. destruct (Z.eqb_spec x c) as [->|N].
  - rewrite Z.leb_refl. replace (c + 1 <=? c)%Z with false by (symmetry; apply Z.leb_gt; lia). f_equal; ring.
  - destruct (Z.leb_spec x c); [replace (x + 1 <=? c)%Z with true by (symmetry; apply Z.leb_le; lia)|replace (x + 1 <=? c)%Z with false by (symmetry; apply Z.leb_gt; lia)]; f_equal; ring.
Qed.
Lemma norm_at_edge x y : inner w h (x, y) -> grad (x, y) = if (x =? c)%Z then Rabs (b - a) else 0.
Proof.
  intros I. unfold norm_at, modgrad. rewrite (gradient_at x y I). destruct (x =? c)%Z.
  - replace ((2 * (b - a) * (2 * (b - a)) + 0 * 0) / 4) with (Rsqr (b - a)) by (unfold Rsqr; field). apply sqrt_Rsqr_abs.
  - replace ((0 * 0 + 0 * 0) / 4) with 0 by field. apply sqrt_0.
Qed.
Lemma ang_at p : in_image w h p -> ang p = if (fst p =? c)%Z && (snd p <? h - 1)%Z then Some up else None.
Proof.
  destruct p as [x y]. intros [B1 B2]. cbn [fst snd] in *. destruct (Z.eqb_spec x (w - 1)) as [E|E].
  { unfold angle. rewrite (proj2 (Z.eqb_eq x (w - 1)) E). cbn [orb]. replace (x =? c)%Z with false by (symmetry; apply Z.eqb_neq; lia). reflexivity. }
  destruct (Z.ltb_spec y (h - 1)) as [L|L].
  2: { unfold angle. replace (y =? h - 1)%Z with true by (symmetry; apply Z.eqb_eq; lia). rewrite orb_true_r, andb_false_r. reflexivity. }
  assert (inner w h (x, y)) as I by (unfold inner; cbn; lia). unfold angle. replace ((x =? w - 1) || (y =? h - 1))%Z with false by (symmetry; apply orb_false_iff; rewrite !Z.eqb_neq; lia). cbv zeta. pose proof (norm_at_edge x y I) as N. unfold norm_at in N. rewrite N, (gradient_at x y I), andb_true_r. destruct (x =? c)%Z.
  - destruct (Rle_dec (Rabs (b - a)) rho) as [F|_]; [lra|]. f_equal. pose proof different as D. destruct up_cos as [C S]. apply (direction_unique (- 0) (2 * (b - a))); [apply fast_atan2_direction; right; lra|]. split; [apply up_range|]. exists (2 * Rabs (b - a)). rewrite C, S. split; [apply Rmult_lt_0_compat; [lra|apply Rabs_pos_lt; lra]|]. split; [ring|]. unfold sign. destruct (Rlt_dec a b); [rewrite Rabs_right by lra|rewrite Rabs_left by lra]; ring.
  - destruct (Rle_dec 0 rho) as [_|F]; [reflexivity|]. exfalso. apply F, rho_nonneg; [exact quant_ok|lra].
Qed.
Lemma prec_range : 0 <= prec < PI / 2.
Proof. pose proof PI_RGT_0 as P. split; [apply Rlt_le; unfold Rdiv; apply Rmult_lt_0_compat; [apply Rmult_lt_0_compat; lra|lra]|]. apply Rmult_lt_reg_r with (180 / PI); [apply Rmult_lt_0_compat; [lra|apply Rinv_0_lt_compat; lra]|]. replace (PI * ang_th / 180 * (180 / PI)) with ang_th by (field; lra). replace (PI / 2 * (180 / PI)) with 90 by (field; lra). lra. Qed.

Lemma region_of_edge : exists st, region_grow w h ang (fun _ => false) (c, 0)%Z prec = Ok st /\ hd_error (reg st) = Some (c, 0)%Z /\ NoDup (reg st) /\ (forall p, In p (reg st) <-> fst p = c /\ (0 <= snd p < h - 1)%Z) /\ reg_angle st = up /\ (forall q, used st q = true <-> In q (reg st)).
Proof.
  assert (in_image w h (c, 0)%Z) as I0 by (unfold in_image; cbn; lia). assert (ang (c, 0)%Z = Some up) as A0 by (rewrite (ang_at (c, 0)%Z I0); cbn [fst snd]; rewrite Z.eqb_refl; replace (0 <? h - 1)%Z with true by (symmetry; apply Z.ltb_lt; lia); reflexivity).
  assert (forall p t, ang p = Some t -> 0 <= t < 2 * PI) as RG by (intros p t E; apply (angle_range _ _ _ _ _ _ _ E)).
  destruct (lgx_region w h ang prec (fun _ => false) (c, 0)%Z up A0 I0 eq_refl) as (st & E & H & N & _ & _ & M). exists st. split; [exact E|]. split; [exact H|]. split; [exact N|].
  destruct (lgx_component w h ang prec (fun _ => false) (c, 0)%Z up RG A0 I0 eq_refl prec_range up) as (st' & E' & J).
  { intros q t Iq _ Aq. rewrite (ang_at q Iq) in Aq. destruct (_ && _); [|discriminate]. injection Aq as <-. exists 0%Z. pose proof prec_range. lra. }
  rewrite E in E'. injection E' as <-. destruct (lgx_grown w h ang prec (fun _ => false) (c, 0)%Z up RG A0 I0 eq_refl prec_range) as (st' & E' & _ & D & _). rewrite E in E'. injection E' as <-.
  assert (forall p, In p (reg st) <-> fst p = c /\ (0 <= snd p < h - 1)%Z) as CH.
  { intros [x y]. rewrite (J (x, y)). cbn [fst snd]. split.
    - intros JP. assert (in_image w h (x, y) /\ ang (x, y) <> None) as [I A] by (destruct JP as [? [_ ?]|? ? _ _ ? [_ ?]]; auto). rewrite (ang_at _ I) in A. cbn [fst snd] in A. destruct (Z.eqb_spec x c); [|exfalso; apply A; reflexivity]. destruct (Z.ltb_spec y (h - 1)); [|exfalso; apply A; reflexivity]. destruct I as [_ I]. cbn [snd] in I. lia.
    - intros [-> B]. assert (forall n : nat, (Z.of_nat n < h - 1)%Z -> joined w h (fun q => false = false /\ ang q <> None) (c, 0)%Z (c, Z.of_nat n)) as G; [|rewrite <- (Z2Nat.id y) by lia; apply G; lia].
      assert (forall y', (0 <= y' < h - 1)%Z -> in_image w h (c, y') /\ ang (c, y') <> None) as A1.
      { intros y' B'. assert (in_image w h (c, y')) as I by (unfold in_image; cbn; lia). split; [exact I|]. rewrite (ang_at _ I). cbn [fst snd]. rewrite Z.eqb_refl. replace (y' <? h - 1)%Z with true by (symmetry; apply Z.ltb_lt; lia). discriminate. }
      induction n as [|n IH]; intros L; [change (Z.of_nat 0) with 0%Z; apply joined_seed; [exact I0|split; [reflexivity|exact (fun F => eq_ind (Some up) (fun o => match o with Some _ => True | None => False end) I _ (eq_trans (eq_sym A0) F))]]|]. apply (joined_next _ _ _ _ (c, Z.of_nat n)); [apply IH; lia|unfold near; cbn [fst snd]; lia|apply A1; lia|]. split; [reflexivity|apply A1; lia]. }
  split; [exact CH|]. split; [|intros q; rewrite (M q); split; [intros [?|?]; [discriminate|assumption]|auto]].
  unfold mean_direction in D. rewrite !(total_const _ _ up) in D. 2, 3: intros p P; apply CH in P as [P1 P2]; rewrite (ang_at p) by (unfold in_image; lia); rewrite (proj2 (Z.eqb_eq _ _) P1); replace (snd p <? h - 1)%Z with true by (symmetry; apply Z.ltb_lt; lia); reflexivity.
  apply (direction_unique _ _ _ _ D). split; [apply up_range|]. exists (INR (length (reg st))). split; [|split; reflexivity]. apply lt_0_INR. destruct (reg st); [discriminate|cbn; lia].
Qed.

Section Region.
Variable l : list pixel.
Hypothesis distinct : NoDup l.
Hypothesis members : forall p, In p l <-> fst p = c /\ (0 <= snd p < h - 1)%Z.
Lemma region_size : Z.of_nat (length l) = (h - 1)%Z.
Proof.
  assert (Permutation l (map (fun y => (c, y)) (upto (h - 1)))) as P.
  { apply NoDup_Permutation; [exact distinct| |].
    - apply FinFun.Injective_map_NoDup; [intros y y' [= E]; exact E|]. unfold upto. apply FinFun.Injective_map_NoDup; [intros n m E; apply Nat2Z.inj, E|apply seq_NoDup].
    - intros [x y]. rewrite members. cbn [fst snd]. rewrite in_map_iff. split; [intros [-> B]; exists y; split; [reflexivity|apply upto_in, B]|]. intros (y' & [= <- <-] & I). apply upto_in in I. auto. }
  rewrite (Permutation_length P), map_length. unfold upto. rewrite map_length, seq_length. lia.
Qed.
Lemma region_weights p : In p l -> grad p = Rabs (b - a).
Proof. intros I. apply members in I as [I1 I2]. destruct p as [x y]. cbn [fst snd] in *. rewrite norm_at_edge by (unfold inner; cbn; lia). rewrite (proj2 (Z.eqb_eq x c) I1). reflexivity. Qed.
Lemma region_positive p : In p l -> 0 < grad p.
Proof. intros I. rewrite (region_weights p I). apply Rabs_pos_lt. pose proof different. lra. Qed.
Lemma rect_of_edge : exists rec, region2rect grad l up prec = Ok rec /\ x1 rec = IZR c /\ x2 rec = IZR c /\ y1 rec = (if Rlt_dec a b then 0 else IZR (h - 2)) /\ y2 rec = (if Rlt_dec a b then IZR (h - 2) else 0) /\ width rec = 1.
Proof.
  pose proof (proj2 (members (c, 0)%Z) ltac:(cbn; lia)) as I0. pose proof (proj2 (members (c, 1)%Z) ltac:(cbn; lia)) as I1. assert (l <> []) as NE by (intros ->; destruct I0).
  destruct (region2rect_cases grad l up prec) as [T|(rec & E)]; [pose proof (proj1 (lcx_throw grad l up prec region_positive NE) T _ _ I0 I1); discriminate|]. exists rec. split; [exact E|]. destruct (lcx_rect grad l up prec region_positive NE rec E) as ([CX _] & [U B] & DX & DY & (p & q & IP & IQ & R & -> & -> & -> & ->) & br & (u & v & IU & IV & _ & EB) & ->).
  assert (cx rec = IZR c) as X.
  { rewrite (weighted_ext grad _ (fun _ => (IZR c - cx rec) * 1 + 0 * 1)) in CX by (intros r I; apply members in I as [-> _]; ring). rewrite weighted_lin in CX. pose proof (weighted_pos grad l region_positive NE) as W. assert ((IZR c - cx rec) * weighted grad (fun _ => 1) l = 0) as Z by lra. apply Rmult_integral in Z as [Z|Z]; lra. }
  assert (weighted grad (fun p => offset_aside (cx rec) (cy rec) (rdx rec) (rdy rec) p ^ 2) l = 0) as W0.
  { apply Rle_antisym; [|apply weighted_nonneg; [exact region_positive|intros; apply pow2_ge_0]]. eapply Rle_trans; [apply (B 0 1); ring|]. right. transitivity (0 * weighted grad (fun _ => 1) l + 0 * weighted grad (fun _ => 1) l); [|ring]. rewrite <- weighted_lin. apply weighted_ext. intros r I. apply members in I as [I _]. unfold offset_aside. rewrite I, X. ring. }
  assert (forall r, In r l -> offset_aside (cx rec) (cy rec) (rdx rec) (rdy rec) r = 0) as A0.
  { intros r I. pose proof (weighted_zero grad _ l region_positive (fun q _ => pow2_ge_0 _) W0 r I) as Z. cbv beta in Z. replace (offset_aside (cx rec) (cy rec) (rdx rec) (rdy rec) r ^ 2) with (Rsqr (offset_aside (cx rec) (cy rec) (rdx rec) (rdy rec) r)) in Z by (unfold Rsqr; ring). apply Rsqr_0_uniq, Z. }
  assert (rdx rec = 0) as D0.
  { pose proof (A0 _ I0) as Z0. pose proof (A0 _ I1) as Z1. unfold offset_aside in Z0, Z1. cbn [fst snd] in Z0, Z1. rewrite X, Rminus_eq_0 in Z0, Z1. lra. }
  assert (rdy rec = sign) as D1.
  { destruct up_cos as [C S]. rewrite D0 in DX, U. assert (rdy rec = sign \/ rdy rec = - sign) as [Y|Y]; [|exact Y|].
    { assert ((rdy rec - sign) * (rdy rec + sign) = 0) as Z by (replace ((rdy rec - sign) * (rdy rec + sign)) with (rdy rec * rdy rec - sign * sign) by ring; rewrite sign_sq; lra). apply Rmult_integral in Z as [Z|Z]; [left|right]; lra. }
    exfalso. assert (similar (theta rec) up prec) as SM.
    { apply (lcx_oriented grad l up prec rec E up_range). right. destruct (same_direction (theta rec + PI) up up_range) as (k & K); [rewrite neg_cos, <- DX, C; ring|rewrite neg_sin, <- DY, Y, S; ring|]. exists k. replace (theta rec + PI - up + 2 * PI * IZR k) with 0 by lra. rewrite Rabs_R0. apply prec_range. }
    apply similar_cos in SM; [|apply prec_range]. rewrite cos_minus, <- DX, <- DY, C, S, Y in SM. pose proof sign_sq. lra. }
  assert (forall r, In r l -> offset_along (cx rec) (cy rec) (rdx rec) (rdy rec) r = (IZR (snd r) - cy rec) * sign) as AL by (intros r _; unfold offset_along; rewrite D0, D1; ring).
  pose proof (proj2 (members (c, h - 2)%Z) ltac:(cbn [fst snd]; lia)) as I2. pose proof (R _ I0) as R0. pose proof (R _ I2) as R2. rewrite !AL in R0, R2 by assumption. cbn [snd] in R0, R2. rewrite !AL by assumption. rewrite D0, D1, X. apply members in IP as [_ P2], IQ as [_ Q2]. split; [ring|]. split; [ring|].
  assert (forall z, cy rec + (z - cy rec) * sign * sign = z) as SS by (intros z; rewrite Rmult_assoc, sign_sq; ring). rewrite !SS. unfold sign in R0, R2. assert (forall z z', (0 <= z)%Z -> IZR z <= IZR z' -> (z <= z')%Z) as LE by (intros; apply le_IZR; assumption).
  split; [|split].
  - destruct (Rlt_dec a b); f_equal; apply Z.le_antisymm; try lia; apply le_IZR; lra.
  - destruct (Rlt_dec a b); f_equal; apply Z.le_antisymm; try lia; apply le_IZR; lra.
  - rewrite EB, !A0 by assumption. apply Rmax_left. lra.
Qed.
End Region.
(** The only segment runs along the column, from top to bottom if the left side is the darker one and from bottom to top otherwise. *)
Theorem lwx_edge fuel std : flsd fuel std w h data 1 quant ang_th density_th n_bins = Ok [if Rlt_dec a b then (c, 0, c, h - 2)%Z else (c, h - 2, c, 0)%Z].
Proof.
  unfold flsd. rewrite flsd_eq. destruct (lsx_seeds w h data rho n_bins bins_ok ltac:(lia) ltac:(lia)) as (s & -> & SO & I). pose proof (proj2 (I (c, 0)%Z) ltac:(unfold inner; cbn; lia)) as IC. apply in_split in IC as (s1 & s2 & ->).
  assert (forall p, In p s1 -> ang p = None) as N1.
  { intros p P. assert (raster p (c, 0)%Z) as RP.
    { clear - SO P. induction s1 as [|q s1 IH]; [destruct P|]. cbn [app] in SO. inversion SO as [|? ? S1 S2]; subst. destruct P as [->|P]; [|apply IH; assumption]. rewrite Forall_forall in S2. apply S2, in_or_app. right. left. reflexivity. }
    pose proof (proj1 (I p) (in_or_app _ _ _ (or_introl P))) as IP. rewrite (ang_at p) by (unfold inner, in_image in *; lia). unfold raster in RP. unfold inner in IP. cbn [fst snd] in *. replace (fst p =? c)%Z with false by (symmetry; apply Z.eqb_neq; lia). reflexivity. }
  rewrite <- app_assoc. cbn [app].
  assert (forall (f : nat) st l1 l2, try_seeds w h ang grad f std prec density_th (min_reg_size w h (ang_th / 180)) st (l1 ++ l2) = bind (try_seeds w h ang grad f std prec density_th (min_reg_size w h (ang_th / 180)) st l1) (fun st => try_seeds w h ang grad f std prec density_th (min_reg_size w h (ang_th / 180)) st l2)) as TA.
  { intros f st l1. revert st. induction l1 as [|z l1 IH]; intros st l2; [reflexivity|]. cbn [app try_seeds]. destruct (try_seed _ _ _ _ _ _ _ _ _ _ _); cbn [bind]; [apply IH|reflexivity|reflexivity]. }
  rewrite TA, try_seeds_skip by (intros p P; right; apply N1, P). cbn [bind try_seeds]. destruct region_of_edge as (st & G & H & ND & M & RA & US). destruct st as [us l ? ? ra]. cbn [reg reg_angle used] in *. subst ra.
  pose proof (region_size l ND M) as SZ. destruct (rect_of_edge l ND M) as (rec & RE & X1 & X2 & Y1 & Y2 & WD).
  assert (try_seed w h ang grad fuel std prec density_th (min_reg_size w h (ang_th / 180)) (fun _ => false, []) (c, 0)%Z = Ok (us, [(l, rec)])) as ->.
  { unfold try_seed. assert (ang (c, 0)%Z = Some up) as A0 by (rewrite (ang_at (c, 0)%Z) by (unfold in_image; cbn; lia); cbn [fst snd]; rewrite Z.eqb_refl; replace (0 <? h - 1)%Z with true by (symmetry; apply Z.ltb_lt; lia); reflexivity). cbv beta iota. rewrite A0. rewrite G. cbn [bind]. rewrite SZ. replace (h - 1 <? _)%Z with false by (symmetry; apply Z.ltb_ge; exact long). rewrite RE. cbn [bind]. destruct std; [|reflexivity]. unfold refine. replace (low_density rec (length l) density_th) with false; [reflexivity|]. symmetry. unfold low_density. destruct (Req_EM_T _ 0) as [|Z]; [reflexivity|]. destruct (Rlt_dec _ density_th) as [L|]; [|reflexivity]. exfalso.
    assert (dist (x1 rec) (y1 rec) (x2 rec) (y2 rec) * width rec = IZR (h - 2)) as AR.
    { rewrite X1, X2, Y1, Y2, WD. unfold dist, dist_sq. pose proof (IZR_le 0 (h - 2) ltac:(lia)). destruct (Rlt_dec a b); [replace ((IZR c - IZR c) * (IZR c - IZR c) + (IZR (h - 2) - 0) * (IZR (h - 2) - 0)) with (IZR (h - 2) * IZR (h - 2)) by ring|replace ((IZR c - IZR c) * (IZR c - IZR c) + (0 - IZR (h - 2)) * (0 - IZR (h - 2))) with (IZR (h - 2) * IZR (h - 2)) by ring]; rewrite sqrt_square by assumption; ring. }
    rewrite AR in L. rewrite INR_IZR_INZ, SZ in L. pose proof (IZR_lt 0 (h - 2) ltac:(lia)) as P. assert (1 < IZR (h - 1) / IZR (h - 2)); [|lra]. apply Rmult_lt_reg_r with (IZR (h - 2)); [exact P|]. unfold Rdiv. rewrite Rmult_assoc, Rinv_l, Rmult_1_l, Rmult_1_r by lra. apply IZR_lt. lia. }
  cbn [bind]. rewrite try_seeds_skip.
  2: { intros p P. assert (in_image w h p) as IP by (apply in_app_or in P as [P|P]; [assert (inner w h p) as B by (apply I, in_or_app; right; right; exact P); unfold inner, in_image in *; lia|apply repeat_spec in P as ->; unfold in_image; cbn; lia]). destruct (ang p) eqn:A; [|right; reflexivity]. left. apply US, M. rewrite (ang_at p IP) in A. destruct (Z.eqb_spec (fst p) c); [|discriminate]. destruct (Z.ltb_spec (snd p) (h - 1)); [|discriminate]. unfold in_image in IP. lia. }
  cbn [bind map snd]. unfold line_of, stored. rewrite X1, X2, Y1, Y2. assert (forall z, (0 <= z)%Z -> trunc ((IZR z + / 2) / 1) = z) as T by (intros z P; pose proof (IZR_le 0 z P); apply trunc_floor; lra). destruct (Rlt_dec a b); rewrite !T by lia; reflexivity.
Qed.
End Edge.

(** Example: a step from 0 to 255 after column 3 in a picture of 10 x 12 pixels, with the parameters of the detector but scale 1. *)
Example lwx_edge_ex : step_edge 10 12 3 0 255 (fun i => if (i mod 10 <=? 3)%Z then 0 else 255) /\ 2 / sin (PI * (33 / 2) / 180) < Rabs (255 - 0) /\ (min_reg_size 10 12 (33 / 2 / 180) <= 12 - 1)%Z.
Proof.
  split; [intros x y X Y; rewrite Z.mod_add, Z.mod_small by lia; reflexivity|]. split.
  - pose proof PI_RGT_0. pose proof columns_rho as B. rewrite (Rabs_right (255 - 0)) by lra. apply Rle_lt_trans with (2 / sin (PI * 1 / 180)); [|lra]. unfold Rdiv at 1 3. apply Rmult_le_compat_l; [lra|]. apply Rinv_le_contravar; [apply sin_gt_0; lra|]. apply sin_incr_1; lra.
  - unfold min_reg_size, log_nt, log10. pose proof (ln_increasing 1 10 ltac:(lra) ltac:(lra)) as T. rewrite ln_1 in T. set (t := ln 10) in *. replace (33 / 2 / 180) with (/ (120 / 11)) by lra. rewrite ln_Rinv by lra. pose proof (ln_increasing 1 (120 / 11) ltac:(lra) ltac:(lra)) as N. rewrite ln_1 in N. set (m := ln (120 / 11)) in *.
    assert (t = ln 10) as TE by reflexivity. replace (- (5 * (t / t + ln 12 / t) / 2 + ln 11 / t) / (- m / t)) with ((5 * (t + ln 12) / 2 + ln 11) / m) by (field; lra). assert (5 * (t + ln 12) / 2 + ln 11 < 12 * m) as K.
    { assert (t < m) by (apply ln_increasing; lra). assert (ln 12 < 2 * m) by (replace (2 * m) with (ln (120 / 11 * (120 / 11))) by (rewrite ln_mult by lra; unfold m; ring); apply ln_increasing; lra). assert (ln 11 < 2 * m) by (replace (2 * m) with (ln (120 / 11 * (120 / 11))) by (rewrite ln_mult by lra; unfold m; ring); apply ln_increasing; lra). lra. }
    set (r := _ / m). assert (0 <= r < 12) as [R0 R].
    { pose proof (ln_increasing 1 12 ltac:(lra) ltac:(lra)) as L12. pose proof (ln_increasing 1 11 ltac:(lra) ltac:(lra)) as L11. rewrite ln_1 in L12, L11. split; [apply Rmult_le_pos; [lra|apply Rlt_le, Rinv_0_lt_compat, N]|]. apply Rmult_lt_reg_r with m; [lra|]; unfold r, Rdiv; rewrite Rmult_assoc, Rinv_l by lra; lra. }
    unfold trunc. destruct (Rle_dec 0 r) as [L|L]; [pose proof (Int_part_bounds r 0 12 L R); lia|contradiction].
Qed.
Print Assumptions lwx_edge.
