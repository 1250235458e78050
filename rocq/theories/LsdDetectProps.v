(** Proofs about the calls of the line segment detector. *)
From Coq Require Import ZArith Reals List Bool Lra Lia.
Import ListNotations.
From Verif Require Import OrientModel LsdOrderModel LsdRegionModel LsdImproveModel LsdImproveSpec LsdImproveProps LsdNfaModel LsdSegmentSpec LsdSegmentProps LsdEdgeSpec LsdEdgeProps LsdDetectModel LsdDetectSpec.
Local Open Scope R_scope.

Lemma lt_iff a b : lt a b = true <-> a < b.
Proof. unfold lt. destruct (Rlt_dec a b); split; intros; (assumption || discriminate || reflexivity || contradiction). Qed.
Lemma le_iff a b : le a b = true <-> a <= b.
Proof. unfold le. destruct (Rle_dec a b); split; intros; (assumption || discriminate || reflexivity || contradiction). Qed.
(** The constructor takes the parameters exactly if they are in their ranges. *)
Theorem ldx_construct p : (sound p -> construct p = Ok p) /\ (~ sound p -> construct p = Throw).
Proof.
  unfold construct, sound. match goal with |- context[if ?c then _ else _] => destruct c eqn:E end.
  - split; [reflexivity|]. intros N. exfalso. apply N. rewrite !andb_true_iff, !lt_iff, !le_iff, Z.ltb_lt in E. tauto.
  - split; [|reflexivity]. intros S. exfalso. rewrite <- not_true_iff_false in E. apply E. rewrite !andb_true_iff, !lt_iff, !le_iff, Z.ltb_lt. tauto.
Qed.

Lemma ln10_pos : 0 < ln 10.
Proof. rewrite <- ln_1. apply ln_increasing; lra. Qed.
Lemma log10_neg p : 0 < p < 1 -> log10 p < 0.
Proof. intros [A B]. unfold log10. pose proof ln10_pos. assert (ln p < 0) by (rewrite <- ln_1; apply ln_increasing; lra). apply Rmult_lt_reg_r with (ln 10); [lra|]. unfold Rdiv. rewrite Rmult_assoc, Rinv_l by lra. lra. Qed.
Lemma log10_nonneg r : 1 <= r -> 0 <= log10 r.
Proof. intros A. unfold log10. apply Rmult_le_pos; [|left; apply Rinv_0_lt_compat, ln10_pos]. destruct A as [A| <-]; [|rewrite ln_1; lra]. left. rewrite <- ln_1. apply ln_increasing; lra. Qed.
Lemma log_nt_pos w h : (1 <= w)%Z -> (1 <= h)%Z -> log10 11 <= log_nt w h.
Proof. intros W H. apply IZR_le in W, H. unfold log_nt. pose proof (log10_nonneg _ W). pose proof (log10_nonneg _ H). lra. Qed.
Lemma trunc_nonneg r : 0 <= r -> (0 <= trunc r)%Z.
Proof. intros A. unfold trunc. destruct (Rle_dec 0 r); [|contradiction]. destruct (base_Int_part r) as [B C]. assert (-1 < IZR (Int_part r)) by lra. apply (lt_IZR (-1)) in H. lia. Qed.
Lemma ceiling_spec r : IZR (ceiling r) - 1 < r <= IZR (ceiling r).
Proof. unfold ceiling. rewrite opp_IZR. destruct (base_Int_part (- r)). lra. Qed.
Lemma ceiling_unique r z : IZR z - 1 < r <= IZR z -> ceiling r = z.
Proof. intros A. pose proof (ceiling_spec r) as B. assert (C : IZR (ceiling r) < IZR (z + 1)) by (rewrite plus_IZR; lra). assert (D : IZR z < IZR (ceiling r + 1)) by (rewrite plus_IZR; lra). apply lt_IZR in C, D. lia. Qed.
Lemma blur_sigma_pos p : 0 < p_scale p -> 0 < p_sigma p -> 0 < blur_sigma p.
Proof. intros A B. unfold blur_sigma. destruct (Rlt_dec _ _); [|exact B]. apply Rmult_lt_0_compat; [exact B|apply Rinv_0_lt_compat, A]. Qed.
(** With parameters in their ranges nothing is divided by zero: the tolerance is a proper angle, the threshold of the gradient and the least size of a region are not negative, and the kernel is at least 3 wide. *)
Theorem ldx_params p w h : sound p -> (1 <= w)%Z -> (1 <= h)%Z ->
  0 < sin (PI * p_ang_th p / 180) /\ 0 <= p_quant p / sin (PI * p_ang_th p / 180) /\ log10 (p_ang_th p / 180) < 0 /\ (0 <= min_reg_size w h (p_ang_th p / 180))%Z /\ (1 <= blur_radius p)%Z.
Proof.
  intros (A & B & C & D & E & F) W H.
  assert (S : 0 < sin (PI * p_ang_th p / 180)) by (apply sin_gt_0; pose proof PI_RGT_0; [apply Rmult_lt_0_compat; [apply Rmult_lt_0_compat; lra|lra]|]; assert (PI * p_ang_th p < PI * 180) by (apply Rmult_lt_compat_l; lra); lra).
  assert (L : log10 (p_ang_th p / 180) < 0) by (apply log10_neg; lra).
  split; [exact S|]. split; [apply Rmult_le_pos; [exact C|left; apply Rinv_0_lt_compat, S]|]. split; [exact L|]. split.
  - unfold min_reg_size. apply trunc_nonneg. assert (0 <= log_nt w h) by (eapply Rle_trans; [|apply log_nt_pos; assumption]; apply log10_nonneg; lra).
    replace (- log_nt w h / log10 (p_ang_th p / 180)) with (log_nt w h * / - log10 (p_ang_th p / 180)) by (field; lra). apply Rmult_le_pos; [assumption|]. left. apply Rinv_0_lt_compat. lra.
  - unfold blur_radius. set (r := blur_sigma p * _). assert (0 < r) by (unfold r; apply Rmult_lt_0_compat; [apply blur_sigma_pos; assumption|]; apply sqrt_lt_R0; pose proof ln10_pos; lra).
    pose proof (ceiling_spec r). assert (0 < IZR (ceiling r)) by lra. apply (lt_IZR 0) in H2. lia.
Qed.
(** But a tolerance close to 180 degrees is taken too, and then the least size of a region does not fit into an int. *)
Theorem ldx_tolerance_refuted : exists p, construct p = Ok p /\ forall w h, (1 <= w)%Z -> (1 <= h)%Z -> (2 ^ 31 <= min_reg_size w h (p_ang_th p / 180))%Z.
Proof.
  exists (Params 1 1 1 2 (180 * (1 - / 10000000000)) 0 (/ 2) 1024). split; [apply ldx_construct; unfold sound; cbn [p_scale p_sigma p_quant p_ang_th p_density p_bins]; repeat split; lra || lia|].
  intros w h W H. cbn [p_ang_th]. set (e := / 10000000000). replace (180 * (1 - e) / 180) with (1 - e) by field.
  assert (E0 : 0 < e < / 2) by (unfold e; lra). unfold min_reg_size.
  assert (LN : - ln (1 - e) <= 2 * e).
  { rewrite <- ln_Rinv by lra. assert (X : / (1 - e) <= exp (2 * e)).
    { apply Rle_trans with (1 + 2 * e); [|left; apply exp_ineq1; lra]. apply Rmult_le_reg_r with (1 - e); [lra|]. rewrite Rinv_l by lra. nra. }
    destruct X as [X|X]; [|rewrite X, ln_exp; lra]. left. apply ln_increasing in X; [|apply Rinv_0_lt_compat; lra]. rewrite ln_exp in X. exact X. }
  assert (LP : 0 < - ln (1 - e)) by (rewrite <- ln_Rinv by lra; rewrite <- ln_1; apply ln_increasing; [lra|]; rewrite <- Rinv_1 at 1; apply Rinv_lt_contravar; lra).
  assert (L11 : 1 < ln 11) by (rewrite <- (ln_exp 1); apply ln_increasing; [apply exp_pos|]; pose proof exp_le_3; lra).
  assert (V : 2147483648 <= - log_nt w h / log10 (1 - e)).
  { pose proof (log_nt_pos w h W H) as N. pose proof ln10_pos as T.
    replace (- log_nt w h / log10 (1 - e)) with (log_nt w h * ln 10 * / - ln (1 - e)) by (unfold log10; field; lra).
    assert (M : 1 <= log_nt w h * ln 10).
    { apply Rle_trans with (log10 11 * ln 10); [unfold log10, Rdiv; rewrite Rmult_assoc, Rinv_l by lra; lra|]. apply Rmult_le_compat_r; lra. }
    apply Rle_trans with (1 * / (2 * e)); [unfold e; lra|]. apply Rmult_le_compat; [lra| |exact M|]; [left; apply Rinv_0_lt_compat; lra|]. apply Rinv_le_contravar; lra. }
  unfold trunc. destruct (Rle_dec _ _); [|lra]. set (v := - log_nt w h / log10 (1 - e)) in *. destruct (base_Int_part v) as [B C]. change (2 ^ 31)%Z with 2147483648%Z. assert (X : IZR 2147483648 < IZR (Int_part v + 1)) by (rewrite plus_IZR; lra). apply lt_IZR in X. lia.
Qed.
Lemma exp_INR n x : exp (INR n * x) = exp x ^ n.
Proof. induction n as [|n IH]; [cbn; rewrite Rmult_0_l; apply exp_0|]. rewrite S_INR, Rmult_plus_distr_r, Rmult_1_l, exp_plus, IH. cbn. ring. Qed.
(** The blur of aslam's detector has a kernel of 7 by 7. *)
Theorem ldx_kernel : construct aslam_params = Ok aslam_params /\ (1 + 2 * blur_radius aslam_params = 7)%Z.
Proof.
  split; [apply ldx_construct; unfold sound, aslam_params; cbn [p_scale p_sigma p_quant p_ang_th p_density p_bins]; repeat split; lra || lia|].
  enough (blur_radius aslam_params = 3%Z) as -> by reflexivity. unfold blur_radius. apply ceiling_unique. unfold blur_sigma, aslam_params. cbn [p_scale p_sigma]. destruct (Rlt_dec _ _); [|lra].
  assert (A : 2 < ln 10). { rewrite <- (ln_exp 2). apply ln_increasing; [apply exp_pos|]. replace 2 with (1 + 1) by ring. rewrite exp_plus. pose proof exp_le_3. pose proof (exp_pos 1). nra. }
  assert (B : ln 10 < 8 / 3).
  { rewrite <- (ln_exp (8 / 3)). apply ln_increasing; [lra|]. assert (X : 7 / 6 < exp (/ 6)) by (pose proof (exp_ineq1 (/ 6)); lra).
    replace (8 / 3) with (INR 16 * / 6) by (rewrite INR_IZR_INZ; change (Z.of_nat 16) with 16%Z; lra). rewrite exp_INR. apply Rlt_le_trans with ((7 / 6) ^ 16); [lra|]. apply pow_incr; lra. }
  assert (C : 3 < sqrt (2 * 3 * ln 10)). { rewrite <- (sqrt_Rsqr 3) at 1 by lra. apply sqrt_lt_1; unfold Rsqr; lra. }
  assert (D : sqrt (2 * 3 * ln 10) < 4). { rewrite <- (sqrt_Rsqr 4) by lra. apply sqrt_lt_1; unfold Rsqr; lra. }
  lra.
Qed.

Section Segments.
Variable log_gamma : R -> R.
Variables (w h : Z) (ang : pixel -> option R) (grad : pixel -> R).
(** The segment after the improvement, and whether it is then good enough. *)
Definition improved (eps : R) (s : segment) : segment :=
  let '(b, v) := rect_improve (rect_nfa log_gamma w h ang (s_theta s)) eps (s_box s) in Segment b (s_theta s) v.
Definition accepted (eps : R) (s : segment) : bool := lt eps (s_nfa (improved eps s)).
Definition select (eps : R) (l : list segment) : list segment := map (improved eps) (filter (accepted eps) l).
Lemma select_app eps l l' : select eps (l ++ l') = select eps l ++ select eps l'.
Proof. unfold select. rewrite filter_app, map_app. reflexivity. Qed.
Lemma select_one eps b t v : select eps [Segment b t v] = let '(b', v') := rect_improve (rect_nfa log_gamma w h ang t) eps b in if le v' eps then [] else [Segment b' t v'].
Proof.
  unfold select, accepted, improved. cbn [filter s_theta s_box]. destruct (rect_improve _ _ _) as [b' v'] eqn:E. cbn [s_nfa]. unfold lt, le. destruct (Rlt_dec eps v'), (Rle_dec v' eps); try lra; [|reflexivity]. cbn [map s_theta s_box]. rewrite E. reflexivity.
Qed.
Definition omap {A B} (f : A -> B) (o : outcome A) : outcome B := match o with Ok a => Ok (f a) | Throw => Throw | Fuel => Fuel end.
Lemma bind_omap {A B C D} (f : A -> B) (g : C -> D) (o : outcome A) (k : B -> outcome D) (k' : A -> outcome C) : (forall a, k (f a) = omap g (k' a)) -> bind (omap f o) k = omap g (bind o k').
Proof. intros H. destruct o; cbn; [apply H|reflexivity|reflexivity]. Qed.
Lemma bind_ext {A C D} (g : C -> D) (o : outcome A) (k : A -> outcome D) (k' : A -> outcome C) : (forall a, k a = omap g (k' a)) -> bind o k = omap g (bind o k').
Proof. intros H. destruct o; cbn; [apply H|reflexivity|reflexivity]. Qed.
Lemma round_select fuel level level' eps prec p th size used segs s : (2 <= level)%Z -> level' = 1%Z ->
  round log_gamma w h ang grad fuel level eps prec p th size (used, select eps segs) s = omap (fun st => (fst st, select eps (snd st))) (round log_gamma w h ang grad fuel level' eps prec p th size (used, segs) s).
Proof.
  intros L ->. unfold round. destruct (used s); [reflexivity|]. destruct (ang s); [|reflexivity]. apply bind_ext. intros [u reg dx dy a]. destruct (Z.ltb _ size); [reflexivity|]. apply bind_ext. intros rec.
  replace (0 <? level)%Z with true by (symmetry; apply Z.ltb_lt; lia). replace (0 <? 1)%Z with true by reflexivity. replace (2 <=? level)%Z with true by (symmetry; apply Z.leb_le; lia). replace (2 <=? 1)%Z with false by reflexivity.
  apply bind_ext. intros [[[u' reg'] rec'] good]. destruct good; [|reflexivity]. cbn [omap fst snd]. rewrite select_app, select_one. destruct (rect_improve _ _ _) as [b' v']. destruct (le v' eps); [rewrite app_nil_r|]; reflexivity.
Qed.
Lemma rounds_select fuel level eps prec p th size : (2 <= level)%Z -> forall l used segs,
  rounds log_gamma w h ang grad fuel level eps prec p th size (used, select eps segs) l = omap (fun st => (fst st, select eps (snd st))) (rounds log_gamma w h ang grad fuel 1 eps prec p th size (used, segs) l).
Proof.
  intros L. induction l as [|s l IH]; intros used segs; [reflexivity|]. cbn [rounds]. rewrite (round_select fuel level 1) by (assumption || reflexivity). apply bind_omap. intros [u sg]. cbn [fst snd]. apply IH.
Qed.
(** Up to the standard level the threshold plays no part. *)
Lemma rounds_eps fuel level eps eps' prec p th size : (level < 2)%Z -> forall l st,
  rounds log_gamma w h ang grad fuel level eps prec p th size st l = rounds log_gamma w h ang grad fuel level eps' prec p th size st l.
Proof.
  intros L. induction l as [|s l IH]; intros st; [reflexivity|]. cbn [rounds]. replace (round log_gamma w h ang grad fuel level eps' prec p th size st s) with (round log_gamma w h ang grad fuel level eps prec p th size st s).
  - destruct (round _ _ _ _ _ _ _ _ _ _ _ _ _ _); cbn; [apply IH|reflexivity|reflexivity].
  - unfold round. replace (2 <=? level)%Z with false by (symmetry; apply Z.leb_gt; lia). reflexivity.
Qed.
Lemma round_plain fuel level eps prec p th size used lines s : (level < 2)%Z ->
  round log_gamma w h ang grad fuel level eps prec p th size (used, map (fun l => Segment (box_of prec p (snd l)) (theta (snd l)) (-1)) lines) s =
  omap (fun st => (fst st, map (fun l => Segment (box_of prec p (snd l)) (theta (snd l)) (-1)) (snd st))) (try_seed w h ang grad fuel (0 <? level)%Z prec th size (used, lines) s).
Proof.
  intros L. unfold round, try_seed. destruct (used s); [reflexivity|]. destruct (ang s); [|reflexivity]. apply bind_ext. intros [u reg dx dy a]. destruct (Z.ltb _ size); [reflexivity|]. apply bind_ext. intros rec.
  replace (2 <=? level)%Z with false by (symmetry; apply Z.leb_gt; lia). destruct (0 <? level)%Z; [|cbn [omap fst snd]; rewrite map_app; reflexivity].
  apply bind_ext. intros [[[u' reg'] rec'] good]. destruct good; [|reflexivity]. cbn [omap fst snd]. rewrite map_app. reflexivity.
Qed.
Lemma rounds_plain fuel level eps prec p th size : (level < 2)%Z -> forall l used lines,
  rounds log_gamma w h ang grad fuel level eps prec p th size (used, map (fun l => Segment (box_of prec p (snd l)) (theta (snd l)) (-1)) lines) l =
  omap (fun st => (fst st, map (fun l => Segment (box_of prec p (snd l)) (theta (snd l)) (-1)) (snd st))) (try_seeds w h ang grad fuel (0 <? level)%Z prec th size (used, lines) l).
Proof.
  intros L. induction l as [|s l IH]; intros used lines; [reflexivity|]. cbn [rounds try_seeds]. rewrite round_plain by exact L. apply bind_omap. intros [u ln]. cbn [fst snd]. apply IH.
Qed.
Lemma improve_antitone f eps eps' b : eps <= eps' -> eps' < snd (rect_improve f eps' b) -> eps < snd (rect_improve f eps b).
Proof.
  intros L. unfold rect_improve, unless_good. repeat match goal with |- context[Rlt_dec ?a ?b] => destruct (Rlt_dec a b) end; cbn [snd] in *; try lra.
Qed.
Lemma accepted_antitone eps eps' s : eps <= eps' -> accepted eps' s = true -> accepted eps s = true.
Proof.
  intros L. unfold accepted, improved. rewrite !lt_iff. pose proof (improve_antitone (rect_nfa log_gamma w h ang (s_theta s)) eps eps' (s_box s) L) as H. destruct (rect_improve _ eps' _), (rect_improve _ eps _). exact H.
Qed.
End Segments.

(** ** Segments *)
Lemma segments_plain log_gamma fuel d w h data : (p_refine d < 2)%Z ->
  segments log_gamma fuel d w h data = omap (map (fun l => Segment (box_of (PI * p_ang_th d / 180) (p_ang_th d / 180) (snd l)) (theta (snd l)) (-1))) (flsd_regions fuel (0 <? p_refine d)%Z w h data (p_quant d) (p_ang_th d) (p_density d) (Z.to_nat (p_bins d))).
Proof.
  intros L. unfold segments, flsd_regions. cbv zeta. change (@nil segment) with (map (fun l : found => Segment (box_of (PI * p_ang_th d / 180) (p_ang_th d / 180) (snd l)) (theta (snd l)) (-1)) []). rewrite rounds_plain by exact L. apply bind_omap. intros [u ln]. reflexivity.
Qed.
Notation the_angles d w h data := (fun q : pixel => angle w h data (p_quant d / sin (PI * p_ang_th d / 180)) (fst q) (snd q)).
Lemma segments_select log_gamma fuel d w h data : (2 <= p_refine d)%Z ->
  segments log_gamma fuel d w h data = omap (select log_gamma w h (the_angles d w h data) (p_log_eps d)) (segments log_gamma fuel (with_refine d 1) w h data).
Proof.
  intros L. unfold segments. cbv zeta. cbn [with_refine p_refine p_quant p_ang_th p_log_eps p_density p_bins]. change (@nil segment) with (select log_gamma w h (the_angles d w h data) (p_log_eps d) []) at 1. rewrite rounds_select by exact L. apply bind_omap. intros [u ln]. reflexivity.
Qed.
(** The advanced level returns segments of the standard level in the same order, each with a part of its rectangle; none is left out that is good as it is or with half the tolerance, and one that is good as it is stays as it is. *)
Theorem ldx_advanced log_gamma fuel d w h data adv : (2 <= p_refine d)%Z -> segments log_gamma fuel d w h data = Ok adv ->
  let value s b := nfa log_gamma (log_nt w h) (length (counted w h b)) (length (filter (fun q => is_aligned (s_theta s) (bprec b) (the_angles d w h data q)) (counted w h b))) (bp b) in
  exists std keep better, segments log_gamma fuel (with_refine d 1) w h data = Ok std /\ adv = map better (filter keep std) /\
  (forall s, p_log_eps d < value s (s_box s) -> keep s = true /\ s_box (better s) = s_box s) /\
  (forall s, p_log_eps d < value s (finer (s_box s)) -> keep s = true) /\
  (forall s, keep s = true -> p_log_eps d < s_nfa (better s) /\ s_theta (better s) = s_theta s /\ s_nfa (better s) = value s (s_box (better s)) /\ value s (s_box s) <= s_nfa (better s) /\
    (forall x y, covers (bx1 (s_box (better s))) (by1 (s_box (better s))) (bx2 (s_box (better s))) (by2 (s_box (better s))) (bw (s_box (better s))) (bdx (s_box (better s))) (bdy (s_box (better s))) x y ->
                 covers (bx1 (s_box s)) (by1 (s_box s)) (bx2 (s_box s)) (by2 (s_box s)) (bw (s_box s)) (bdx (s_box s)) (bdy (s_box s)) x y) /\
    (exists k, bp (s_box (better s)) = bp (s_box s) / 2 ^ k)).
Proof.
  intros L E. change (fun s b => nfa log_gamma (log_nt w h) (length (counted w h b)) (length (filter (fun q => is_aligned (s_theta s) (bprec b) (the_angles d w h data q)) (counted w h b))) (bp b)) with (fun s => rect_nfa log_gamma w h (the_angles d w h data) (s_theta s)). intros value. rewrite segments_select in E by exact L. destruct (segments _ _ (with_refine d 1) _ _ _) as [std| |] eqn:S; try discriminate. cbn [omap] in E. injection E as <-.
  exists std, (accepted log_gamma w h (the_angles d w h data) (p_log_eps d)), (improved log_gamma w h (the_angles d w h data) (p_log_eps d)). split; [reflexivity|]. split; [reflexivity|].
  assert (X : forall s, let i := improved log_gamma w h (the_angles d w h data) (p_log_eps d) s in s_box i = fst (rect_improve (value s) (p_log_eps d) (s_box s)) /\ s_nfa i = snd (rect_improve (value s) (p_log_eps d) (s_box s)) /\ s_theta i = s_theta s).
  { intros s. unfold improved, value. cbv zeta. destruct (rect_improve _ _ _). repeat split. }
  split; [|split].
  - intros s G. destruct (X s) as (X1 & X2 & X3). pose proof (lix_value (value s) (p_log_eps d) (s_box s)) as V. unfold accepted. rewrite lt_iff, X1, X2. destruct (rect_improve _ _ _) as [r v]. cbn [fst snd] in *. destruct V as (V1 & V2 & V3 & V4). split; [lra|exact (V4 G)].
  - intros s G. destruct (X s) as (X1 & X2 & X3). unfold accepted. rewrite lt_iff, X2. destruct (Rlt_dec (p_log_eps d) (value s (s_box s))) as [C|C].
    + pose proof (lix_value (value s) (p_log_eps d) (s_box s)) as V. destruct (rect_improve _ _ _) as [r v]. cbn [snd]. lra.
    + pose proof (lix_finer (value s) (p_log_eps d) (s_box s)). lra.
  - intros s K. destruct (X s) as (X1 & X2 & X3). unfold accepted in K. rewrite lt_iff in K. split; [exact K|]. split; [exact X3|]. pose proof (lix_value (value s) (p_log_eps d) (s_box s)) as V. pose proof (lix_part (value s) (p_log_eps d) (s_box s)) as (P1 & _ & _ & _ & _ & _ & P2 & _).
    rewrite X1, X2. destruct (rect_improve _ _ _) as [r v]. cbn [fst snd] in *. destruct V as (V1 & V2 & _). auto.
Qed.

(** ** Calls *)
Section Detect.
Variables (log_gamma : R -> R) (shrink : R -> Z -> R -> mat -> option mat).
Notation detect := (detect log_gamma shrink).
Definition fact_of (d : params) (s : segment) : fact :=
  Fact (let b := s_box s in (stored (p_scale d) (bx1 b), stored (p_scale d) (by1 b), stored (p_scale d) (bx2 b), stored (p_scale d) (by2 b))) (bw (s_box s) / p_scale d) (bp (s_box s)) (s_nfa s).
Lemma store_fact wn pn nn d v s : (nn = true -> (2 <= p_refine d)%Z) -> let f := fact_of d s in
  store wn pn nn d v s = Vectors (v_lines v ++ [f_line f]) (if wn then v_widths v ++ [f_width f] else v_widths v) (if pn then v_precs v ++ [f_prec f] else v_precs v) (if nn then v_nfas v ++ [f_nfa f] else v_nfas v).
Proof.
  intros N f. unfold store, f, fact_of, stored. cbn [f_line f_width f_prec f_nfa]. cbv zeta.
  assert (E : nn && (2 <=? p_refine d)%Z = nn) by (destruct nn; [|reflexivity]; apply Z.leb_le, N; reflexivity). rewrite E.
  destruct (Req_EM_T (p_scale d) 1) as [->|]; [|reflexivity]. unfold Rdiv. rewrite Rinv_1, !Rmult_1_r. reflexivity.
Qed.
Lemma fold_store wn pn nn d : (nn = true -> (2 <= p_refine d)%Z) -> forall segs v,
  fold_left (store wn pn nn d) segs v = Vectors (v_lines v ++ map f_line (map (fact_of d) segs)) (if wn then v_widths v ++ map f_width (map (fact_of d) segs) else v_widths v)
    (if pn then v_precs v ++ map f_prec (map (fact_of d) segs) else v_precs v) (if nn then v_nfas v ++ map f_nfa (map (fact_of d) segs) else v_nfas v).
Proof.
  intros N. induction segs as [|s segs IH]; intros v; cbn [fold_left map].
  - destruct v as [q1 q2 q3 q4], wn, pn, nn; cbn [v_lines v_widths v_precs v_nfas]; rewrite ?app_nil_r; reflexivity.
  - rewrite IH, store_fact by exact N. cbn [v_lines v_widths v_precs v_nfas]. destruct wn, pn, nn; rewrite <- ?app_assoc; reflexivity.
Qed.
(** The image the segments are searched in. *)
Definition searched (d : params) (m image : mat) : Prop :=
  to_doubles m = image /\ p_scale d = 1 \/ shrink (blur_sigma d) (1 + 2 * blur_radius d)%Z (p_scale d) (to_doubles m) = Some image /\ p_scale d <> 1.
Definition accepts (m : mat) : Prop := rows m <> 0%Z /\ cols m <> 0%Z /\ channels (to_doubles m) = 1%Z /\ (doubles m = true -> channels m <> 0%Z).
Definition arrays_of (facts : list fact) (a : arrays) : arrays :=
  Arrays (map f_line facts) (copy_to (map f_width facts) (a_widths a)) (copy_to (map f_prec facts) (a_precs a)) (copy_to (map f_nfa facts) (a_nfas a)).
Lemma needed_iff a : needed a = true <-> a <> None.
Proof. destruct a; cbn; split; intros; congruence. Qed.
Lemma not_empty m : accepts m -> empty (to_doubles m) || negb (channels (to_doubles m) =? 1)%Z = false.
Proof.
  intros (A & B & C & D). rewrite C. unfold empty, to_doubles. destruct (doubles m); cbn [rows cols]; [specialize (D eq_refl)|]; destruct (Z.eqb_spec (rows m) 0); try contradiction; match goal with |- context[Z.eqb ?x 0] => destruct (Z.eqb_spec x 0) as [Q|Q] end; try reflexivity; [apply Z.mul_eq_0 in Q; tauto|contradiction].
Qed.
Lemma detect_eq fuel d m image a : accepts m -> may_ask d a -> searched d m image ->
  detect fuel d m a = omap (fun segs => arrays_of (map (fact_of d) segs) a) (segments log_gamma fuel d (cols image) (rows image) (element image)).
Proof.
  intros A M S. unfold LsdDetectModel.detect. cbv zeta. rewrite not_empty by exact A.
  assert (N : needed (a_nfas a) = true -> (2 <= p_refine d)%Z) by (rewrite needed_iff; exact M).
  replace (needed (a_nfas a) && (p_refine d <? 2)%Z) with false by (symmetry; apply andb_false_iff; destruct (needed (a_nfas a)); [right; apply Z.ltb_ge; auto|left; reflexivity]).
  replace (if Req_EM_T (p_scale d) 1 then Some (to_doubles m) else shrink (blur_sigma d) (1 + 2 * blur_radius d)%Z (p_scale d) (to_doubles m)) with (Some image) by (destruct S as [[<- S]|[<- S]]; destruct (Req_EM_T (p_scale d) 1); (reflexivity || contradiction)).
  destruct (segments _ _ _ _ _ _) as [segs| |]; cbn [bind omap]; [|reflexivity|reflexivity]. rewrite fold_store by exact N. unfold arrays_of. cbn [v_lines v_widths v_precs v_nfas app]. f_equal. destruct (a_widths a), (a_precs a), (a_nfas a); reflexivity.
Qed.
Lemma detect_ok fuel d m a a' : detect fuel d m a = Ok a' -> accepts m /\ may_ask d a /\ exists image, searched d m image.
Proof.
  unfold LsdDetectModel.detect. cbv zeta. destruct (empty _ || _) eqn:E; [discriminate|]. destruct (needed _ && _) eqn:N; [discriminate|]. apply orb_false_iff in E as [E1 E2]. apply negb_false_iff, Z.eqb_eq in E2.
  intros H. split; [|split].
  - unfold empty in E1. apply orb_false_iff in E1 as [R C]. apply Z.eqb_neq in R, C. unfold accepts. unfold to_doubles in *. destruct (doubles m); cbn [rows cols channels] in *; repeat split; try assumption; try (intros; discriminate); intros Q; try intros Q'; apply C; [rewrite Q; reflexivity|rewrite Q'; lia].
  - intros Q. apply needed_iff in Q. rewrite Q in N. cbn in N. apply Z.ltb_ge in N. exact N.
  - unfold searched. destruct (Req_EM_T (p_scale d) 1); [eauto|]. destruct (shrink _ _ _ _); [eauto|discriminate].
Qed.
Lemma searched_unique d m i j : searched d m i -> searched d m j -> i = j.
Proof. intros [[A B]|[A B]] [[C D]|[C D]]; try contradiction; congruence. Qed.
Lemma delivered_arrays facts a : delivered facts a (arrays_of facts a).
Proof. split; [reflexivity|]. unfold holds, arrays_of. cbn [a_widths a_precs a_nfas]. destruct (a_widths a), (a_precs a), (a_nfas a); repeat split. Qed.
(** An image that is empty or has several channels of other numbers than doubles is refused, and so is the wish for false alarms below the advanced level. *)
Theorem ldx_refused fuel d m a : rows m = 0%Z \/ cols m = 0%Z \/ (doubles m = false /\ ~ grey m) \/ ~ may_ask d a -> detect fuel d m a = Throw.
Proof.
  intros H. destruct (detect fuel d m a) as [a'| |] eqn:E; [|reflexivity|].
  - exfalso. apply detect_ok in E as ((A & B & C & D) & M & _). destruct H as [H|[H|[[H G]|H]]]; try contradiction. apply G. unfold to_doubles in C. rewrite H in C. exact C.
  - exfalso. unfold LsdDetectModel.detect in E. cbv zeta in E. destruct (empty _ || _) eqn:E0; [discriminate|]. destruct (needed _ && _) eqn:N; [discriminate|]. apply orb_false_iff in E0 as [E1 E2]. apply negb_false_iff, Z.eqb_eq in E2. unfold empty in E1. apply orb_false_iff in E1 as [R C]. apply Z.eqb_neq in R, C.
    destruct H as [H|[H|[[H G]|H]]].
    + apply R. unfold to_doubles. destruct (doubles m); exact H.
    + apply C. unfold to_doubles. destruct (doubles m); cbn [cols]; rewrite H; reflexivity.
    + apply G. unfold to_doubles in E2. rewrite H in E2. exact E2.
    + apply H. intros Q. apply needed_iff in Q. rewrite Q in N. cbn in N. apply Z.ltb_ge in N. exact N.
Qed.
(** Every array passed gets one value per segment, in the order of the segments; which arrays are passed has no influence on the segments. The tolerances are that of the detector, halved a number of times at the advanced level only, where the values exceed the threshold. *)
Theorem ldx_delivered fuel d m a a' : detect fuel d m a = Ok a' -> may_ask d a /\ exists facts, delivered facts a a' /\
  (forall b, may_ask d b -> exists b', detect fuel d m b = Ok b' /\ delivered facts b b') /\
  (forall f, In f facts -> if (p_refine d <? 2)%Z then f_prec f = p_ang_th d / 180 /\ f_nfa f = -1 else p_log_eps d < f_nfa f /\ exists k, f_prec f = p_ang_th d / 180 / 2 ^ k).
Proof.
  intros H. destruct (detect_ok _ _ _ _ _ H) as (A & M & image & S). split; [exact M|]. rewrite (detect_eq _ _ _ _ _ A M S) in H. destruct (segments _ _ _ _ _ _) as [segs| |] eqn:G; try discriminate. cbn [omap] in H. injection H as <-.
  exists (map (fact_of d) segs). split; [apply delivered_arrays|]. split.
  - intros b Mb. exists (arrays_of (map (fact_of d) segs) b). split; [|apply delivered_arrays]. rewrite (detect_eq _ _ _ _ _ A Mb S), G. reflexivity.
  - intros f I. apply in_map_iff in I as (s & <- & I). cbn [fact_of f_prec f_nfa]. destruct (Z.ltb_spec (p_refine d) 2) as [L|L].
    + rewrite segments_plain in G by exact L. destruct (flsd_regions _ _ _ _ _ _ _ _ _) as [lines| |]; try discriminate. cbn [omap] in G. injection G as <-. apply in_map_iff in I as (l & <- & _). split; reflexivity.
    + destruct (ldx_advanced _ _ _ _ _ _ _ L G) as (std & keep & better & E & -> & _ & _ & K). apply in_map_iff in I as (t & <- & I). apply filter_In in I as [I Kt]. specialize (K t Kt) as (K1 & _ & _ & _ & _ & k & K2). split; [exact K1|]. exists k. rewrite K2.
      rewrite segments_plain in E by (cbn; lia). destruct (flsd_regions _ _ _ _ _ _ _ _ _) as [lines| |]; try discriminate. cbn [omap] in E. injection E as <-. apply in_map_iff in I as (l & <- & _). reflexivity.
Qed.
(** The widths are those of the image given: at least one pixel of the image searched, half a pixel at the advanced level. *)
Theorem ldx_widths fuel d m image a a' widths : sound d -> searched d m image -> (1 <= cols image)%Z -> (1 <= rows image)%Z -> detect fuel d m a = Ok a' -> a_widths a' = Some widths ->
  length widths = length (a_lines a') /\ forall r, In r widths -> (if (p_refine d <? 2)%Z then 1 else / 2) / p_scale d <= r.
Proof.
  intros (P1 & P2 & P3 & P4 & P5 & P6) S W Hh H Q. destruct (detect_ok _ _ _ _ _ H) as (A & M & _). rewrite (detect_eq _ _ _ _ _ A M S) in H. destruct (segments _ _ _ _ _ _) as [segs| |] eqn:G; try discriminate. cbn [omap] in H. injection H as <-.
  unfold arrays_of in *. cbn [a_widths a_lines] in *. destruct (a_widths a); [|discriminate]. cbn [copy_to] in Q. injection Q as <-. rewrite !map_length. split; [reflexivity|]. intros r I. rewrite map_map in I. apply in_map_iff in I as (s & <- & I). cbn [fact_of f_width]. apply Rmult_le_compat_r; [left; apply Rinv_0_lt_compat, P1|].
  assert (BN : (0 < Z.to_nat (p_bins d))%nat) by lia.
  assert (F : forall level segs s, (level < 2)%Z -> segments log_gamma fuel (with_refine d level) (cols image) (rows image) (element image) = Ok segs -> In s segs -> 1 <= bw (s_box s)).
  { intros level sg t Lv E J. rewrite segments_plain in E by exact Lv. destruct (flsd_regions _ _ _ _ _ _ _ _ _) as [lines| |] eqn:FR; try discriminate. cbn [omap] in E. injection E as <-. apply in_map_iff in J as ([lx rec] & <- & J). cbn [with_refine p_quant p_ang_th p_density p_bins] in FR. eapply lfx_segments in FR; try eassumption. destruct FR as [_ FR]. specialize (FR lx rec J) as (_ & _ & (cx & cy & dx & dy & b & _ & _ & _ & _ & E) & _). cbn [s_box box_of bw snd]. rewrite E. apply Rmax_l. }
  destruct (Z.ltb_spec (p_refine d) 2) as [L|L].
  - destruct d as [rf sc sg q an ep de bi]. exact (F rf segs s L G I).
  - rewrite segments_select in G by exact L. destruct (segments _ _ (with_refine d 1) _ _ _) as [std| |] eqn:E; try discriminate. cbn [omap] in G. injection G as <-. unfold select in I. apply in_map_iff in I as (t & <- & I). apply filter_In in I as [I _]. specialize (F 1%Z std t ltac:(lia) E I).
    unfold improved. match goal with |- context[rect_improve ?f ?e ?b] => pose proof (lix_part f e b) as (_ & _ & _ & _ & _ & PW & _); destruct (rect_improve f e b) end. cbn [fst s_box] in *. apply PW. lra.
Qed.
(** Below the advanced level the segments are those of the search for regions. *)
Theorem ldx_standard fuel d m image a : accepts m -> may_ask d a -> searched d m image -> (p_refine d < 2)%Z ->
  omap a_lines (detect fuel d m a) = flsd fuel (0 <? p_refine d)%Z (cols image) (rows image) (element image) (p_scale d) (p_quant d) (p_ang_th d) (p_density d) (Z.to_nat (p_bins d)).
Proof.
  intros A M S L. rewrite (detect_eq _ _ _ _ _ A M S), segments_plain by exact L. unfold flsd. destruct (flsd_regions _ _ _ _ _ _ _ _ _) as [lines| |]; [|reflexivity|reflexivity]. cbn [omap bind arrays_of a_lines]. rewrite !map_map. reflexivity.
Qed.
(** A higher threshold gives no more segments, the advanced level no more than the standard one. *)
Theorem ldx_threshold fuel d m a eps eps' high : eps <= eps' -> detect fuel (with_log_eps d eps') m a = Ok high ->
  exists low, detect fuel (with_log_eps d eps) m a = Ok low /\ (length (a_lines high) <= length (a_lines low))%nat.
Proof.
  intros Le H. destruct (detect_ok _ _ _ _ _ H) as (A & M & image & S). rewrite (detect_eq _ _ _ _ _ A M S) in H.
  rewrite (detect_eq fuel (with_log_eps d eps) m image a A M S). destruct (Z_lt_le_dec (p_refine d) 2) as [L|L].
  - rewrite segments_plain in * by exact L. cbn [with_log_eps p_refine p_quant p_ang_th p_density p_bins] in *. destruct (flsd_regions _ _ _ _ _ _ _ _ _) as [lines| |]; try discriminate. cbn [omap] in *. injection H as <-. eexists. split; [reflexivity|]. cbn [arrays_of a_lines]. rewrite !map_length. lia.
  - rewrite segments_select in H by exact L. rewrite segments_select by exact L. unfold with_log_eps, with_refine in *. cbn [p_refine p_scale p_sigma p_quant p_ang_th p_log_eps p_density p_bins] in *.
    assert (E : segments log_gamma fuel (Params 1 (p_scale d) (p_sigma d) (p_quant d) (p_ang_th d) eps' (p_density d) (p_bins d)) (cols image) (rows image) (element image) = segments log_gamma fuel (Params 1 (p_scale d) (p_sigma d) (p_quant d) (p_ang_th d) eps (p_density d) (p_bins d)) (cols image) (rows image) (element image)) by (rewrite !segments_plain by (cbn; lia); reflexivity).
    rewrite E in H. clear E. destruct (segments _ _ _ _ _ _) as [std| |]; try discriminate. cbn [omap] in *. injection H as <-. eexists. split; [reflexivity|]. cbn [arrays_of a_lines]. unfold select. rewrite !map_length.
    induction std as [|s std IH]; [cbn; lia|]. cbn [filter]. pose proof (accepted_antitone log_gamma (cols image) (rows image) (the_angles d (cols image) (rows image) (element image)) eps eps' s Le) as AA. destruct (accepted _ _ _ _ eps' s); [rewrite AA by reflexivity; cbn [length]; lia|]. destruct (accepted _ _ _ _ eps s); cbn [length]; lia.
Qed.
Theorem ldx_fewer fuel d m a high : (2 <= p_refine d)%Z -> detect fuel d m a = Ok high ->
  exists std, detect fuel (with_refine d 1) m (Arrays (a_lines a) (a_widths a) (a_precs a) None) = Ok std /\ (length (a_lines high) <= length (a_lines std))%nat.
Proof.
  intros L H. destruct (detect_ok _ _ _ _ _ H) as (A & M & image & S). rewrite (detect_eq _ _ _ _ _ A M S) in H. rewrite segments_select in H by exact L.
  rewrite (detect_eq fuel (with_refine d 1) m image _ A) by (exact S || (intros Q; cbn in Q; congruence)). destruct (segments _ _ _ _ _ _) as [std| |]; try discriminate. cbn [omap] in *. injection H as <-. eexists. split; [reflexivity|]. cbn [arrays_of a_lines]. unfold select. rewrite !map_length.
  induction std as [|s std IH]; [cbn; lia|]. cbn [filter]. destruct (accepted _ _ _ _ _ s); cbn [length]; lia.
Qed.
(** A colour image of doubles is not refused: it is searched as a grey image three times as wide. *)
Theorem ldx_colour_refuted fuel : (forall d m a, doubles m = true -> detect fuel d m a = detect fuel d (Mat (rows m) (cols m * channels m) 1 true (element m)) a) /\
  exists d m a, construct d = Ok d /\ ~ grey m /\ channels m = 3%Z /\ detect fuel d m a = Ok a.
Proof.
  split.
  - intros d m a D. unfold LsdDetectModel.detect. replace (to_doubles (Mat (rows m) (cols m * channels m) 1 true (element m))) with (to_doubles m); [reflexivity|]. unfold to_doubles. rewrite D. cbn [doubles rows cols channels element]. rewrite Z.mul_1_r. reflexivity.
  - exists (Params 1 1 (3 / 5) 2 (33 / 2) 0 (13 / 20) 1024), (Mat 4 5 3 true (fun _ => 7)), (Arrays [] (Some []) None None).
    assert (SD : sound (Params 1 1 (3 / 5) 2 (33 / 2) 0 (13 / 20) 1024)) by (unfold sound; cbn [p_scale p_sigma p_quant p_ang_th p_density p_bins]; repeat split; lra || lia).
    split; [apply ldx_construct, SD|]. split; [unfold grey; cbn; lia|]. split; [reflexivity|].
    rewrite (detect_eq fuel _ _ (Mat 4 15 1 true (fun _ => 7))).
    + rewrite segments_plain by (cbn; lia). cbn [p_refine p_quant p_ang_th p_density p_bins rows cols element]. rewrite lfx_flat; [reflexivity|..]; try lia; try lra; try (split; lra).
      intros p _. assert (Z0 : norm_at 15 (fun _ => 7) p = 0) by (destruct p; unfold norm_at, modgrad, gradient; cbv zeta; replace (((7 - 7 + (7 - 7)) * (7 - 7 + (7 - 7)) + (7 - 7 - (7 - 7)) * (7 - 7 - (7 - 7))) / 4) with 0 by lra; apply sqrt_0). rewrite Z0. destruct (ldx_params _ 15 4 SD ltac:(lia) ltac:(lia)) as (_ & Q & _). exact Q.
    + unfold accepts, to_doubles. cbn. repeat split; try discriminate; lia.
    + intros Q. cbn in Q. congruence.
    + left. split; reflexivity.
Qed.
End Detect.

(** Examples *)
Example ldx_construct_ex : sound aslam_params /\ ~ sound (Params 1 0 (3 / 5) 2 (33 / 2) 0 (13 / 20) 1024).
Proof. unfold sound, aslam_params; cbn [p_scale p_sigma p_quant p_ang_th p_density p_bins]. split; [repeat split; lra || lia|]. lra. Qed.
(** A step edge in a grey image gives one segment with its tolerance and width; the advanced level finds it too with a threshold that is low enough. *)
Definition edge_params (level : Z) (eps : R) : params := Params level 1 (3 / 5) 2 (33 / 2) eps (13 / 20) 1024.
Definition edge_image : mat := Mat 12 10 1 false (fun i => if (i mod 10 <=? 3)%Z then 0 else 255).
Lemma edge_found log_gamma shrink fuel eps : exists wid, detect log_gamma shrink fuel (edge_params 1 eps) edge_image (Arrays [] (Some [7]) (Some []) None) = Ok (Arrays [(3, 0, 3, 10)%Z] (Some [wid]) (Some [33 / 2 / 180]) None).
Proof.
  assert (A : accepts edge_image) by (unfold accepts, edge_image, to_doubles; cbn; repeat split; discriminate || lia).
  assert (S : searched shrink (edge_params 1 eps) edge_image (to_doubles edge_image)) by (left; split; reflexivity).
  assert (M : may_ask (edge_params 1 eps) (Arrays [] (Some [7]) (Some []) None)) by (intros Q; cbn in Q; congruence).
  pose proof (ldx_standard log_gamma shrink fuel _ _ _ _ A M S ltac:(cbn; lia)) as E. cbn [to_doubles edge_image doubles cols rows element edge_params p_refine p_scale p_quant p_ang_th p_density p_bins] in E.
  destruct lwx_edge_ex as (L1 & L2 & L3). rewrite (lwx_edge 10 12 3 0 255) in E; try lia; try lra; try assumption.
  destruct (Rlt_dec 0 255); [|lra]. destruct (detect _ _ _ _ _ _) as [a'| |] eqn:D; try discriminate. cbn [omap] in E. injection E as E.
  destruct (ldx_delivered _ _ _ _ _ _ _ D) as (_ & facts & (F1 & F2 & F3 & F4) & _ & F5). cbn [holds a_widths a_precs a_nfas] in *. rewrite E in F1. destruct facts as [|f [|]]; try discriminate. cbn [map] in *. exists (f_width f). destruct (F5 f (or_introl eq_refl)) as [F6 _]. cbn in F6. destruct a' as [q1 q2 q3 q4]. cbn [a_lines a_widths a_precs a_nfas] in *. rewrite E, F2, F3, F4, F6. reflexivity.
Qed.
Example ldx_delivered_ex log_gamma shrink fuel : exists a a', detect log_gamma shrink fuel (edge_params 1 0) edge_image a = Ok a' /\ a_lines a' = [(3, 0, 3, 10)%Z] /\ a_widths a' <> None.
Proof. destruct (edge_found log_gamma shrink fuel 0) as (wid & E). eexists _, _. split; [exact E|]. split; [reflexivity|discriminate]. Qed.
Example ldx_advanced_ex log_gamma shrink fuel : exists eps a', detect log_gamma shrink fuel (edge_params 2 eps) edge_image (Arrays [] None None (Some [])) = Ok a' /\ length (a_lines a') = 1%nat.
Proof.
  assert (A : accepts edge_image) by (unfold accepts, edge_image, to_doubles; cbn; repeat split; discriminate || lia).
  assert (S : forall l eps, searched shrink (edge_params l eps) edge_image (to_doubles edge_image)) by (left; split; reflexivity).
  destruct (edge_found log_gamma shrink fuel 0) as (wid & E). rewrite (detect_eq log_gamma shrink fuel (edge_params 1 0) edge_image (to_doubles edge_image) (Arrays [] (Some [7]) (Some []) None) A) in E; [|intros Q; cbn in Q; congruence|apply S]. destruct (segments _ _ _ _ _ _) as [std| |] eqn:G; try discriminate. cbn [omap] in E. injection E as E _ _. destruct std as [|s [|]]; try discriminate.
  exists (rect_nfa log_gamma 10 12 (the_angles (edge_params 2 0) 10 12 (element edge_image)) (s_theta s) (s_box s) - 1). set (eps := _ - 1).
  rewrite (detect_eq log_gamma shrink fuel (edge_params 2 eps) edge_image (to_doubles edge_image) (Arrays [] None None (Some [])) A); [|intros Q; cbn; lia|apply S].
  assert (G' : segments log_gamma fuel (with_refine (edge_params 2 eps) 1) (cols (to_doubles edge_image)) (rows (to_doubles edge_image)) (element (to_doubles edge_image)) = Ok [s]) by (rewrite <- G; rewrite !segments_plain by (unfold with_refine, edge_params; cbn [p_refine]; lia); reflexivity).
  destruct (segments log_gamma fuel (edge_params 2 eps) _ _ _) as [adv| |] eqn:H; [|rewrite segments_select in H by (unfold with_refine, edge_params; cbn [p_refine]; lia); rewrite G' in H; discriminate|rewrite segments_select in H by (unfold with_refine, edge_params; cbn [p_refine]; lia); rewrite G' in H; discriminate].
  eexists. split; [reflexivity|]. cbn [arrays_of a_lines]. rewrite !map_length. destruct (ldx_advanced log_gamma fuel (edge_params 2 eps) _ _ _ adv (Z.le_refl 2) H) as (std & keep & better & Q1 & -> & Q2 & _). rewrite G' in Q1. injection Q1 as <-. cbn [filter]. destruct (Q2 s) as [-> _]; [|reflexivity].
  cbn [edge_params p_log_eps]. set (v := rect_nfa log_gamma 10 12 (the_angles (edge_params 2 0) 10 12 (element edge_image)) (s_theta s) (s_box s)) in eps. match goal with |- _ < ?b => change b with v end. unfold eps. lra.
Qed.
Example ldx_refused_ex : doubles (Mat 2 2 3 false (fun _ => 0)) = false /\ ~ grey (Mat 2 2 3 false (fun _ => 0)).
Proof. split; [reflexivity|]. unfold grey. cbn. lia. Qed.
Print Assumptions ldx_construct.
Print Assumptions ldx_params.
Print Assumptions ldx_tolerance_refuted.
Print Assumptions ldx_kernel.
Print Assumptions ldx_advanced.
Print Assumptions ldx_refused.
Print Assumptions ldx_delivered.
Print Assumptions ldx_widths.
Print Assumptions ldx_standard.
Print Assumptions ldx_threshold.
Print Assumptions ldx_fewer.
Print Assumptions ldx_colour_refuted.
