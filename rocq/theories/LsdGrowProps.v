(** C101: the regions grown by the line segment detector. *)
From Coq Require Import ZArith Reals Lra Lia List Bool Arith.
Import ListNotations.
From Verif Require Import OrientModel OrientSpec OrientProps LsdOrderModel LsdRegionModel LsdRegionSpec LsdGrowProofs.
Local Open Scope R_scope.

(** ** Alignment *)
Lemma IZR_cases (k : Z) : IZR k <= -2 \/ IZR k = -1 \/ IZR k = 0 \/ IZR k = 1 \/ 2 <= IZR k.
Proof.
  destruct (Z_le_dec k (-2)) as [L|L]; [left; apply IZR_le in L; exact L|]. destruct (Z_le_dec 2 k) as [U|U]; [right; right; right; right; apply IZR_le in U; exact U|]. assert (k = -1 \/ k = 0 \/ k = 1)%Z as [-> | [-> | ->]] by lia; auto.
Qed.
Lemma abs_if r : (if Rlt_dec r 0 then - r else r) = Rabs r.
Proof. destruct (Rlt_dec r 0); [rewrite Rabs_left|rewrite Rabs_right]; lra. Qed.
(** The test of alignment is that of a difference up to full turns, for tolerances below 90 degrees. (The angle of a rectangle may be up to 3 pi, see [get_theta].) *)
Theorem lgx_aligned theta a prec : 0 <= theta < 3 * PI -> 0 <= a < 2 * PI -> prec < PI / 2 -> is_aligned theta prec (Some a) = true <-> similar theta a prec.
Proof.
  intros T A P. pose proof PI_RGT_0 as PP. unfold is_aligned, similar. cbv zeta. rewrite !abs_if. set (d := theta - a) in *. assert (- 2 * PI < d < 3 * PI) as D by (unfold d; lra). clearbody d. clear T A.
  destruct (Rlt_dec (3 * PI / 2) (Rabs d)) as [G|G].
  - destruct (Rle_dec (Rabs (Rabs d - 2 * PI)) prec) as [L|L].
    + split; [intros _|reflexivity]. destruct (Rle_dec 0 d) as [Q|Q].
      * exists (-1)%Z. rewrite (Rabs_right d) in L by lra. replace (d + 2 * PI * -1) with (d - 2 * PI) by ring. exact L.
      * exists 1%Z. rewrite (Rabs_left d) in L by lra. replace (d + 2 * PI * 1) with (- (- d - 2 * PI)) by ring. rewrite Rabs_Ropp. exact L.
    + split; [discriminate|]. intros (k & K). exfalso. destruct (IZR_cases k) as [C|[C|[C|[C|C]]]].
      * assert (2 * PI * IZR k <= 2 * PI * -2) as M by (apply Rmult_le_compat_l; lra). unfold Rabs in K. destruct (Rcase_abs (d + 2 * PI * IZR k)); lra.
      * rewrite C in K. unfold Rabs in *. destruct (Rcase_abs d); destruct (Rcase_abs (d + 2 * PI * -1)); destruct (Rcase_abs _); lra.
      * rewrite C in K. unfold Rabs in *. destruct (Rcase_abs d); destruct (Rcase_abs (d + 2 * PI * 0)); destruct (Rcase_abs _); lra.
      * rewrite C in K. unfold Rabs in *. destruct (Rcase_abs d); destruct (Rcase_abs (d + 2 * PI * 1)); destruct (Rcase_abs _); lra.
      * assert (2 * PI * 2 <= 2 * PI * IZR k) as M by (apply Rmult_le_compat_l; lra). unfold Rabs in K. destruct (Rcase_abs (d + 2 * PI * IZR k)); lra.
  - destruct (Rle_dec (Rabs d) prec) as [L|L].
    + split; [intros _|reflexivity]. exists 0%Z. replace (d + 2 * PI * 0) with d by ring. exact L.
    + split; [discriminate|]. intros (k & K). exfalso. destruct (IZR_cases k) as [C|[C|[C|[C|C]]]].
      * assert (2 * PI * IZR k <= 2 * PI * -2) as M by (apply Rmult_le_compat_l; lra). unfold Rabs in K. destruct (Rcase_abs (d + 2 * PI * IZR k)); lra.
      * rewrite C in K. unfold Rabs in *. destruct (Rcase_abs d); destruct (Rcase_abs (d + 2 * PI * -1)); lra.
      * rewrite C in K. unfold Rabs in *. destruct (Rcase_abs d); destruct (Rcase_abs (d + 2 * PI * 0)); lra.
      * rewrite C in K. unfold Rabs in *. destruct (Rcase_abs d); destruct (Rcase_abs (d + 2 * PI * 1)); lra.
      * assert (2 * PI * 2 <= 2 * PI * IZR k) as M by (apply Rmult_le_compat_l; lra). unfold Rabs in K. destruct (Rcase_abs (d + 2 * PI * IZR k)); lra.
Qed.
(** For the tolerance of 90 degrees and above (the constructor takes up to 180) it is not. *)
Theorem lgx_aligned_refuted : forall ang_th, 90 <= ang_th < 180 -> exists theta a, 0 <= theta < 2 * PI /\ 0 <= a < 2 * PI /\ similar theta a (PI * ang_th / 180) /\ is_aligned theta (PI * ang_th / 180) (Some a) = false.
Proof.
  intros t [T1 T2]. pose proof PI_RGT_0 as PP. assert (PI / 2 <= PI * t / 180 < PI) as [B1 B2].
  { split; [apply Rmult_le_reg_l with 180|apply Rmult_lt_reg_l with 180]; try lra; field_simplify; nra. }
  exists 0, (3 * PI / 2). split; [lra|]. split; [lra|]. split.
  - exists 1%Z. replace (0 - 3 * PI / 2 + 2 * PI * 1) with (PI / 2) by field. rewrite Rabs_right; lra.
  - unfold is_aligned. cbv zeta. destruct (Rlt_dec (0 - 3 * PI / 2) 0); [|lra]. destruct (Rlt_dec (3 * PI / 2) (- (0 - 3 * PI / 2))); [lra|]. destruct (Rle_dec (- (0 - 3 * PI / 2)) (PI * t / 180)); [lra|reflexivity].
Qed.

Lemma cos_periodZ x k : cos (x + 2 * PI * IZR k) = cos x.
Proof.
  destruct (Z_le_dec 0 k) as [N|N].
  - replace (2 * PI * IZR k) with (2 * INR (Z.to_nat k) * PI) by (rewrite INR_IZR_INZ, Z2Nat.id by lia; ring). apply cos_period.
  - rewrite <- (cos_period (x + 2 * PI * IZR k) (Z.to_nat (- k))). f_equal. rewrite INR_IZR_INZ, Z2Nat.id by lia. rewrite opp_IZR. ring.
Qed.
Lemma sin_periodZ x k : sin (x + 2 * PI * IZR k) = sin x.
Proof.
  destruct (Z_le_dec 0 k) as [N|N].
  - replace (2 * PI * IZR k) with (2 * INR (Z.to_nat k) * PI) by (rewrite INR_IZR_INZ, Z2Nat.id by lia; ring). apply sin_period.
  - rewrite <- (sin_period (x + 2 * PI * IZR k) (Z.to_nat (- k))). f_equal. rewrite INR_IZR_INZ, Z2Nat.id by lia. rewrite opp_IZR. ring.
Qed.
Lemma similar_cos a b d : similar a b d -> d < PI / 2 -> 0 < cos (a - b).
Proof. intros (k & K) D. rewrite <- (cos_periodZ (a - b) k). pose proof (Rle_abs (a - b + 2 * PI * IZR k)). pose proof (Rle_abs (- (a - b + 2 * PI * IZR k))) as N. rewrite Rabs_Ropp in N. apply cos_gt_0; lra. Qed.
(** Adding a unit vector less than 90 degrees away gives no zero vector. *)
Lemma sum_nonzero X Y t a : direction X Y t -> 0 < cos (t - a) -> X + cos a <> 0 \/ Y + sin a <> 0.
Proof.
  intros (_ & r & R & -> & ->) C. destruct (Req_dec (r * cos t + cos a) 0) as [E1|]; [|auto]. right. intros E2. rewrite cos_minus in C. pose proof (sin2_cos2 a) as S. unfold Rsqr in S. assert ((r * cos t + cos a) * cos a + (r * sin t + sin a) * sin a = 0) as Z by (rewrite E1, E2; ring). assert (r * (cos t * cos a + sin t * sin a) + 1 = 0) as Z'; [|pose proof (Rmult_lt_0_compat _ _ R C); lra]. rewrite <- Z, <- S. ring.
Qed.

(** ** Arcs *)
Definition in_arc (t prec x : R) : Prop := exists k : Z, t <= x + 2 * PI * IZR k <= t + prec.
Lemma arc_similar t prec x y : in_arc t prec x -> in_arc t prec y -> similar x y prec.
Proof.
  intros (k & K) (l & L). exists (k - l)%Z. rewrite minus_IZR. replace (x - y + 2 * PI * (IZR k - IZR l)) with (x + 2 * PI * IZR k - (y + 2 * PI * IZR l)) by ring. apply Rabs_le. lra.
Qed.
Lemma reduce_angle x : exists k : Z, - PI <= x + 2 * PI * IZR k < PI.
Proof.
  pose proof PI_RGT_0 as PP. set (q := (x + PI) / (2 * PI)). destruct (base_Int_part q) as [B1 B2]. exists (- Int_part q)%Z. rewrite opp_IZR. assert (x + PI = 2 * PI * q) as E by (unfold q; field; lra). assert (2 * PI * IZR (Int_part q) <= 2 * PI * q) by (apply Rmult_le_compat_l; lra). assert (2 * PI * (q - 1) < 2 * PI * IZR (Int_part q)) by (apply Rmult_lt_compat_l; lra). lra.
Qed.
Lemma arc_sum t prec X Y u a u' : 0 <= prec < PI / 2 -> direction X Y u -> in_arc t prec u -> in_arc t prec a -> direction (X + cos a) (Y + sin a) u' -> in_arc t prec u'.
Proof.
  intros P (_ & r & R & -> & ->) (k & K) (l & L) (_ & r' & R' & E1 & E2). pose proof PI_RGT_0 as PP.
  rewrite <- (cos_periodZ u k), <- (cos_periodZ a l) in E1. rewrite <- (sin_periodZ u k), <- (sin_periodZ a l) in E2. set (u1 := u + 2 * PI * IZR k) in *. set (a1 := a + 2 * PI * IZR l) in *.
  destruct (reduce_angle (u' - t)) as (m & M). exists m. rewrite <- (cos_periodZ u' m) in E1. rewrite <- (sin_periodZ u' m) in E2. replace (u' - t + 2 * PI * IZR m) with (u' + 2 * PI * IZR m - t) in M by ring. set (v := u' + 2 * PI * IZR m) in *.
  assert (forall s, r' * cos (v - s) = r * cos (u1 - s) + cos (a1 - s) /\ r' * sin (v - s) = r * sin (u1 - s) + sin (a1 - s)) as F.
  { intros s. rewrite !cos_minus, !sin_minus. split.
    - transitivity ((r' * cos v) * cos s + (r' * sin v) * sin s); [ring|]. rewrite <- E1, <- E2. ring.
    - transitivity ((r' * sin v) * cos s - (r' * cos v) * sin s); [ring|]. rewrite <- E1, <- E2. ring. }
  destruct (F t) as [F1 F2]. destruct (F (t + prec)) as [_ F3].
  assert (0 < cos (v - t)) as C.
  { apply Rmult_lt_reg_l with r'; [exact R'|]. rewrite Rmult_0_r, F1. pose proof (cos_gt_0 (u1 - t)) as C1. pose proof (cos_gt_0 (a1 - t)) as C2. assert (0 < r * cos (u1 - t)) by (apply Rmult_lt_0_compat; [exact R|apply C1; lra]). assert (0 < cos (a1 - t)) by (apply C2; lra). lra. }
  assert (0 <= sin (v - t)) as S.
  { apply Rmult_le_reg_l with r'; [exact R'|]. rewrite Rmult_0_r, F2. assert (0 <= r * sin (u1 - t)) by (apply Rmult_le_pos; [lra|apply sin_ge_0; lra]). assert (0 <= sin (a1 - t)) by (apply sin_ge_0; lra). lra. }
  assert (sin (v - (t + prec)) <= 0) as S'.
  { apply Rmult_le_reg_l with r'; [exact R'|]. rewrite Rmult_0_r, F3. assert (sin (u1 - (t + prec)) <= 0) as S1. { replace (u1 - (t + prec)) with (- (t + prec - u1)) by ring. rewrite sin_neg. assert (0 <= sin (t + prec - u1)) by (apply sin_ge_0; lra). lra. }
    assert (sin (a1 - (t + prec)) <= 0) as S2. { replace (a1 - (t + prec)) with (- (t + prec - a1)) by ring. rewrite sin_neg. assert (0 <= sin (t + prec - a1)) by (apply sin_ge_0; lra). lra. }
    assert (r * sin (u1 - (t + prec)) <= r * 0) by (apply Rmult_le_compat_l; lra). lra. }
  assert (- (PI / 2) < v - t < PI / 2) as V.
  { split.
    - destruct (Rlt_le_dec (- (PI / 2)) (v - t)) as [|N]; [assumption|]. exfalso. rewrite <- cos_neg in C. assert (cos (- (v - t)) <= 0) by (apply cos_le_0; lra). lra.
    - destruct (Rlt_le_dec (v - t) (PI / 2)) as [|N]; [assumption|]. exfalso. assert (cos (v - t) <= 0) by (apply cos_le_0; lra). lra. }
  split.
  - destruct (Rle_dec t v) as [|N]; [assumption|]. exfalso. assert (sin (v - t) < 0) by (apply sin_lt_0_var; lra). lra.
  - destruct (Rle_dec v (t + prec)) as [|N]; [assumption|]. exfalso. assert (0 < sin (v - (t + prec))) by (apply sin_gt_0; lra). lra.
Qed.

(** ** Regions *)
Section Regions.
Variables (w h : Z) (ang : pixel -> option R) (prec : R) (used0 : pixel -> bool) (s : pixel) (a0 : R).
Hypothesis range : forall p a, ang p = Some a -> 0 <= a < 2 * PI.
Hypothesis angle_s : ang s = Some a0.
Hypothesis inside : in_image w h s.
Hypothesis unused : used0 s = false.
Notation unmarked := (fun q => used0 q = false).

(** For every tolerance: the call returns, the points are distinct pixels of the image that were not used, joined to the seed, and exactly they are marked; each has an angle. *)
Theorem lgx_region : exists st, region_grow w h ang used0 s prec = Ok st /\ hd_error (reg st) = Some s /\ NoDup (reg st) /\ (length (reg st) <= Z.to_nat (w * h))%nat /\
  (forall p, In p (reg st) -> joined w h (fun q => used0 q = false /\ ang q <> None) s p) /\ (forall q, used st q = true <-> used0 q = true \/ In q (reg st)).
Proof.
  destruct (region_grow_spec w h ang prec used0 s a0 angle_s inside unused) as (st & E & S & _). exists st. split; [exact E|]. pose proof (of_grown _ _ _ _ _ _ _ _ S) as G. split; [destruct (grown_nonempty _ _ _ _ _ _ G) as [l' ->]; reflexivity|]. split; [exact (grown_nodup _ _ _ _ _ _ G)|]. split; [exact (grown_bound _ _ _ _ _ _ G)|]. split; [|apply (of_used _ _ _ _ _ _ _ _ S)].
  clear S E. induction G as [I F|l p q G IH IP N IQ F NI AC]; intros p' I'.
  - destruct I' as [<-|[]]. constructor; [exact I|]. split; [exact F|congruence].
  - apply in_app_iff in I' as [I'|[<-|[]]]; [apply IH, I'|]. apply (joined_next _ _ _ _ p); auto. split; [exact F|]. unfold accepts in AC. intros E. rewrite E in AC. discriminate.
Qed.

Hypothesis tolerance : 0 <= prec < PI / 2.
Lemma run_direction l : grown w h unmarked (accepts ang prec a0) s l -> direction (total cos ang l) (total sin ang l) (run_angle ang a0 l).
Proof.
  induction 1 as [I F|l p q G IH IP N IQ F NI AC].
  - cbn. rewrite angle_s. split; [exact (range s a0 angle_s)|]. exists 1. split; [lra|]. split; ring.
  - assert (run_angle ang a0 (l ++ [q]) = fast_atan2 (total sin ang (l ++ [q])) (total cos ang (l ++ [q]))) as ->.
    { destruct (grown_nonempty _ _ _ _ _ _ G) as [l' ->]. destruct l'; reflexivity. }
    apply fast_atan2_direction. rewrite !total_app. unfold accepts in AC. destruct (ang q) as [a|] eqn:AQ; [|discriminate]. cbn [total fold_right]. rewrite AQ, !Rplus_0_r. pose proof PI_RGT_0. apply lgx_aligned in AC; [|destruct IH as [B _]; lra|exact (range q a AQ)|lra]. apply (sum_nonzero _ _ _ _ IH). apply (similar_cos _ _ prec); [exact AC|lra].
Qed.
Lemma accepts_fitting l q : grown w h unmarked (accepts ang prec a0) s l -> accepts ang prec a0 l q <-> fitting ang prec l q.
Proof.
  intros G. pose proof (run_direction l G) as D. pose proof PI_RGT_0. unfold accepts, fitting, mean_direction. split.
  - intros AC. destruct (ang q) as [a|] eqn:AQ; [|discriminate]. exists (run_angle ang a0 l), a. split; [exact D|]. split; [reflexivity|]. apply lgx_aligned in AC; [exact AC|destruct D as [B _]; lra|exact (range q a AQ)|lra].
  - intros (t & a & D' & AQ & S). rewrite AQ. apply lgx_aligned; [destruct D as [B _]; lra|exact (range q a AQ)|lra|]. rewrite (direction_unique _ _ _ _ D D'). exact S.
Qed.
Lemma grown_prefix (F : list pixel -> pixel -> Prop) fr l1 : forall l2, l1 <> [] -> grown w h fr F s (l1 ++ l2) -> grown w h fr F s l1.
Proof.
  intros l2 N. induction l2 as [|q l2 IH] using rev_ind; intros G; [rewrite app_nil_r in G; exact G|]. apply IH. rewrite app_assoc in G. inversion G as [I F0 E|l p q' G' IP NE IQ FQ NI AC E].
  - destruct l1 as [|a l1]; [contradiction|]. destruct l1; destruct l2; cbn in E; try discriminate.
  - apply app_inj_tail in E as [<- _]. exact G'.
Qed.
(** For tolerances below 90 degrees: each point but the first fits the direction of the points before it, and a pixel near the region that was not used and is not in it did not fit the points it was compared with. *)
Theorem lgx_grown : exists st, region_grow w h ang used0 s prec = Ok st /\ grown w h unmarked (fitting ang prec) s (reg st) /\ mean_direction ang (reg st) (reg_angle st) /\ forall p q, In p (reg st) -> near p q -> in_image w h q -> used0 q = false -> In q (reg st) \/ exists l1 l2, reg st = l1 ++ l2 /\ In p l1 /\ ~ fitting ang prec l1 q.
Proof.
  destruct (region_grow_spec w h ang prec used0 s a0 angle_s inside unused) as (st & E & S & T). exists st. split; [exact E|]. pose proof (of_grown _ _ _ _ _ _ _ _ S) as G. change (grown w h unmarked (accepts ang prec a0) s (reg st)) in G. split; [|split].
  - clear S E T. induction G as [I F|l p q G IH IP N IQ F NI AC]; [constructor; assumption|]. apply (grown_add _ _ _ _ _ l p q); auto. apply accepts_fitting; assumption.
  - unfold mean_direction. rewrite (of_angle _ _ _ _ _ _ _ _ S). apply run_direction, G.
  - intros p q IP N IQ U. destruct (T p q IP N IQ U) as [I|(l1 & l2 & El & I1 & NA)]; [left; exact I|]. right. exists l1, l2. split; [exact El|]. split; [exact I1|]. rewrite <- accepts_fitting; [exact NA|]. rewrite El in G. apply (grown_prefix _ _ l1 l2); [intros ->; destruct I1|exact G].
Qed.
(** If the angles of the unused pixels span at most the tolerance, the region is all that is joined to the seed: it is not split. *)
Theorem lgx_component t : (forall q a, in_image w h q -> used0 q = false -> ang q = Some a -> in_arc t prec a) ->
  exists st, region_grow w h ang used0 s prec = Ok st /\ forall p, In p (reg st) <-> joined w h (fun q => used0 q = false /\ ang q <> None) s p.
Proof.
  intros A. destruct lgx_region as (st & E & HD & _ & _ & J & _). exists st. split; [exact E|]. intros p. split; [apply J|].
  destruct (region_grow_spec w h ang prec used0 s a0 angle_s inside unused) as (st' & E' & S & T). rewrite E in E'. injection E' as <-. pose proof (of_grown _ _ _ _ _ _ _ _ S) as G. change (grown w h unmarked (accepts ang prec a0) s (reg st)) in G.
  assert (forall l, grown w h unmarked (accepts ang prec a0) s l -> in_arc t prec (run_angle ang a0 l)) as M.
  { intros l Gl. induction Gl as [I F|l p' q Gl IH IP N IQ F NI AC]; [exact (A s a0 inside unused angle_s)|]. destruct (ang q) as [a|] eqn:AQ; [|unfold accepts in AC; rewrite AQ in AC; discriminate]. pose proof (run_direction l Gl) as D. assert (grown w h unmarked (accepts ang prec a0) s (l ++ [q])) as G2 by (apply (grown_add _ _ _ _ _ l p' q); assumption). pose proof (run_direction _ G2) as D2. rewrite !total_app in D2. cbn [total fold_right] in D2. rewrite AQ, !Rplus_0_r in D2. exact (arc_sum _ _ _ _ _ _ _ tolerance D IH (A q a IQ F AQ) D2). }
  intros Jp. induction Jp as [I F|p q Jp IH N IQ [F AQ]]; [destruct (reg st); [discriminate|injection HD as ->; left; reflexivity]|]. destruct (T p q IH N IQ F) as [I|(l1 & l2 & El & I1 & NA)]; [exact I|]. exfalso. apply NA. rewrite El in G. apply grown_prefix in G; [|intros ->; destruct I1]. destruct (ang q) as [a|] eqn:AQ'; [|contradiction]. unfold accepts. rewrite AQ'. pose proof PI_RGT_0. pose proof (run_direction l1 G) as [B _]. apply lgx_aligned; [lra|exact (range q a AQ')|lra|]. apply (arc_similar t); [exact (M l1 G)|exact (A q a IQ F AQ')].
Qed.
End Regions.

(** The angles of [ll_angle] are in the range used here. *)
Lemma fast_atan2_range y x : 0 <= fast_atan2 y x < 2 * PI.
Proof.
  destruct (Req_dec x 0) as [->|X]; [|apply (fast_atan2_direction x y); auto]. destruct (Req_dec y 0) as [->|Y]; [|apply (fast_atan2_direction 0 y); auto]. rewrite fast_atan2_zero. pose proof PI_RGT_0. lra.
Qed.
Lemma angle_range w h data threshold x y a : angle w h data threshold x y = Some a -> 0 <= a < 2 * PI.
Proof.
  unfold angle. destruct ((x =? w - 1) || (y =? h - 1))%Z; [discriminate|]. cbv zeta. destruct (Rle_dec _ _); [discriminate|]. destruct (gradient w data (x + y * w)). intros [= <-]. apply fast_atan2_range.
Qed.

(** Examples: a row of three pixels with the angles 0, 0.1 and 6.1 (that is about -0.18), tolerance 0.3. *)
Definition ang_ex (p : pixel) : option R := if (snd p =? 0)%Z then match fst p with 0%Z => Some 0 | 1%Z => Some (1 / 10) | 2%Z => Some (61 / 10) | _ => None end else None.
Example lgx_component_ex : (forall p a, ang_ex p = Some a -> 0 <= a < 2 * PI) /\ in_image 3 1 (0, 0)%Z /\ ang_ex (0, 0)%Z = Some 0 /\ 0 <= 3 / 10 < PI / 2 /\ (forall q a, in_image 3 1 q -> false = false -> ang_ex q = Some a -> in_arc (- (2 / 10)) (3 / 10) a).
Proof.
  pose proof PI_lower. pose proof PI_upper. assert (forall x y a, ang_ex (x, y) = Some a -> a = 0 \/ a = 1 / 10 \/ a = 61 / 10) as C.
  { intros x y a. unfold ang_ex. cbn [fst snd]. destruct (y =? 0)%Z; [|discriminate]. destruct x as [|[[]|[]|]|]; try discriminate; intros [= <-]; auto. }
  split; [intros [x y] a E; destruct (C x y a E) as [-> | [-> | ->]]; lra|]. split; [unfold in_image; cbn; lia|]. split; [reflexivity|]. split; [lra|]. intros [x y] a _ _ E. destruct (C x y a E) as [-> | [-> | ->]]; [exists 0%Z; lra|exists 0%Z; lra|exists (-1)%Z; lra].
Qed.
Print Assumptions lgx_aligned.
Print Assumptions lgx_aligned_refuted.
Print Assumptions lgx_region.
Print Assumptions lgx_grown.
Print Assumptions lgx_component.
