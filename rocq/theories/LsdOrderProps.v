(** C100: the gradient and the order of the seeds of the line segment detector. *)
From Coq Require Import ZArith Reals Lra Lia List Bool Permutation Sorted Arith.
Import ListNotations.
From Verif Require Import OrientModel OrientSpec OrientProps LsdOrderModel LsdOrderSpec LsdOrderProofs.
Local Open Scope R_scope.

Lemma upto_in n x : In x (upto n) <-> (0 <= x < n)%Z.
Proof.
  unfold upto. rewrite in_map_iff. split.
  - intros (k & <- & I). apply in_seq in I. lia.
  - intros B. exists (Z.to_nat x). split; [lia|]. apply in_seq. lia.
Qed.
Lemma pixels_in w h p : In p (pixels w h) <-> inner w h p.
Proof.
  destruct p as [x y]. unfold pixels, inner. cbn [fst snd]. rewrite in_flat_map. split.
  - intros (y' & I1 & I2). apply in_map_iff in I2 as (x' & E & I2). injection E as -> ->. apply upto_in in I1, I2. lia.
  - intros [B1 B2]. exists y. split; [apply upto_in; exact B2|]. apply in_map_iff. exists x. split; [reflexivity|apply upto_in; exact B1].
Qed.
Lemma upto_sorted n : StronglySorted Z.lt (upto n).
Proof.
  unfold upto. generalize (Z.to_nat n) as m. intros m. generalize 0%nat as s. induction m as [|m IH]; intros s; [constructor|]. cbn [seq map]. constructor; [apply IH|]. apply Forall_forall. intros x I. apply in_map_iff in I as (k & <- & I). apply in_seq in I. lia.
Qed.
Lemma sorted_app {A} (R : A -> A -> Prop) l1 l2 : StronglySorted R l1 -> StronglySorted R l2 -> (forall a b, In a l1 -> In b l2 -> R a b) -> StronglySorted R (l1 ++ l2).
Proof.
  induction l1 as [|a l1 IH]; intros S1 S2 H; [exact S2|]. inversion S1 as [|? ? S F]; subst. cbn [app]. constructor; [apply IH; auto; intros; apply H; [right; assumption|assumption]|]. apply Forall_app. split; [exact F|]. apply Forall_forall. intros b B. apply H; [left; reflexivity|exact B].
Qed.
Lemma pixels_sorted w h : StronglySorted raster (pixels w h).
Proof.
  unfold pixels. pose proof (upto_sorted (h - 1)) as S. induction S as [|y ys S IH F]; [constructor|]. cbn [flat_map]. apply sorted_app; [|exact IH|].
  - clear IH. pose proof (upto_sorted (w - 1)) as T. induction T as [|x xs T IHT FT]; [constructor|]. cbn [map]. constructor; [exact IHT|]. apply Forall_forall. intros q I. apply in_map_iff in I as (x' & <- & I). rewrite Forall_forall in FT. right. split; [reflexivity|]. exact (FT x' I).
  - intros p q I1 I2. apply in_map_iff in I1 as (x & <- & _). apply in_flat_map in I2 as (y' & I2 & I3). apply in_map_iff in I3 as (x' & <- & _). rewrite Forall_forall in F. left. exact (F y' I2).
Qed.
Lemma pixels_length w h : (1 <= w)%Z -> (1 <= h)%Z -> Z.of_nat (length (pixels w h)) = ((w - 1) * (h - 1))%Z.
Proof.
  intros W H. unfold pixels. assert (forall l : list Z, length (flat_map (fun y => map (fun x => (x, y)) (upto (w - 1))) l) = (length l * Z.to_nat (w - 1))%nat) as E.
  { induction l as [|y l IH]; [reflexivity|]. cbn [flat_map length]. rewrite app_length, IH, map_length. unfold upto. rewrite map_length, seq_length. lia. }
  rewrite E. unfold upto. rewrite map_length, seq_length. nia.
Qed.

Section Image.
Variables (w h : Z) (data : Z -> R) (threshold : R).

(** ** The gradient *)
Lemma half_norm u v : sqrt ((u * u + v * v) / 4) = sqrt (u / 2 * (u / 2) + v / 2 * (v / 2)).
Proof. f_equal. field. Qed.
Lemma sqrt_pos_nonzero gx gy t : 0 <= t -> t < sqrt (gx * gx + gy * gy) -> - gy <> 0 \/ gx <> 0.
Proof.
  intros T H. destruct (Req_dec gx 0) as [->|]; [|auto]. left. intros E. assert (gy = 0) as -> by lra. rewrite Rmult_0_l, Rplus_0_r, sqrt_0 in H. lra.
Qed.
(** The gradient is that of the four pixels; the angle is that of the level line, turned by 90 degrees. *)
Theorem lsx_gradient x y t : inner w h (x, y) -> 0 <= threshold ->
  let here := data (x + y * w)%Z in
  let right := data (x + 1 + y * w)%Z in
  let lower := data (x + (y + 1) * w)%Z in
  let both := data (x + 1 + (y + 1) * w)%Z in
  let gx := ((right - here) + (both - lower)) / 2 in
  let gy := ((lower - here) + (both - right)) / 2 in
  angle w h data threshold x y = Some t <-> threshold < sqrt (gx * gx + gy * gy) /\ direction (- gy) gx t.
Proof.
  intros [B1 B2] T here right lower both gx gy. cbn [fst snd] in *. unfold angle. replace ((x =? w - 1) || (y =? h - 1))%Z with false by (symmetry; apply orb_false_iff; split; apply Z.eqb_neq; lia). cbv zeta.
  assert (modgrad w data (x + y * w) = sqrt (gx * gx + gy * gy)) as N.
  { unfold modgrad, gradient. cbv zeta. rewrite half_norm. replace (x + y * w + w + 1)%Z with (x + 1 + (y + 1) * w)%Z by ring. replace (x + y * w + 1)%Z with (x + 1 + y * w)%Z by ring. replace (x + y * w + w)%Z with (x + (y + 1) * w)%Z by ring. fold here right lower both. f_equal. unfold gx, gy. field. }
  rewrite N. unfold gradient. cbv zeta. replace (x + y * w + w + 1)%Z with (x + 1 + (y + 1) * w)%Z by ring. replace (x + y * w + 1)%Z with (x + 1 + y * w)%Z by ring. replace (x + y * w + w)%Z with (x + (y + 1) * w)%Z by ring. fold here right lower both.
  replace (both - here + (right - lower)) with (2 * gx) by (unfold gx; field). replace (- (both - here - (right - lower))) with (2 * - gy) by (unfold gy; field). rewrite fast_atan2_scale by lra.
  destruct (Rle_dec (sqrt (gx * gx + gy * gy)) threshold) as [L|L]; [split; [discriminate|intros [H _]; lra]|]. assert (- gy <> 0 \/ gx <> 0) as NZ by (apply (sqrt_pos_nonzero gx gy threshold); lra). pose proof (fast_atan2_direction (- gy) gx NZ) as D. split.
  - intros E. injection E as <-. split; [lra|exact D].
  - intros [_ D']. f_equal. exact (direction_unique _ _ _ _ D D').
Qed.
(** On plane images it is the gradient. *)
Theorem lsx_plane a b c x y t : plane w h data a b c -> inner w h (x, y) -> 0 <= threshold ->
  modgrad w data (x + y * w) = sqrt (a * a + b * b) /\ (angle w h data threshold x y = Some t <-> threshold < sqrt (a * a + b * b) /\ direction (- b) a t).
Proof.
  intros P I T. pose proof I as [B1 B2]. cbn [fst snd] in *.
  assert (data (x + y * w)%Z = a * IZR x + b * IZR y + c) as E00 by (apply P; lia).
  assert (data (x + 1 + y * w)%Z = a * (IZR x + 1) + b * IZR y + c) as E10 by (rewrite <- plus_IZR; apply P; lia).
  assert (data (x + (y + 1) * w)%Z = a * IZR x + b * (IZR y + 1) + c) as E01 by (rewrite <- plus_IZR; apply P; lia).
  assert (data (x + 1 + (y + 1) * w)%Z = a * (IZR x + 1) + b * (IZR y + 1) + c) as E11 by (rewrite <- !plus_IZR; apply P; lia). split.
  - unfold modgrad, gradient. cbv zeta. replace (x + y * w + w + 1)%Z with (x + 1 + (y + 1) * w)%Z by ring. replace (x + y * w + 1)%Z with (x + 1 + y * w)%Z by ring. replace (x + y * w + w)%Z with (x + (y + 1) * w)%Z by ring. rewrite E00, E10, E01, E11. f_equal. field.
  - rewrite (lsx_gradient x y t I T). cbv zeta. rewrite E00, E10, E01, E11. replace ((a * (IZR x + 1) + b * IZR y + c - (a * IZR x + b * IZR y + c) + (a * (IZR x + 1) + b * (IZR y + 1) + c - (a * IZR x + b * (IZR y + 1) + c))) / 2) with a by field. replace ((a * IZR x + b * (IZR y + 1) + c - (a * IZR x + b * IZR y + c) + (a * (IZR x + 1) + b * (IZR y + 1) + c - (a * (IZR x + 1) + b * IZR y + c))) / 2) with b by field. reflexivity.
Qed.
(** Pixels of the last row and column have no angle. *)
Theorem lsx_border x y : (0 <= x < w)%Z -> (0 <= y < h)%Z -> ~ inner w h (x, y) -> angle w h data threshold x y = None.
Proof.
  intros B1 B2 N. unfold angle. replace ((x =? w - 1) || (y =? h - 1))%Z with true; [reflexivity|]. symmetry. apply orb_true_iff. rewrite !Z.eqb_eq. unfold inner in N. cbn [fst snd] in N. lia.
Qed.
(** Only pixels of the image are read. *)
Theorem lsx_reads p (data' : Z -> R) : inner w h p -> (forall i, (0 <= i < w * h)%Z -> data' i = data i) -> norm_at w data' p = norm_at w data p /\ angle w h data' threshold (fst p) (snd p) = angle w h data threshold (fst p) (snd p).
Proof.
  intros I E. destruct p as [x y]. destruct I as [B1 B2]. cbn [fst snd] in *. assert (gradient w data' (x + y * w) = gradient w data (x + y * w)) as G by (unfold gradient; rewrite !E; [reflexivity|nia..]). unfold norm_at, angle, modgrad. rewrite G. auto.
Qed.

(** ** The bins *)
Lemma modgrad_nonneg addr : 0 <= modgrad w data addr.
Proof. unfold modgrad. destruct (gradient w data addr). apply sqrt_pos. Qed.
Lemma max_fold (l : list (Z * Z)) : forall m, let m' := fold_left (fun m p => if Rle_dec (norm_at w data p) threshold then m else if Rlt_dec m (norm_at w data p) then norm_at w data p else m) l m in
  m <= m' /\ (forall p, In p l -> threshold < norm_at w data p -> norm_at w data p <= m') /\ (m' = m \/ threshold < m').
Proof.
  induction l as [|p l IH]; intros m; cbv zeta; cbn [fold_left]; [split; [lra|]; split; [intros p []|left; reflexivity]|].
  match goal with |- context [fold_left _ l ?m0] => destruct (IH m0) as (M1 & M2 & M3); set (m' := fold_left _ l m0) in *; assert (m <= m0 /\ (threshold < norm_at w data p -> norm_at w data p <= m0) /\ (m0 = m \/ threshold < m0)) as (H1 & H2 & H3) end.
  { destruct (Rle_dec (norm_at w data p) threshold); [split; [lra|]; split; [lra|left; reflexivity]|]. destruct (Rlt_dec m (norm_at w data p)); [split; [lra|]; split; [lra|right; lra]|split; [lra|]; split; [lra|left; reflexivity]]. }
  split; [lra|]. split.
  - intros q [<-|I] T; [specialize (H2 T); lra|]. exact (M2 q I T).
  - destruct M3 as [->|M3]; [exact H3|right; exact M3].
Qed.
Lemma Int_part_bounds r a b : IZR a <= r -> r < IZR b -> (a <= Int_part r < b)%Z.
Proof.
  intros A B. pose proof (base_Int_part r) as [H1 H2]. split.
  - assert (a < Int_part r + 1)%Z; [|lia]. apply lt_IZR. rewrite plus_IZR. lra.
  - apply lt_IZR. lra.
Qed.
(** No index is outside range_s and range_e. *)
Theorem lsx_bins n_bins p : (0 < n_bins)%nat -> inner w h p -> (0 <= bin w h data threshold n_bins p < Z.of_nat n_bins)%Z.
Proof.
  intros N I. unfold bin, bin_coef. destruct (max_fold (pixels w h) (-1)) as (_ & M & C). fold (max_grad w h data threshold) in *. specialize (M p (proj2 (pixels_in w h p) I)). assert (0 <= norm_at w data p) as P by (destruct p; apply modgrad_nonneg).
  destruct (Rlt_dec 0 (max_grad w h data threshold)) as [G|G].
  - set (m := max_grad w h data threshold) in *. assert (norm_at w data p <= m) as LE.
    { destruct (Rle_dec (norm_at w data p) threshold) as [L|L]; [|apply M; lra]. destruct C as [C|C]; lra. }
    assert (0 <= IZR (Z.of_nat n_bins - 1)) as NB by (apply IZR_le; lia). assert (0 <= IZR (Z.of_nat n_bins - 1) / m) as Q by (apply Rmult_le_pos; [exact NB|left; apply Rinv_0_lt_compat, G]).
    assert (0 <= norm_at w data p * (IZR (Z.of_nat n_bins - 1) / m)) as L0 by (apply Rmult_le_pos; assumption). assert (norm_at w data p * (IZR (Z.of_nat n_bins - 1) / m) <= IZR (Z.of_nat n_bins - 1)) as L1.
    { replace (IZR (Z.of_nat n_bins - 1)) with (m * (IZR (Z.of_nat n_bins - 1) / m)) at 2 by (field; lra). apply Rmult_le_compat_r; assumption. }
    unfold trunc. destruct (Rle_dec 0 _) as [_|F]; [|contradiction]. apply Int_part_bounds; [exact L0|]. eapply Rle_lt_trans; [exact L1|]. apply IZR_lt. lia.
  - rewrite Rmult_0_r. unfold trunc. destruct (Rle_dec 0 0) as [_|F]; [|lra]. apply Int_part_bounds; [lra|]. apply IZR_lt. lia.
Qed.

(** ** The order of the seeds *)
Section Order.
Variable n_bins : nat.
Hypothesis positive : (0 < n_bins)%nat.
Notation L := (map (fun p => (p, Z.to_nat (bin w h data threshold n_bins p))) (pixels w h)).
Notation st := (filled w h data threshold n_bins).
Lemma filled_good : good L st.
Proof. apply good_filled. Qed.
Lemma nth_L i p b : nth_error L i = Some (p, b) -> nth_error (pixels w h) i = Some p /\ b = Z.to_nat (bin w h data threshold n_bins p).
Proof. rewrite nth_error_map. destruct (nth_error (pixels w h) i); cbn; [|discriminate]. intros E. injection E as -> <-. auto. Qed.
Lemma pts_pixels : map (pts st) (seq 0 (length (pixels w h))) = pixels w h.
Proof.
  apply (nth_ext _ _ (0, 0)%Z (0, 0)%Z); [rewrite map_length, seq_length; reflexivity|]. intros i B. rewrite map_length, seq_length in B. rewrite (nth_indep _ _ (pts st 0)) by (rewrite map_length, seq_length; exact B). rewrite map_nth, seq_nth by exact B. cbn [Nat.add]. destruct (nth_error (pixels w h) i) as [p|] eqn:E; [|apply nth_error_None in E; lia]. rewrite (nth_error_nth _ _ _ E). apply (good_pts _ _ filled_good i p (Z.to_nat (bin w h data threshold n_bins p))). rewrite nth_error_map, E. reflexivity.
Qed.
Lemma map_const {A B} (f : A -> B) v l : (forall a, In a l -> f a = v) -> map f l = repeat v (length l).
Proof. induction l as [|a l IH]; intros H; [reflexivity|]. cbn. rewrite H by (left; reflexivity). rewrite IH; [reflexivity|]. intros; apply H; right; assumption. Qed.

(** The seeds are the pixels in raster order, then the first pixel again, once for each pixel of the border. *)
Theorem lsx_seeds : (1 <= w)%Z -> (1 <= h)%Z -> exists l, seeds w h data threshold n_bins = l ++ repeat (0, 0)%Z (Z.to_nat (w + h - 1)) /\ StronglySorted raster l /\ forall p, In p l <-> inner w h p.
Proof.
  intros W H. exists (pixels w h). split; [|split; [apply pixels_sorted|apply pixels_in]]. unfold seeds. pose proof (pixels_length w h W H) as N. replace (Z.to_nat (w * h)) with (length (pixels w h) + Z.to_nat (w + h - 1))%nat by (apply Nat2Z.inj; rewrite Nat2Z.inj_add, N, !Z2Nat.id by nia; ring). rewrite seq_app, map_app, pts_pixels. f_equal. cbn [Nat.add]. rewrite (map_const _ (0, 0)%Z); [rewrite seq_length; reflexivity|]. intros i I. apply in_seq in I. apply (good_rest _ _ filled_good). rewrite map_length. lia.
Qed.
(** Had the pointers been followed, each pixel would have been met once, those of higher bins first. *)
Theorem lsx_chain : let order := map (pts st) (walk (count st) (sorted_next n_bins st) (start n_bins st)) in
  Permutation order (pixels w h) /\ strongest_first (fun p => IZR (bin w h data threshold n_bins p)) order.
Proof.
  cbv zeta. destruct (sorted_chain L st filled_good n_bins positive) as [LK ->]. assert (Permutation (chain L n_bins) (seq 0 (length L))) as PM.
  { apply chain_perm. intros p b I. apply in_map_iff in I as (q & E & I). injection E as -> <-. pose proof (lsx_bins n_bins p positive (proj1 (pixels_in w h p) I)). lia. }
  assert (length (chain L n_bins) = length L) as LN by (rewrite (Permutation_length PM), seq_length; reflexivity). rewrite walk_links; [|rewrite (good_count _ _ filled_good); lia|exact LK]. split.
  - eapply Permutation_trans; [apply Permutation_map; exact PM|]. rewrite map_length, pts_pixels. apply Permutation_refl.
  - intros i j p q IJ E1 E2. rewrite nth_error_map in E1, E2. destruct (nth_error (chain L n_bins) i) as [a|] eqn:A; [|discriminate]. destruct (nth_error (chain L n_bins) j) as [b|] eqn:B; [|discriminate]. injection E1 as <-. injection E2 as <-.
    assert (bin_of L b <= bin_of L a)%nat as SB.
    { clear LK PM LN. pose proof (chain_sorted L n_bins) as S. revert i j IJ A B. induction S as [|c l S IHS F]; intros i j IJ A B; [destruct i; discriminate|]. destruct j as [|j]; [lia|]. cbn [nth_error] in B. destruct i as [|i]; cbn [nth_error] in A; [|apply (IHS i j); [lia|assumption..]]. injection A as <-. rewrite Forall_forall in F. apply F. exact (nth_error_In _ _ B). }
    assert (forall k, In k (chain L n_bins) -> exists r, In r (pixels w h) /\ pts st k = r /\ bin_of L k = Z.to_nat (bin w h data threshold n_bins r)) as K.
    { intros k IK. apply chain_in in IK as (r & b' & E & _). pose proof (good_pts _ _ filled_good _ _ _ E) as E'. apply nth_L in E as E''. exists r. split; [exact (nth_error_In _ _ (proj1 E''))|]. split; [exact E'|]. unfold bin_of. rewrite E. apply E''. }
    destruct (K a (nth_error_In _ _ A)) as (r1 & I1 & -> & R1). destruct (K b (nth_error_In _ _ B)) as (r2 & I2 & -> & R2). rewrite R1, R2 in SB. apply IZR_le. pose proof (lsx_bins n_bins r1 positive (proj1 (pixels_in w h r1) I1)). pose proof (lsx_bins n_bins r2 positive (proj1 (pixels_in w h r2) I2)). lia.
Qed.
End Order.
End Image.

(** ** The order in which the seeds are tried is not that of the bins *)
(** Two rows of the pixels 0, 20, 220. *)
Definition picture (i : Z) : R := match (i mod 3)%Z with 0%Z => 0 | 1%Z => 20 | _ => 220 end.
Lemma picture_norms : norm_at 3 picture (0, 0)%Z = 20 /\ norm_at 3 picture (1, 0)%Z = 200.
Proof.
  unfold norm_at, modgrad, gradient, picture. cbn -[sqrt]. split.
  - replace ((20 - 0 + (20 - 0)) * (20 - 0 + (20 - 0)) + (20 - 0 - (20 - 0)) * (20 - 0 - (20 - 0))) with ((2 * 20) * (2 * 20)) by ring. replace (2 * 20 * (2 * 20) / 4) with (20 * 20) by field. apply sqrt_square. lra.
  - replace ((220 - 20 + (220 - 20)) * (220 - 20 + (220 - 20)) + (220 - 20 - (220 - 20)) * (220 - 20 - (220 - 20))) with ((2 * 200) * (2 * 200)) by ring. replace (2 * 200 * (2 * 200) / 4) with (200 * 200) by field. apply sqrt_square. lra.
Qed.
Lemma picture_max : max_grad 3 2 picture 8 = 200.
Proof.
  destruct picture_norms as [N0 N1]. unfold max_grad. change (pixels 3 2) with [(0, 0)%Z; (1, 0)%Z]. cbn [fold_left]. rewrite N0, N1. destruct (Rle_dec 20 8); [lra|]. destruct (Rle_dec 200 8); [lra|]. destruct (Rlt_dec (-1) 20); [|lra]. destruct (Rlt_dec 20 200); [reflexivity|lra].
Qed.
Lemma picture_bins : bin 3 2 picture 8 1024 (0, 0)%Z = 102%Z /\ bin 3 2 picture 8 1024 (1, 0)%Z = 1023%Z.
Proof.
  destruct picture_norms as [N0 N1]. unfold bin, bin_coef. rewrite picture_max, N0, N1. destruct (Rlt_dec 0 200) as [_|]; [|lra]. change (Z.of_nat 1024 - 1)%Z with 1023%Z. unfold trunc. split.
  - destruct (Rle_dec 0 (20 * (1023 / 200))); [|lra]. pose proof (Int_part_bounds (20 * (1023 / 200)) 102 103). destruct H; [lra|lra|lia].
  - destruct (Rle_dec 0 (200 * (1023 / 200))); [|lra]. pose proof (Int_part_bounds (200 * (1023 / 200)) 1023 1024). destruct H; [lra|lra|lia].
Qed.
(** The documented order by the bins of the gradient is not that in which regions are grown: a pixel of the lowest tenth is tried before one of the highest bin; both have an angle. *)
Theorem lsx_order_refuted : exists w h (data : Z -> R) threshold n_bins p q, (forall i, 0 <= data i <= 255) /\ 0 <= threshold /\ (0 < n_bins)%nat /\
  nth_error (seeds w h data threshold n_bins) 0 = Some p /\ nth_error (seeds w h data threshold n_bins) 1 = Some q /\ (exists t, angle w h data threshold (fst p) (snd p) = Some t) /\ (exists t, angle w h data threshold (fst q) (snd q) = Some t) /\
  (bin w h data threshold n_bins p * 10 < bin w h data threshold n_bins q)%Z /\ ~ strongest_first (fun p => IZR (bin w h data threshold n_bins p)) (seeds w h data threshold n_bins).
Proof.
  exists 3%Z, 2%Z, picture, 8, 1024%nat, (0, 0)%Z, (1, 0)%Z. destruct picture_bins as [B0 B1]. destruct picture_norms as [N0 N1].
  assert (nth_error (seeds 3 2 picture 8 1024) 0 = Some (0, 0)%Z /\ nth_error (seeds 3 2 picture 8 1024) 1 = Some (1, 0)%Z) as [S0 S1].
  { unfold seeds, filled. change (pixels 3 2) with [(0, 0)%Z; (1, 0)%Z]. cbn [map]. rewrite B0, B1. split; reflexivity. }
  split; [intros i; unfold picture; destruct (i mod 3)%Z as [|[]|]; lra|]. split; [lra|]. split; [lia|]. split; [exact S0|]. split; [exact S1|]. assert (forall x, norm_at 3 picture (x, 0)%Z > 8 -> (x =? 2)%Z = false -> exists t, angle 3 2 picture 8 x 0 = Some t) as A.
  { intros x G X. unfold angle. change (3 - 1)%Z with 2%Z. rewrite X. cbn [orb]. change (0 =? 2 - 1)%Z with false. cbv zeta. unfold norm_at in G. destruct (Rle_dec _ 8) as [F|_]; [exfalso; lra|]. destruct (gradient 3 picture (x + 0 * 3)). eauto. }
  split; [exact (A 0%Z ltac:(rewrite N0; lra) eq_refl)|]. split; [exact (A 1%Z ltac:(rewrite N1; lra) eq_refl)|]. split; [rewrite B0, B1; lia|]. intros F. specialize (F 0%nat 1%nat _ _ ltac:(lia) S0 S1). cbv beta in F. rewrite B0, B1 in F. lra.
Qed.

(** Examples: the hypotheses are met. *)
Example lsx_plane_ex : plane 5 4 (fun i => 3 * IZR (i mod 5) + 4 * IZR (i / 5) + 7) 3 4 7 /\ inner 5 4 (3, 2)%Z /\ 2 < sqrt (3 * 3 + 4 * 4).
Proof.
  split; [|split; [unfold inner; cbn; lia|]].
  - intros x y X Y. rewrite Z.mod_add, Z.mod_small, Z.div_add, Z.div_small by lia. cbn [Z.add]. ring.
  - replace (3 * 3 + 4 * 4) with (5 * 5) by ring. rewrite sqrt_square; lra.
Qed.
Example lsx_border_ex : ~ inner 5 4 (4, 2)%Z.
Proof. unfold inner. cbn. lia. Qed.

Print Assumptions lsx_gradient.
Print Assumptions lsx_plane.
Print Assumptions lsx_border.
Print Assumptions lsx_reads.
Print Assumptions lsx_bins.
Print Assumptions lsx_seeds.
Print Assumptions lsx_chain.
Print Assumptions lsx_order_refuted.
