(** C97: keypoints of the KAZE scale space. *)
From Coq Require Import ZArith QArith Reals List Bool Lia Lra.
From Verif Require Import ExtremaModel ExtremaSpec.
Import ListNotations.
Local Open Scope Z_scope.

Lemma range_in a b k : In k (range a b) <-> a <= k <= b.
Proof.
  unfold range. rewrite in_map_iff. split.
  - intros (n & <- & I). apply in_seq in I. lia.
  - intros B. exists (Z.to_nat (k - a)). split; [lia|]. apply in_seq. lia.
Qed.
Section Search.
Variables (levels : nat) (height width dthreshold : Z) (Ldet : nat -> Z -> Z -> Z) (esigma : nat -> Q).
Let find := find_extremum height width dthreshold Ldet.
Let add := add_extremum height width esigma.
Lemma check_spec img value row col same : 1 <= row <= height - 2 -> 1 <= col <= width - 2 ->
  check_maximum height width img 1 value row col same = true <-> forall dy dx, Z.abs dy <= 1 -> Z.abs dx <= 1 -> (same = true -> dy <> 0 \/ dx <> 0) -> img (row + dy) (col + dx) <= value.
Proof.
  intros R C. unfold check_maximum. rewrite forallb_forall. split.
  - intros H dy dx Y X S. specialize (H (row + dy)). rewrite range_in in H. specialize (H ltac:(lia)). rewrite forallb_forall in H. specialize (H (col + dx)). rewrite range_in in H. specialize (H ltac:(lia)).
    destruct (Z.leb_spec 0 (row + dy)); [|lia]. destruct (Z.ltb_spec (row + dy) height); [|lia]. destruct (Z.leb_spec 0 (col + dx)); [|lia]. destruct (Z.ltb_spec (col + dx) width); [|lia]. cbn [andb] in H.
    assert (negb (value <? img (row + dy) (col + dx)) = true) as G; [|apply negb_true_iff, Z.ltb_ge in G; exact G]. destruct same; [|exact H]. destruct (Z.eqb_spec (row + dy) row), (Z.eqb_spec (col + dx) col); cbn [negb orb] in H; try exact H. destruct (S eq_refl); lia.
  - intros H i I. apply range_in in I. apply forallb_forall. intros j J. apply range_in in J. destruct ((0 <=? i) && (i <? height) && (0 <=? j) && (j <? width)); [|reflexivity].
    specialize (H (i - row) (j - col) ltac:(lia) ltac:(lia)). replace (row + (i - row)) with i in H by lia. replace (col + (j - col)) with j in H by lia. destruct same.
    + destruct (Z.eqb_spec i row), (Z.eqb_spec j col); cbn [negb orb]; try reflexivity; apply negb_true_iff, Z.ltb_ge, H; lia.
    + apply negb_true_iff, Z.ltb_ge, H. discriminate.
Qed.
(** An extremum: an interior pixel of an interior level, above the thresholds, and a local maximum. *)
Definition extremum (l : nat) (y x : Z) : Prop :=
  (1 <= l <= levels - 2)%nat /\ 1 <= y <= height - 2 /\ 1 <= x <= width - 2 /\ dthreshold < Ldet l y x /\ tiny <= Ldet l y x /\ local_maximum (fun a => Ldet (Z.to_nat a)) (Z.of_nat l) y x.
Definition point (l : nat) (y x : Z) : keypoint := Keypoint x y (Ldet l y x) l.
Let candidates := flat_map find (seq 1 (levels - 2)).
Lemma tiny_pos : 0 < tiny.
Proof. unfold tiny. pose proof (Z.div_pos (2 ^ 149) (10 ^ 5)). lia. Qed.
Lemma candidates_spec p : In p candidates <-> exists l y x, extremum l y x /\ p = point l y x.
Proof.
  pose proof tiny_pos as TP. unfold candidates. rewrite in_flat_map. split.
  - intros (l & L & I). apply in_seq in L. unfold find, find_extremum in I. apply in_flat_map in I as (y & Y & I). apply range_in in Y. apply in_flat_map in I as (x & X & I). apply range_in in X. destruct (is_extremum height width dthreshold Ldet l y x) eqn:E; [|contradiction]. destruct I as [<-|[]].
    exists l, y, x. unfold is_extremum in E. rewrite !andb_true_iff in E. destruct E as (((((E1 & E2) & E3) & E4) & E5) & E6). apply Z.ltb_lt in E1. apply Z.leb_le in E2. rewrite check_spec in E4, E5, E6 by lia. split; [|unfold point; rewrite Z.abs_eq by lia; reflexivity].
    split; [lia|]. split; [lia|]. split; [lia|]. split; [exact E1|]. split; [exact E2|]. intros dl dy dx DL DY DX. rewrite Nat2Z.id. assert (dl = - 1 \/ dl = 0 \/ dl = 1) as [->|[->| ->]] by lia.
    + replace (Z.to_nat (Z.of_nat l + -1)) with (l - 1)%nat by lia. apply E5; [exact DY|exact DX|discriminate].
    + replace (Z.to_nat (Z.of_nat l + 0)) with l by lia. destruct (Z.eq_dec dy 0) as [->|NY]; [destruct (Z.eq_dec dx 0) as [->|NX]; [rewrite !Z.add_0_r; lia|]|]; apply E4; auto.
    + replace (Z.to_nat (Z.of_nat l + 1)) with (l + 1)%nat by lia. apply E6; [exact DY|exact DX|discriminate].
  - intros (l & y & x & (L & Y & X & T1 & T2 & M) & ->). exists l. split; [apply in_seq; lia|]. unfold find, find_extremum. apply in_flat_map. exists y. split; [apply range_in; lia|]. apply in_flat_map. exists x. split; [apply range_in; lia|].
    assert (is_extremum height width dthreshold Ldet l y x = true) as ->; [|left; unfold point; rewrite Z.abs_eq by lia; reflexivity]. unfold is_extremum. rewrite !andb_true_iff. unfold local_maximum in M. rewrite Nat2Z.id in M. repeat split.
    + apply Z.ltb_lt, T1.
    + apply Z.leb_le, T2.
    + apply Z.leb_le. specialize (M 0 0 (- 1)). rewrite Z.add_0_r, Nat2Z.id, Z.add_0_r in M. replace (x - 1) with (x + - 1) by lia. apply M; lia.
    + apply check_spec; [lia|lia|]. intros dy dx DY DX _. specialize (M 0 dy dx). rewrite Z.add_0_r, Nat2Z.id in M. apply M; lia.
    + apply check_spec; [lia|lia|]. intros dy dx DY DX _. specialize (M (- 1) dy dx). replace (Z.to_nat (Z.of_nat l + -1)) with (l - 1)%nat in M by lia. apply M; lia.
    + apply check_spec; [lia|lia|]. intros dy dx DY DX _. specialize (M 1 dy dx). replace (Z.to_nat (Z.of_nat l + 1)) with (l + 1)%nat in M by lia. apply M; lia.
Qed.
(** ** The loop over the extrema *)
Lemma assign_in i p kpts k : In k (assign i p kpts) -> k = p \/ In k kpts.
Proof. revert i. induction kpts as [|a kpts IH]; intros [|i]; cbn [assign In]; [tauto|tauto|intuition|]. intros [H|H]; [auto|]. destruct (IH i H); auto. Qed.
Lemma assign_keeps i p kpts k : In k kpts -> In k (assign i p kpts) \/ nth_error kpts i = Some k.
Proof. revert i. induction kpts as [|a kpts IH]; intros [|i]; cbn [assign In nth_error]; [tauto|tauto| |].
  - intros [->|H]; auto.
  - intros [->|H]; [auto|]. destruct (IH i H); auto.
Qed.
Lemma assign_new i p kpts k : nth_error kpts i = Some k -> In p (assign i p kpts).
Proof. revert i. induction kpts as [|a kpts IH]; intros [|i]; cbn [assign In nth_error]; [discriminate|discriminate|auto|]. intros E. right. exact (IH i E). Qed.
Lemma first_close_spec p kpts : forall ik0 ik k, first_close esigma p ik0 kpts = Some (ik, k) -> (ik0 <= ik)%nat /\ nth_error kpts (ik - ik0) = Some k /\ close esigma p k = true.
Proof.
  induction kpts as [|a kpts IH]; intros ik0 ik k E; cbn [first_close] in E; [discriminate|]. destruct (close esigma p a) eqn:CL.
  - injection E as <- <-. rewrite Nat.sub_diag. auto.
  - apply IH in E as (A & B & C). split; [lia|]. split; [|exact C]. replace (ik - ik0)%nat with (S (ik - S ik0)) by lia. exact B.
Qed.
Lemma first_close_none p kpts : forall ik0, first_close esigma p ik0 kpts = None -> forall k, In k kpts -> close esigma p k = false.
Proof. induction kpts as [|a kpts IH]; intros ik0 E k I; [contradiction|]. cbn [first_close] in E. destruct (close esigma p a) eqn:CL; [discriminate|]. destruct I as [<-|I]; [exact CL|exact (IH _ E k I)]. Qed.
(** Near each other, as measured by the scale of one of them. *)
Definition near (p q : keypoint) : Prop := (Z.abs (Z.of_nat (level p) - Z.of_nat (level q)) <= 1) /\
  (squared_distance (kx p) (ky p) (kx q) (ky q) < sigma_size esigma (level p) * sigma_size esigma (level p) \/ squared_distance (kx p) (ky p) (kx q) (ky q) < sigma_size esigma (level q) * sigma_size esigma (level q)).
Lemma close_near p k : close esigma p k = true -> near p k /\ near k p.
Proof.
  unfold close, near, squared_distance. rewrite andb_true_iff, !orb_true_iff, !Nat.eqb_eq, Z.ltb_lt. intros [L D]. split; split; lia.
Qed.
Lemma add_cases kpts p : (first_close esigma p 0 kpts = None /\ add kpts p = kpts ++ [p]) \/ (exists ik k, nth_error kpts ik = Some k /\ close esigma p k = true /\ response k < response p /\ add kpts p = assign ik p kpts) \/
  (exists k, In k kpts /\ close esigma p k = true /\ response p <= response k /\ add kpts p = kpts).
Proof.
  unfold add, add_extremum. destruct (first_close esigma p 0 kpts) as [[ik k]|] eqn:F; [|left; auto]. apply first_close_spec in F as (_ & N & C). rewrite Nat.sub_0_r in N. right. destruct (Z.ltb_spec (response k) (response p)).
  - left. exists ik, k. auto.
  - right. exists k. split; [apply (nth_error_In _ _ N)|]. auto.
Qed.
(** Whatever was in the vector before, the result consists of it and of extrema. *)
Lemma fold_sound l : forall kpts k, In k (fold_left add l kpts) -> In k kpts \/ In k l.
Proof.
  induction l as [|p l IH]; intros kpts k I; cbn [fold_left] in I; [auto|]. apply IH in I as [I|I]; [|right; right; exact I]. destruct (add_cases kpts p) as [[_ E]|[(ik & k' & _ & _ & _ & E)|(k' & _ & _ & _ & E)]]; rewrite E in I.
  - apply in_app_or in I as [I|[<-|[]]]; [auto|right; left; reflexivity].
  - apply assign_in in I as [->|I]; [right; left; reflexivity|auto].
  - auto.
Qed.
Theorem xtx_sound kpts result k : detect levels height width dthreshold Ldet esigma kpts = Some result -> In k result -> In k kpts \/ exists l y x, extremum l y x /\ k = point l y x.
Proof.
  unfold detect. destruct (levels =? 0)%nat; [discriminate|]. intros [= <-] I. destruct (fold_sound _ _ _ I) as [H|H]; [auto|right]. apply candidates_spec. exact H.
Qed.
(** Every extremum is found, unless another one of at least its response is near it. *)
Lemma keypoint_dec (p q : keypoint) : {p = q} + {p <> q}.
Proof. decide equality; try apply Z.eq_dec. apply Nat.eq_dec. Qed.
Lemma fold_complete l : forall kpts p, (In p kpts \/ In p l) -> In p (fold_left add l kpts) \/ exists q, q <> p /\ In q (kpts ++ l) /\ near p q /\ response p <= response q.
Proof.
  induction l as [|q l IH]; intros kpts p I; cbn [fold_left]; [destruct I as [I|[]]; auto|].
  assert (forall x, In x (add kpts q ++ l) -> In x (kpts ++ q :: l)) as INC.
  { intros x X. apply in_or_app. apply in_app_or in X as [X|X]; [|right; right; exact X]. destruct (fold_sound [q] kpts x X) as [H|[<-|[]]]; [auto|right; left; reflexivity]. }
  assert ((In p (add kpts q) \/ In p l) \/ (exists r, r <> p /\ In r (kpts ++ q :: l) /\ near p r /\ response p <= response r)) as [H|H].
  { destruct I as [I|[->|I]]; [| |auto].
    - destruct (add_cases kpts q) as [[_ E]|[(ik & k' & N & C & R & E)|(k' & _ & _ & _ & E)]]; rewrite E; [left; left; apply in_or_app; auto| |auto].
      destruct (assign_keeps ik q kpts p I) as [A|A]; [auto|]. right. rewrite N in A. injection A as ->. exists q. split; [intros ->; lia|]. split; [apply in_or_app; right; left; reflexivity|]. split; [apply (close_near _ _ C)|lia].
    - destruct (add_cases kpts p) as [[_ E]|[(ik & k' & N & C & R & E)|(k' & K & C & R & E)]]; rewrite E; [left; left; apply in_or_app; right; left; reflexivity|left; left; apply (assign_new _ _ _ _ N)|]. destruct (keypoint_dec k' p) as [->|NE]; [auto|]. right. exists k'. split; [exact NE|]. split; [apply in_or_app; auto|]. split; [apply (close_near _ _ C)|exact R]. }
  - destruct (IH (add kpts q) p H) as [G|(r & R1 & R2 & R3)]; [auto|]. right. exists r. split; [exact R1|]. split; [apply INC, R2|exact R3].
  - auto.
Qed.
Theorem xtx_complete kpts result l y x : detect levels height width dthreshold Ldet esigma kpts = Some result -> extremum l y x ->
  In (point l y x) result \/ exists q, q <> point l y x /\ (In q kpts \/ exists l' y' x', extremum l' y' x' /\ q = point l' y' x') /\ near (point l y x) q /\ Ldet l y x <= response q.
Proof.
  unfold detect. destruct (levels =? 0)%nat; [discriminate|]. intros [= <-] E. assert (In (point l y x) candidates) as I by (apply candidates_spec; eauto). destruct (fold_complete candidates kpts (point l y x) (or_intror I)) as [H|(q & NE & Q & N & R)]; [auto|]. right. exists q. split; [exact NE|]. split; [|auto]. apply in_app_or in Q as [Q|Q]; [auto|right; apply candidates_spec, Q].
Qed.
End Search.
Print Assumptions xtx_sound.
Print Assumptions xtx_complete.

(** ** Examples: the levels 5 and 6 of the default options (sigma 1.6 * 2^(5/4) and 1.6 * 2^(6/4), rounded) *)
Definition sigma_ex (l : nat) : Q := if (l =? 5)%nat then 38 # 10 else if (l =? 6)%nat then 45 # 10 else 1 # 1.
Definition unit_ : Z := 2 ^ 149.
(** Two extrema four pixels apart at level 5, and a stronger one between them at level 6. *)
Definition det_ex (l : nat) (y x : Z) : Z :=
  if (l =? 5)%nat && (y =? 5) && ((x =? 3) || (x =? 7)) then unit_ else if (l =? 6)%nat && (y =? 5) && (x =? 5) then 2 * unit_ else 0.
Example xtx_ex : detect 16 11 11 1 det_ex sigma_ex [] = Some [Keypoint 5 5 (2 * unit_) 6; Keypoint 7 5 unit_ 5].
Proof. vm_compute. reflexivity. Qed.
(** The stronger one replaces only the first of the two: both remaining keypoints are at adjacent levels and closer than the scale of either. *)
Theorem xtx_separate_refuted : exists levels h w t D s result a b, detect levels h w t D s [] = Some result /\ In a result /\ In b result /\ a <> b /\ response a < response b /\
  near s a b /\ squared_distance (kx a) (ky a) (kx b) (ky b) < sigma_size s (level a) * sigma_size s (level a).
Proof.
  exists 16%nat, 11, 11, 1, det_ex, sigma_ex, [Keypoint 5 5 (2 * unit_) 6; Keypoint 7 5 unit_ 5], (Keypoint 7 5 unit_ 5), (Keypoint 5 5 (2 * unit_) 6).
  split; [exact xtx_ex|]. split; [right; left; reflexivity|]. split; [left; reflexivity|]. split; [discriminate|]. split; [reflexivity|]. split; [|reflexivity]. split; [cbn; lia|]. left. reflexivity.
Qed.
Print Assumptions xtx_separate_refuted.
(** Keypoints whose surroundings of three times the scale leave the image are kept: the result of the check is overwritten. *)
Definition corner_ex (l : nat) (y x : Z) : Z := if (l =? 6)%nat && (y =? 1) && (x =? 1) then unit_ else 0.
Theorem xtx_border_refuted : exists levels h w t D s result k, detect levels h w t D s [] = Some result /\ In k result /\ outside h w s k = true /\ Qlt (inject_Z (kx k) - 3 * s (level k)) 0.
Proof. exists 16%nat, 11, 11, 1, corner_ex, sigma_ex, [Keypoint 1 1 unit_ 6], (Keypoint 1 1 unit_ 6). split; [vm_compute; reflexivity|]. split; [left; reflexivity|]. split; [vm_compute; reflexivity|]. vm_compute. reflexivity. Qed.
Print Assumptions xtx_border_refuted.
(** Keypoints of an earlier image that are still in the vector stay in it. *)
Theorem xtx_stale_refuted : exists levels h w t s k, detect levels h w t (fun _ _ _ => 0) s [k] = Some [k] /\ (forall l y x, ~ extremum levels h w t (fun _ _ _ => 0) l y x).
Proof. exists 16%nat, 11, 11, 1, sigma_ex, (Keypoint 5 5 unit_ 6). split; [vm_compute; reflexivity|]. intros l y x (_ & _ & _ & T & _). lia. Qed.
Print Assumptions xtx_stale_refuted.

(** ** Refinement *)
Local Open Scope R_scope.
Section Refine.
Variables (f : nat -> Z -> Z -> R) (solve : list (R * R * R * R) -> option (R * R * R)) (soffset : R) (nsublevels : nat).
(** Refined keypoints are moved by at most one pixel, so those of extrema stay in the image. *)
Theorem xtx_refined_inside kpts r (height width : Z) : (forall k, In k kpts -> (1 <= kx k <= width - 2 /\ 1 <= ky k <= height - 2)%Z) -> In r (refine_all f solve soffset nsublevels kpts) ->
  0 <= rx r <= IZR (width - 1) /\ 0 <= ry r <= IZR (height - 1) /\ exists k, In k kpts /\ rlevel r = level k /\ Rabs (rx r - IZR (kx k)) <= 1 /\ Rabs (ry r - IZR (ky k)) <= 1.
Proof.
  intros B I. unfold refine_all in I. apply in_flat_map in I as (k & K & I). unfold refine in I. destruct (solve (system f (level k) (ky k) (kx k))) as [[[dx dy] ds]|]; [|contradiction]. destruct (Rle_dec (Rabs dx) 1) as [X|]; [|contradiction]. destruct (Rle_dec (Rabs dy) 1) as [Y|]; [|contradiction]. destruct (Rle_dec (Rabs ds) 1); [|contradiction]. destruct I as [<-|[]]. cbn [rx ry rlevel].
  assert (- 1 <= dx <= 1 /\ - 1 <= dy <= 1) as [X' Y'] by (unfold Rabs in X, Y; destruct (Rcase_abs dx), (Rcase_abs dy); lra). destruct (B k K) as [[B1 B2] [B3 B4]]. apply IZR_le in B1, B2, B3, B4. rewrite minus_IZR in B2, B4. rewrite !minus_IZR.
  split; [lra|]. split; [lra|]. exists k. split; [exact K|]. split; [reflexivity|]. split; [replace (IZR (kx k) + dx - IZR (kx k)) with dx by ring; exact X|replace (IZR (ky k) + dy - IZR (ky k)) with dy by ring; exact Y].
Qed.
(** Where the determinant is a quadratic function, the exact solution of the system leads to its stationary point. *)
Definition solves (rows : list (R * R * R * R)) (d : R * R * R) : Prop := let '(dx, dy, ds) := d in Forall (fun '(a, b, c, e) => a * dx + b * dy + c * ds = e) rows.
Theorem xtx_refined_stationary c gx gy gs hxx hyy hss hxy hxs hys k dx dy ds : (1 <= level k)%nat ->
  (forall l y x, f l y x = quadratic c gx gy gs hxx hyy hss hxy hxs hys (IZR x) (IZR y) (INR l)) ->
  solve (system f (level k) (ky k) (kx k)) = Some (dx, dy, ds) -> solves (system f (level k) (ky k) (kx k)) (dx, dy, ds) ->
  stationary gx gy gs hxx hyy hss hxy hxs hys (IZR (kx k) + dx) (IZR (ky k) + dy) (INR (level k) + ds) /\
  (Rabs dx <= 1 -> Rabs dy <= 1 -> Rabs ds <= 1 -> (0 < nsublevels)%nat ->
   refine f solve soffset nsublevels k = Some (Refined (IZR (kx k) + dx) (IZR (ky k) + dy) (2 * soffset * Rpower 2 ((INR (level k) + ds) / INR nsublevels)) (level k))).
Proof.
  intros L Q S E. split.
  - unfold solves, system in E. inversion E as [|? ? E1 E']; subst. inversion E' as [|? ? E2 E'']; subst. inversion E'' as [|? ? E3 _]; subst. clear E E' E''.
    unfold Dx, Dy, Ds, Dxx, Dyy, Dss, Dxy, Dxs, Dys in E1, E2, E3. rewrite !Q in E1, E2, E3. clear Q S. destruct k as [x y r l]. cbn [level kx ky] in *. rewrite !plus_INR in E1, E2, E3. rewrite !minus_INR in E1, E2, E3 by exact L. rewrite !plus_IZR, !minus_IZR in E1, E2, E3. change (INR 1) with 1 in *. unfold quadratic in E1, E2, E3. unfold stationary.
    generalize dependent (IZR x). intros X. generalize dependent (IZR y). intros Y. generalize dependent (INR l). intros W. intros E1 E2 E3.
    split; [|split].
    + apply Rminus_diag_eq in E1. rewrite <- E1. field.
    + apply Rminus_diag_eq in E2. rewrite <- E2. field.
    + apply Rminus_diag_eq in E3. rewrite <- E3. field.
  - intros X Y W N. unfold refine. rewrite S. destruct (Rle_dec (Rabs dx) 1); [|contradiction]. destruct (Rle_dec (Rabs dy) 1); [|contradiction]. destruct (Rle_dec (Rabs ds) 1); [|contradiction]. f_equal. f_equal. f_equal. f_equal.
    assert (0 < INR nsublevels) as P by (apply lt_0_INR, N). pose proof (Nat.div_mod (level k) nsublevels ltac:(lia)) as DM. apply (f_equal INR) in DM. rewrite plus_INR, mult_INR in DM. rewrite DM. field. lra.
Qed.
(** Keypoints without solution, or whose solution is farther than one pixel or one level, are removed. *)
Theorem xtx_refined_removed k : (forall dx dy ds, solve (system f (level k) (ky k) (kx k)) = Some (dx, dy, ds) -> 1 < Rabs dx \/ 1 < Rabs dy \/ 1 < Rabs ds) <-> refine_all f solve soffset nsublevels [k] = [].
Proof.
  unfold refine_all, refine. cbn [flat_map]. rewrite app_nil_r. destruct (solve (system f (level k) (ky k) (kx k))) as [[[dx dy] ds]|]; [|split; [reflexivity|discriminate]]. split.
  - intros H. specialize (H _ _ _ eq_refl). destruct (Rle_dec (Rabs dx) 1); [|reflexivity]. destruct (Rle_dec (Rabs dy) 1); [|reflexivity]. destruct (Rle_dec (Rabs ds) 1); [lra|reflexivity].
  - destruct (Rle_dec (Rabs dx) 1); [|intros _ ? ? ? [= <- <- <-]; lra]. destruct (Rle_dec (Rabs dy) 1); [|intros _ ? ? ? [= <- <- <-]; lra]. destruct (Rle_dec (Rabs ds) 1); [discriminate|intros _ ? ? ? [= <- <- <-]; lra].
Qed.
End Refine.
Print Assumptions xtx_refined_inside.
Print Assumptions xtx_refined_stationary.
Print Assumptions xtx_refined_removed.
(** A concrete case: the maximum of -(x - 5.5)^2 - (y - 5)^2 - (s - 6)^2 seen from the pixel (5, 5) of level 6. *)
Example xtx_refine_ex : let f l y x := quadratic (- (5.5 * 5.5) - 25 - 36) 11 10 12 (-2) (-2) (-2) 0 0 0 (IZR x) (IZR y) (INR l) in
  let solve _ := Some (0.5, 0, 0) in solves (system f 6 5 5) (0.5, 0, 0) /\ refine f solve 1.6 4 (Keypoint 5 5 1 6) = Some (Refined 5.5 5 (2 * 1.6 * Rpower 2 1.5) 6).
Proof.
  cbv zeta. split.
  - unfold solves, system. repeat constructor; unfold Dx, Dy, Ds, Dxx, Dyy, Dss, Dxy, Dxs, Dys, quadratic; cbn [Nat.add Nat.sub Z.add Z.sub Z.opp Z.pos_sub Pos.add Pos.succ Pos.pred_double]; rewrite ?INR_IZR_INZ; cbn [Z.of_nat Pos.of_succ_nat Pos.succ]; lra.
  - unfold refine. destruct (Rle_dec (Rabs 0.5) 1) as [|N]; [|exfalso; apply N; rewrite Rabs_right; lra]. destruct (Rle_dec (Rabs 0) 1) as [|N]; [|exfalso; apply N; rewrite Rabs_R0; lra]. cbn [kx ky level]. f_equal. f_equal; [lra|lra|]. f_equal. f_equal. change (6 / 4)%nat with 1%nat. change (6 mod 4)%nat with 2%nat. rewrite !INR_IZR_INZ. cbn [Z.of_nat Pos.of_succ_nat Pos.succ]. lra.
Qed.
