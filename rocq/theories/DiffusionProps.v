(** C93: a step of nonlinear diffusion. *)
From Coq Require Import Reals List Bool Arith Lia Lra Permutation.
From Verif Require Import DiffusionModel DiffusionSpec.
Import ListNotations.
Local Open Scope R_scope.

(** ** Loops that write pixels *)
Lemma put_here s y x v : put s y x v y x = v.
Proof. unfold put. rewrite !Nat.eqb_refl. reflexivity. Qed.
Lemma put_value s y x v j i : put s y x v j i = if ((j =? y) && (i =? x))%nat then v else s j i.
Proof. reflexivity. Qed.
Lemma row_loop (v : nat -> R) y n : forall a s j i,
  fold_left (fun s x => put s y x (v x)) (seq a n) s j i = if ((j =? y) && ((a <=? i) && (i <? a + n)))%nat then v i else s j i.
Proof.
  induction n as [|n IH]; intros a s j i; cbn [seq fold_left].
  - replace (i <? a + 0)%nat with (negb (a <=? i)%nat); [destruct (j =? y)%nat, (a <=? i)%nat; reflexivity|]. destruct (Nat.leb_spec a i), (Nat.ltb_spec i (a + 0)); cbn; try reflexivity; lia.
  - rewrite IH, put_value. destruct (Nat.eqb_spec j y) as [->|]; cbn [andb]; [|reflexivity].
    destruct (Nat.leb_spec (S a) i), (Nat.leb_spec a i), (Nat.ltb_spec i (S a + n)), (Nat.ltb_spec i (a + S n)), (Nat.eqb_spec i a); subst; cbn [andb]; try reflexivity; lia.
Qed.
Section Step.
Variables (rows cols : nat) (L c : image) (t : R).
Let mid j i := / 2 * t * ((c j i + c j (i + 1)%nat) * (L j (i + 1)%nat - L j i) - (c j (i - 1)%nat + c j i) * (L j i - L j (i - 1)%nat) +
  (c j i + c (j + 1)%nat i) * (L (j + 1)%nat i - L j i) - (c (j - 1)%nat i + c j i) * (L j i - L (j - 1)%nat i)).
Lemma interior_value order : forall s j i, interior cols L c t order s j i = if (existsb (Nat.eqb j) order && ((1 <=? i) && (i <? 1 + (cols - 1 - 1))))%nat then mid j i else s j i.
Proof.
  induction order as [|y order IH]; intros s j i; cbn [interior fold_left existsb]; [reflexivity|]. change (fold_left _ order (interior_row cols L c t y s)) with (interior cols L c t order (interior_row cols L c t y s)).
  rewrite IH. unfold interior_row, for_range. rewrite (row_loop (mid y)). destruct (Nat.eqb_spec j y) as [->|]; cbn [andb orb]; [|reflexivity]. destruct (existsb (Nat.eqb y) order); cbn [andb]; [|reflexivity].
  destruct ((1 <=? i) && (i <? 1 + (cols - 1 - 1)))%nat; reflexivity.
Qed.
Let edge y p i := / 2 * t * ((c y i + c y (i + 1)%nat) * (L y (i + 1)%nat - L y i) - (c y (i - 1)%nat + c y i) * (L y i - L y (i - 1)%nat) + (c y i + c p i) * (L p i - L y i)).
Lemma border_row_value y p s j i : border_row cols L c t y p s j i =
  if (j =? y)%nat then
    if (i =? cols - 1)%nat then / 2 * t * (- ((c y (i - 1)%nat + c y i) * (L y i - L y (i - 1)%nat)) + (c y i + c p i) * (L p i - L y i))
    else if (i =? 0)%nat then / 2 * t * ((c y 0%nat + c y 1%nat) * (L y 1%nat - L y 0%nat) + (c y 0%nat + c p 0%nat) * (L p 0%nat - L y 0%nat))
    else if ((1 <=? i) && (i <? 1 + (cols - 1 - 1)))%nat then edge y p i else s j i
  else s j i.
Proof.
  unfold border_row, for_range. rewrite !put_value, (row_loop (edge y p)). destruct (Nat.eqb_spec j y) as [->|]; cbn [andb]; [|reflexivity]. destruct (Nat.eqb_spec i (cols - 1)) as [->|]; [reflexivity|]. reflexivity.
Qed.
Let left i := / 2 * t * ((c i 0%nat + c i 1%nat) * (L i 1%nat - L i 0%nat) + (c i 0%nat + c (i + 1)%nat 0%nat) * (L (i + 1)%nat 0%nat - L i 0%nat) - (c (i - 1)%nat 0%nat + c i 0%nat) * (L i 0%nat - L (i - 1)%nat 0%nat)).
Let right i := / 2 * t * (- ((c i (cols - 2)%nat + c i (cols - 1)%nat) * (L i (cols - 1)%nat - L i (cols - 2)%nat)) + (c i (cols - 1)%nat + c (i + 1)%nat (cols - 1)%nat) * (L (i + 1)%nat (cols - 1)%nat - L i (cols - 1)%nat) -
  (c (i - 1)%nat (cols - 1)%nat + c i (cols - 1)%nat) * (L i (cols - 1)%nat - L (i - 1)%nat (cols - 1)%nat)).
Lemma column_loop n : forall a s j i, fold_left (fun s k => put (put s k 0 (left k)) k (cols - 1) (right k)) (seq a n) s j i =
  if ((a <=? j) && (j <? a + n))%nat then (if (i =? cols - 1)%nat then right j else if (i =? 0)%nat then left j else s j i) else s j i.
Proof.
  induction n as [|n IH]; intros a s j i; cbn [seq fold_left].
  - destruct (Nat.leb_spec a j), (Nat.ltb_spec j (a + 0)); cbn; try reflexivity; lia.
  - rewrite IH, !put_value. destruct (Nat.leb_spec (S a) j), (Nat.leb_spec a j), (Nat.ltb_spec j (S a + n)), (Nat.ltb_spec j (a + S n)), (Nat.eqb_spec j a); subst; cbn [andb]; try reflexivity; lia.
Qed.
Lemma border_columns_value s j i : border_columns rows cols L c t s j i =
  if ((1 <=? j) && (j <? 1 + (rows - 1 - 1)))%nat then (if (i =? cols - 1)%nat then right j else if (i =? 0)%nat then left j else s j i) else s j i.
Proof. unfold border_columns, for_range. apply column_loop. Qed.

Lemma existsb_order order j : Permutation order (seq 1 (rows - 2)) -> existsb (Nat.eqb j) order = ((1 <=? j) && (j <? rows - 1))%nat.
Proof.
  intros P. apply eq_true_iff_eq. rewrite existsb_exists, andb_true_iff, Nat.leb_le, Nat.ltb_lt. split.
  - intros (k & I & E). apply Nat.eqb_eq in E. subst k. apply (Permutation_in _ P), in_seq in I. lia.
  - intros B. exists j. split; [|apply Nat.eqb_refl]. apply (Permutation_in _ (Permutation_sym P)), in_seq. lia.
Qed.
(** In whatever order the threads work on the rows, a step adds [stepsize] times what flows in. *)
Theorem nlx_divergence order : (2 <= rows)%nat -> (2 <= cols)%nat -> Permutation order (seq 1 (rows - 2)) ->
  exists L', nld_step rows cols L c t order = Some L' /\ forall y x, (y < rows)%nat -> (x < cols)%nat -> L' y x = L y x + t * inflow rows cols L c y x.
Proof.
  intros R K P. unfold nld_step. destruct (Nat.ltb_spec rows 2); [lia|]. destruct (Nat.ltb_spec cols 2); [lia|]. cbn [orb]. eexists. split; [reflexivity|]. intros y x Y X. cbv beta. f_equal.
  rewrite border_columns_value, !border_row_value, interior_value, (existsb_order order y P). unfold inflow, neighbours, mid, edge, left, right.
  assert (x = 0 \/ 0 < x < cols - 1 \/ x = cols - 1)%nat as CX by lia. assert (y = 0 \/ 0 < y < rows - 1 \/ y = rows - 1)%nat as CY by lia.
  destruct CX as [CX|[CX|CX]], CY as [CY|[CY|CY]];
    repeat match goal with
    | |- context [(?a <? ?b)%nat] => destruct (Nat.ltb_spec a b); [try (exfalso; lia)|try (exfalso; lia)]
    | |- context [(?a <=? ?b)%nat] => destruct (Nat.leb_spec a b); [try (exfalso; lia)|try (exfalso; lia)]
    | |- context [(?a =? ?b)%nat] => destruct (Nat.eqb_spec a b); [try (exfalso; lia)|try (exfalso; lia)]
    end; cbn [andb app map fold_right fst snd]; subst;
    try replace (rows - 2)%nat with (rows - 1 - 1)%nat by lia; try replace (cols - 2)%nat with (cols - 1 - 1)%nat by lia; cbn [Nat.add Nat.sub]; lra.
Qed.
End Step.
Print Assumptions nlx_divergence.

(** ** Sums *)
Lemma sum_ext n f g : (forall k, (k < n)%nat -> f k = g k) -> sum n f = sum n g.
Proof. induction n as [|n IH]; intros E; [reflexivity|]. cbn. rewrite IH by (intros; apply E; lia). rewrite (E n) by lia. reflexivity. Qed.
Lemma sum_plus n f g : sum n (fun k => f k + g k) = sum n f + sum n g.
Proof. induction n as [|n IH]; cbn; [lra|rewrite IH; lra]. Qed.
Lemma sum_scale n a f : sum n (fun k => a * f k) = a * sum n f.
Proof. induction n as [|n IH]; cbn; [lra|rewrite IH; lra]. Qed.
Lemma sum_zero n : sum n (fun _ => 0) = 0.
Proof. induction n as [|n IH]; cbn; [reflexivity|rewrite IH; lra]. Qed.
Lemma sum_swap n m (f : nat -> nat -> R) : sum n (fun y => sum m (fun x => f y x)) = sum m (fun x => sum n (fun y => f y x)).
Proof. induction n as [|n IH]; cbn [sum]; [rewrite sum_zero; reflexivity|]. rewrite IH, <- sum_plus. reflexivity. Qed.
(** What leaves one pixel enters the next. *)
Lemma sum_flow n (f : nat -> R) : sum n (fun x => (if (x + 1 <? n)%nat then f x else 0) - (if (0 <? x)%nat then f (x - 1)%nat else 0)) = 0.
Proof.
  assert (forall m, (m <= n)%nat -> sum m (fun x => (if (x + 1 <? n)%nat then f x else 0) - (if (0 <? x)%nat then f (x - 1)%nat else 0)) = if (m =? 0)%nat then 0 else if (m <? n)%nat then f (m - 1)%nat else 0) as E.
  { intros m. induction m as [|m IH]; intros M; [reflexivity|]. cbn [sum]. rewrite IH by lia. replace (S m - 1)%nat with m by lia. change (S m =? 0)%nat with false. cbv iota. replace (m + 1)%nat with (S m) by lia.
    destruct (Nat.eqb_spec m 0) as [e|]; [clear IH; subst m; change (0 <? 0)%nat with false; cbv iota; lra|]. destruct (Nat.ltb_spec m n); [|lia]. destruct (Nat.ltb_spec 0 m); [|lia]. lra. }
  rewrite (E n (Nat.le_refl n)). rewrite Nat.ltb_irrefl. destruct (n =? 0)%nat; reflexivity.
Qed.
Lemma inflow_split rows cols L c y x : inflow rows cols L c y x =
  ((if (x + 1 <? cols)%nat then (c y x + c y (x + 1)%nat) / 2 * (L y (x + 1)%nat - L y x) else 0) - (if (0 <? x)%nat then (c y (x - 1)%nat + c y (x - 1 + 1)%nat) / 2 * (L y (x - 1 + 1)%nat - L y (x - 1)%nat) else 0)) +
  ((if (y + 1 <? rows)%nat then (c y x + c (y + 1)%nat x) / 2 * (L (y + 1)%nat x - L y x) else 0) - (if (0 <? y)%nat then (c (y - 1)%nat x + c (y - 1 + 1)%nat x) / 2 * (L (y - 1 + 1)%nat x - L (y - 1)%nat x) else 0)).
Proof.
  unfold inflow, neighbours. destruct (Nat.ltb_spec 0 x), (Nat.ltb_spec 0 y); try replace (x - 1 + 1)%nat with x by lia; try replace (y - 1 + 1)%nat with y by lia;
    destruct (x + 1 <? cols)%nat, (y + 1 <? rows)%nat; cbn [app map fold_right fst snd]; lra.
Qed.
Lemma total_inflow rows cols L c : total rows cols (inflow rows cols L c) = 0.
Proof.
  unfold total. rewrite (sum_ext rows _ (fun y => sum cols (fun x => (if (x + 1 <? cols)%nat then (c y x + c y (x + 1)%nat) / 2 * (L y (x + 1)%nat - L y x) else 0) - (if (0 <? x)%nat then (c y (x - 1)%nat + c y (x - 1 + 1)%nat) / 2 * (L y (x - 1 + 1)%nat - L y (x - 1)%nat) else 0)) +
     sum cols (fun x => (if (y + 1 <? rows)%nat then (c y x + c (y + 1)%nat x) / 2 * (L (y + 1)%nat x - L y x) else 0) - (if (0 <? y)%nat then (c (y - 1)%nat x + c (y - 1 + 1)%nat x) / 2 * (L (y - 1 + 1)%nat x - L (y - 1)%nat x) else 0)))).
  2:{ intros y _. rewrite <- sum_plus. apply sum_ext. intros x _. apply inflow_split. }
  rewrite sum_plus, (sum_swap rows cols (fun y x => (if (y + 1 <? rows)%nat then (c y x + c (y + 1)%nat x) / 2 * (L (y + 1)%nat x - L y x) else 0) - (if (0 <? y)%nat then (c (y - 1)%nat x + c (y - 1 + 1)%nat x) / 2 * (L (y - 1 + 1)%nat x - L (y - 1)%nat x) else 0))).
  rewrite (sum_ext rows _ (fun _ => 0)) by (intros y _; apply (sum_flow cols (fun x => (c y x + c y (x + 1)%nat) / 2 * (L y (x + 1)%nat - L y x)))).
  rewrite (sum_ext cols _ (fun _ => 0)) by (intros x _; apply (sum_flow rows (fun y => (c y x + c (y + 1)%nat x) / 2 * (L (y + 1)%nat x - L y x)))). rewrite !sum_zero. lra.
Qed.
(** A step keeps the total brightness. *)
Theorem nlx_conserves rows cols L c t order L' : (2 <= rows)%nat -> (2 <= cols)%nat -> Permutation order (seq 1 (rows - 2)) -> nld_step rows cols L c t order = Some L' -> total rows cols L' = total rows cols L.
Proof.
  intros R K P E. destruct (nlx_divergence rows cols L c t order R K P) as (L2 & E2 & V). rewrite E in E2. injection E2 as <-. unfold total.
  rewrite (sum_ext rows _ (fun y => sum cols (fun x => L y x) + t * sum cols (fun x => inflow rows cols L c y x))).
  2:{ intros y Y. rewrite (sum_ext cols _ (fun x => L y x + t * inflow rows cols L c y x)) by (intros x X; apply V; assumption). rewrite sum_plus, sum_scale. reflexivity. }
  rewrite sum_plus, sum_scale. pose proof (total_inflow rows cols L c) as Z. unfold total in Z. rewrite Z. lra.
Qed.
Print Assumptions nlx_conserves.
(** With conductivities from 0 to 1 and a step of at most 1/4, a new value lies between the least and greatest of the pixel and its neighbours. *)
Theorem nlx_bounded rows cols L c t order L' lo hi y x : (2 <= rows)%nat -> (2 <= cols)%nat -> Permutation order (seq 1 (rows - 2)) -> within rows cols 0 1 c -> 0 <= t <= / 4 ->
  nld_step rows cols L c t order = Some L' -> (y < rows)%nat -> (x < cols)%nat -> lo <= L y x <= hi -> (forall q, In q (neighbours rows cols y x) -> lo <= L (fst q) (snd q) <= hi) -> lo <= L' y x <= hi.
Proof.
  intros R K P C T E Y X B N. destruct (nlx_divergence rows cols L c t order R K P) as (L2 & E2 & V). rewrite E in E2. injection E2 as <-. rewrite (V y x Y X). unfold inflow.
  assert (forall q, In q (neighbours rows cols y x) -> (fst q < rows)%nat /\ (snd q < cols)%nat) as I.
  { intros q Q. unfold neighbours in Q. destruct (Nat.ltb_spec (x + 1) cols), (Nat.ltb_spec 0 x), (Nat.ltb_spec (y + 1) rows), (Nat.ltb_spec 0 y); cbn [app In] in Q; repeat (destruct Q as [<-|Q]; [cbn; lia|]); contradiction. }
  assert (length (neighbours rows cols y x) <= 4)%nat as LE by (unfold neighbours; destruct (x + 1 <? cols)%nat, (0 <? x)%nat, (y + 1 <? rows)%nat, (0 <? y)%nat; cbn; lia).
  revert N I LE. generalize (neighbours rows cols y x) as ns. intros ns N I LE.
  assert (INR (length ns) * (lo - L y x) <= fold_right Rplus 0 (map (fun q => (c y x + c (fst q) (snd q)) / 2 * (L (fst q) (snd q) - L y x)) ns) <= INR (length ns) * (hi - L y x)) as F.
  { clear LE. induction ns as [|q ns IH]; [cbn; lra|]. destruct IH as [A1 A2]; [intros; apply N; right; assumption|intros; apply I; right; assumption|].
    cbn [map fold_right length]. rewrite S_INR. pose proof (N q (or_introl eq_refl)) as NQ. destruct (I q (or_introl eq_refl)) as [I1 I2]. pose proof (C _ _ I1 I2) as CQ. pose proof (C y x Y X) as CP.
    assert (0 <= (c y x + c (fst q) (snd q)) / 2 <= 1) as W by lra. set (w := (c y x + c (fst q) (snd q)) / 2) in *. set (d := L (fst q) (snd q) - L y x).
    assert (lo - L y x <= w * d <= hi - L y x); [|lra]. assert (lo - L y x <= d <= hi - L y x) by (unfold d; lra). split; nra. }
  assert (0 <= INR (length ns) <= 4) as G. { split; [apply pos_INR|]. apply le_INR in LE. replace 4 with (INR 4) by (cbn; lra). exact LE. }
  set (S := fold_right Rplus 0 _) in *. destruct F as [F1 F2]. assert (- (4 * (L y x - lo)) <= S <= 4 * (hi - L y x)) by nra. split; nra.
Qed.
Print Assumptions nlx_bounded.
(** So the whole image stays in its range. *)
Corollary nlx_range rows cols L c t order L' lo hi : (2 <= rows)%nat -> (2 <= cols)%nat -> Permutation order (seq 1 (rows - 2)) -> within rows cols 0 1 c -> 0 <= t <= / 4 ->
  nld_step rows cols L c t order = Some L' -> within rows cols lo hi L -> within rows cols lo hi L'.
Proof.
  intros R K P C T E W y x Y X. apply (nlx_bounded rows cols L c t order L' lo hi y x R K P C T E Y X (W y x Y X)). intros q Q. assert ((fst q < rows)%nat /\ (snd q < cols)%nat) as [Q1 Q2]; [|exact (W _ _ Q1 Q2)].
  unfold neighbours in Q. destruct (Nat.ltb_spec (x + 1) cols), (Nat.ltb_spec 0 x), (Nat.ltb_spec (y + 1) rows), (Nat.ltb_spec 0 y); cbn [app In] in Q; repeat (destruct Q as [<-|Q]; [cbn; lia|]); contradiction.
Qed.
Print Assumptions nlx_range.
Example nlx_range_ex : Permutation [2; 1]%nat (seq 1 (4 - 2)) /\ within 4 3 0 1 (fun _ _ => 1) /\ 0 <= / 4 <= / 4 /\ exists L', nld_step 4 3 (fun y x => INR (y + x)) (fun _ _ => 1) (/ 4) [2; 1]%nat = Some L'.
Proof. split; [apply perm_swap|]. split; [intros y x _ _; lra|]. split; [lra|]. eexists. reflexivity. Qed.
(** A quarter is the limit: with every larger step the value of a bright pixel on dark ground becomes negative. *)
Theorem nlx_limit t : / 4 < t -> exists L L', within 3 3 0 1 L /\ nld_step 3 3 L (fun _ _ => 1) t [1%nat] = Some L' /\ L' 1%nat 1%nat < 0.
Proof.
  intros T. set (L := fun y x : nat => if ((y =? 1) && (x =? 1))%nat then 1 else 0). destruct (nlx_divergence 3 3 L (fun _ _ => 1) t [1%nat]) as (L' & E & V); [lia|lia|reflexivity|].
  exists L, L'. split; [intros y x _ _; unfold L; destruct ((y =? 1) && (x =? 1))%nat; lra|]. split; [exact E|]. rewrite (V 1%nat 1%nat) by lia. cbn. unfold L. cbn. lra.
Qed.
Print Assumptions nlx_limit.

(** ** Conductivities *)
(** For a contrast other than 0 all four are from 0 to 1, and are 1 where the image is flat. *)
Theorem nlx_conductivity k lx ly : k <> 0 -> 0 <= pm_g1 k lx ly <= 1 /\ 0 <= pm_g2 k lx ly <= 1 /\ 0 <= weickert k lx ly <= 1 /\ 0 <= charbonnier k lx ly <= 1.
Proof.
  intros K. assert (0 < k * k) as KK by nra. assert (0 <= 1 / (k * k) * (lx * lx + ly * ly)) as G. { apply Rmult_le_pos; [|nra]. unfold Rdiv. rewrite Rmult_1_l. left. apply Rinv_0_lt_compat, KK. }
  unfold pm_g1, pm_g2, weickert, charbonnier. set (g := 1 / (k * k) * (lx * lx + ly * ly)) in *. replace (- (1 / (k * k)) * (lx * lx + ly * ly)) with (- g) by (unfold g; lra).
  assert (forall z, 0 <= z -> 0 < exp (- z) <= 1) as X. { intros z Z. split; [apply exp_pos|]. rewrite <- exp_0. destruct Z as [Z|<-]; [left; apply exp_increasing; lra|rewrite Ropp_0; lra]. }
  assert (forall z, 1 <= z -> 0 <= 1 / z <= 1) as D. { intros z Z. unfold Rdiv. rewrite Rmult_1_l. split; [left; apply Rinv_0_lt_compat; lra|]. rewrite <- Rinv_1. apply Rinv_le_contravar; lra. }
  split; [specialize (X g G); lra|]. split; [apply D; lra|]. split.
  - destruct (Req_EM_T g 0); [lra|]. replace (- (3315 / 1000) / (g * g * g * g)) with (- (3315 / 1000 / (g * g * g * g))) by (unfold Rdiv; lra).
    assert (0 <= 3315 / 1000 / (g * g * g * g)) as Z. { apply Rmult_le_pos; [lra|]. left. apply Rinv_0_lt_compat. assert (0 < g) by lra. clearbody g. repeat apply Rmult_lt_0_compat; assumption. }
    specialize (X _ Z). lra.
  - apply D. rewrite <- sqrt_1 at 1. apply sqrt_le_1_alt. lra.
Qed.
Print Assumptions nlx_conductivity.
Theorem nlx_flat k : k <> 0 -> pm_g1 k 0 0 = 1 /\ pm_g2 k 0 0 = 1 /\ weickert k 0 0 = 1 /\ charbonnier k 0 0 = 1.
Proof.
  intros K. unfold pm_g1, pm_g2, weickert, charbonnier. replace (0 * 0 + 0 * 0) with 0 by lra. rewrite !Rmult_0_r, exp_0, Rplus_0_r, sqrt_1. destruct (Req_EM_T 0 0); lra.
Qed.
Print Assumptions nlx_flat.
