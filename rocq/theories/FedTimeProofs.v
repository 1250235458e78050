(** Sums and products of the step sizes. *)
From Coq Require Import Reals List Bool Arith ZArith Lia Lra Permutation.
From Verif Require Import DiffusionModel DiffusionSpec DiffusionProps FedTimeSpec.
Import ListNotations.
Local Open Scope R_scope.

(** ** Sums of cosines *)
Lemma sum_telescope n (f : nat -> R) : sum n (fun k => f (S k) - f k) = f n - f 0%nat.
Proof. induction n as [|n IH]; cbn [sum]; [lra|rewrite IH; lra]. Qed.
Lemma sum_parts n (a c : nat -> R) : sum n (fun m => a (S m) * (2 * c (S m) - c (S (S m)) - c m)) =
  sum n (fun m => c (S m) * (2 * a (S m) - a m - a (S (S m)))) + (a (S n) * c n - a n * c (S n)) + (a 0%nat * c 1%nat - a 1%nat * c 0%nat).
Proof. induction n as [|n IH]; cbn [sum]; [ring|rewrite IH; ring]. Qed.
Lemma sin_int_PI j : sin (2 * INR j * PI) = 0 /\ cos (2 * INR j * PI) = 1.
Proof.
  split.
  - pose proof (sin_period 0 j) as P. rewrite Rplus_0_l, sin_0 in P. exact P.
  - pose proof (cos_period 0 j) as P. rewrite Rplus_0_l, cos_0 in P. exact P.
Qed.
(** The angles 2 pi j / N. *)
Section Angles.
Variables (N j : nat).
Hypotheses (J : (0 < j < N)%nat).
Let half := PI * INR j / INR N.
Let th := 2 * half.
Lemma N_pos : 0 < INR N.
Proof. apply lt_0_INR. lia. Qed.
Lemma half_sin : 0 < sin half.
Proof.
  pose proof PI_RGT_0. pose proof N_pos. assert (0 < INR j) by (apply lt_0_INR; lia). assert (INR j < INR N) by (apply lt_INR; lia). unfold half. apply sin_gt_0.
  - apply Rdiv_lt_0_compat; [apply Rmult_lt_0_compat; assumption|assumption].
  - apply Rmult_lt_reg_r with (INR N); [assumption|]. unfold Rdiv. rewrite Rmult_assoc, Rinv_l by lra. nra.
Qed.
Lemma th_period : INR N * th = 2 * INR j * PI.
Proof. pose proof N_pos. unfold th, half. field. lra. Qed.
Lemma sum_cos : sum (N - 1) (fun m => cos (INR (S m) * th)) = - 1.
Proof.
  pose proof half_sin as HS. apply Rmult_eq_reg_l with (2 * sin half); [|lra]. rewrite <- sum_scale.
  rewrite (sum_ext _ _ (fun m => (fun m => sin (INR m * th + half)) (S m) - (fun m => sin (INR m * th + half)) m)).
  2:{ intros m _. cbv beta. rewrite S_INR. replace (INR m * th + half) with ((INR m + 1) * th - half) by (unfold th; ring). rewrite sin_minus, sin_plus. ring. }
  rewrite (sum_telescope (N - 1) (fun m => sin (INR m * th + half))). cbn [INR]. rewrite minus_INR by lia. cbn [INR]. replace ((INR N - 1) * th + half) with (2 * INR j * PI - half) by (rewrite <- th_period; unfold th; ring).
  rewrite sin_minus. destruct (sin_int_PI j) as [-> ->]. replace (0 * th + half) with half by ring. ring.
Qed.
Lemma sum_weighted : sum (N - 1) (fun m => INR (S m) * (INR N - INR (S m)) * cos (INR (S m) * th)) = - INR N / 2 * / (sin half * sin half).
Proof.
  pose proof half_sin as HS. assert (2 - 2 * cos th = 4 * (sin half * sin half)) as D. { unfold th. rewrite cos_2a_sin. ring. }
  apply Rmult_eq_reg_l with (2 - 2 * cos th); [|rewrite D; nra]. rewrite <- sum_scale.
  rewrite (sum_ext _ _ (fun m => (INR (S m) * (INR N - INR (S m))) * (2 * cos (INR (S m) * th) - cos (INR (S (S m)) * th) - cos (INR m * th)))).
  2:{ intros m _. rewrite !S_INR. replace ((INR m + 1 + 1) * th) with ((INR m + 1) * th + th) by ring. replace (INR m * th) with ((INR m + 1) * th - th) by ring. rewrite cos_plus, cos_minus. ring. }
  rewrite (sum_parts (N - 1) (fun m => INR m * (INR N - INR m)) (fun m => cos (INR m * th))).
  rewrite (sum_ext _ _ (fun m => 2 * cos (INR (S m) * th))) by (intros m _; rewrite !S_INR; ring). rewrite sum_scale, sum_cos. replace (S (N - 1)) with N by lia. cbn [INR]. rewrite minus_INR by lia. cbn [INR].
  rewrite !Rmult_0_l, cos_0, th_period. destruct (sin_int_PI j) as [_ ->]. rewrite D. field. lra.
Qed.
End Angles.
(** ** The sum of the inverse squares *)
Lemma sum_squares N : sum N (fun m => INR (S m) * (INR (S N) - INR (S m))) = (INR (S N) * INR (S N) * INR (S N) - INR (S N)) / 6.
Proof.
  assert (forall M, sum M (fun m => INR (S m) * (INR (S N) - INR (S m))) = INR (S N) * (INR M * (INR M + 1) / 2) - INR M * (INR M + 1) * (2 * INR M + 1) / 6) as E.
  { induction M as [|M IH]; cbn [sum]; [cbn; lra|]. rewrite IH, (S_INR M). field. }
  rewrite E, S_INR. field.
Qed.
Lemma sum_csc_all N : sum N (fun j => / (sin (PI * INR (S j) / INR (S N)) * sin (PI * INR (S j) / INR (S N)))) = (INR (S N) * INR (S N) - 1) / 3.
Proof.
  assert (0 < INR (S N)) as P by (apply lt_0_INR; lia). apply Rmult_eq_reg_l with (- INR (S N) / 2); [|lra]. rewrite <- sum_scale.
  rewrite (sum_ext N _ (fun j => sum N (fun m => INR (S m) * (INR (S N) - INR (S m)) * cos (INR (S m) * (2 * (PI * INR (S j) / INR (S N))))))).
  2:{ intros j J. rewrite <- (sum_weighted (S N) (S j)) by lia. replace (S N - 1)%nat with N by lia. reflexivity. }
  rewrite sum_swap. rewrite (sum_ext N _ (fun m => - 1 * (INR (S m) * (INR (S N) - INR (S m))))).
  2:{ intros m M. rewrite sum_scale. rewrite (sum_ext N _ (fun j => cos (INR (S j) * (2 * (PI * INR (S m) / INR (S N)))))).
      - pose proof (sum_cos (S N) (S m)) as C. replace (S N - 1)%nat with N in C by lia. rewrite C by lia. ring.
      - intros k _. f_equal. field. lra. }
  rewrite sum_scale, sum_squares. field.
Qed.
Lemma sum_split n m f : sum (n + m) f = sum n f + sum m (fun k => f (n + k)%nat).
Proof. induction m as [|m IH]; cbn [sum]; [rewrite Nat.add_0_r; lra|]. rewrite Nat.add_succ_r. cbn [sum]. rewrite IH. lra. Qed.
Lemma sum_first n f : sum (S n) f = f 0%nat + sum n (fun k => f (S k)).
Proof. induction n as [|n IH]; [cbn; lra|]. cbn [sum]. cbn [sum] in IH. rewrite IH. lra. Qed.
Lemma sum_reverse n f : sum n f = sum n (fun k => f (n - 1 - k)%nat).
Proof.
  induction n as [|n IH]; [reflexivity|]. rewrite (sum_first n (fun k => f (S n - 1 - k)%nat)). cbn [sum]. rewrite IH. replace (S n - 1 - 0)%nat with n by lia. rewrite Rplus_comm. f_equal. apply sum_ext. intros k K. f_equal. lia.
Qed.
Lemma sum_csc n : sum n (fun j => / (sin (PI * INR (S j) / (2 * INR n + 1)) * sin (PI * INR (S j) / (2 * INR n + 1)))) = 2 * INR n * (INR n + 1) / 3.
Proof.
  pose proof (sum_csc_all (n + n)) as A. assert (INR (S (n + n)) = 2 * INR n + 1) as E by (rewrite S_INR, plus_INR; ring). rewrite E in A. rewrite sum_split in A. pose proof (pos_INR n) as PN.
  rewrite (sum_reverse n (fun k => / (sin (PI * INR (S (n + k)) / (2 * INR n + 1)) * sin (PI * INR (S (n + k)) / (2 * INR n + 1))))) in A.
  rewrite (sum_ext n (fun k => / (sin (PI * INR (S (n + (n - 1 - k))) / (2 * INR n + 1)) * sin (PI * INR (S (n + (n - 1 - k))) / (2 * INR n + 1)))) (fun j => / (sin (PI * INR (S j) / (2 * INR n + 1)) * sin (PI * INR (S j) / (2 * INR n + 1))))) in A.
  - lra.
  - intros k K. assert (sin (PI * INR (S (n + (n - 1 - k))) / (2 * INR n + 1)) = sin (PI * INR (S k) / (2 * INR n + 1))) as ->; [|reflexivity]. rewrite <- sin_PI_x. f_equal. replace (S (n + (n - 1 - k))) with (2 * n - k)%nat by lia. rewrite minus_INR by lia. rewrite mult_INR, (S_INR k). cbn [INR]. field. lra.
Qed.

(** ** Polynomials with given roots *)
Fixpoint eval (p : list R) (y : R) : R := match p with [] => 0 | a :: q => a + y * eval q y end.
(** Division by y - r. *)
Lemma eval_divide p r : exists q, length q = (length p - 1)%nat /\ forall y, eval p y = eval p r + (y - r) * eval q y.
Proof.
  induction p as [|a p IH]; [exists []; split; [reflexivity|intros; cbn; lra]|]. destruct p as [|b p]; [exists []; split; [reflexivity|intros; cbn; lra]|].
  destruct IH as (q & Lq & E). exists (eval (b :: p) r :: q). split; [cbn [length] in *; lia|]. intros y. cbn [eval] in *. rewrite (E y). ring.
Qed.
Lemma eval_roots roots : forall p, NoDup roots -> (forall r, In r roots -> eval p r = 0) -> (length roots <= length p)%nat -> exists q, length q = (length p - length roots)%nat /\ forall y, eval p y = fold_right Rmult 1 (map (fun r => y - r) roots) * eval q y.
Proof.
  induction roots as [|r roots IH]; intros p ND Z L; [exists p; split; [cbn; lia|intros; cbn; lra]|]. cbn [length] in L. inversion_clear ND as [|? ? NI ND'].
  destruct (eval_divide p r) as (q & Lq & E). rewrite (Z r (or_introl eq_refl)) in E. destruct (IH q ND') as (s & Ls & F).
  - intros u U. pose proof (E u) as Eu. rewrite (Z u (or_intror U)) in Eu. assert (u - r <> 0) as D by (intros W; apply NI; replace r with u by lra; exact U). apply Rmult_eq_reg_l with (u - r); [lra|exact D].
  - lia.
  - exists s. split; [cbn [length]; lia|]. intros y. rewrite E, F. cbn [map fold_right]. ring.
Qed.
(** sin ((2n+1) x) as sin x times a polynomial in (sin x)^2. *)
Fixpoint add (p q : list R) : list R := match p, q with [], _ => q | _, [] => p | a :: p', b :: q' => (a + b) :: add p' q' end.
Definition scale (a : R) (p : list R) : list R := map (Rmult a) p.
Lemma eval_add p : forall q y, eval (add p q) y = eval p y + eval q y.
Proof. induction p as [|a p IH]; intros [|b q] y; cbn [add eval]; try lra. rewrite IH. ring. Qed.
Lemma eval_scale a p y : eval (scale a p) y = a * eval p y.
Proof. induction p as [|b p IH]; cbn; [lra|]. unfold scale in IH. rewrite IH. ring. Qed.
Lemma length_add p : forall q, length (add p q) = Nat.max (length p) (length q).
Proof. induction p as [|a p IH]; intros [|b q]; cbn [add length]; try lia. rewrite IH. lia. Qed.
Lemma length_scale a p : length (scale a p) = length p.
Proof. apply map_length. Qed.
(** The polynomials for n and n - 1: p' = (2 - 4 y) p - q. *)
Fixpoint sinpoly (n : nat) : list R * list R :=
  match n with
  | O => ([1], [- 1])
  | S m => let (p, q) := sinpoly m in (add (scale 2 p) (add (0 :: scale (- 4) p) (scale (- 1) q)), p)
  end.
Lemma sinpoly_spec n : (length (fst (sinpoly n)) = S n /\ length (snd (sinpoly n)) <= S n)%nat /\
  (forall x, sin ((2 * INR n + 1) * x) = sin x * eval (fst (sinpoly n)) (sin x * sin x)) /\ (forall x, sin ((2 * INR n - 1) * x) = sin x * eval (snd (sinpoly n)) (sin x * sin x)) /\
  eval (fst (sinpoly n)) 0 = 2 * INR n + 1 /\ eval (snd (sinpoly n)) 0 = 2 * INR n - 1.
Proof.
  induction n as [|n IH].
  - cbn. repeat split; try lia; try lra; intros x.
    + replace ((2 * 0 + 1) * x) with x by ring. ring.
    + replace ((2 * 0 - 1) * x) with (- x) by ring. rewrite sin_neg. ring.
  - cbn [sinpoly]. destruct (sinpoly n) as [p q]. cbn [fst snd] in *. destruct IH as ([Lp Lq] & P & Q & P0 & Q0). split; [|split; [|split; [|split]]].
    + rewrite !length_add. cbn [length]. rewrite !length_scale. lia.
    + intros x. rewrite !eval_add. cbn [eval]. rewrite !eval_scale. rewrite S_INR. replace ((2 * (INR n + 1) + 1) * x) with ((2 * INR n + 1) * x + 2 * x) by ring.
      assert (sin ((2 * INR n + 1) * x + 2 * x) = 2 * cos (2 * x) * sin ((2 * INR n + 1) * x) - sin ((2 * INR n - 1) * x)) as ->. { replace ((2 * INR n - 1) * x) with ((2 * INR n + 1) * x - 2 * x) by ring. rewrite sin_plus, sin_minus. ring. }
      rewrite P, Q, cos_2a_sin. ring.
    + intros x. rewrite S_INR. replace ((2 * (INR n + 1) - 1) * x) with ((2 * INR n + 1) * x) by ring. apply P.
    + rewrite !eval_add. cbn [eval]. rewrite !eval_scale, P0, Q0, S_INR. ring.
    + rewrite P0, S_INR. ring.
Qed.
Definition root (n j : nat) : R := let s := sin (PI * INR (S j) / (2 * INR n + 1)) in s * s.
Lemma angle_bounds n j : (j < n)%nat -> 0 < PI * INR (S j) / (2 * INR n + 1) < PI / 2.
Proof.
  intros J. pose proof PI_RGT_0 as P. assert (0 < INR (S j)) by (apply lt_0_INR; lia). assert (INR (S j) <= INR n) by (apply le_INR; lia). split; [apply Rdiv_lt_0_compat; nra|]. apply Rmult_lt_reg_r with (2 * INR n + 1); [lra|]. unfold Rdiv. rewrite Rmult_assoc, Rinv_l by lra. nra.
Qed.
Lemma root_pos n j : (j < n)%nat -> 0 < root n j.
Proof. intros J. unfold root. destruct (angle_bounds n j J). assert (0 < sin (PI * INR (S j) / (2 * INR n + 1))); [apply sin_gt_0; lra|]. nra. Qed.
Lemma root_lt n i j : (i < j < n)%nat -> root n i < root n j.
Proof.
  intros J. unfold root. destruct (angle_bounds n i) as [A1 A2]; [lia|]. destruct (angle_bounds n j) as [B1 B2]; [lia|]. pose proof (pos_INR n). pose proof PI_RGT_0.
  assert (PI * INR (S i) / (2 * INR n + 1) < PI * INR (S j) / (2 * INR n + 1)) as L. { apply Rmult_lt_compat_r; [apply Rinv_0_lt_compat; lra|]. apply Rmult_lt_compat_l; [assumption|]. apply lt_INR. lia. }
  pose proof (sin_increasing_1 (PI * INR (S i) / (2 * INR n + 1)) (PI * INR (S j) / (2 * INR n + 1))) as I. assert (0 < sin (PI * INR (S i) / (2 * INR n + 1))); [apply sin_gt_0; lra|]. assert (sin (PI * INR (S i) / (2 * INR n + 1)) < sin (PI * INR (S j) / (2 * INR n + 1))) by (apply I; lra). nra.
Qed.
Lemma NoDup_map_in {A B} (f : A -> B) l : NoDup l -> (forall a b, In a l -> In b l -> f a = f b -> a = b) -> NoDup (map f l).
Proof.
  induction l as [|a l IH]; intros ND I; cbn [map]; [constructor|]. inversion_clear ND as [|? ? NI ND']. constructor.
  - intros M. apply in_map_iff in M as (b & E & Bl). apply NI. rewrite <- (I b a (or_intror Bl) (or_introl eq_refl) E). exact Bl.
  - apply IH; [exact ND'|]. intros x y X Y. apply I; right; assumption.
Qed.
Lemma roots_NoDup n : NoDup (map (root n) (seq 0 n)).
Proof.
  apply NoDup_map_in; [apply seq_NoDup|]. intros i j I J E. apply in_seq in I, J. destruct (lt_eq_lt_dec i j) as [[L|L]|L]; [|exact L|]; exfalso; [assert (root n i < root n j) by (apply root_lt; lia)|assert (root n j < root n i) by (apply root_lt; lia)]; lra.
Qed.
Lemma sinpoly_roots n r : In r (map (root n) (seq 0 n)) -> eval (fst (sinpoly n)) r = 0.
Proof.
  intros I. apply in_map_iff in I as (j & <- & J). apply in_seq in J. destruct (sinpoly_spec n) as (_ & P & _). specialize (P (PI * INR (S j) / (2 * INR n + 1))). destruct (angle_bounds n j) as [A B]; [lia|]. pose proof (pos_INR n).
  assert (0 < sin (PI * INR (S j) / (2 * INR n + 1))) as S; [apply sin_gt_0; pose proof PI_RGT_0; lra|]. unfold root. apply Rmult_eq_reg_l with (sin (PI * INR (Datatypes.S j) / (2 * INR n + 1))); [|lra]. rewrite Rmult_0_r. etransitivity; [symmetry; exact P|].
  replace ((2 * INR n + 1) * (PI * INR (Datatypes.S j) / (2 * INR n + 1))) with (INR (Datatypes.S j) * PI) by (field; lra). apply sin_eq_0_1. exists (Z.of_nat (Datatypes.S j)). rewrite <- INR_IZR_INZ. reflexivity.
Qed.
Lemma product_ext roots c y : (forall r, In r roots -> r <> 0) -> fold_right Rmult 1 (map (fun r => y - r) roots) * c = fold_right Rmult 1 (map (fun r => 1 - y / r) roots) * (fold_right Rmult 1 (map (fun r => 0 - r) roots) * c).
Proof.
  induction roots as [|r roots IH]; intros Z; cbn [map fold_right]; [ring|]. rewrite Rmult_assoc, IH by (intros; apply Z; right; assumption). field. apply Z. left. reflexivity.
Qed.
(** sin ((2n+1) x) = (2n+1) sin x times the product of 1 - (sin x)^2 / (sin (pi j / (2n+1)))^2. *)
Lemma sin_product n x : sin ((2 * INR n + 1) * x) = (2 * INR n + 1) * sin x * fold_right Rmult 1 (map (fun j => 1 - sin x * sin x / root n j) (seq 0 n)).
Proof.
  destruct (sinpoly_spec n) as ([Lp _] & P & _ & P0 & _). destruct (eval_roots (map (root n) (seq 0 n)) (fst (sinpoly n)) (roots_NoDup n) (sinpoly_roots n)) as (q & Lq & E); [rewrite map_length, seq_length; lia|]. rewrite map_length, seq_length, Lp in Lq. destruct q as [|c [|c' q]]; cbn [length] in Lq; try lia.
  assert (forall y, eval (fst (sinpoly n)) y = fold_right Rmult 1 (map (fun r => 1 - y / r) (map (root n) (seq 0 n))) * (2 * INR n + 1)) as F.
  { intros y. rewrite E, <- P0, (E 0). cbn [eval]. rewrite Rmult_0_l, (Rmult_0_r y), Rplus_0_r. apply product_ext. intros r I. apply in_map_iff in I as (j & <- & J). apply in_seq in J. pose proof (root_pos n j). assert (0 < root n j) by (apply root_pos; lia). lra. }
  rewrite P, F, map_map. ring.
Qed.
Lemma sin_multiple_bound m x : Rabs (sin (INR m * x)) <= INR m * Rabs (sin x).
Proof.
  induction m as [|m IH]; [cbn; rewrite Rmult_0_l, sin_0, Rabs_R0; lra|]. rewrite S_INR. replace ((INR m + 1) * x) with (INR m * x + x) by ring. rewrite sin_plus. eapply Rle_trans; [apply Rabs_triang|]. rewrite !Rabs_mult.
  assert (Rabs (cos x) <= 1) by (apply Rabs_le; apply COS_bound). assert (Rabs (cos (INR m * x)) <= 1) by (apply Rabs_le; apply COS_bound). pose proof (Rabs_pos (sin x)). pose proof (Rabs_pos (sin (INR m * x))). nra.
Qed.
(** The product is at most 1 for 0 <= y <= 1. *)
Lemma product_bound n y : 0 <= y <= 1 -> Rabs (fold_right Rmult 1 (map (fun j => 1 - y / root n j) (seq 0 n))) <= 1.
Proof.
  intros Y. destruct (Req_dec y 0) as [->|NZ].
  { assert (fold_right Rmult 1 (map (fun j => 1 - 0 / root n j) (seq 0 n)) = 1) as ->; [|rewrite Rabs_R1; lra]. induction (seq 0 n) as [|j l IH]; [reflexivity|]. cbn [map fold_right]. rewrite IH. unfold Rdiv. ring. }
  set (x := asin (sqrt y)). assert (0 < sqrt y <= 1) as SB. { split; [apply sqrt_lt_R0; lra|]. rewrite <- sqrt_1. apply sqrt_le_1; lra. } assert (sin x = sqrt y) as SX by (apply sin_asin; lra). assert (sin x * sin x = y) as SS by (rewrite SX; apply sqrt_sqrt; lra).
  pose proof (sin_product n x) as P. rewrite SS in P. pose proof (sin_multiple_bound (2 * n + 1) x) as B. rewrite plus_INR, mult_INR in B. replace (INR 2 * INR n + INR 1) with (2 * INR n + 1) in B by (cbn; ring). rewrite P, !Rabs_mult in B. pose proof (pos_INR n). rewrite (Rabs_right (2 * INR n + 1)) in B by lra. rewrite SX, (Rabs_right (sqrt y)) in B by lra.
  apply Rmult_le_reg_l with ((2 * INR n + 1) * sqrt y); [nra|]. lra.
Qed.
