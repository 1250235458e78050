(** C106: the number of false alarms of a rectangle. *)
From Coq Require Import ZArith Reals Bool Lia Lra.
From Verif Require Import LsdRegionModel LsdNfaModel LsdNfaSpec.
Local Open Scope R_scope.

(** ** Binomial probabilities *)
Fixpoint exactly (k n : nat) (p : R) : R :=
  match n with
  | O => match k with O => 1 | S _ => 0 end
  | S n' => match k with O => (1 - p) * exactly 0 n' p | S k' => p * exactly k' n' p + (1 - p) * exactly k n' p end
  end.
Lemma exactly_above p n : forall k, (n < k)%nat -> exactly k n p = 0.
Proof.
  induction n as [|n IH]; intros [|k] L; try lia; cbn [exactly]; [reflexivity|]. rewrite !IH by lia. ring.
Qed.
Lemma at_least_0 n p : at_least 0 n p = 1.
Proof. destruct n; reflexivity. Qed.
Lemma exactly_0 n p : exactly 0 n p = (1 - p) ^ n.
Proof. induction n as [|n IH]; cbn [exactly pow]; [reflexivity|]. rewrite IH. reflexivity. Qed.
Lemma at_least_step p n : forall k, at_least k n p = exactly k n p + at_least (S k) n p.
Proof.
  induction n as [|n IH]; intros [|k]; cbn [at_least exactly]; try ring.
  - pose proof (IH 0%nat) as E. rewrite at_least_0 in E. replace (exactly 0 n p) with (1 - at_least 1 n p) by lra. rewrite ?at_least_0. ring.
  - rewrite (IH k), (IH (S k)). ring.
Qed.
Lemma at_least_above p n : forall k, (n < k)%nat -> at_least k n p = 0.
Proof. induction n as [|n IH]; intros [|k] L; try lia; cbn [at_least]; [reflexivity|]. rewrite !IH by lia. ring. Qed.
(** The next term of the sum. *)
Lemma exactly_ratio p n : forall k, INR (S k) * (1 - p) * exactly (S k) n p = INR (n - k) * p * exactly k n p.
Proof.
  induction n as [|n IH]; intros k.
  - cbn [exactly]. rewrite Nat.sub_0_l. cbn [INR]. ring.
  - destruct (le_lt_dec k n) as [L|L].
    2:{ rewrite (exactly_above p (S n) (S k)) by lia. replace (S n - k)%nat with 0%nat by lia. cbn [INR]. ring. }
    destruct k as [|k].
    + pose proof (IH 0%nat) as E. cbn [exactly]. rewrite Nat.sub_0_r in *. rewrite (S_INR n). cbn [INR] in E |- *. replace (1 * (1 - p) * (p * exactly 0 n p + (1 - p) * exactly 1 n p)) with ((1 - p) * (p * exactly 0 n p) + (1 - p) * (1 * (1 - p) * exactly 1 n p)) by ring. rewrite E. ring.
    + pose proof (IH k) as E1. pose proof (IH (S k)) as E2. cbn [exactly]. replace (S n - S k)%nat with (n - k)%nat by lia. replace (n - k)%nat with (S (n - S k)) in E1 |- * by lia. rewrite !S_INR in *. set (m := INR (n - S k)) in *. set (j := INR k) in *.
      replace ((j + 1 + 1) * (1 - p) * (p * exactly (S k) n p + (1 - p) * exactly (S (S k)) n p)) with ((j + 1 + 1) * (1 - p) * p * exactly (S k) n p + (1 - p) * ((j + 1 + 1) * (1 - p) * exactly (S (S k)) n p)) by ring. rewrite E2.
      replace ((m + 1) * p * (p * exactly k n p + (1 - p) * exactly (S k) n p)) with (p * ((m + 1) * p * exactly k n p) + (m + 1) * p * (1 - p) * exactly (S k) n p) by ring. rewrite <- E1. ring.
Qed.
Lemma exactly_pos p n : 0 < p < 1 -> forall k, (k <= n)%nat -> 0 < exactly k n p.
Proof.
  intros P. induction n as [|n IH]; intros [|k] L; cbn [exactly]; try lia; [lra| |].
  - apply Rmult_lt_0_compat; [lra|apply IH; lia].
  - destruct (le_lt_dec (S k) n) as [L'|L'].
    + apply Rplus_lt_0_compat; apply Rmult_lt_0_compat; try lra; apply IH; lia.
    + rewrite (exactly_above p n (S k)) by lia. rewrite Rmult_0_r, Rplus_0_r. apply Rmult_lt_0_compat; [lra|]. apply IH. lia.
Qed.
Lemma exactly_next p n k : 0 < p < 1 -> (k < n)%nat -> exactly (S k) n p = exactly k n p * (INR (n - S k + 1) / INR (S k) * (p / (1 - p))).
Proof.
  intros P L. pose proof (exactly_ratio p n k) as E. replace (n - S k + 1)%nat with (n - k)%nat by lia. assert (INR (S k) <> 0) by (apply not_0_INR; lia). apply Rmult_eq_reg_l with (INR (S k) * (1 - p)); [|apply Rmult_integral_contrapositive_currified; lra]. rewrite E. field. lra.
Qed.
(** The first term. *)
Lemma exactly_closed p n : forall k, (k <= n)%nat -> INR (fact k) * INR (fact (n - k)) * exactly k n p = INR (fact n) * p ^ k * (1 - p) ^ (n - k).
Proof.
  intros k. induction k as [|k IH]; intros L.
  - rewrite Nat.sub_0_r, exactly_0. cbn [fact INR pow]. ring.
  - destruct (Req_dec p 1) as [-> | N].
    { clear IH. rewrite Rminus_diag_eq by reflexivity. destruct (Nat.eq_dec (S k) n) as [<- | D].
      - rewrite Nat.sub_diag. cbn [pow]. rewrite pow1. replace (exactly (S k) (S k) 1) with 1; [cbn [fact INR]; ring|]. clear L. generalize (S k). clear k. induction n as [|n IH]; [reflexivity|]. cbn [exactly]. rewrite <- IH. ring.
      - rewrite (pow_i (n - S k)) by lia. assert (forall m j, (j < m)%nat -> exactly j m 1 = 0) as Z. { induction m as [|m IHm]; intros [|j] Lj; try lia; cbn [exactly]; [ring|]. rewrite IHm by lia. ring. } rewrite Z by lia. ring. }
    specialize (IH ltac:(lia)). pose proof (exactly_ratio p n k) as E. replace (n - k)%nat with (S (n - S k)) in IH, E by lia. rewrite fact_simpl, mult_INR. rewrite fact_simpl, mult_INR in IH. cbn [pow] in IH |- *. rewrite !S_INR in *. assert (0 <= INR (n - S k)) by apply pos_INR.
    apply Rmult_eq_reg_l with ((INR (n - S k) + 1) * (1 - p)); [|apply Rmult_integral_contrapositive_currified; lra].
    replace ((INR (n - S k) + 1) * (1 - p) * ((INR k + 1) * INR (fact k) * INR (fact (n - S k)) * exactly (S k) n p)) with (INR (fact k) * (INR (n - S k) + 1) * INR (fact (n - S k)) * ((INR k + 1) * (1 - p) * exactly (S k) n p)) by ring. rewrite E.
    replace (INR (fact k) * (INR (n - S k) + 1) * INR (fact (n - S k)) * ((INR (n - S k) + 1) * p * exactly k n p)) with ((INR (n - S k) + 1) * p * (INR (fact k) * ((INR (n - S k) + 1) * INR (fact (n - S k))) * exactly k n p)) by ring. rewrite IH. ring.
Qed.
Lemma at_least_pos p n k : 0 < p < 1 -> (k <= n)%nat -> 0 < at_least k n p.
Proof.
  intros P L. remember (n - k)%nat as r eqn:E. revert k L E. induction r as [|r IH]; intros k L E; rewrite at_least_step; pose proof (exactly_pos p n P k L).
  - rewrite (at_least_above p n (S k)) by lia. lra.
  - specialize (IH (S k) ltac:(lia) ltac:(lia)). lra.
Qed.

(** ** The rest of the sum *)
Definition ratio (p : R) (n i : nat) : R := INR (n - i + 1) / INR i * (p / (1 - p)).
Lemma odds_pos p : 0 < p < 1 -> 0 < p / (1 - p).
Proof. intros P. apply Rdiv_lt_0_compat; lra. Qed.
Lemma ratio_pos p n i : 0 < p < 1 -> (0 < i)%nat -> 0 < ratio p n i.
Proof.
  intros P I. apply Rmult_lt_0_compat; [|apply odds_pos; exact P]. apply Rdiv_lt_0_compat; apply lt_0_INR; lia.
Qed.
Lemma ratio_decreasing p n i : 0 < p < 1 -> (0 < i)%nat -> ratio p n (S i) <= ratio p n i.
Proof.
  intros P I. apply Rmult_le_compat_r; [left; apply odds_pos; exact P|]. apply Rmult_le_compat; [apply pos_INR| |apply le_INR; lia|]; [left; apply Rinv_0_lt_compat; apply lt_0_INR; lia|]. apply Rinv_le_contravar; [apply lt_0_INR; lia|apply le_INR; lia].
Qed.
Lemma ratio_below p n i j : 0 < p < 1 -> (0 < i)%nat -> (i <= j)%nat -> ratio p n j <= ratio p n i.
Proof. intros P I L. induction L as [|j L IH]; [lra|]. pose proof (ratio_decreasing p n j P ltac:(lia)). lra. Qed.
Fixpoint geometric (m : R) (r : nat) : R := match r with O => 0 | S r => m + m * geometric m r end.
Lemma geometric_closed m r : m <> 1 -> geometric m r = (1 - m ^ (r + 1)) / (1 - m) - 1.
Proof.
  intros M. induction r as [|r IH]; cbn [geometric Nat.add pow]; [field; lra|]. rewrite IH. field. lra.
Qed.
Lemma geometric_nonneg m r : 0 < m -> 0 <= geometric m r.
Proof. intros M. induction r as [|r IH]; cbn [geometric]; [lra|]. assert (0 <= m * geometric m r) by (apply Rmult_le_pos; lra). lra. Qed.
Lemma rest_bound p n m : 0 < p < 1 -> 0 < m -> forall r i, r = (n - i)%nat -> (i <= n)%nat -> ratio p n (S i) <= m -> at_least (S i) n p <= exactly i n p * geometric m r.
Proof.
  intros P M. induction r as [|r IH]; intros i E L B.
  - rewrite at_least_above by lia. cbn [geometric]. lra.
  - rewrite at_least_step. assert (at_least (S (S i)) n p <= exactly (S i) n p * geometric m r) as H. { apply IH; [lia|lia|]. pose proof (ratio_decreasing p n (S i) P ltac:(lia)). lra. }
    rewrite (exactly_next p n i P) in H |- * by lia. fold (ratio p n (S i)) in H |- *. cbn [geometric]. pose proof (exactly_pos p n P i ltac:(lia)) as X. pose proof (geometric_nonneg m r M) as G. pose proof (ratio_pos p n (S i) P ltac:(lia)) as Q.
    assert (exactly i n p * ratio p n (S i) <= exactly i n p * m) as H2 by (apply Rmult_le_compat_l; lra).
    assert (exactly i n p * ratio p n (S i) * geometric m r <= exactly i n p * m * geometric m r) as H3 by (apply Rmult_le_compat_r; lra). lra.
Qed.

(** ** The loop *)
Section Loop.
Variables (p log_nt c : R) (n : nat).
Hypothesis (P : 0 < p < 1) (C : 0 < c).
Lemma bin_loop_step j : (j < n)%nat -> c * exactly j n p * (INR (n - S j + 1) / INR (S j) * (p / (1 - p))) = c * exactly (S j) n p.
Proof. intros L. rewrite (exactly_next p n j P L). ring. Qed.
Lemma bin_loop_le r : forall j bin_tail, r = (n - j)%nat -> (j <= n)%nat ->
  bin_tail <= bin_loop r (S j) n (p / (1 - p)) log_nt (c * exactly j n p) bin_tail <= bin_tail + c * at_least (S j) n p.
Proof.
  induction r as [|r IH]; intros j bin_tail E L.
  - rewrite at_least_above by lia. cbn [bin_loop]. lra.
  - cbn [bin_loop]. rewrite bin_loop_step by lia. rewrite (at_least_step p n (S j)). pose proof (exactly_pos p n P (S j) ltac:(lia)) as X. assert (0 < c * exactly (S j) n p) by (apply Rmult_lt_0_compat; assumption).
    assert (0 <= c * at_least (S (S j)) n p). { apply Rmult_le_pos; [lra|]. destruct (le_lt_dec (S (S j)) n) as [Q|Q]; [left; apply at_least_pos; assumption|rewrite at_least_above by lia; lra]. }
    destruct (_ && _); [lra|]. specialize (IH (S j) (bin_tail + c * exactly (S j) n p) ltac:(lia) ltac:(lia)). lra.
Qed.
Lemma bin_loop_close r : p <= / 2 -> forall j bin_tail, r = (n - j)%nat -> (j <= n)%nat -> 0 < bin_tail ->
  let T := bin_loop r (S j) n (p / (1 - p)) log_nt (c * exactly j n p) bin_tail in
  bin_tail + c * at_least (S j) n p <= T + / 10 * Rabs (- log10 T - log_nt) * T.
Proof.
  intros H. induction r as [|r IH]; intros j bin_tail E L B; cbv zeta.
  - rewrite at_least_above by lia. cbn [bin_loop]. assert (0 <= / 10 * Rabs (- log10 bin_tail - log_nt) * bin_tail) by (apply Rmult_le_pos; [apply Rmult_le_pos; [lra|apply Rabs_pos]|lra]). lra.
  - pose proof (bin_loop_step j ltac:(lia)) as ST. cbn [bin_loop]. rewrite ST. rewrite (at_least_step p n (S j)). pose proof (exactly_pos p n P (S j) ltac:(lia)) as X. assert (0 < c * exactly (S j) n p) by (apply Rmult_lt_0_compat; assumption). rewrite Rmult_plus_distr_l, <- Rplus_assoc.
    destruct (below (INR (n - S j + 1) / INR (S j)) 1) eqn:E1; cbn [andb]; [destruct (below _ (/ 10 * _ * _)) eqn:E2|].
    + unfold below in E1, E2. destruct (Rlt_dec _ 1) as [B1|] in E1; [|discriminate]. destruct (Rlt_dec _ (/ 10 * _ * _)) as [B2|] in E2; [|discriminate]. clear E1 E2.
      fold (ratio p n (S j)) in B2. pose proof (ratio_pos p n (S j) P ltac:(lia)) as Q. assert (ratio p n (S j) < 1) as Q1. { unfold ratio. assert (p / (1 - p) <= 1) as O1. { apply Rmult_le_reg_r with (1 - p); [lra|]. unfold Rdiv. rewrite Rmult_assoc, Rinv_l by lra. lra. } pose proof (odds_pos p P) as O2. assert (0 <= INR (n - S j + 1) / INR (S j)) by (left; apply Rdiv_lt_0_compat; apply lt_0_INR; lia). apply Rle_lt_trans with (INR (n - S j + 1) / INR (S j) * 1); [apply Rmult_le_compat_l; assumption|lra]. }
      assert (ratio p n (S j) <> 1) as N1 by lra. pose proof (rest_bound p n (ratio p n (S j)) P Q (n - S j) (S j) eq_refl ltac:(lia) (ratio_decreasing p n (S j) P ltac:(lia))) as RB. rewrite (geometric_closed _ _ N1) in RB.
      apply (Rmult_le_compat_l c) in RB; [|lra]. lra.
    + apply IH; [lia|lia|lra].
    + apply IH; [lia|lia|lra].
Qed.
End Loop.

(** ** The value *)
Lemma factor_pos n : 0 < factor n.
Proof. apply Rdiv_lt_0_compat; [apply exp_pos|apply INR_fact_lt_0]. Qed.
Lemma exp_power k r : 0 < r -> exp (INR k * ln r) = r ^ k.
Proof. intros R. rewrite <- (exp_ln (r ^ k)) by (apply pow_lt; exact R). rewrite ln_pow by exact R. reflexivity. Qed.
Lemma first_term log_gamma n k p : (forall m : nat, log_gamma (INR m + 1) = ln (INR (fact m))) -> 0 < p < 1 -> (k <= n)%nat -> exp (log1term log_gamma n k p) = factor n * exactly k n p.
Proof.
  intros G P L. unfold log1term. rewrite !G. pose proof (INR_fact_lt_0 k) as K1. pose proof (INR_fact_lt_0 (n - k)) as K2. pose proof (INR_fact_lt_0 n) as K3.
  replace (INR n + 1 - ln (INR (fact k)) - ln (INR (fact (n - k))) + INR k * ln p + INR (n - k) * ln (1 - p)) with (INR n + 1 + - ln (INR (fact k)) + - ln (INR (fact (n - k))) + INR k * ln p + INR (n - k) * ln (1 - p)) by ring.
  rewrite !exp_plus, !exp_power, !exp_Ropp, !exp_ln by lra. pose proof (exactly_closed p n k L) as E. unfold factor. rewrite exp_plus.
  apply Rmult_eq_reg_l with (INR (fact k) * INR (fact (n - k)) * INR (fact n)); [|apply Rmult_integral_contrapositive_currified; [apply Rmult_integral_contrapositive_currified|]; lra].
  replace (INR (fact k) * INR (fact (n - k)) * INR (fact n) * (exp (INR n) * exp 1 / INR (fact n) * exactly k n p)) with (exp (INR n) * exp 1 * (INR (fact k) * INR (fact (n - k)) * exactly k n p)) by (field; lra). rewrite E. field. lra.
Qed.
Lemma nfa_eq log_gamma log_nt n k p : (forall m : nat, log_gamma (INR m + 1) = ln (INR (fact m))) -> 0 < p < 1 -> (0 < k < n)%nat ->
  let term := factor n * exactly k n p in
  nfa log_gamma log_nt n k p = if Rle_dec term tiny then if Rlt_dec (INR n * p) (INR k) then - log10 term - log_nt else - log_nt
                               else - log10 (bin_loop (n - k) (S k) n (p / (1 - p)) log_nt term term) - log_nt.
Proof.
  intros G P K term. unfold nfa. destruct (Nat.eqb_spec n 0); [lia|]. destruct (Nat.eqb_spec k 0); [lia|]. destruct (Nat.eqb_spec n k); [lia|]. cbn [orb]. cbv zeta. pose proof (first_term log_gamma n k p G P ltac:(lia)) as F. fold term in F. rewrite F. unfold log10. rewrite <- F. rewrite ln_exp. rewrite F. destruct (Rle_dec term tiny); [|reflexivity]. destruct (Rlt_dec (INR n * p) (INR k)); [|reflexivity]. unfold Rdiv. ring.
Qed.

(** Without aligned pixels, and if all pixels are aligned, the value is the significance. *)
Theorem lnx_trivial log_gamma log_nt n k p : 0 < p < 1 -> (k = 0 \/ k = n)%nat -> nfa log_gamma log_nt n k p = significance log_nt n k p.
Proof.
  intros P K. unfold nfa, significance, decades. destruct (Nat.eqb_spec n 0) as [-> | N]; [|destruct (Nat.eqb_spec k 0) as [-> | N']]; cbn [orb].
  - replace k with 0%nat by lia. rewrite at_least_0, ln_1. unfold Rdiv. ring.
  - rewrite at_least_0, ln_1. unfold Rdiv. ring.
  - replace k with n by lia. rewrite Nat.eqb_refl. assert (at_least n n p = p ^ n) as ->. { clear. induction n as [|n IH]; [reflexivity|]. cbn [at_least pow]. rewrite IH, at_least_above by lia. ring. } rewrite ln_pow by lra. unfold log10, Rdiv. ring.
Qed.
(** Otherwise the code works with the probability times exp(n + 1) / n!, since the logarithm of n! in the first term is n + 1: up to this factor, the sum is right to the tenth that the code accepts. *)
Theorem lnx_tail log_gamma log_nt n k p : (forall m : nat, log_gamma (INR m + 1) = ln (INR (fact m))) -> 0 < p <= / 2 -> (0 < k < n)%nat -> tiny < factor n * (at_least k n p - at_least (S k) n p) ->
  let v := nfa log_gamma log_nt n k p in
  exists T, v = - log10 T - log_nt /\ 0 < T /\ T <= factor n * at_least k n p <= T + / 10 * Rabs v * T.
Proof.
  intros G P K TI v. replace (at_least k n p - at_least (S k) n p) with (exactly k n p) in TI by (rewrite (at_least_step p n k); ring). assert (0 < p < 1) as P1 by lra. pose proof (factor_pos n) as C. pose proof (exactly_pos p n P1 k ltac:(lia)) as X. assert (0 < factor n * exactly k n p) as TP by (apply Rmult_lt_0_compat; assumption).
  unfold v. rewrite (nfa_eq log_gamma log_nt n k p G P1 K). cbv zeta. destruct (Rle_dec (factor n * exactly k n p) tiny); [lra|].
  pose proof (bin_loop_le p log_nt (factor n) n P1 C (n - k) k (factor n * exactly k n p) eq_refl ltac:(lia)) as B1.
  pose proof (bin_loop_close p log_nt (factor n) n P1 C (n - k) ltac:(lra) k (factor n * exactly k n p) eq_refl ltac:(lia) TP) as B2. cbv zeta in B2.
  eexists. split; [reflexivity|]. rewrite (at_least_step p n k), Rmult_plus_distr_l. split; [lra|]. split; [apply B1|apply B2].
Qed.
Lemma ln10_pos : 0 < ln 10.
Proof. rewrite <- ln_1. apply ln_increasing; lra. Qed.
Lemma decades_le a b : 0 < a -> a <= b -> decades a <= decades b.
Proof. intros A [L | ->]; [|lra]. left. unfold decades, Rdiv. apply Rmult_lt_compat_r; [apply Rinv_0_lt_compat, ln10_pos|]. apply ln_increasing; assumption. Qed.
Lemma decades_mult a b : 0 < a -> 0 < b -> decades (a * b) = decades a + decades b.
Proof. intros A B. unfold decades. rewrite ln_mult by assumption. unfold Rdiv. ring. Qed.
(** So the code claims more than the true significance, by log10 (n! / exp (n + 1)) or more. *)
Theorem lnx_excess log_gamma log_nt n k p : (forall m : nat, log_gamma (INR m + 1) = ln (INR (fact m))) -> 0 < p < 1 -> (0 < k < n)%nat -> INR n * p < INR k ->
  significance log_nt n k p + decades (INR (fact n) / exp (INR n + 1)) <= nfa log_gamma log_nt n k p.
Proof.
  intros G P K B. pose proof (factor_pos n) as C. pose proof (exactly_pos p n P k ltac:(lia)) as X. pose proof (at_least_pos p n k P ltac:(lia)) as A. assert (0 < factor n * exactly k n p) as TP by (apply Rmult_lt_0_compat; assumption).
  assert (exists T, 0 < T <= factor n * at_least k n p /\ nfa log_gamma log_nt n k p = - decades T - log_nt) as (T & T1 & ->).
  { rewrite (nfa_eq log_gamma log_nt n k p G P K). cbv zeta. pose proof (bin_loop_le p log_nt (factor n) n P C (n - k) k (factor n * exactly k n p) eq_refl ltac:(lia)) as B1. rewrite (at_least_step p n k), Rmult_plus_distr_l. assert (0 < factor n * at_least (S k) n p) by (apply Rmult_lt_0_compat; [exact C|apply at_least_pos; [exact P|lia]]).
    destruct (Rle_dec _ tiny); [destruct (Rlt_dec _ _); [|contradiction]|]; (eexists; split; [|reflexivity]); lra. }
  unfold significance. pose proof (decades_le T _ (proj1 T1) (proj2 T1)) as D. rewrite decades_mult in D by assumption. assert (decades (INR (fact n) / exp (INR n + 1)) = - decades (factor n)) as ->; [|lra].
  unfold factor, decades. pose proof (INR_fact_lt_0 n) as F. pose proof (exp_pos (INR n + 1)) as E. unfold Rdiv. rewrite !ln_mult, !ln_Rinv by (try apply Rinv_0_lt_compat; assumption). ring.
Qed.
Lemma exp_3 n : exp (INR n) <= 3 ^ n.
Proof.
  induction n as [|n IH]; [cbn [INR pow]; rewrite exp_0; lra|]. rewrite S_INR, exp_plus. cbn [pow]. rewrite Rmult_comm. apply Rmult_le_compat; [left; apply exp_pos|left; apply exp_pos|exact exp_le_3|exact IH].
Qed.
Lemma fact_growth m : 10 ^ m * 3 ^ (m + 31) <= INR (fact (m + 30)).
Proof.
  induction m as [|m IH].
  - change (10 ^ 0) with 1. change (0 + 31)%nat with 31%nat. change (0 + 30)%nat with 30%nat. assert (3 ^ 31 <= 10 ^ 15) as H by (rewrite !pow_IZR; apply IZR_le; vm_compute; discriminate). apply Rle_trans with (10 ^ 15); [rewrite Rmult_1_l; exact H|].
    assert (forall a b, (10 <= a)%nat -> 10 ^ b * INR (fact a) <= INR (fact (b + a))) as M. { intros a b L. induction b as [|b IHb]; [cbn; lra|]. cbn [Nat.add pow]. rewrite fact_simpl, mult_INR, Rmult_assoc. assert (10 <= INR (S (b + a))). { replace 10 with (INR 10) by (cbn; lra). apply le_INR. lia. } apply Rmult_le_compat; [lra| |assumption|assumption]. apply Rmult_le_pos; [apply pow_le; lra|apply pos_INR]. }
    specialize (M 10%nat 20%nat ltac:(lia)). pose proof (INR_fact_lt_0 10). assert (1 <= INR (fact 10)). { apply (le_INR 1). apply lt_O_fact. } change (20 + 10)%nat with 30%nat in M. assert (10 ^ 15 <= 10 ^ 20) by (apply Rle_pow; [lra|lia]). assert (10 ^ 20 * 1 <= 10 ^ 20 * INR (fact 10)). { apply Rmult_le_compat_l; [apply pow_le; lra|assumption]. } lra.
  - cbn [Nat.add pow]. rewrite fact_simpl, mult_INR. assert (30 <= INR (S (m + 30))). { replace 30 with (INR 30) by (cbn; lra). apply le_INR. lia. } assert (0 <= 10 ^ m * 3 ^ (m + 31)) by (apply Rmult_le_pos; apply pow_le; lra). apply Rle_trans with (30 * (10 ^ m * 3 ^ (m + 31))); [lra|]. apply Rmult_le_compat; lra.
Qed.
Lemma decades_ten m : decades (10 ^ m) = INR m.
Proof. unfold decades. rewrite ln_pow by lra. pose proof ln10_pos. field. lra. Qed.
(** The value is not the significance, and the excess has no bound. *)
Theorem lnx_significance_refuted log_gamma : (forall m : nat, log_gamma (INR m + 1) = ln (INR (fact m))) ->
  forall log_nt M, exists n k p, 0 < p < 1 /\ (0 < k < n)%nat /\ significance log_nt n k p + M <= nfa log_gamma log_nt n k p.
Proof.
  intros G log_nt M. assert (exists m, M < INR m) as [m Hm]. { destruct (archimed M) as [A _]. exists (Z.to_nat (up M)). rewrite INR_IZR_INZ. assert (IZR (up M) <= IZR (Z.of_nat (Z.to_nat (up M)))) by (apply IZR_le; lia). lra. } exists (m + 30)%nat, (m + 29)%nat, (11 / 120). split; [lra|]. split; [lia|].
  assert (0 < 11 / 120 < 1) as P by lra. assert (0 < m + 29 < m + 30)%nat as K by lia. assert (INR (m + 30) * (11 / 120) < INR (m + 29)) as B. { replace (m + 30)%nat with (S (m + 29)) by lia. rewrite S_INR. assert (1 <= INR (m + 29)) by (apply (le_INR 1); lia). lra. }
  pose proof (lnx_excess log_gamma log_nt (m + 30) (m + 29) (11 / 120) G P K B) as E.
  assert (INR m <= decades (INR (fact (m + 30)) / exp (INR (m + 30) + 1))); [|lra]. rewrite <- decades_ten. apply decades_le; [apply pow_lt; lra|].
  apply Rmult_le_reg_r with (exp (INR (m + 30) + 1)); [apply exp_pos|]. unfold Rdiv. rewrite Rmult_assoc, Rinv_l, Rmult_1_r by (pose proof (exp_pos (INR (m + 30) + 1)); lra). apply Rle_trans with (10 ^ m * 3 ^ (m + 31)); [|apply fact_growth].
  apply Rmult_le_compat_l; [apply pow_le; lra|]. rewrite <- S_INR. replace (S (m + 30)) with (m + 31)%nat by lia. apply exp_3.
Qed.

(** Examples: there is such a log_gamma; half of 2 pixels with p = 1/4. *)
Definition log_gamma_ex (x : R) : R := ln (INR (fact (Z.to_nat (Int_part (x - 1))))).
Lemma log_gamma_ex_exact (m : nat) : log_gamma_ex (INR m + 1) = ln (INR (fact m)).
Proof. unfold log_gamma_ex. replace (INR m + 1 - 1) with (INR m) by ring. rewrite Int_part_INR, Nat2Z.id. reflexivity. Qed.
Example lnx_tail_ex : 0 < / 4 <= / 2 /\ (0 < 1 < 2)%nat /\ tiny < factor 2 * (at_least 1 2 (/ 4) - at_least 2 2 (/ 4)).
Proof.
  split; [lra|]. split; [lia|]. cbn [at_least]. unfold factor. cbn [fact INR Nat.mul Nat.add]. pose proof (exp_ineq1 (1 + 1 + 1) ltac:(lra)) as E. assert (tiny <= 100 * / 2 ^ 10). { unfold tiny. apply Rmult_le_compat_l; [lra|]. apply Rinv_le_contravar; [apply pow_lt; lra|]. apply Rle_pow; [lra|lia]. } replace (2 ^ 10) with 1024 in H by lra. lra.
Qed.
Example lnx_excess_ex : INR 20 * (11 / 120) < INR 10 /\ at_least 1 2 (/ 4) = 7 / 16.
Proof. split; cbn; lra. Qed.
Print Assumptions lnx_trivial.
Print Assumptions lnx_tail.
Print Assumptions lnx_excess.
Print Assumptions lnx_significance_refuted.
