(** C95: cycles of fast explicit diffusion. *)
From Coq Require Import Reals List Bool Arith ZArith Lia Lra Permutation.
From Verif Require Import StlHelpersModel FedModel FedProps DiffusionModel DiffusionSpec DiffusionProps FedTimeModel FedTimeSpec FedTimeProofs.
Import ListNotations.
Local Open Scope R_scope.

(** ** Step sizes *)
Lemma step_size_root n d k : (k < n)%nat -> step_size n d k = d / root n (n - 1 - k).
Proof.
  intros K. unfold step_size, root. assert (cos (PI * (2 * INR k + 1) * (1 / (4 * INR n + 2))) = sin (PI * INR (S (n - 1 - k)) / (2 * INR n + 1))) as ->; [|reflexivity]. pose proof (pos_INR n).
  rewrite cos_sin. replace (PI / 2 + PI * (2 * INR k + 1) * (1 / (4 * INR n + 2))) with (PI - PI * INR (S (n - 1 - k)) / (2 * INR n + 1)); [apply sin_PI_x|]. replace (S (n - 1 - k)) with (n - k)%nat by lia. rewrite minus_INR by lia. field. lra.
Qed.
Lemma sum_of_seq n f : sum_of (map f (seq 0 n)) = sum n f.
Proof.
  assert (forall a, sum_of (map f (seq a n)) = sum n (fun k => f (a + k)%nat)) as E; [|apply E]. induction n as [|n IH]; intros a; [reflexivity|]. cbn [seq map]. unfold sum_of in *. cbn [fold_right]. rewrite IH, (sum_first n). rewrite Nat.add_0_r. f_equal. apply sum_ext. intros k _. f_equal. lia.
Qed.
Lemma sum_of_perm l l' : Permutation l l' -> sum_of l = sum_of l'.
Proof. unfold sum_of. induction 1; cbn [fold_right]; lra. Qed.
Lemma gain_perm l l' x : Permutation l l' -> gain l x = gain l' x.
Proof. unfold gain. induction 1; cbn [map fold_right]; [reflexivity|rewrite IHPermutation; reflexivity|ring|congruence]. Qed.
Lemma steps_sum n d : sum_of (map (step_size n d) (seq 0 n)) = d * (2 * INR n * (INR n + 1) / 3).
Proof.
  rewrite sum_of_seq, sum_reverse. rewrite (sum_ext n _ (fun j => d * / (sin (PI * INR (S j) / (2 * INR n + 1)) * sin (PI * INR (S j) / (2 * INR n + 1))))); [rewrite sum_scale, sum_csc; reflexivity|].
  intros k K. rewrite step_size_root by lia. unfold root, Rdiv. replace (n - 1 - (n - 1 - k))%nat with k by lia. reflexivity.
Qed.
Lemma steps_gain n d x : 0 <= d * x <= 1 -> Rabs (gain (map (step_size n d) (seq 0 n)) x) <= 1.
Proof.
  intros B. assert (gain (map (step_size n d) (seq 0 n)) x = fold_right Rmult 1 (map (fun j => 1 - d * x / root n j) (seq 0 n))) as ->; [|apply product_bound, B].
  assert (Permutation (map (fun k => d / root n (n - 1 - k)%nat) (seq 0 n)) (map (fun k => d / root n k) (seq 0 n))) as P.
  { rewrite <- (map_map (fun k => n - 1 - k)%nat (fun k => d / root n k)). apply Permutation_map. apply NoDup_Permutation_bis.
    - apply NoDup_map_in; [apply seq_NoDup|]. intros a b A Bb. apply in_seq in A, Bb. lia.
    - rewrite map_length. reflexivity.
    - intros a A. apply in_map_iff in A as (k & <- & K). apply in_seq in K. apply in_seq. lia. }
  rewrite (map_ext_in (step_size n d) (fun k => d / root n (n - 1 - k)%nat)) by (intros k K; apply in_seq in K; apply step_size_root; lia). rewrite (gain_perm _ _ x P). unfold gain. rewrite map_map. f_equal. apply map_ext. intros k. unfold Rdiv. ring.
Qed.
Lemma steps_pos n d : 0 < d -> Forall (fun t => 0 < t) (map (step_size n d) (seq 0 n)).
Proof. intros D. apply Forall_map, Forall_forall. intros k K. apply in_seq in K. rewrite step_size_root by lia. apply Rdiv_lt_0_compat; [exact D|]. apply root_pos. lia. Qed.

(** ** Number of steps *)
Lemma ceiling_spec r : r <= IZR (ceiling r) < r + 1.
Proof. unfold ceiling. destruct (base_Int_part (- r)) as [A B]. rewrite opp_IZR. lra. Qed.
Lemma ceiling_unique r z : IZR z - 1 < r <= IZR z -> ceiling r = z.
Proof.
  intros B. destruct (ceiling_spec r) as [C D]. assert (IZR z - 1 < IZR (ceiling r)) as P by lra. assert (IZR (ceiling r) < IZR z + 1) as Q by lra. rewrite <- plus_IZR in Q. rewrite <- minus_IZR in P. apply lt_IZR in P, Q. lia.
Qed.
Definition eps : R := / 10 ^ 8.
Lemma eps_bound : 0 < eps < / 100.
Proof. unfold eps. split; lra. Qed.
(** [x] with x (x + 1) = 3 t / tau_max. *)
Lemma steps_root t tau : 0 < tau -> 0 <= t -> exists x, 0 <= x /\ sqrt (3 * t / tau + / 4) = x + / 2 /\ tau * (x * (x + 1)) = 3 * t.
Proof.
  intros T P. assert (0 <= 3 * t / tau) as Q by (apply Rmult_le_pos; [lra|left; apply Rinv_0_lt_compat; lra]). exists (sqrt (3 * t / tau + / 4) - / 2).
  assert (/ 2 <= sqrt (3 * t / tau + / 4)) as S. { replace (/ 2) with (sqrt (/ 4)); [apply sqrt_le_1; lra|]. replace (/ 4) with (/ 2 * / 2) by lra. apply sqrt_square. lra. }
  split; [lra|]. split; [lra|]. set (s := sqrt (3 * t / tau + / 4)) in *. assert (s * s = 3 * t / tau + / 4) as E by (apply sqrt_sqrt; lra). replace ((s - / 2) * (s - / 2 + 1)) with (s * s - / 4) by (unfold Rdiv; field). rewrite E. field. lra.
Qed.
Lemma cycle_steps_spec t tau : 0 < tau -> 0 <= t -> exists x, 0 <= x /\ tau * (x * (x + 1)) = 3 * t /\ (0 <= cycle_steps t tau)%Z /\ x - eps <= IZR (cycle_steps t tau) < x - eps + 1.
Proof.
  intros T P. destruct (steps_root t tau T P) as (x & X & E & S). exists x. split; [exact X|]. split; [exact S|]. unfold cycle_steps. rewrite E. fold eps. replace (x + / 2 - / 2 - eps) with (x - eps) by ring. pose proof (ceiling_spec (x - eps)) as C. split; [|exact C].
  pose proof eps_bound. assert (IZR (-1) < IZR (ceiling (x - eps))) as L by (cbn; lra). apply lt_IZR in L. lia.
Qed.
(** n is the least number of steps with n (n + 1) tau_max / 3 >= t, but for 10^-8. *)
Theorem ftx_number t tau n : 0 < tau -> 0 <= t -> n = cycle_steps t tau ->
  (0 <= n)%Z /\ 3 * t <= tau * ((IZR n + eps) * (IZR n + eps + 1)) /\ ((1 <= n)%Z -> tau * (IZR (n - 1) * IZR n) < 3 * t).
Proof.
  intros T P ->. destruct (cycle_steps_spec t tau T P) as (x & X & S & N & A & B). pose proof eps_bound as [E1 E2]. split; [exact N|]. rewrite <- S. split.
  - apply Rmult_le_compat_l; [lra|]. apply Rmult_le_compat; lra.
  - intros N1. apply IZR_le in N1. rewrite minus_IZR. apply Rmult_lt_compat_l; [exact T|]. set (m := IZR (cycle_steps t tau)) in *. nra.
Qed.
Print Assumptions ftx_number.

(** ** A cycle *)
(** What a cycle of duration t must be. *)
Definition good_cycle (t tau : R) (n : Z) (l : list R) : Prop :=
  Z.of_nat (length l) = n /\ sum_of l = t /\ Forall (fun s => 0 < s) l /\ forall x, 0 <= x -> x * tau * (1 + 2 * eps) <= 2 -> Rabs (gain l x) <= 1.
Lemma cycle_good t tau n l : 0 < tau -> 0 <= t -> n = cycle_steps t tau -> (1 <= n)%Z -> Permutation l (map (step_size (Z.to_nat n) (3 * t / (tau * IZR (n * (n + 1))) * tau / 2)) (seq 0 (Z.to_nat n))) -> good_cycle t tau n l.
Proof.
  intros T P EN N PM. destruct (ftx_number t tau n T P EN) as (_ & UP & LO). specialize (LO N). pose proof eps_bound as [E1 E2]. assert (INR (Z.to_nat n) = IZR n) as IN by (rewrite INR_IZR_INZ, Z2Nat.id by lia; reflexivity). pose proof (IZR_le _ _ N) as N1.
  set (d := 3 * t / (tau * IZR (n * (n + 1))) * tau / 2) in *. assert (d = 3 * t / (2 * (IZR n * (IZR n + 1)))) as D. { unfold d. rewrite mult_IZR, plus_IZR. field. lra. }
  assert (0 < t) as TP. { rewrite minus_IZR in LO. assert (0 <= tau * ((IZR n - 1) * IZR n)) by (apply Rmult_le_pos; [lra|apply Rmult_le_pos; lra]). lra. }
  assert (0 < d) as DP by (rewrite D; apply Rdiv_lt_0_compat; nra). split; [|split; [|split]].
  - rewrite (Permutation_length PM), map_length, seq_length, Z2Nat.id by lia. reflexivity.
  - rewrite (sum_of_perm _ _ PM), steps_sum, IN, D. field. lra.
  - eapply Permutation_Forall; [apply Permutation_sym, PM|]. apply steps_pos, DP.
  - intros x X B. rewrite (gain_perm _ _ x PM). apply steps_gain. split; [apply Rmult_le_pos; lra|]. rewrite D. set (m := IZR n) in *. apply Rmult_le_reg_r with (2 * (m * (m + 1))); [nra|]. replace (3 * t / (2 * (m * (m + 1))) * x * (2 * (m * (m + 1)))) with (3 * t * x) by (field; lra). rewrite Rmult_1_l.
    apply Rle_trans with (tau * ((m + eps) * (m + eps + 1)) * x); [apply Rmult_le_compat_r; lra|]. assert ((m + eps) * (m + eps + 1) <= (1 + 2 * eps) * (m * (m + 1))) as Q.
    { assert (1 + eps <= 2 * (m * m)) as M by nra. assert (eps * (1 + eps) <= eps * (2 * (m * m))) by (apply Rmult_le_compat_l; lra). lra. }
    assert (0 <= tau * x) by (apply Rmult_le_pos; lra). assert (tau * x * ((m + eps) * (m + eps + 1)) <= tau * x * ((1 + 2 * eps) * (m * (m + 1)))) by (apply Rmult_le_compat_l; assumption). assert (x * tau * (1 + 2 * eps) * (m * (m + 1)) <= 2 * (m * (m + 1))) by (apply Rmult_le_compat_r; [nra|exact B]). lra.
Qed.
(** The steps of a cycle are positive, sum up to its duration and damp every component that decays with a rate up to 2 / tau_max: without reordering, and with it for 2 to 30000 steps. *)
Theorem ftx_cycle t tau n tau0 : 0 < tau -> 0 <= t -> n = cycle_steps t tau ->
  ((1 <= n)%Z -> exists l, good_cycle t tau n l /\ forall fuel, cycle_time fuel t tau false tau0 = Some (Ok (n, l))) /\
  ((2 <= n <= 30000)%Z -> exists l fuel0, good_cycle t tau n l /\ forall fuel, (fuel0 <= fuel)%nat -> cycle_time fuel t tau true tau0 = Some (Ok (n, l))).
Proof.
  intros T P EN. split; intros N.
  - eexists. split; [apply (cycle_good t tau n _ T P EN N), Permutation_refl|]. intros fuel. unfold cycle_time, tau_internal. rewrite <- EN. destruct (Z.leb_spec n 0); [lia|reflexivity].
  - set (tauh := map (step_size (Z.to_nat n) (3 * t / (tau * IZR (n * (n + 1))) * tau / 2)) (seq 0 (Z.to_nat n))). assert (length tauh = Z.to_nat n) as LT by (unfold tauh; rewrite map_length, seq_length; reflexivity).
    destruct (fx_reorder_permutation tauh) as (l & fuel0 & PM & E); [lia|lia|]. exists l, fuel0. split; [apply (cycle_good t tau n l T P EN); [lia|exact PM]|]. intros fuel F. unfold cycle_time, tau_internal. rewrite <- EN. destruct (Z.leb_spec n 0); [lia|]. fold tauh. rewrite (E fuel F). reflexivity.
Qed.
Print Assumptions ftx_cycle.
Lemma cycle_steps_value t tau x n : 0 < tau -> 0 <= x -> tau * (x * (x + 1)) = 3 * t -> IZR n - 1 < x - eps <= IZR n -> cycle_steps t tau = n.
Proof.
  intros T X S N. unfold cycle_steps. apply ceiling_unique. fold eps. assert (sqrt (3 * t / tau + / 4) = x + / 2) as ->; [|lra]. replace (3 * t / tau + / 4) with ((x + / 2) * (x + / 2)); [apply sqrt_square; lra|]. rewrite <- S. field. lra.
Qed.
Example ftx_cycle_ex : cycle_steps 1 (/ 4) = 3%Z.
Proof. pose proof eps_bound. apply (cycle_steps_value 1 (/ 4) 3); lra. Qed.
(** M cycles last as long as the process. *)
Theorem ftx_process T M tau n : 0 < tau -> 0 <= T -> (1 <= M)%Z -> n = cycle_steps (T / IZR M) tau -> (1 <= n)%Z ->
  exists l, (forall fuel, process_time fuel T M tau false [] = Some (Ok (n, l))) /\ IZR M * sum_of l = T.
Proof.
  intros TP P HM EN N. apply IZR_le in HM. assert (0 <= T / IZR M) as Q by (apply Rmult_le_pos; [lra|left; apply Rinv_0_lt_compat; lra]). destruct (ftx_cycle (T / IZR M) tau n [] TP Q EN) as [A _]. destruct (A N) as (l & (_ & S & _) & E).
  exists l. split; [exact E|]. rewrite S. field. lra.
Qed.
Print Assumptions ftx_process.

(** ** Effect of a cycle on an image *)
Lemma inflow_ext rows cols L L' c y x a : (y < rows)%nat -> (x < cols)%nat -> (forall y x, (y < rows)%nat -> (x < cols)%nat -> L' y x = a * L y x) -> inflow rows cols L' c y x = a * inflow rows cols L c y x.
Proof.
  intros Y X E. unfold inflow. assert (forall q, In q (neighbours rows cols y x) -> (fst q < rows)%nat /\ (snd q < cols)%nat) as I.
  { intros q Q. unfold neighbours in Q. destruct (Nat.ltb_spec (x + 1) cols), (Nat.ltb_spec 0 x), (Nat.ltb_spec (y + 1) rows), (Nat.ltb_spec 0 y); cbn [app In] in Q; repeat (destruct Q as [<-|Q]; [cbn; lia|]); contradiction. }
  induction (neighbours rows cols y x) as [|q ns IH]; cbn [map fold_right]; [ring|]. rewrite IH by (intros; apply I; right; assumption). destruct (I q (or_introl eq_refl)) as [Q1 Q2]. rewrite (E _ _ Q1 Q2), (E y x Y X). ring.
Qed.
(** Whatever the steps are, they keep the brightness. *)
Theorem ftx_conserves rows cols c order steps : (2 <= rows)%nat -> (2 <= cols)%nat -> Permutation order (seq 1 (rows - 2)) ->
  forall L, exists L', run_steps rows cols c order steps L = Some L' /\ total rows cols L' = total rows cols L.
Proof.
  intros R K P. induction steps as [|t steps IH]; intros L; cbn [run_steps]; [eauto|]. destruct (nlx_divergence rows cols L c t order R K P) as (L1 & E & _). rewrite E. destruct (IH L1) as (L2 & E2 & T2). exists L2. split; [exact E2|]. rewrite T2. apply (nlx_conserves rows cols L c t order L1 R K P E).
Qed.
Print Assumptions ftx_conserves.
(** An image that decays with rate [lambda] is multiplied by [gain]. *)
Definition eigenimage (rows cols : nat) (c : image) (lambda : R) (L : image) : Prop := forall y x, (y < rows)%nat -> (x < cols)%nat -> inflow rows cols L c y x = - lambda * L y x.
Lemma run_gain rows cols c order lambda steps : (2 <= rows)%nat -> (2 <= cols)%nat -> Permutation order (seq 1 (rows - 2)) -> forall L, eigenimage rows cols c lambda L ->
  exists L', run_steps rows cols c order steps L = Some L' /\ forall y x, (y < rows)%nat -> (x < cols)%nat -> L' y x = gain steps lambda * L y x.
Proof.
  intros R K P. induction steps as [|t steps IH]; intros L EI; cbn [run_steps]; [exists L; split; [reflexivity|intros; unfold gain; cbn; ring]|].
  destruct (nlx_divergence rows cols L c t order R K P) as (L1 & E & V). rewrite E. assert (forall y x, (y < rows)%nat -> (x < cols)%nat -> L1 y x = (1 - t * lambda) * L y x) as W. { intros y x Y X. rewrite (V y x Y X), (EI y x Y X). ring. }
  destruct (IH L1) as (L2 & E2 & V2). { intros y x Y X. rewrite (inflow_ext rows cols L L1 c y x _ Y X W), (EI y x Y X), (W y x Y X). ring. }
  exists L2. split; [exact E2|]. intros y x Y X. rewrite (V2 y x Y X), (W y x Y X). unfold gain. cbn [map fold_right]. ring.
Qed.
(** The rates of decay are from 0 to 8. *)
Lemma argmax (f : nat -> nat -> R) rows cols : (0 < rows)%nat -> (0 < cols)%nat -> exists y x, (y < rows)%nat /\ (x < cols)%nat /\ forall j i, (j < rows)%nat -> (i < cols)%nat -> f j i <= f y x.
Proof.
  assert (forall g n, (0 < n)%nat -> exists x, (x < n)%nat /\ forall i, (i < n)%nat -> g i <= g x) as one.
  { intros g n N. induction n as [|n IH]; [lia|]. destruct (Nat.eq_dec n 0) as [e|]; [exists 0%nat; split; [lia|]; intros i I; replace i with 0%nat by lia; lra|]. destruct IH as (x & X & M); [lia|]. destruct (Rle_dec (g n) (g x)) as [G|G].
    - exists x. split; [lia|]. intros i I. destruct (Nat.eq_dec i n) as [->|]; [exact G|apply M; lia].
    - exists n. split; [lia|]. intros i I. destruct (Nat.eq_dec i n) as [->|]; [lra|]. assert (g i <= g x) by (apply M; lia). lra. }
  intros R K. induction rows as [|rows IH]; [lia|]. destruct (one (f rows) cols K) as (x0 & X0 & M0). destruct (Nat.eq_dec rows 0) as [e|].
  - exists rows, x0. split; [lia|]. split; [exact X0|]. intros j i J I. replace j with rows by lia. apply M0, I.
  - destruct IH as (y & x & Y & X & M); [lia|]. destruct (Rle_dec (f rows x0) (f y x)) as [G|G].
    + exists y, x. split; [lia|]. split; [exact X|]. intros j i J I. destruct (Nat.eq_dec j rows) as [->|]; [pose proof (M0 i I); lra|apply M; lia].
    + exists rows, x0. split; [lia|]. split; [exact X0|]. intros j i J I. destruct (Nat.eq_dec j rows) as [->|]; [apply M0, I|]. assert (f j i <= f y x) by (apply M; lia). lra.
Qed.
Theorem ftx_rates rows cols c lambda L : within rows cols 0 1 c -> eigenimage rows cols c lambda L -> (exists y x, (y < rows)%nat /\ (x < cols)%nat /\ L y x <> 0) -> 0 <= lambda <= 8.
Proof.
  intros C EI (y0 & x0 & Y0 & X0 & NZ). destruct (argmax (fun y x => L y x * L y x) rows cols) as (y & x & Y & X & M); [lia|lia|]. cbv beta in M. assert (0 < L y x * L y x) as PP. { pose proof (M y0 x0 Y0 X0). assert (0 < L y0 x0 * L y0 x0) by nra. lra. }
  pose proof (EI y x Y X) as E. unfold inflow in E. assert (forall q, In q (neighbours rows cols y x) -> (fst q < rows)%nat /\ (snd q < cols)%nat) as I.
  { intros q Q. unfold neighbours in Q. destruct (Nat.ltb_spec (x + 1) cols), (Nat.ltb_spec 0 x), (Nat.ltb_spec (y + 1) rows), (Nat.ltb_spec 0 y); cbn [app In] in Q; repeat (destruct Q as [<-|Q]; [cbn; lia|]); contradiction. }
  assert (length (neighbours rows cols y x) <= 4)%nat as LE by (unfold neighbours; destruct (x + 1 <? cols)%nat, (0 <? x)%nat, (y + 1 <? rows)%nat, (0 <? y)%nat; cbn; lia).
  assert (- (2 * INR (length (neighbours rows cols y x)) * (L y x * L y x)) <= L y x * fold_right Rplus 0 (map (fun q => (c y x + c (fst q) (snd q)) / 2 * (L (fst q) (snd q) - L y x)) (neighbours rows cols y x)) <= 0) as F.
  { clear E LE. induction (neighbours rows cols y x) as [|q ns IH]; [cbn; lra|]. specialize (IH (fun p Q => I p (or_intror Q))). destruct (I q (or_introl eq_refl)) as [Q1 Q2]. pose proof (M _ _ Q1 Q2) as MQ. pose proof (C _ _ Q1 Q2) as CQ. pose proof (C y x Y X) as CP. cbn [map fold_right length]. rewrite S_INR.
    set (w := (c y x + c (fst q) (snd q)) / 2). assert (0 <= w <= 1) as W by (unfold w; lra). set (b := L (fst q) (snd q)) in *. set (a := L y x) in *. set (T := fold_right Rplus 0 _) in *.
    assert (- (2 * (a * a)) <= a * (w * (b - a)) <= 0); [|lra]. replace (a * (w * (b - a))) with (w * (a * b - a * a)) by ring. assert (- (2 * (a * a)) <= a * b - a * a <= 0) as Z by (pose proof (Rle_0_sqr (a - b)) as S1; pose proof (Rle_0_sqr (a + b)) as S2; unfold Rsqr in S1, S2; split; lra). split; nra. }
  rewrite E in F. apply le_INR in LE. replace (INR 4) with 4 in LE by (cbn; lra). set (a := L y x) in *. assert (2 * INR (length (neighbours rows cols y x)) * (a * a) <= 8 * (a * a)) by (apply Rmult_le_compat_r; lra). assert (0 <= lambda * (a * a) <= 8 * (a * a)) as [G1 G2] by lra. split; [apply Rmult_le_reg_r with (a * a); lra|apply Rmult_le_reg_r with (a * a); lra].
Qed.
Print Assumptions ftx_rates.
(** So a cycle with tau_max = 1/4 amplifies none of them (up to 1.6e-7 below the greatest rate). *)
Theorem ftx_stable rows cols c order t n l lambda L : (2 <= rows)%nat -> (2 <= cols)%nat -> Permutation order (seq 1 (rows - 2)) -> within rows cols 0 1 c -> good_cycle t (/ 4) n l ->
  eigenimage rows cols c lambda L -> lambda * (1 + 2 * eps) <= 8 -> exists L', run_steps rows cols c order l L = Some L' /\ forall y x, (y < rows)%nat -> (x < cols)%nat -> Rabs (L' y x) <= Rabs (L y x).
Proof.
  intros R K P C (_ & _ & _ & G) EI B. destruct (run_gain rows cols c order lambda l R K P L EI) as (L' & E & V). exists L'. split; [exact E|]. intros y x Y X. destruct (Req_dec (L y x) 0) as [Z|Z]; [rewrite (V y x Y X), Z, Rmult_0_r; lra|].
  assert (0 <= lambda <= 8) as [B1 _]. { apply (ftx_rates rows cols c lambda L C EI). exists y, x. auto. } rewrite (V y x Y X), Rabs_mult. specialize (G lambda B1). assert (lambda * / 4 * (1 + 2 * eps) <= 2) as Q by lra. specialize (G Q). pose proof (Rabs_pos (L y x)). nra.
Qed.
Print Assumptions ftx_stable.
(** The two columns of an image of 2 x 2 pixels, one bright, one dark. *)
Example ftx_stable_ex : eigenimage 2 2 (fun _ _ => 1) 2 (fun _ x => if (x =? 0)%nat then 1 else - 1) /\ within 2 2 0 1 (fun _ _ => 1) /\ Permutation [] (seq 1 (2 - 2)) /\ 2 * (1 + 2 * eps) <= 8.
Proof.
  pose proof eps_bound. split; [|split; [intros y x _ _; lra|split; [apply Permutation_refl|lra]]]. intros y x Y X. assert (y = 0 \/ y = 1)%nat as [->| ->] by lia; assert (x = 0 \/ x = 1)%nat as [->| ->] by lia; cbn; lra.
Qed.
(** A single step of the cycle can be larger than 1/4, so that values leave the range in between (nlx_limit); the cycle as a whole is what is stable. *)

(** ** The levels of the scale space *)
Definition level_time (soffset : R) (nsublevels l : nat) : R := / 2 * ((soffset * Rpower 2 (INR l / INR nsublevels)) * (soffset * Rpower 2 (INR l / INR nsublevels))).
Lemma levels_flat soffset ns omax : (0 < ns)%nat -> levels soffset omax ns = map (level_time soffset ns) (seq 0 (omax * ns)).
Proof.
  intros N. unfold levels. induction omax as [|omax IH]; [reflexivity|]. rewrite seq_S, flat_map_app, IH. cbn [flat_map plus]. rewrite app_nil_r. replace (S omax * ns)%nat with (omax * ns + ns)%nat by lia. rewrite seq_app, map_app. f_equal. cbn [plus].
  assert (forall m a, map (fun j => etime (esigma soffset ns omax (a + j))) (seq 0 m) = map (level_time soffset ns) (seq (omax * ns + a) m)) as G; [|rewrite <- (Nat.add_0_r (omax * ns)); apply (G ns 0%nat)].
  assert (0 < INR ns) as NP by (apply lt_0_INR; lia). clear IH. induction m as [|m IHm]; intros a; [reflexivity|]. cbn [seq map]. f_equal.
  - unfold etime, esigma, level_time. rewrite Nat.add_0_r. replace (INR (omax * ns + a) / INR ns) with (INR a / INR ns + INR omax); [reflexivity|]. rewrite plus_INR, mult_INR. field. lra.
  - rewrite <- Nat.add_succ_r, <- IHm. rewrite <- seq_shift, map_map. apply map_ext. intros j. f_equal. f_equal. lia.
Qed.
Definition ratio (ns : nat) : R := Rpower 2 (2 / INR ns).
Lemma level_time_pow s ns l : (0 < ns)%nat -> level_time s ns l = s * s / 2 * ratio ns ^ l.
Proof.
  intros N. assert (0 < INR ns) as NP by (apply lt_0_INR; lia). unfold level_time. assert (Rpower 2 (INR l / INR ns) * Rpower 2 (INR l / INR ns) = ratio ns ^ l) as E; [|rewrite <- E; field].
  rewrite <- Rpower_plus. unfold ratio. rewrite <- Rpower_pow by apply exp_pos. rewrite Rpower_mult. f_equal. field. lra.
Qed.
Lemma ratio_pow ns : (0 < ns)%nat -> ratio ns ^ ns = 4.
Proof. intros N. assert (0 < INR ns) as NP by (apply lt_0_INR; lia). unfold ratio. rewrite <- Rpower_pow by apply exp_pos. rewrite Rpower_mult. replace (2 / INR ns * INR ns) with (INR 2) by (cbn; field; lra). rewrite Rpower_pow by lra. lra. Qed.
Lemma ratio_gt1 ns : (0 < ns)%nat -> 1 < ratio ns.
Proof. intros N. assert (0 < INR ns) as NP by (apply lt_0_INR; lia). unfold ratio. rewrite <- (Rpower_O 2) by lra. apply Rpower_lt; [lra|]. apply Rdiv_lt_0_compat; lra. Qed.
Lemma steps_range t : (2 + 4 * eps) / 12 < t -> t <= 75000000 -> (2 <= cycle_steps t (/ 4) <= 30000)%Z.
Proof.
  intros A B. pose proof eps_bound as [E1 E2]. destruct (cycle_steps_spec t (/ 4)) as (x & X & S & N & C1 & C2); [lra|lra|]. assert (1 + eps < x) as X1 by nra. assert (x <= 30000) as X2 by nra. split.
  - assert (IZR 1 < IZR (cycle_steps t (/ 4))) as L by (cbn; lra). apply lt_IZR in L. lia.
  - assert (IZR (cycle_steps t (/ 4)) < IZR 30001) as L by lra. apply lt_IZR in L. lia.
Qed.
Lemma schedule_ok (T : nat -> R) n : forall a, (forall k, (a <= k < a + n)%nat -> (2 + 4 * eps) / 12 < T (S k) - T k <= 75000000) ->
  exists l fuel0, length l = n /\ (forall fuel, (fuel0 <= fuel)%nat -> schedule fuel (T a) (map T (seq (S a) n)) = Some (Ok l)) /\ forall k d, (k < n)%nat -> good_cycle (T (S (a + k)) - T (a + k)%nat) (/ 4) (fst (nth k l d)) (snd (nth k l d)).
Proof.
  induction n as [|n IH]; intros a B; [exists [], 0%nat; repeat split; intros; lia|]. pose proof eps_bound as [E1 E2]. destruct (B a) as [B1 B2]; [lia|].
  destruct (ftx_cycle (T (S a) - T a) (/ 4) _ [] ltac:(lra) ltac:(lra) eq_refl) as [_ CY]. destruct (CY (steps_range _ B1 B2)) as (l1 & f1 & G & E). destruct (IH (S a)) as (l & f2 & LL & E' & V); [intros k K; apply B; lia|].
  exists ((cycle_steps (T (S a) - T a) (/ 4), l1) :: l), (Nat.max f1 f2). split; [cbn; lia|]. split.
  - intros fuel F. cbn [seq map schedule]. unfold process_time. replace ((T (S a) - T a) / 1) with (T (S a) - T a) by field. rewrite (E fuel) by lia. rewrite (E' fuel) by lia. reflexivity.
  - intros [|k] d K; cbn [nth fst snd]; [rewrite Nat.add_0_r; exact G|]. specialize (V k d). replace (a + S k)%nat with (S a + k)%nat by lia. apply V. lia.
Qed.
(** If the first two levels are further apart than two thirds of tau_max, the allocation succeeds and the steps of each level are those of a cycle of the time between it and the previous one. *)
Theorem ftx_levels soffset omax nsublevels : 0 < soffset -> (0 < omax)%nat -> (0 < nsublevels)%nat ->
  (2 + 4 * eps) / 12 < soffset * soffset / 2 * (ratio nsublevels - 1) -> soffset * soffset / 2 * 4 ^ omax <= 75000000 ->
  exists l fuel0, length l = (omax * nsublevels - 1)%nat /\ (forall fuel, (fuel0 <= fuel)%nat -> allocate fuel soffset omax nsublevels = Some (Ok l)) /\
    forall k d, (k < omax * nsublevels - 1)%nat -> good_cycle (level_time soffset nsublevels (S k) - level_time soffset nsublevels k) (/ 4) (fst (nth k l d)) (snd (nth k l d)).
Proof.
  intros SP OP NP LO HI. set (T := level_time soffset nsublevels). set (N := (omax * nsublevels - 1)%nat). pose proof (ratio_gt1 nsublevels NP) as R1. set (S2 := soffset * soffset / 2) in *. assert (0 < S2) as S2P by (unfold S2; nra).
  assert (omax * nsublevels = S N)%nat as EN by (unfold N; nia). destruct (schedule_ok T N 0) as (l & f & LL & E & V).
  { intros k K. unfold T. rewrite !level_time_pow by exact NP. fold S2. cbn [pow]. set (q := ratio nsublevels) in *. assert (1 <= q ^ k) as Q1 by (apply pow_R1_Rle; lra). replace (S2 * (q * q ^ k) - S2 * q ^ k) with (S2 * (q - 1) * q ^ k) by ring. split.
    - assert (0 < S2 * (q - 1)) by nra. nra.
    - assert (q ^ S k <= 4 ^ omax) as Q2. { rewrite <- (ratio_pow nsublevels NP), <- pow_mult. apply Rle_pow; [fold q; lra|]. nia. } cbn [pow] in Q2. assert (S2 * (q - 1) * q ^ k <= S2 * (q * q ^ k)) by (rewrite Rmult_assoc; apply Rmult_le_compat_l; [lra|]; lra). assert (S2 * (q * q ^ k) <= S2 * 4 ^ omax) by (apply Rmult_le_compat_l; lra). lra. }
  exists l, f. split; [exact LL|]. split.
  - intros fuel F. unfold allocate. rewrite levels_flat by exact NP. rewrite EN. cbn [seq map]. apply (E fuel F).
  - intros k d K. apply (V k d K).
Qed.
Print Assumptions ftx_levels.
(** The default options meet the conditions. *)
Example ftx_levels_ex : (2 + 4 * eps) / 12 < 16 / 10 * (16 / 10) / 2 * (ratio 4 - 1) /\ 16 / 10 * (16 / 10) / 2 * 4 ^ 4 <= 75000000.
Proof.
  pose proof eps_bound. split; [|lra]. assert (14 / 10 < ratio 4); [|lra]. destruct (Rlt_dec (14 / 10) (ratio 4)) as [|G]; [assumption|]. exfalso. pose proof (ratio_pow 4 ltac:(lia)) as P. assert (1 < ratio 4) by (apply ratio_gt1; lia). assert (ratio 4 ^ 4 <= (14 / 10) ^ 4) by (apply pow_incr; lra). lra.
Qed.
(** With twelve sublevels the first levels are closer, a single step suffices, and the reordering reads before the start of the vector. *)
Theorem ftx_sublevels_refuted omax fuel : (0 < omax)%nat -> (2 <= fuel)%nat -> allocate fuel (16 / 10) omax 12 = Some Ub.
Proof.
  intros OP F. unfold allocate. rewrite levels_flat by lia. destruct (omax * 12)%nat as [|[|N]] eqn:EN; [lia|lia|]. cbn [seq map schedule]. unfold process_time, cycle_time. set (D := (level_time (16 / 10) 12 1 - level_time (16 / 10) 12 0) / 1).
  assert (cycle_steps D (/ 4) = 1%Z) as E.
  { pose proof eps_bound as [E1 E2]. assert (D = 128 / 100 * (ratio 12 - 1)) as ED. { unfold D. rewrite !level_time_pow by lia. cbn [pow]. field. } assert (ratio 12 < 113 / 100) as RU. { destruct (Rlt_dec (ratio 12) (113 / 100)) as [|G]; [assumption|]. exfalso. pose proof (ratio_pow 12 ltac:(lia)) as P. assert ((113 / 100) ^ 12 <= ratio 12 ^ 12) by (apply pow_incr; lra). lra. }
    assert (110 / 100 < ratio 12) as RL. { destruct (Rlt_dec (110 / 100) (ratio 12)) as [|G]; [assumption|]. exfalso. pose proof (ratio_pow 12 ltac:(lia)) as P. pose proof (ratio_gt1 12 ltac:(lia)). assert (ratio 12 ^ 12 <= (110 / 100) ^ 12) by (apply pow_incr; lra). lra. }
    destruct (steps_root D (/ 4)) as (x & X & EQ & SX); [lra|lra|]. apply (cycle_steps_value D (/ 4) x); [lra|exact X|exact SX|]. split; nra. }
  rewrite E. unfold tau_internal. cbn [Z.leb Z.compare Pos.compare Pos.compare_cont]. change (Z.to_nat 1) with 1%nat. cbn [seq map]. rewrite (fx_reorder_single _ fuel F). reflexivity.
Qed.
Print Assumptions ftx_sublevels_refuted.
(** A very short cycle has no step at all, and the vector of the caller is left as it was. *)
Theorem ftx_short_refuted : exists t, 0 < t /\ forall fuel b tau0, cycle_time fuel t (/ 4) b tau0 = Some (Ok (0%Z, tau0)).
Proof.
  pose proof eps_bound as [E1 E2]. exists (/ 4 * (eps * (eps + 1)) / 3). split; [nra|]. intros fuel b tau0. unfold cycle_time. rewrite (cycle_steps_value _ (/ 4) eps 0%Z); [reflexivity|lra|lra|field|lra].
Qed.
Print Assumptions ftx_short_refuted.
