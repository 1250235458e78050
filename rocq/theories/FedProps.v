(** Property C52: reordering of the diffusion time steps. *)
From Coq Require Import ZArith Znumtheory Bool Lia.
From stdpp Require Import list list_numbers.
From Verif Require Import StlHelpersModel FedModel FedSpec FedProofs.
Local Open Scope Z_scope.

(** The primality test ends and is exact for every integer. *)
Theorem fx_prime_test_exact m : exists b, is_prime m = Some b /\ (b = true <-> prime m).
Proof. apply is_prime_ok. Qed.
Print Assumptions fx_prime_test_exact.
Example fx_prime_test_121 : is_prime 121 = Some false.
Proof. reflexivity. Qed.
Example fx_prime_test_1013 : is_prime 1013 = Some true /\ is_prime 169 = Some false /\ is_prime 0 = Some false /\ is_prime (-7) = Some false.
Proof. repeat split. Qed.

(** The search for the modulus ends with the smallest prime above the number of steps. *)
Theorem fx_next_prime m : exists p fuel0, smallest_prime_from m p /\ forall fuel, (fuel0 <= fuel)%nat -> next_prime fuel m = Some p.
Proof.
  destruct (prime_above (Z.to_nat m)) as (q & Hq & L). pose proof (prime_ge_2 q Hq).
  destruct (next_prime_ok q Hq (Z.to_nat (q - m)) m ltac:(lia)) as (p & Hp & _ & Hf).
  exists p, (S (Z.to_nat (q - m))). split; [done|]. intros fuel Lf. apply Hf. lia.
Qed.
Print Assumptions fx_next_prime.

(** For two and more steps the loops end and the result is a rearrangement of the computed steps, provided
    that (p - 1) * (n / 2) fits into int, where p is the prime used. *)
Theorem fx_reorder_permutation_partial {A} (tauh : list A) p : (2 <= length tauh)%nat ->
  smallest_prime_from (Z.of_nat (length tauh) + 1) p ->
  (p - 1) * (Z.of_nat (length tauh) / 2) < 2 ^ 31 ->
  exists tau fuel0, tau ≡ₚ tauh /\ forall fuel, (fuel0 <= fuel)%nat -> reorder fuel tauh = Some (Ok tau).
Proof.
  intros Hn Hp Ho. set (n := Z.of_nat (length tauh)) in *. pose proof Hp as (Hpp & Hpl & Hpm).
  destruct (next_prime_ok p Hpp (Z.to_nat (p - (n + 1))) (n + 1) ltac:(lia)) as (q & (Hq & Lq & Mq) & Lqp & Hf).
  assert (q = p) as ->. { destruct (decide (q = p)); [done|]. exfalso. apply (Hpm q); [lia|done]. }
  assert (Hk : 0 < n / 2 < p).
  { split; [apply Z.div_str_pos; lia|]. apply Z.div_lt_upper_bound; lia. }
  pose proof (used_perm (n / 2) p n Hpp Hk ltac:(lia)) as P.
  exists (omap (fun i : Z => tauh !! Z.to_nat i) (used (n / 2) p n 0 (Z.to_nat (p - 1)))), (S (Z.to_nat p)). split.
  - rewrite P. unfold n. by rewrite omap_seqZ.
  - intros fuel Lf. unfold reorder. fold n. rewrite Hf by lia. cbn.
    apply permute_ok; try done; try lia. fold n. rewrite (Permutation_length P), seqZ_length. lia.
Qed.
Print Assumptions fx_reorder_permutation_partial.
Example fx_reorder_10 : reorder 40 [10; 11; 12; 13; 14; 15; 16; 17; 18; 19] =
  Some (Ok [14; 19; 13; 18; 12; 17; 11; 16; 10; 15]).
Proof. reflexivity. Qed.
(** n = 11 needs the prime 13, so that k skips an index. *)
Example fx_reorder_11 : reorder 40 [0; 1; 2; 3; 4; 5; 6; 7; 8; 9; 10] = Some (Ok [4; 9; 1; 6; 3; 8; 0; 5; 10; 2; 7]).
Proof. reflexivity. Qed.
Lemma prime_13 : prime 13.
Proof. destruct (fx_prime_test_exact 13) as (b & E & H). vm_compute in E. injection E as <-. by apply H. Qed.
Example fx_reorder_hyps : let tauh := [0; 1; 2; 3; 4; 5; 6; 7; 8; 9; 10] in (2 <= length tauh)%nat /\
  smallest_prime_from (Z.of_nat (length tauh) + 1) 13 /\ (13 - 1) * (Z.of_nat (length tauh) / 2) < 2 ^ 31.
Proof.
  cbn. split; [lia|]. split; [|done]. split; [apply prime_13|]. split; [lia|]. intros q Hq Hp. assert (q = 12) as -> by lia.
  apply (not_prime_div 12 2); [lia|by exists 6|done].
Qed.
(** The bound is met by every number of steps up to 30000 whose prime is below twice the number. *)
Lemma fx_bound n p : 0 <= n <= 30000 -> 0 < p <= 2 * n -> (p - 1) * (n / 2) < 2 ^ 31.
Proof.
  intros Hn Hp. pose proof (Z.div_le_upper_bound n 2 15000 ltac:(lia) ltac:(lia)). pose proof (Z.div_pos n 2 ltac:(lia) ltac:(lia)). nia.
Qed.

(** ** Primes up to 60000 *)
Definition chain : list Z := [3; 5; 7; 13; 23; 43; 83; 163; 317; 631; 1259; 2503; 5003; 9973; 19937; 39869].
Lemma chain_prime p : p ∈ chain -> prime p.
Proof.
  intros I. assert (forallb (fun p => match is_prime p with Some true => true | _ => false end) chain = true) as C by (vm_compute; reflexivity).
  rewrite forallb_forall in C. apply elem_of_list_In in I. specialize (C p I). destruct (fx_prime_test_exact p) as (b & E & H). rewrite E in C. apply H. by destruct b.
Qed.
Lemma prime_between n : 2 <= n <= 30000 -> exists p, prime p /\ n + 1 <= p <= 2 * n.
Proof.
  intros N.
  destruct (decide (n < 3)) as [L3|L3]; [exists 3; split; [apply chain_prime; apply elem_of_list_In; cbn; tauto|lia]|].
  destruct (decide (n < 5)) as [L5|L5]; [exists 5; split; [apply chain_prime; apply elem_of_list_In; cbn; tauto|lia]|].
  destruct (decide (n < 7)) as [L7|L7]; [exists 7; split; [apply chain_prime; apply elem_of_list_In; cbn; tauto|lia]|].
  destruct (decide (n < 13)) as [L13|L13]; [exists 13; split; [apply chain_prime; apply elem_of_list_In; cbn; tauto|lia]|].
  destruct (decide (n < 23)) as [L23|L23]; [exists 23; split; [apply chain_prime; apply elem_of_list_In; cbn; tauto|lia]|].
  destruct (decide (n < 43)) as [L43|L43]; [exists 43; split; [apply chain_prime; apply elem_of_list_In; cbn; tauto|lia]|].
  destruct (decide (n < 83)) as [L83|L83]; [exists 83; split; [apply chain_prime; apply elem_of_list_In; cbn; tauto|lia]|].
  destruct (decide (n < 163)) as [L163|L163]; [exists 163; split; [apply chain_prime; apply elem_of_list_In; cbn; tauto|lia]|].
  destruct (decide (n < 317)) as [L317|L317]; [exists 317; split; [apply chain_prime; apply elem_of_list_In; cbn; tauto|lia]|].
  destruct (decide (n < 631)) as [L631|L631]; [exists 631; split; [apply chain_prime; apply elem_of_list_In; cbn; tauto|lia]|].
  destruct (decide (n < 1259)) as [L1259|L1259]; [exists 1259; split; [apply chain_prime; apply elem_of_list_In; cbn; tauto|lia]|].
  destruct (decide (n < 2503)) as [L2503|L2503]; [exists 2503; split; [apply chain_prime; apply elem_of_list_In; cbn; tauto|lia]|].
  destruct (decide (n < 5003)) as [L5003|L5003]; [exists 5003; split; [apply chain_prime; apply elem_of_list_In; cbn; tauto|lia]|].
  destruct (decide (n < 9973)) as [L9973|L9973]; [exists 9973; split; [apply chain_prime; apply elem_of_list_In; cbn; tauto|lia]|].
  destruct (decide (n < 19937)) as [L19937|L19937]; [exists 19937; split; [apply chain_prime; apply elem_of_list_In; cbn; tauto|lia]|].
  destruct (decide (n < 39869)) as [L39869|L39869]; [exists 39869; split; [apply chain_prime; apply elem_of_list_In; cbn; tauto|lia]|].
  lia.
Qed.
(** For 2 to 30000 steps the loops always end, stay in range and rearrange the steps. *)
Theorem fx_reorder_permutation {A} (tauh : list A) : (2 <= length tauh)%nat -> Z.of_nat (length tauh) <= 30000 ->
  exists tau fuel0, tau ≡ₚ tauh /\ forall fuel, (fuel0 <= fuel)%nat -> reorder fuel tauh = Some (Ok tau).
Proof.
  intros L U. destruct (fx_next_prime (Z.of_nat (length tauh) + 1)) as (p & _ & Hp & _). destruct (prime_between (Z.of_nat (length tauh))) as (q & Hq & B); [lia|].
  apply (fx_reorder_permutation_partial tauh p L Hp). destruct Hp as (Pp & Lp & Mp). apply fx_bound; [lia|]. destruct (decide (q < p)) as [Q|Q]; [|lia]. exfalso. apply (Mp q); [lia|done].
Qed.
Print Assumptions fx_reorder_permutation.
Example fx_reorder_permutation_ex : (2 <= length [5; 6; 7; 8])%nat /\ Z.of_nat (length [5; 6; 7; 8]) <= 30000.
Proof. cbn. lia. Qed.

(** Without reordering needed, a single time step makes the code read the element before the first one. *)
Theorem fx_reorder_single_refuted : exists tauh : list Z, (length tauh = 1)%nat /\
  exists fuel0, forall fuel, (fuel0 <= fuel)%nat -> reorder fuel tauh = Some Ub.
Proof.
  exists [7]. split; [done|]. exists 5%nat. intros fuel L. destruct fuel as [|[|fuel]]; [lia|lia|]. done.
Qed.
Print Assumptions fx_reorder_single_refuted.
(** For all single steps, in fact. *)
Theorem fx_reorder_single {A} (a : A) fuel : (2 <= fuel)%nat -> reorder fuel [a] = Some Ub.
Proof. intros L. destruct fuel as [|[|fuel]]; [lia|lia|]. done. Qed.
Print Assumptions fx_reorder_single.
(** No steps: nothing happens. *)
Theorem fx_reorder_empty {A} fuel : (2 <= fuel)%nat -> reorder fuel (@nil A) = Some (Ok []).
Proof. intros L. destruct fuel as [|[|fuel]]; [lia|lia|]. cbn. done. Qed.
Print Assumptions fx_reorder_empty.
