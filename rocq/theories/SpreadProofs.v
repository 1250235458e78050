(** Sums over bits and over descriptors. *)
From Coq Require Import NArith ZArith Bool Reals Lia Lra.
From stdpp Require Import list.
From Verif Require Import DescriptorModel DescriptorSpec DescriptorProofs SpreadModel SpreadSpec.
Local Open Scope nat_scope.

Definition total {A} (f : A -> R) (l : list A) : R := foldr (fun x s => (f x + s)%R) 0%R l.
Lemma total_ext {A} (f g : A -> R) l : (forall x, x ∈ l -> f x = g x) -> total f l = total g l.
Proof. induction l as [|a l IH]; intros H; cbn; [reflexivity|]. rewrite H by (left). f_equal. apply IH. intros x X. apply H. right. exact X. Qed.
Lemma total_add {A} (f g : A -> R) l : total (fun x => (f x + g x)%R) l = (total f l + total g l)%R.
Proof. induction l as [|a l IH]; cbn; [lra|]. unfold total in *. rewrite IH. lra. Qed.
Lemma total_scale {A} (c : R) (f : A -> R) l : total (fun x => (c * f x)%R) l = (c * total f l)%R.
Proof. induction l as [|a l IH]; cbn; [lra|]. unfold total in *. rewrite IH. lra. Qed.
Lemma total_swap {A B} (f : A -> B -> R) l m : total (fun a => total (f a) m) l = total (fun b => total (fun a => f a b) l) m.
Proof.
  induction l as [|a l IH]; cbn.
  - induction m as [|b m IH]; cbn; [reflexivity|]. unfold total in *. rewrite <- IH. lra.
  - change (foldr (fun x s => (total (f x) m + s)%R) 0%R l) with (total (fun a => total (f a) m) l). rewrite IH, <- total_add. reflexivity.
Qed.
Lemma sum_real_total {A} (f : A -> option R) (g : A -> R) l : (forall x, x ∈ l -> f x = Some (g x)) -> sum_real (f <$> l) = Some (total g l).
Proof. induction l as [|a l IH]; intros H; cbn; [reflexivity|]. rewrite H by left. rewrite IH by (intros x X; apply H; right; exact X). reflexivity. Qed.
Lemma total_nat (f : nat -> nat) n : total (fun i => INR (f i)) (seq 0 n) = INR (sum_to n f).
Proof.
  enough (G : forall k, total (fun i => INR (f i)) (seq k n) = INR (sum_to n (fun i => f (k + i)))) by (rewrite G; f_equal; apply sum_to_ext; intros; reflexivity).
  induction n as [|n IH]; intros k; [reflexivity|]. rewrite sum_to_S, plus_INR. cbn [seq total foldr]. fold (total (fun i => INR (f i)) (seq (S k) n)). rewrite IH. rewrite Nat.add_0_r. f_equal. f_equal. apply sum_to_ext. intros i _. f_equal. lia.
Qed.

(** One bit: [k] of [n] descriptors have it. *)
Lemma bit_squares i ds p : total (fun d => Rsqr ((if bit_at i d then 1 else 0) - p)) ds = (INR (num_set i ds) * Rsqr (1 - p) + INR (length ds - num_set i ds) * Rsqr p)%R.
Proof.
  induction ds as [|d ds IH]; [cbn; lra|]. cbn [total foldr num_set]. fold (total (fun d => Rsqr ((if bit_at i d then 1 else 0) - p)) ds) (num_set i ds). rewrite IH. pose proof (num_set_le i ds).
  destruct (bit_at i d); cbn [length Nat.add].
  - replace (S (length ds) - S (num_set i ds)) with (length ds - num_set i ds) by lia. rewrite S_INR. lra.
  - replace (S (length ds) - num_set i ds) with (S (length ds - num_set i ds)) by lia. rewrite S_INR. unfold Rsqr. lra.
Qed.
Lemma bit_variance i ds : ds <> [] -> total (fun d => Rsqr ((if bit_at i d then 1 else 0) - INR (num_set i ds) / INR (length ds))) ds = (INR (num_set i ds * (length ds - num_set i ds)) / INR (length ds))%R.
Proof.
  intros N. rewrite bit_squares. pose proof (num_set_le i ds) as L. rewrite mult_INR, minus_INR by exact L. assert (P : (INR (length ds) <> 0)%R) by (destruct ds; [contradiction|]; cbn [length]; apply not_0_INR; lia).
  unfold Rsqr. field. exact P.
Qed.
Lemma sum_to_foldr {A} (f : A -> nat -> nat) n l : foldr (fun a s => sum_to n (f a) + s) 0 l = sum_to n (fun i => foldr (fun a s => f a i + s) 0 l).
Proof.
  induction l as [|a l IH]; cbn [foldr].
  - induction n as [|n IH]; cbn; [reflexivity|]. rewrite <- IH. reflexivity.
  - rewrite IH, <- sum_to_add. reflexivity.
Qed.
Lemma foldr_ext_in {A} (f g : A -> nat) l : (forall a, a ∈ l -> f a = g a) -> foldr (fun a s => f a + s) 0 l = foldr (fun a s => g a + s) 0 l.
Proof. induction l as [|a l IH]; intros H; cbn; [reflexivity|]. rewrite H by left. f_equal. apply IH. intros x X. apply H. right. exact X. Qed.
Lemma all_pairs_sum rows ds : Forall (fun d => length d = rows) ds -> all_pairs ds = 2 * sum_to (rows * 8) (fun i => num_set i ds * (length ds - num_set i ds)).
Proof.
  intros F. rewrite Forall_forall in F. unfold all_pairs.
  rewrite (foldr_ext_in _ (fun a => sum_to (rows * 8) (fun i => if bit_at i a then length ds - num_set i ds else num_set i ds))).
  2:{ intros a A. rewrite total_distance_sum; [rewrite (F a A); reflexivity|]. apply Forall_forall. intros x X. rewrite (F a A). apply F, X. }
  rewrite sum_to_foldr. assert (G : forall i l, foldr (fun a s => (if bit_at i a then length ds - num_set i ds else num_set i ds) + s) 0 l = num_set i l * (length ds - num_set i ds) + (length l - num_set i l) * num_set i ds).
  { intros i. induction l as [|a l IH]; [reflexivity|]. cbn [foldr num_set length]. fold (num_set i l). rewrite IH. pose proof (num_set_le i l). destruct (bit_at i a); cbn [Nat.add].
    - replace (S (length l) - S (num_set i l)) with (length l - num_set i l) by lia. nia.
    - replace (S (length l) - num_set i l) with (S (length l - num_set i l)) by lia. nia. }
  rewrite (sum_to_ext _ _ (fun i => num_set i ds * (length ds - num_set i ds) + num_set i ds * (length ds - num_set i ds))).
  - rewrite sum_to_add. lia.
  - intros i _. rewrite G. nia.
Qed.
(** The rounded mean has for every bit the smaller number of the two. *)
Lemma mean_total rows ds m : 0 < rows -> Forall (fun d => length d = rows) ds -> descriptor_mean rows ds = Some m -> length m = rows /\ is_bytes m /\
  total_distance m ds = sum_to (rows * 8) (fun i => Nat.min (num_set i ds) (length ds - num_set i ds)).
Proof.
  intros R F M. destruct (mean_ok rows ds R F) as (m' & M' & L & B & S). rewrite M in M'. injection M' as <-. split; [exact L|]. split; [exact B|].
  rewrite total_distance_sum by (rewrite L; exact F). rewrite L. apply sum_to_ext. intros i I. pose proof (S i I) as T. pose proof (num_set_le i ds). destruct (bit_at i m).
  - assert (length ds < 2 * num_set i ds) by (apply T; reflexivity). lia.
  - assert (~ length ds < 2 * num_set i ds) by (intros H1; apply T in H1; discriminate). lia.
Qed.
Lemma sum_to_zero n f : sum_to n f = 0 <-> forall i, i < n -> f i = 0.
Proof.
  induction n as [|n IH]; cbn; [split; [lia|reflexivity]|]. split.
  - intros H i I. destruct (Nat.eq_dec i n) as [->|]; [lia|]. apply IH; lia.
  - intros H. rewrite (H n) by lia. apply IH. intros i I. apply H. lia.
Qed.
Lemma num_set_perm i l m : l ≡ₚ m -> num_set i l = num_set i m.
Proof. unfold num_set. induction 1; cbn [foldr]; lia. Qed.
(** Descriptors with the same bits are equal. *)
Lemma bits_inj a b : is_bytes a -> is_bytes b -> length a = length b -> (forall i, i < length a * 8 -> bit_at i a = bit_at i b) -> a = b.
Proof.
  intros A B L H. apply list_eq. intros k. destruct (a !! k) as [x|] eqn:X.
  - assert (K : k < length a) by (apply lookup_lt_Some in X; exact X). destruct (b !! k) as [y|] eqn:Y; [|apply lookup_ge_None in Y; lia]. f_equal. unfold is_bytes in *. rewrite Forall_forall in A, B.
    pose proof (A x (elem_of_list_lookup_2 _ _ _ X)) as XB. pose proof (B y (elem_of_list_lookup_2 _ _ _ Y)) as YB. apply N.bits_inj. intros j.
    destruct (N.lt_ge_cases j 8) as [J|J].
    + specialize (H (k * 8 + N.to_nat j) ltac:(lia)). unfold bit_at in H. rewrite !bits_lookup in H. replace ((k * 8 + N.to_nat j) / 8) with k in H by (apply (Nat.div_unique _ _ _ (N.to_nat j)); lia). replace ((k * 8 + N.to_nat j) mod 8) with (N.to_nat j) in H by (apply (Nat.mod_unique _ _ k); lia). rewrite X, Y in H. cbn in H. rewrite N2Nat.id in H. exact H.
    + assert (Q : forall z, (z < 256)%N -> N.testbit z j = false). { intros z Z. destruct (N.eq_dec z 0) as [->|NZ]; [apply N.bits_0|]. apply N.bits_above_log2. apply N.lt_le_trans with 8%N; [|exact J]. apply N.log2_lt_pow2; [lia|exact Z]. }
      rewrite !Q by assumption. reflexivity.
  - apply lookup_ge_None in X. symmetry. apply lookup_ge_None. lia.
Qed.
Lemma num_set_extreme i ds : num_set i ds = 0 \/ num_set i ds = length ds -> forall a b, a ∈ ds -> b ∈ ds -> bit_at i a = bit_at i b.
Proof.
  assert (Z : forall l, num_set i l = 0 -> forall a, a ∈ l -> bit_at i a = false).
  { induction l as [|d l IH]; cbn [num_set foldr]; intros H a A; [apply elem_of_nil in A; contradiction|]. fold (num_set i l) in H. apply elem_of_cons in A. destruct (bit_at i d) eqn:E; [lia|]. destruct A as [-> | A]; [exact E|apply IH; [lia|exact A]]. }
  assert (O : forall l, num_set i l = length l -> forall a, a ∈ l -> bit_at i a = true).
  { induction l as [|d l IH]; cbn [num_set foldr length]; intros H a A; [apply elem_of_nil in A; contradiction|]. fold (num_set i l) in H. pose proof (num_set_le i l). apply elem_of_cons in A. destruct (bit_at i d) eqn:E; [|lia]. destruct A as [-> | A]; [exact E|apply IH; [lia|exact A]]. }
  intros [H|H] a b A B; [rewrite (Z ds H a A), (Z ds H b B)|rewrite (O ds H a A), (O ds H b B)]; reflexivity.
Qed.
Lemma equal_num_set ds : all_equal ds -> forall i, num_set i ds = 0 \/ num_set i ds = length ds.
Proof.
  intros E i. destruct ds as [|d ds]; [left; reflexivity|]. assert (G : forall l, (forall a, a ∈ l -> a = d) -> num_set i l = if bit_at i d then length l else 0).
  { induction l as [|a l IH]; intros H; cbn [num_set foldr length]; [destruct (bit_at i d); reflexivity|]. fold (num_set i l). rewrite IH by (intros x X; apply H; right; exact X). rewrite (H a) by left. destruct (bit_at i d); reflexivity. }
  rewrite (G (d :: ds)); [destruct (bit_at i d); auto|]. intros a A. apply E; [exact A|left].
Qed.
Lemma equal_iff rows ds : Forall (fun d => is_bytes d /\ length d = rows) ds -> (all_equal ds <-> forall i, i < rows * 8 -> num_set i ds * (length ds - num_set i ds) = 0).
Proof.
  intros F. rewrite Forall_forall in F. split.
  - intros E i _. destruct (equal_num_set ds E i) as [-> | ->]; lia.
  - intros H a b A B. destruct (F a A) as [BA LA], (F b B) as [BB LB]. apply bits_inj; [assumption|assumption|congruence|]. intros i I. rewrite LA in I. apply (num_set_extreme i ds); [|exact A|exact B]. specialize (H i I). pose proof (num_set_le i ds). apply Nat.eq_mul_0 in H. lia.
Qed.
