(** C31 and C32: Hamming distance, descriptor mean and median. *)
From Coq Require Import NArith ZArith Bool Lia.
From stdpp Require Import list list_numbers.
From Verif Require Import DescriptorModel DescriptorSpec HammingProofs DescriptorProofs.
Open Scope nat_scope.

(** ** C31.  Full statement: the vectorised distance is the number of differing bits, for descriptors
    of any length.  Missing: lengths that are not a multiple of 16 bytes, and 512 bytes and more. *)
Theorem dx_sse_distance_exact_partial ps a b k : (forall z, (z <= 2 ^ 24)%N -> ps z = z) ->
  is_bytes a -> is_bytes b -> length a = 16 * k -> length b = 16 * k -> 1 <= k <= 31 ->
  num_bits_different ps a b = Some (N.of_nat (diff_bits a b)).
Proof.
  intros Hps Ha Hb La Lb Hk. unfold num_bits_different.
  rewrite La, Lb, Nat.eqb_refl. rewrite <- La. by apply (sse_exact ps a b k).
Qed.
Print Assumptions dx_sse_distance_exact_partial.
Example dx_sse_distance_exact_ex :
  let a := replicate 48 255%N in let b := replicate 47 254%N ++ [7%N] in
  is_bytes a /\ is_bytes b /\ length a = 16 * 3 /\ length b = 16 * 3 /\
  num_bits_different (fun z => z) a b = Some 52%N.
Proof.
  cbv zeta. split; [apply Forall_replicate; lia|].
  split; [apply Forall_app; split; [apply Forall_replicate; lia|repeat constructor; lia]|].
  split; [done|]. split; [done|]. vm_compute. reflexivity.
Qed.
(** The ARM version is exact up to the size of an int. *)
Theorem dx_neon_distance_exact_partial a b k :
  is_bytes a -> is_bytes b -> length a = 16 * k -> length b = 16 * k -> (128 * N.of_nat k < 2 ^ 32)%N ->
  evaluate_neon a b (Z.of_nat (length a)) = Some (N.of_nat (diff_bits a b)).
Proof. apply neon_exact. Qed.
Print Assumptions dx_neon_distance_exact_partial.
Example dx_neon_distance_exact_ex :
  let a := replicate 512 255%N in let b := replicate 512 0%N in
  length a = 16 * 32 /\ evaluate_neon a b 512 = Some 4096%N.
Proof. split; vm_compute; reflexivity. Qed.
(** So the two versions agree on the lengths on which both are exact. *)
Theorem dx_sse_agrees_with_neon_partial ps a b k : (forall z, (z <= 2 ^ 24)%N -> ps z = z) ->
  is_bytes a -> is_bytes b -> length a = 16 * k -> length b = 16 * k -> 1 <= k <= 31 ->
  evaluate_sse ps a b (Z.of_nat (length a)) = evaluate_neon a b (Z.of_nat (length a)).
Proof.
  intros Hps Ha Hb La Lb Hk. rewrite (sse_exact ps a b k), (neon_exact a b k); try done. lia.
Qed.
Print Assumptions dx_sse_agrees_with_neon_partial.
Example dx_sse_agrees_with_neon_ex : evaluate_sse (fun z => z) (replicate 496 255%N) (replicate 496 0%N) 496
  = Some 3968%N /\ evaluate_neon (replicate 496 255%N) (replicate 496 0%N) 496 = Some 3968%N.
Proof. split; vm_compute; reflexivity. Qed.

(** 512 bytes: the 8-bit lane counters wrap; completely different descriptors have distance 0. *)
Theorem dx_sse_distance_wraps_refuted : exists ps a b,
  (forall z, (z <= 2 ^ 24)%N -> ps z = z) /\ is_bytes a /\ is_bytes b /\
  length a = 16 * 32 /\ length b = 16 * 32 /\
  num_bits_different ps a b = Some 0%N /\ diff_bits a b = 4096.
Proof.
  exists (fun z => z), (replicate 512 0%N), (replicate 512 255%N).
  split; [done|]. split; [apply Forall_replicate; lia|]. split; [apply Forall_replicate; lia|].
  split; [done|]. split; [done|]. split; vm_compute; reflexivity.
Qed.
Print Assumptions dx_sse_distance_wraps_refuted.
(** The trailing bytes of a descriptor whose size is not a multiple of 16 are ignored; descriptors
    shorter than 16 bytes are read past their end. *)
Theorem dx_distance_ignores_tail_refuted : exists ps a b,
  (forall z, (z <= 2 ^ 24)%N -> ps z = z) /\ is_bytes a /\ is_bytes b /\ length a = 20 /\ length b = 20 /\
  num_bits_different ps a b = Some 0%N /\ evaluate_neon a b 20 = Some 0%N /\ diff_bits a b = 32.
Proof.
  exists (fun z => z), (replicate 20 0%N), (replicate 16 0%N ++ replicate 4 255%N).
  split; [done|]. split; [apply Forall_replicate; lia|].
  split; [apply Forall_app; split; apply Forall_replicate; lia|].
  split; [done|]. split; [done|]. split; [|split]; vm_compute; reflexivity.
Qed.
Print Assumptions dx_distance_ignores_tail_refuted.
Theorem dx_short_descriptor_out_of_bounds_refuted : exists ps a b,
  (forall z, (z <= 2 ^ 24)%N -> ps z = z) /\ is_bytes a /\ is_bytes b /\ length a = 8 /\ length b = 8 /\
  num_bits_different ps a b = None.
Proof.
  exists (fun z => z), (replicate 8 0%N), (replicate 8 1%N).
  split; [done|]. split; [apply Forall_replicate; lia|]. split; [apply Forall_replicate; lia|].
  split; [done|]. split; [done|]. vm_compute. reflexivity.
Qed.
Print Assumptions dx_short_descriptor_out_of_bounds_refuted.

(** ** C32. *)
(** A bit of the mean is set iff more than half of the descriptors have it set. *)
Theorem dx_mean_majority rows ds : 0 < rows -> Forall (fun d => length d = rows) ds ->
  exists m, descriptor_mean rows ds = Some m /\ length m = rows /\ is_bytes m /\
    forall i, i < rows * 8 -> (bit_at i m = true <-> length ds < 2 * num_set i ds).
Proof. apply mean_ok. Qed.
Print Assumptions dx_mean_majority.
(** No descriptor of that length has a smaller accumulated distance than the mean. *)
Theorem dx_mean_minimises_distance rows ds m x : 0 < rows -> Forall (fun d => length d = rows) ds ->
  descriptor_mean rows ds = Some m -> length x = rows ->
  total_distance m ds <= total_distance x ds.
Proof. apply mean_optimal. Qed.
Print Assumptions dx_mean_minimises_distance.
Example dx_mean_ex :
  let ds := [[11; 128]; [11; 0]; [3; 128]; [6; 128]; [8; 1]]%N in
  Forall (fun d => length d = 2) ds /\ descriptor_mean 2 ds = Some [11; 128]%N /\
  total_distance [11; 128]%N ds = 9 /\ total_distance [3; 128]%N ds = 10.
Proof. cbv zeta. split; [repeat constructor|]. split; [|split]; vm_compute; reflexivity. Qed.

(** The median index is the first descriptor of smallest accumulated distance to all of them. *)
Theorem dx_median_minimises_distance ps k ds : (forall z, (z <= 2 ^ 24)%N -> ps z = z) ->
  1 <= k <= 31 -> Forall (fun d => is_bytes d /\ length d = 16 * k) ds -> ds <> [] ->
  exists r d, closest_to_median (num_bits_different ps) ds = Some r /\ ds !! r = Some d /\
    (forall x, x ∈ ds -> total_distance d ds <= total_distance x ds) /\
    forall j x, j < r -> ds !! j = Some x -> total_distance d ds < total_distance x ds.
Proof.
  intros Hps Hk HF Hne. rewrite Forall_forall in HF.
  assert (Hd : forall a b, a ∈ ds -> b ∈ ds ->
    num_bits_different ps a b = Some (N.of_nat (diff_bits a b))).
  { intros a b Ha Hb. destruct (HF a Ha), (HF b Hb).
    by apply (dx_sse_distance_exact_partial ps a b k). }
  destruct (closest_defined _ _ Hd Hne) as [r E].
  destruct (closest_ok _ _ _ Hd E) as (d & H1 & H2 & H3). by exists r, d.
Qed.
Print Assumptions dx_median_minimises_distance.
Definition pad (x : N) : list N := x :: replicate 15 0%N.
Example dx_median_ex :
  let ds := [pad 6; pad 12; pad 13; pad 9; pad 4; pad 6] in
  Forall (fun d => is_bytes d /\ length d = 16 * 1) ds /\
  closest_to_median (num_bits_different (fun z => z)) ds = Some 1.
Proof.
  cbv zeta. split.
  - repeat constructor; (apply Forall_cons; split; [lia|apply Forall_replicate; lia]) || idtac.
  - vm_compute. reflexivity.
Qed.
(** It need not be the descriptor closest to the rounded mean. *)
Theorem dx_median_not_closest_to_mean_refuted : exists ds m r d x,
  Forall (fun d => is_bytes d /\ length d = 16) ds /\
  closest_to_median (num_bits_different (fun z => z)) ds = Some r /\ ds !! r = Some d /\
  descriptor_mean 16 ds = Some m /\ x ∈ ds /\ diff_bits x m < diff_bits d m.
Proof.
  exists [pad 11; pad 11; pad 3; pad 6], (pad 3), 0, (pad 11), (pad 3).
  assert (B : forall x, (x < 256)%N -> is_bytes (pad x) /\ length (pad x) = 16).
  { intros x Hx. split; [|done]. constructor; [done|]. apply Forall_replicate. lia. }
  split; [repeat constructor; apply B; lia|].
  split; [vm_compute; reflexivity|]. split; [done|]. split; [vm_compute; reflexivity|].
  split; [right; right; left|]. vm_compute. lia.
Qed.
Print Assumptions dx_median_not_closest_to_mean_refuted.

(** Bit access: reading after writing, and the failure of out-of-range accesses. *)
Theorem dx_bit_access i d : i < length d * 8 ->
  get_bit i d = Some (bit_at i d) /\
  (exists d', set_bit i d = Some d' /\ length d' = length d /\
     forall j, bit_at j d' = (j =? i) || bit_at j d) /\
  (exists d', flip_bit i d = Some d' /\ length d' = length d /\
     forall j, bit_at j d' = xorb (j =? i) (bit_at j d)).
Proof.
  intros Hi. split; [by apply get_bit_ok|]. split.
  - destruct (set_bit_ok i d Hi) as (d' & H1 & H2 & _ & H3). by exists d'.
  - by apply flip_bit_ok.
Qed.
Print Assumptions dx_bit_access.
Example dx_bit_access_ex : get_bit 9 [0; 2]%N = Some true /\ set_bit 15 [0; 2]%N = Some [0; 130]%N /\
  flip_bit 9 [0; 2]%N = Some [0; 0]%N /\ get_bit 16 [0; 2]%N = None.
Proof. vm_compute. done. Qed.
