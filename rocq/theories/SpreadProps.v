(** Properties of the spread of descriptors. *)
From Coq Require Import NArith ZArith Bool Reals Lia Lra.
From stdpp Require Import list list_numbers.
From Verif Require Import DescriptorModel DescriptorSpec DescriptorProofs HammingProofs DescriptorProps SpreadModel SpreadSpec SpreadProofs.
Local Open Scope nat_scope.

(** ** The mean *)
(** Every entry is the share of the descriptors that have the bit; without bytes or descriptors the program stops. *)
Theorem spx_mean rows ds : Forall (fun d => length d = rows) ds ->
  ((rows = 0 \/ ds = []) /\ float_mean rows ds = None) \/
  exists m, float_mean rows ds = Some m /\ length m = rows * 8 /\ forall i, i < rows * 8 -> m !! i = Some (INR (num_set i ds) / INR (length ds))%R.
Proof.
  intros F. unfold float_mean. destruct (Nat.eqb_spec rows 0) as [->|R]; [left; auto|]. destruct ds as [|d0 ds0] eqn:D; [left; auto|]. rewrite <- D in *. assert (L : (length ds =? 0) = false) by (rewrite D; reflexivity). rewrite L. cbn [orb]. right.
  destruct (counts_ok rows ds F (replicate (rows * 8) 0)) as (sums & E & LS & V); [apply replicate_length|]. rewrite E. eexists. split; [reflexivity|]. split; [rewrite fmap_length; exact LS|].
  intros i I. rewrite list_lookup_fmap, V by exact I. rewrite lookup_replicate_2 by exact I. cbn. rewrite Nat.add_0_r. reflexivity.
Qed.
Print Assumptions spx_mean.
(** The squared difference to the mean. *)
Lemma squared_difference_total rows ds m d : (forall i, i < rows * 8 -> m !! i = Some (INR (num_set i ds) / INR (length ds))%R) -> length m = rows * 8 -> length d = rows ->
  squared_difference d m = Some (total (fun i => Rsqr ((if bit_at i d then 1 else 0) - INR (num_set i ds) / INR (length ds))) (seq 0 (rows * 8))).
Proof.
  intros V L D. unfold squared_difference. rewrite L, D, Nat.eqb_refl. apply sum_real_total. intros i I. apply elem_of_seq in I. rewrite get_bit_ok by lia. rewrite V by lia. reflexivity.
Qed.
(** The square of the standard deviation is half of the mean distance of two descriptors, taken over all ordered pairs. *)
Theorem spx_standard rows ds : 0 < rows -> Forall (fun d => length d = rows) ds -> 2 <= length ds ->
  exists s, standard_deviation rows ds = Some s /\ (0 <= s)%R /\ (2 * (INR (length ds) * INR (length ds)) * Rsqr s = INR (all_pairs ds))%R.
Proof.
  intros R F L. unfold standard_deviation. destruct (Nat.ltb_spec (length ds) 2); [lia|]. destruct (spx_mean rows ds F) as [[[H1|H1] _]|(m & -> & LM & V)]; [lia|subst ds; cbn in L; lia|].
  rewrite (sum_real_total _ (fun d => total (fun i => Rsqr ((if bit_at i d then 1 else 0) - INR (num_set i ds) / INR (length ds))) (seq 0 (rows * 8)))).
  2:{ intros d D. apply (squared_difference_total rows); [exact V|exact LM|]. rewrite Forall_forall in F. apply F, D. }
  eexists. split; [reflexivity|]. split; [apply sqrt_pos|].
  assert (N : ds <> []) by (intros ->; cbn in L; lia). assert (P : (0 < INR (length ds))%R) by (apply lt_0_INR; lia).
  assert (E : total (fun d => total (fun i => Rsqr ((if bit_at i d then 1 else 0) - INR (num_set i ds) / INR (length ds))) (seq 0 (rows * 8))) ds = (INR (sum_to (rows * 8) (fun i => num_set i ds * (length ds - num_set i ds))%nat) / INR (length ds))%R).
  { rewrite total_swap. rewrite (total_ext _ (fun i => / INR (length ds) * INR (num_set i ds * (length ds - num_set i ds)))%R).
    - rewrite total_scale, total_nat. unfold Rdiv. apply Rmult_comm.
    - intros i _. rewrite bit_variance by exact N. unfold Rdiv. apply Rmult_comm. }
  rewrite E, (all_pairs_sum rows ds F), mult_INR. set (q := INR (sum_to _ _)). assert (Q : (0 <= q)%R) by apply pos_INR.
  rewrite Rsqr_sqrt; [cbn [INR]; field; lra|]. assert (I : (0 < / INR (length ds))%R) by (apply Rinv_0_lt_compat, P). unfold Rdiv. apply Rmult_le_pos; [apply Rmult_le_pos; lra|lra].
Qed.
Print Assumptions spx_standard.
(** The mean absolute deviation is the mean distance to the rounded mean, and no other descriptor has a smaller one. *)
Theorem spx_absolute ps k ds : (forall z, (z <= 2 ^ 24)%N -> ps z = z) -> 1 <= k <= 31 -> Forall (fun d => is_bytes d /\ length d = 16 * k) ds -> 2 <= length ds ->
  exists m, descriptor_mean (16 * k) ds = Some m /\ absolute_deviation ps (16 * k) ds = Some (INR (total_distance m ds) / INR (length ds))%R /\
    forall x, length x = 16 * k -> (INR (total_distance m ds) / INR (length ds) <= INR (total_distance x ds) / INR (length ds))%R.
Proof.
  intros PS K F L. assert (F' : Forall (fun d => length d = 16 * k) ds) by (eapply Forall_impl; [exact F|]; intros d [_ D]; exact D).
  destruct (mean_ok (16 * k) ds ltac:(lia) F') as (m & M & LM & B & _). exists m. split; [exact M|]. split.
  - unfold absolute_deviation. destruct (Nat.ltb_spec (length ds) 2); [lia|]. rewrite M. rewrite (sum_opt_map _ (fun d => diff_bits m d)).
    + rewrite Nat2N.id. reflexivity.
    + intros d D. rewrite Forall_forall in F. destruct (F d D) as [BD LD]. pose proof (dx_sse_distance_exact_partial ps d m k PS BD B LD LM K) as X. unfold num_bits_different in X. rewrite LD, LM, Nat.eqb_refl in X. rewrite X, diff_bits_comm. reflexivity.
  - intros x LX. pose proof (mean_optimal (16 * k) ds m x ltac:(lia) F' M LX) as O. assert (P : (0 < INR (length ds))%R) by (apply lt_0_INR; lia). apply Rmult_le_compat_r; [left; apply Rinv_0_lt_compat, P|]. apply le_INR, O.
Qed.
Print Assumptions spx_absolute.
(** The two deviations differ by a bounded factor. *)
Theorem spx_bounds ps k ds s a : (forall z, (z <= 2 ^ 24)%N -> ps z = z) -> 1 <= k <= 31 -> Forall (fun d => is_bytes d /\ length d = 16 * k) ds ->
  standard_deviation (16 * k) ds = Some s -> absolute_deviation ps (16 * k) ds = Some a -> (Rsqr s <= a <= 2 * Rsqr s)%R.
Proof.
  intros PS K F S A. assert (F' : Forall (fun d => length d = 16 * k) ds) by (eapply Forall_impl; [exact F|]; intros d [_ D]; exact D). destruct (Nat.lt_ge_cases (length ds) 2) as [L|L].
  - unfold standard_deviation in S. unfold absolute_deviation in A. destruct (Nat.ltb_spec (length ds) 2); [|lia]. injection S as <-. injection A as <-. unfold Rsqr. lra.
  - destruct (spx_standard (16 * k) ds ltac:(lia) F' L) as (s' & S' & _ & E). rewrite S in S'. injection S' as <-. destruct (spx_absolute ps k ds PS K F L) as (m & M & A' & _). rewrite A in A'. injection A' as ->.
    destruct (mean_total (16 * k) ds m ltac:(lia) F' M) as (_ & _ & T). rewrite T. rewrite (all_pairs_sum (16 * k) ds F') in E. set (n := length ds) in *.
    assert (G : sum_to (16 * k * 8) (fun i => num_set i ds * (n - num_set i ds)) <= n * sum_to (16 * k * 8) (fun i => Nat.min (num_set i ds) (n - num_set i ds)) <= 2 * sum_to (16 * k * 8) (fun i => num_set i ds * (n - num_set i ds))).
    { assert (SC : forall N c f, c * sum_to N f = sum_to N (fun i => c * f i)) by (intros N c f; induction N as [|N IH]; cbn; [lia|rewrite <- IH; lia]). rewrite !SC. split; apply sum_to_le; intros i _; pose proof (num_set_le i ds); unfold n in *; nia. }
    destruct G as [G1 G2]. apply le_INR in G1, G2. rewrite mult_INR in G1, G2, E. rewrite mult_INR in G2. cbn [INR] in G2, E. set (u := INR (sum_to _ (fun i => _ * _))) in *. set (v := INR (sum_to _ (fun i => Nat.min _ _))) in *. assert (P : (0 < INR n)%R) by (apply lt_0_INR; lia). set (x := INR n) in *.
    assert (E' : (u = x * x * Rsqr s)%R) by lra. assert (V : (v = v / x * x)%R) by (field; lra). set (w := (v / x)%R) in *. rewrite V, E' in G1, G2. split.
    + apply (Rmult_le_reg_l (x * x)%R); nra.
    + apply (Rmult_le_reg_l (x * x)%R); nra.
Qed.
Print Assumptions spx_bounds.
(** Both are zero exactly if all descriptors are the same. *)
Theorem spx_zero rows ds s : 0 < rows -> Forall (fun d => is_bytes d /\ length d = rows) ds -> standard_deviation rows ds = Some s -> (s = 0%R <-> all_equal ds).
Proof.
  intros R F S. assert (F' : Forall (fun d => length d = rows) ds) by (eapply Forall_impl; [exact F|]; intros d [_ D]; exact D). destruct (Nat.lt_ge_cases (length ds) 2) as [L|L].
  - unfold standard_deviation in S. destruct (Nat.ltb_spec (length ds) 2); [|lia]. injection S as <-. split; [|reflexivity]. intros _ a b A B. destruct ds as [|d [|e ds]]; cbn in L; [apply elem_of_nil in A; contradiction| |lia]. apply elem_of_list_singleton in A, B. congruence.
  - destruct (spx_standard rows ds R F' L) as (s' & S' & P & E). rewrite S in S'. injection S' as <-. rewrite (all_pairs_sum rows ds F') in E. assert (X : (0 < INR (length ds))%R) by (apply lt_0_INR; lia). rewrite (equal_iff rows ds F), <- sum_to_zero.
    set (u := sum_to _ _) in *. split.
    + intros ->. unfold Rsqr in E. assert (Z : INR (2 * u) = 0%R) by lra. change 0%R with (INR 0) in Z. apply INR_eq in Z. lia.
    + intros Z. rewrite Z in E. change (INR (2 * 0)) with 0%R in E. apply Rsqr_0_uniq. apply Rmult_integral in E. destruct E as [E|E]; [exfalso|exact E]. assert ((0 < INR (length ds) * INR (length ds))%R) by (apply Rmult_lt_0_compat; exact X). lra.
Qed.
Print Assumptions spx_zero.
(** The order of the descriptors does not matter. *)
Theorem spx_order ps k ds es : (forall z, (z <= 2 ^ 24)%N -> ps z = z) -> 1 <= k <= 31 -> Forall (fun d => is_bytes d /\ length d = 16 * k) ds -> ds ≡ₚ es ->
  standard_deviation (16 * k) ds = standard_deviation (16 * k) es /\ absolute_deviation ps (16 * k) ds = absolute_deviation ps (16 * k) es.
Proof.
  intros PS K F P. assert (FE : Forall (fun d => is_bytes d /\ length d = 16 * k) es) by (rewrite <- P; exact F). assert (LE : length es = length ds) by (symmetry; apply Permutation_length, P).
  destruct (Nat.lt_ge_cases (length ds) 2) as [L|L].
  - unfold standard_deviation, absolute_deviation. rewrite LE. destruct (Nat.ltb_spec (length ds) 2); [|lia]. split; reflexivity.
  - assert (F' : forall l, Forall (fun d => is_bytes d /\ length d = 16 * k) l -> Forall (fun d => length d = 16 * k) l) by (intros l H; eapply Forall_impl; [exact H|]; intros d [_ D]; exact D).
    assert (NS : forall i, num_set i es = num_set i ds) by (intros i; symmetry; apply num_set_perm, P). split.
    + destruct (spx_standard (16 * k) ds ltac:(lia) (F' _ F) L) as (s & -> & S0 & S). destruct (spx_standard (16 * k) es ltac:(lia) (F' _ FE) ltac:(lia)) as (t & -> & T0 & T). f_equal. rewrite (all_pairs_sum (16 * k)) in S by (apply F', F). rewrite (all_pairs_sum (16 * k)) in T by (apply F', FE). rewrite LE in T.
      rewrite (sum_to_ext _ (fun i => num_set i es * _) (fun i => num_set i ds * (length ds - num_set i ds))) in T by (intros i _; rewrite NS; reflexivity). rewrite <- T in S. assert (X : (0 < INR (length ds))%R) by (apply lt_0_INR; lia). apply Rsqr_inj; [exact S0|exact T0|]. apply (Rmult_eq_reg_l (2 * (INR (length ds) * INR (length ds)))); [exact S|nra].
    + destruct (spx_absolute ps k ds PS K F L) as (m & M & -> & _). destruct (spx_absolute ps k es PS K FE ltac:(lia)) as (m' & M' & -> & _). destruct (mean_total (16 * k) ds m ltac:(lia) (F' _ F) M) as (_ & _ & ->). destruct (mean_total (16 * k) es m' ltac:(lia) (F' _ FE) M') as (_ & _ & ->). rewrite LE. do 3 f_equal. apply sum_to_ext. intros i _. rewrite NS. reflexivity.
Qed.
Print Assumptions spx_order.
(** A set of fewer than two descriptors has no spread. *)
Theorem spx_few ps rows ds : length ds < 2 -> standard_deviation rows ds = Some 0%R /\ absolute_deviation ps rows ds = Some 0%R.
Proof. intros L. unfold standard_deviation, absolute_deviation. destruct (Nat.ltb_spec (length ds) 2); [|lia]. split; reflexivity. Qed.
Print Assumptions spx_few.
(** Three descriptors of 16 bytes; two of them have the first bit. *)
Definition three : list (list N) := [1%N :: replicate 15 0%N; replicate 16 0%N; 1%N :: replicate 15 0%N].
Example spx_case : Forall (fun d => is_bytes d /\ length d = 16 * 1) three /\ 2 <= length three /\ all_pairs three = 4 /\ ~ all_equal three /\ descriptor_mean 16 three = Some (1%N :: replicate 15 0%N).
Proof.
  split; [repeat constructor; unfold is_bytes; repeat constructor|]. split; [cbn; lia|]. split; [vm_compute; reflexivity|]. split; [|vm_compute; reflexivity]. intros E. assert (H : (1%N :: replicate 15 0%N) = replicate 16 0%N) by (apply E; [left|right; left]). discriminate.
Qed.

(** ** Distances of pairs *)
Lemma byte_norm_spec a : forall b, is_bytes a -> is_bytes b -> length a = length b -> Z.of_N (foldr (fun x s => (((x * x) mod 256 + s) mod 256)%N) 0%N (zip_with byte_difference a b)) = (squared_distance a b mod 256)%Z.
Proof.
  induction a as [|x a IH]; intros [|y b] A B L; try discriminate; [reflexivity|]. cbn [zip_with foldr squared_distance]. apply Forall_cons in A. destruct A as [X A]. apply Forall_cons in B. destruct B as [Y B]. injection L as L.
  rewrite N2Z.inj_mod, N2Z.inj_add, N2Z.inj_mod, N2Z.inj_mul, (IH b A B L). unfold byte_difference. rewrite N2Z.inj_mod, N2Z.inj_sub by lia. rewrite N2Z.inj_add. change (Z.of_N 256) with 256%Z.
  rewrite <- Z.add_mod by lia. rewrite (Z.add_mod _ (squared_distance a b)) by lia. rewrite (Z.add_mod (_ ^ 2)) by lia. f_equal. f_equal. rewrite <- Z.mul_mod by lia.
  replace ((Z.of_N x + 256 - Z.of_N y) * (Z.of_N x + 256 - Z.of_N y))%Z with ((Z.of_N x - Z.of_N y) ^ 2 + (2 * (Z.of_N x - Z.of_N y) + 256) * 256)%Z by ring. apply Z.mod_add. lia.
Qed.
Lemma position_lookup (f : nat -> nat -> N) n : forall m s, s + m = n -> forall i j, s <= i < j -> j < n ->
  concat ((fun i => f i <$> seq (S i) (n - S i)) <$> seq s m) !! (pairs_before n i - pairs_before n s + (j - S i)) = Some (f i j).
Proof.
  induction m as [|m IH]; intros s E i j I J; [lia|]. cbn [seq fmap list_fmap concat].
  assert (LL : length (f s <$> seq (S s) (n - S s)) = n - S s) by (rewrite fmap_length, seq_length; reflexivity).
  assert (MONO : forall u v, u <= v -> pairs_before n u <= pairs_before n v) by (intros u v UV; induction UV; [lia|cbn; lia]).
  destruct (Nat.eq_dec i s) as [->|NE].
  - rewrite Nat.sub_diag. cbn [Nat.add]. rewrite lookup_app_l by (rewrite LL; lia). rewrite list_lookup_fmap, lookup_seq_lt by lia. cbn. f_equal. f_equal. lia.
  - pose proof (MONO (S s) i ltac:(lia)) as MO. cbn [pairs_before] in MO. rewrite lookup_app_r by (rewrite LL; lia). rewrite LL. specialize (IH (S s) ltac:(lia) i j ltac:(lia) J). cbn [pairs_before] in IH. rewrite <- IH. f_equal. lia.
Qed.
Lemma position_length (f : nat -> nat -> N) n : forall m s, s + m = n -> 2 * length (concat ((fun i => f i <$> seq (S i) (n - S i)) <$> seq s m)) = m * (m - 1).
Proof.
  induction m as [|m IH]; intros s E; [reflexivity|]. cbn [seq fmap list_fmap concat]. rewrite app_length, fmap_length, seq_length. specialize (IH (S s) ltac:(lia)). fold ((fun i => f i <$> seq (S i) (n - S i)) <$> seq (S s) m) in *. replace (n - S s) with m by lia. destruct m; [cbn in *; lia|]. cbn [Nat.sub] in *. nia.
Qed.
(** The results are in the announced order. Each is the root of the square of the distance modulo 256, towards zero: the distance of near descriptors, something else for most. *)
Theorem spx_pairs rows ds : Forall (fun d => is_bytes d /\ length d = rows) ds -> (length ds <= 46341)%nat -> exists l, pairwise_distances ds = Some l /\ 2 * length l = length ds * (length ds - 1) /\
  forall i j a b, i < j -> ds !! i = Some a -> ds !! j = Some b -> l !! pair_position (length ds) i j = Some (N.sqrt (Z.to_N (squared_distance b a mod 256))).
Proof.
  intros F L. unfold pairwise_distances. cbv zeta. destruct (Z.leb_spec (2 ^ 31) (Z.of_nat (length ds) * (Z.of_nat (length ds) - 1))) as [H|_]; [exfalso; apply Nat2Z.inj_le in L; change (Z.of_nat 46341) with 46341%Z in L; nia|].
  eexists. split; [reflexivity|]. split; [apply (position_length (fun i j => byte_norm (default [] (ds !! j)) (default [] (ds !! i)))); reflexivity|]. intros i j a b IJ A B. unfold pair_position.
  pose proof (position_lookup (fun i j => byte_norm (default [] (ds !! j)) (default [] (ds !! i))) (length ds) (length ds) 0 eq_refl i j ltac:(lia) ltac:(eapply lookup_lt_Some, B)) as P. cbn [pairs_before] in P. rewrite Nat.sub_0_r in P. rewrite P. cbn beta. rewrite A, B. cbn [default].
  rewrite Forall_forall in F. destruct (F a (elem_of_list_lookup_2 _ _ _ A)) as [BA LA], (F b (elem_of_list_lookup_2 _ _ _ B)) as [BB LB]. unfold byte_norm. f_equal. f_equal. rewrite <- (byte_norm_spec b a BB BA ltac:(congruence)). rewrite N2Z.id. reflexivity.
Qed.
Print Assumptions spx_pairs.
Example spx_pairs_case : pairwise_distances [[1; 2]; [4; 6]; [1; 7]]%N = Some [5; 5; 3]%N /\ pair_position 3 1 2 = 2.
Proof. split; vm_compute; reflexivity. Qed.
(** No distance is larger than 15, and different descriptors can have distance zero. *)
Theorem spx_pairs_refuted : (forall ds l, pairwise_distances ds = Some l -> Forall (fun x => (x <= 15)%N) l) /\ pairwise_distances [[0; 0]; [16; 0]; [255; 255]]%N = Some [0; 1; 5]%N.
Proof.
  split; [|vm_compute; reflexivity]. intros ds l. unfold pairwise_distances. cbv zeta. destruct (_ <=? _)%Z; [discriminate|]. intros [= <-]. apply Forall_concat. apply Forall_forall. intros q Q. apply elem_of_list_fmap in Q. destruct Q as (i & -> & _). apply Forall_forall. intros x X. apply elem_of_list_fmap in X. destruct X as (j & -> & _).
  unfold byte_norm. change 15%N with (N.sqrt 255). apply N.sqrt_le_mono. destruct (zip_with _ _ _) as [|z r]; cbn [foldr]; [lia|]. match goal with |- (?e mod 256 <= _)%N => pose proof (N.mod_lt e 256 ltac:(lia)) end. lia.
Qed.
Print Assumptions spx_pairs_refuted.
(** From 46342 descriptors on the number of pairs is computed with an overflow. *)
Theorem spx_many_refuted ds : 46342 <= length ds -> pairwise_distances ds = None.
Proof.
  intros L. unfold pairwise_distances. cbv zeta. destruct (Z.leb_spec (2 ^ 31) (Z.of_nat (length ds) * (Z.of_nat (length ds) - 1))) as [_|H]; [reflexivity|]. exfalso. apply Nat2Z.inj_le in L. change (Z.of_nat 46342) with 46342%Z in L. nia.
Qed.
Print Assumptions spx_many_refuted.
(** Descriptors whose length is no multiple of 16 bytes: the mean absolute deviation of different descriptors is zero, the standard deviation is not. *)
Theorem spx_tail_refuted : exists ps ds s, (forall z, (z <= 2 ^ 24)%N -> ps z = z) /\ Forall (fun d => is_bytes d /\ length d = 20) ds /\ absolute_deviation ps 20 ds = Some 0%R /\ standard_deviation 20 ds = Some s /\ s <> 0%R.
Proof.
  pose (ds := [replicate 20 0%N; replicate 16 0%N ++ replicate 4 255%N]). assert (F : Forall (fun d => is_bytes d /\ length d = 20) ds) by (repeat constructor; unfold is_bytes; repeat constructor).
  destruct (spx_standard 20 ds ltac:(lia)) as (s & S & _ & _); [eapply Forall_impl; [exact F|]; intros d [_ D]; exact D|cbn; lia|].
  exists (fun z => z), ds, s. split; [auto|]. split; [exact F|]. split; [|split; [exact S|]].
  - unfold absolute_deviation. assert (M : descriptor_mean 20 ds = Some (replicate 20 0%N)) by (vm_compute; reflexivity). rewrite M. assert (E : sum_opt ((fun d => evaluate_sse (fun z => z) d (replicate 20 0%N) (Z.of_nat 20)) <$> ds) = Some 0%N) by (vm_compute; reflexivity). rewrite E. cbn [length Nat.ltb Nat.leb ds]. change (INR (N.to_nat 0)) with 0%R. f_equal. unfold Rdiv. apply Rmult_0_l.
  - intros Z. apply (spx_zero 20 ds s ltac:(lia) F S) in Z. assert (H : replicate 20 0%N = replicate 16 0%N ++ replicate 4 255%N) by (apply Z; [left|right; left]). discriminate.
Qed.
Print Assumptions spx_tail_refuted.
