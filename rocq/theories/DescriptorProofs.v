(** Proofs about bit access, the descriptor mean and the median index. *)
From Coq Require Import NArith ZArith Bool Lia.
From stdpp Require Import list list_numbers.
From Verif Require Import DescriptorModel DescriptorSpec HammingProofs.
Open Scope nat_scope.

(** ** Bits. *)
Lemma byte_bits_length x : length (byte_bits x) = 8.
Proof. done. Qed.
Lemma bits_length d : length (bits d) = length d * 8.
Proof.
  unfold bits. induction d as [|x d IH]; cbn [fmap list_fmap concat length]; [done|].
  rewrite app_length, IH, byte_bits_length. lia.
Qed.
Lemma byte_bits_lookup x i : i < 8 -> byte_bits x !! i = Some (N.testbit x (N.of_nat i)).
Proof. intros H. unfold byte_bits. rewrite list_lookup_fmap, lookup_seq_lt by done. done. Qed.
Lemma bits_lookup d i : bits d !! i = (fun x => N.testbit x (N.of_nat (i mod 8))) <$> d !! (i / 8).
Proof.
  revert i. induction d as [|x d IH]; intros i.
  - unfold bits. cbn. by rewrite lookup_nil.
  - unfold bits in *. cbn [fmap list_fmap concat].
    destruct (decide (i < 8)).
    + rewrite lookup_app_l by (rewrite byte_bits_length; lia).
      rewrite byte_bits_lookup by done. rewrite Nat.div_small, Nat.mod_small by done. done.
    + rewrite lookup_app_r by (rewrite byte_bits_length; lia).
      rewrite byte_bits_length. rewrite (IH (i - 8)).
      assert (E1 : i / 8 = S ((i - 8) / 8)).
      { replace i with (i - 8 + 1 * 8) at 1 by lia. rewrite Nat.div_add by lia. lia. }
      assert (E2 : i mod 8 = (i - 8) mod 8).
      { replace i with (i - 8 + 1 * 8) at 1 by lia. by rewrite Nat.mod_add by lia. }
      by rewrite E1, E2.
Qed.
Lemma land_bit x k : negb (N.land x (N.shiftl 1 k) =? 0)%N = N.testbit x k.
Proof.
  rewrite N.shiftl_1_l. destruct (N.testbit x k) eqn:E.
  - apply negb_true_iff, N.eqb_neq. intros H.
    assert (T : N.testbit (N.land x (2 ^ k)) k = true).
    { rewrite N.land_spec, E, N.pow2_bits_true. done. }
    rewrite H, N.bits_0 in T. done.
  - apply negb_false_iff, N.eqb_eq. apply N.bits_inj. intros j.
    rewrite N.land_spec, N.bits_0. destruct (N.eq_dec j k) as [->|Hne].
    + by rewrite E.
    + rewrite N.pow2_bits_false by congruence. apply andb_false_r.
Qed.
Lemma get_bit_ok i d : i < length d * 8 -> get_bit i d = Some (bit_at i d).
Proof.
  intros Hi. unfold get_bit, bit_at. rewrite bits_lookup.
  assert (Hl : i / 8 < length d) by (apply Nat.div_lt_upper_bound; lia).
  destruct (lookup_lt_is_Some_2 d (i / 8) Hl) as [x Hx]. rewrite Hx, land_bit. done.
Qed.
Lemma get_bit_none i d : length d * 8 <= i -> get_bit i d = None.
Proof.
  intros Hi. unfold get_bit. rewrite lookup_ge_None_2; [done|]. apply Nat.div_le_lower_bound; lia.
Qed.

(** Writing a byte. *)
Lemma bit_at_insert d i f x : i < length d * 8 -> d !! (i / 8) = Some x ->
  (forall j, N.testbit (f x) j = if (j =? N.of_nat (i mod 8))%N then N.testbit (f x) j else N.testbit x j) ->
  forall j, bit_at j (<[i / 8 := f x]> d)
    = if j =? i then N.testbit (f x) (N.of_nat (i mod 8)) else bit_at j d.
Proof.
  intros Hi Hx Hf j. unfold bit_at. rewrite !bits_lookup.
  assert (Hl : i / 8 < length d) by (apply Nat.div_lt_upper_bound; lia).
  destruct (Nat.eqb_spec j i) as [->|Hne].
  - rewrite list_lookup_insert by done. done.
  - destruct (decide (j / 8 = i / 8)) as [E|NE].
    + rewrite E, list_lookup_insert by done. rewrite Hx.
      cbv beta iota delta [fmap option_fmap option_map default from_option id].
      rewrite Hf. destruct (N.eqb_spec (N.of_nat (j mod 8)) (N.of_nat (i mod 8))) as [E2|]; [|done].
      exfalso. apply Hne. rewrite (Nat.div_mod j 8), (Nat.div_mod i 8) by lia. lia.
    + by rewrite list_lookup_insert_ne.
Qed.
Lemma set_bit_ok i d : i < length d * 8 -> exists d', set_bit i d = Some d' /\ length d' = length d /\
  (is_bytes d -> is_bytes d') /\ forall j, bit_at j d' = (j =? i) || bit_at j d.
Proof.
  intros Hi. unfold set_bit.
  assert (Hl : i / 8 < length d) by (apply Nat.div_lt_upper_bound; lia).
  destruct (lookup_lt_is_Some_2 d (i / 8) Hl) as [x Hx]. rewrite Hx.
  eexists. split; [done|]. split; [apply insert_length|]. split.
  - intros Hb. apply Forall_insert; [done|].
    pose proof (Forall_lookup_1 _ _ _ _ Hb Hx) as Hx'. cbv beta in *.
    rewrite N.shiftl_1_l.
    pose proof (Nat.mod_upper_bound i 8 ltac:(lia)) as Hm.
    assert (HF : N.lor x (2 ^ N.of_nat (i mod 8)) = (N.lor x (2 ^ N.of_nat (i mod 8)) mod 2 ^ 8)%N).
    { apply N.bits_inj. intros j. destruct (N.lt_ge_cases j 8).
      - by rewrite N.mod_pow2_bits_low.
      - rewrite N.mod_pow2_bits_high by done. rewrite N.lor_spec.
        rewrite N.pow2_bits_false by lia. rewrite orb_false_r.
        rewrite <- (N.mod_small x (2 ^ 8)) by done. by apply N.mod_pow2_bits_high. }
    rewrite HF. by apply N.mod_lt.
  - intros j.
    rewrite (bit_at_insert d i (fun x => N.lor x (N.shiftl 1 (N.of_nat (i mod 8)))) x Hi Hx).
    + rewrite N.shiftl_1_l, N.lor_spec, N.pow2_bits_true, orb_true_r. by destruct (j =? i).
    + intros k. rewrite N.shiftl_1_l, N.lor_spec.
      destruct (N.eqb_spec k (N.of_nat (i mod 8))); [done|].
      rewrite N.pow2_bits_false by congruence. apply orb_false_r.
Qed.
Lemma flip_bit_ok i d : i < length d * 8 -> exists d', flip_bit i d = Some d' /\ length d' = length d /\
  forall j, bit_at j d' = xorb (j =? i) (bit_at j d).
Proof.
  intros Hi. unfold flip_bit.
  assert (Hl : i / 8 < length d) by (apply Nat.div_lt_upper_bound; lia).
  destruct (lookup_lt_is_Some_2 d (i / 8) Hl) as [x Hx]. rewrite Hx.
  eexists. split; [done|]. split; [apply insert_length|].
  intros j.
  rewrite (bit_at_insert d i (fun x => N.lxor x (N.shiftl 1 (N.of_nat (i mod 8)))) x Hi Hx).
  + rewrite N.shiftl_1_l, N.lxor_spec, N.pow2_bits_true.
    destruct (Nat.eqb_spec j i) as [->|]; [|by destruct (bit_at j d)].
    unfold bit_at. rewrite bits_lookup, Hx.
    cbv beta iota delta [fmap option_fmap option_map default from_option id]. apply xorb_comm.
  + intros k. rewrite N.shiftl_1_l, N.lxor_spec.
    destruct (N.eqb_spec k (N.of_nat (i mod 8))); [done|].
    rewrite N.pow2_bits_false by congruence. apply xorb_false_r.
Qed.

(** ** The mean. *)
Definition b2n (b : bool) : nat := if b then 1 else 0.
Lemma count_bits_ok d sums : length sums = length d * 8 ->
  exists sums', count_bits d sums = Some sums' /\ length sums' = length sums /\
    forall i, i < length sums -> sums' !! i = (fun n => b2n (bit_at i d) + n) <$> sums !! i.
Proof.
  intros Hl. unfold count_bits.
  assert (H : forall n, n <= length sums -> exists sums',
    foldl (fun acc bit => match acc with None => None | Some s =>
      match get_bit bit d with None => None | Some true => Some (alter S bit s) | Some false => Some s end end)
      (Some sums) (seq 0 n) = Some sums' /\ length sums' = length sums /\
    forall i, i < length sums ->
      sums' !! i = (fun m => (if i <? n then b2n (bit_at i d) else 0) + m) <$> sums !! i).
  { induction n as [|n IH]; intros Hn.
    - exists sums. split; [done|]. split; [done|]. intros i Hi.
      destruct (lookup_lt_is_Some_2 sums i Hi) as [m Hm]. by rewrite Hm.
    - destruct (IH ltac:(lia)) as (s & E & L & P).
      rewrite seq_S, foldl_app. cbn [foldl]. rewrite E. cbn [Nat.add].
      rewrite get_bit_ok by lia.
      destruct (bit_at n d) eqn:Eb.
      + exists (alter S n s). split; [done|]. split; [by rewrite alter_length|].
        intros i Hi. destruct (decide (i = n)) as [->|Hne].
        * rewrite list_lookup_alter, P by done.
          destruct (Nat.ltb_spec n n); [lia|]. destruct (Nat.ltb_spec n (S n)); [|lia].
          rewrite Eb. by destruct (sums !! n).
        * rewrite list_lookup_alter_ne, P by done.
          destruct (Nat.ltb_spec i n), (Nat.ltb_spec i (S n)); (done || lia).
      + exists s. split; [done|]. split; [done|].
        intros i Hi. rewrite P by done. destruct (decide (i = n)) as [->|Hne].
        * destruct (Nat.ltb_spec n n); [lia|]. destruct (Nat.ltb_spec n (S n)); [|lia].
          rewrite Eb. done.
        * destruct (Nat.ltb_spec i n), (Nat.ltb_spec i (S n)); (done || lia). }
  destruct (H (length sums) (le_n _)) as (s & E & L & P).
  exists s. split; [exact E|]. split; [done|]. intros i Hi. rewrite P by done.
  by rewrite (proj2 (Nat.ltb_lt _ _) Hi).
Qed.
Lemma num_set_app i l1 l2 : num_set i (l1 ++ l2) = num_set i l1 + num_set i l2.
Proof. unfold num_set. induction l1 as [|d l IH]; cbn [app foldr]; [done|]. rewrite IH. lia. Qed.
Lemma counts_ok rows ds : Forall (fun d => length d = rows) ds ->
  forall sums, length sums = rows * 8 -> exists sums',
  foldl (fun acc d => match acc with None => None | Some s => count_bits d s end) (Some sums) ds = Some sums'
  /\ length sums' = rows * 8 /\
  forall i, i < rows * 8 -> sums' !! i = (fun n => num_set i ds + n) <$> sums !! i.
Proof.
  induction 1 as [|d ds Hd HF IH]; intros sums Hs.
  - exists sums. split; [done|]. split; [done|]. intros i Hi. cbn.
    by destruct (sums !! i).
  - cbn [foldl]. destruct (count_bits_ok d sums) as (s & E & L & P); [lia|]. rewrite E.
    destruct (IH s ltac:(lia)) as (s' & E' & L' & P'). exists s'. split; [done|]. split; [done|].
    intros i Hi. rewrite P', P by lia. unfold num_set. cbn [foldr].
    destruct (sums !! i); cbn; [|done]. f_equal. unfold b2n. lia.
Qed.

Lemma mean_ok rows ds : 0 < rows -> Forall (fun d => length d = rows) ds ->
  exists m, descriptor_mean rows ds = Some m /\ length m = rows /\ is_bytes m /\
    forall i, i < rows * 8 -> (bit_at i m = true <-> length ds < 2 * num_set i ds).
Proof.
  intros Hr HF. unfold descriptor_mean. destruct (Nat.eqb_spec rows 0) as [?|Hr0]; [lia|].
  destruct (counts_ok rows ds HF (replicate (rows * 8) 0)) as (sums & E & L & P);
    [by rewrite replicate_length|].
  rewrite E. set (half := length ds / 2).
  assert (P' : forall i, i < rows * 8 -> default 0 (sums !! i) = num_set i ds).
  { intros i Hi. rewrite P by done. rewrite lookup_replicate_2 by done. cbn. lia. }
  assert (H : forall n, n <= rows * 8 -> exists m,
    foldl (fun acc bit => match acc with None => None
      | Some m => if half <? default 0 (sums !! bit) then set_bit bit m else Some m end)
      (Some (replicate rows 0%N)) (seq 0 n) = Some m /\ length m = rows /\ is_bytes m /\
    forall i, bit_at i m = (i <? n) && (half <? num_set i ds)).
  { induction n as [|n IH]; intros Hn.
    - exists (replicate rows 0%N). split; [done|]. split; [apply replicate_length|]. split.
      + apply Forall_replicate. lia.
      + intros i. unfold bit_at. rewrite bits_lookup.
        destruct (replicate rows 0%N !! (i / 8)) eqn:Ex; [|done].
        apply lookup_replicate in Ex as [-> _].
        cbv beta iota delta [fmap option_fmap option_map default from_option id]. by rewrite N.bits_0.
    - destruct (IH ltac:(lia)) as (m & E1 & L1 & B1 & P1).
      rewrite seq_S, foldl_app, E1. cbn [foldl Nat.add]. rewrite P' by lia.
      destruct (half <? num_set n ds) eqn:Eh.
      + destruct (set_bit_ok n m ltac:(lia)) as (m' & E2 & L2 & B2 & P2).
        exists m'. split; [done|]. split; [lia|]. split; [auto|]. intros i. rewrite P2, P1.
        destruct (Nat.eqb_spec i n) as [->|Hne].
        * destruct (Nat.ltb_spec n (S n)); [|lia]. by rewrite Eh.
        * destruct (Nat.ltb_spec i n), (Nat.ltb_spec i (S n)); (done || lia).
      + exists m. split; [done|]. split; [done|]. split; [done|]. intros i. rewrite P1.
        destruct (decide (i = n)) as [->|Hne].
        * rewrite Eh. by rewrite !andb_false_r.
        * destruct (Nat.ltb_spec i n), (Nat.ltb_spec i (S n)); (done || lia). }
  rewrite L. destruct (H (rows * 8) (le_n _)) as (m & E1 & L1 & B1 & P1).
  exists m. split; [done|]. split; [done|]. split; [done|].
  intros i Hi. rewrite P1, (proj2 (Nat.ltb_lt _ _) Hi). cbn [andb].
  rewrite Nat.ltb_lt. unfold half.
  pose proof (Nat.div_mod (length ds) 2 ltac:(lia)). pose proof (Nat.mod_upper_bound (length ds) 2 ltac:(lia)).
  lia.
Qed.

(** ** Distances as sums over the bits. *)
Fixpoint sum_to (n : nat) (f : nat -> nat) : nat :=
  match n with O => 0 | S m => f m + sum_to m f end.
Lemma sum_to_ext n f g : (forall i, i < n -> f i = g i) -> sum_to n f = sum_to n g.
Proof. induction n as [|n IH]; intros H; cbn; [done|]. rewrite H by lia. rewrite IH; [done|]. intros; apply H; lia. Qed.
Lemma sum_to_le n f g : (forall i, i < n -> f i <= g i) -> sum_to n f <= sum_to n g.
Proof.
  induction n as [|n IH]; intros H; cbn; [done|].
  pose proof (H n ltac:(lia)). specialize (IH ltac:(intros; apply H; lia)). lia.
Qed.
Lemma sum_to_add n f g : sum_to n (fun i => f i + g i) = sum_to n f + sum_to n g.
Proof. induction n as [|n IH]; cbn; [done|]. rewrite IH. lia. Qed.
Lemma sum_to_S n f : sum_to (S n) f = f 0 + sum_to n (fun i => f (S i)).
Proof. induction n as [|n IH]; [done|]. cbn [sum_to] in *. rewrite IH. lia. Qed.
Lemma diff_sum a : forall b, length a = length b ->
  diff a b = sum_to (length a) (fun i => b2n (xorb (default false (a !! i)) (default false (b !! i)))).
Proof.
  induction a as [|x a IH]; intros [|y b] Hl; try done.
  cbn [length]. rewrite sum_to_S. cbn [diff]. rewrite IH by (cbn in Hl; lia). cbn. done.
Qed.
Lemma diff_bits_sum a b : length a = length b ->
  diff_bits a b = sum_to (length a * 8) (fun i => b2n (xorb (bit_at i a) (bit_at i b))).
Proof.
  intros Hl. unfold diff_bits. rewrite diff_sum by (rewrite !bits_length; lia).
  by rewrite bits_length.
Qed.
Lemma total_distance_sum d ds : Forall (fun x => length x = length d) ds ->
  total_distance d ds = sum_to (length d * 8) (fun i =>
    if bit_at i d then length ds - num_set i ds else num_set i ds).
Proof.
  intros HF. unfold total_distance. induction HF as [|x ds Hx HF IH]; cbn [foldr].
  - symmetry. induction (length d * 8) as [|n IH]; [done|]. cbn [sum_to]. rewrite IH. by destruct (bit_at n d).
  - rewrite IH, diff_bits_sum by congruence. rewrite <- sum_to_add. apply sum_to_ext.
    intros i Hi. unfold num_set. cbn [foldr length]. fold (num_set i ds).
    assert (Hle : num_set i ds <= length ds).
    { clear. unfold num_set. induction ds as [|d ds IH]; cbn; [lia|]. destruct (bit_at i d); lia. }
    destruct (bit_at i d), (bit_at i x); cbn; lia.
Qed.
Lemma num_set_le i ds : num_set i ds <= length ds.
Proof. unfold num_set. induction ds as [|d ds IH]; cbn; [lia|]. destruct (bit_at i d); lia. Qed.

Lemma mean_optimal rows ds m x : 0 < rows -> Forall (fun d => length d = rows) ds ->
  descriptor_mean rows ds = Some m -> length x = rows ->
  total_distance m ds <= total_distance x ds.
Proof.
  intros Hr HF E Lx. destruct (mean_ok rows ds Hr HF) as (m' & E' & L & _ & P).
  rewrite E in E'. injection E' as <-.
  rewrite !total_distance_sum; [|by rewrite Lx|by rewrite L]. rewrite L, Lx.
  apply sum_to_le. intros i Hi. pose proof (num_set_le i ds).
  specialize (P i Hi).
  destruct (bit_at i m).
  - destruct P as [P _]. specialize (P eq_refl). destruct (bit_at i x); lia.
  - destruct P as [_ P]. destruct (bit_at i x); [|lia].
    destruct (decide (length ds < 2 * num_set i ds)) as [Hd|]; [|lia]. by apply P in Hd.
Qed.

(** ** The median index. *)
Lemma diff_comm a : forall b, diff a b = diff b a.
Proof.
  induction a as [|x a IH]; intros [|y b]; try done. cbn. rewrite IH, xorb_comm. done.
Qed.
Lemma diff_refl a : diff a a = 0.
Proof. induction a as [|x a IH]; [done|]. cbn. by rewrite xorb_nilpotent, IH. Qed.
Lemma diff_bits_comm a b : diff_bits a b = diff_bits b a.
Proof. apply diff_comm. Qed.
Lemma diff_bits_refl a : diff_bits a a = 0.
Proof. apply diff_refl. Qed.

Lemma all_opt_map {A B} (f : A -> option B) (g : A -> B) l :
  (forall x, x ∈ l -> f x = Some (g x)) -> all_opt (f <$> l) = Some (g <$> l).
Proof.
  induction l as [|x l IH]; intros H; [done|]. cbn [fmap list_fmap all_opt].
  rewrite H by left. rewrite IH; [done|]. intros y Hy. apply H. by right.
Qed.
Lemma sum_opt_map {A} (f : A -> option N) (g : A -> nat) l :
  (forall x, x ∈ l -> f x = Some (N.of_nat (g x))) ->
  sum_opt (f <$> l) = Some (N.of_nat (foldr (fun x n => g x + n) 0 l)).
Proof.
  induction l as [|x l IH]; intros H; [done|]. cbn [fmap list_fmap sum_opt foldr].
  rewrite H by left. rewrite IH; [by rewrite Nat2N.inj_add|]. intros y Hy. apply H. by right.
Qed.
Lemma foldr_seq_lookup (ds : list (list N)) (f : list N -> nat) k :
  foldr (fun i n => f (default [] (ds !! (i - k))) + n) 0 (seq k (length ds))
  = foldr (fun x n => f x + n) 0 ds.
Proof.
  revert k. induction ds as [|d ds IH]; intros k; [done|].
  cbn [length seq foldr]. rewrite Nat.sub_diag. cbn [lookup list_lookup]. f_equal.
  rewrite <- (IH (S k)). clear IH.
  assert (H : forall l, Forall (fun i => S k <= i) l ->
    foldr (fun i n => f (default [] ((d :: ds) !! (i - k))) + n) 0 l
    = foldr (fun i n => f (default [] (ds !! (i - S k))) + n) 0 l).
  { induction 1 as [|i l Hi HF IH]; [done|]. cbn [foldr]. rewrite IH.
    replace (i - k) with (S (i - S k)) by lia. done. }
  apply H. apply Forall_forall. intros i Hi. apply elem_of_seq in Hi. lia.
Qed.

Lemma min_index_from_ok l : forall i bi b,
  let r := min_index_from i bi b l in
  exists v, (forall x, x ∈ l -> (v <= x)%N) /\ (v <= b)%N /\
    ((r = bi /\ v = b) \/ (i <= r /\ l !! (r - i) = Some v /\ (v < b)%N /\
      forall j, i <= j < r -> exists w, l !! (j - i) = Some w /\ (v < w)%N)).
Proof.
  induction l as [|x l IH]; intros i bi b; cbn [min_index_from].
  - exists b. split; [intros x Hx; by apply elem_of_nil in Hx|]. split; [lia|]. by left.
  - destruct (N.ltb_spec x b) as [Hlt|Hge].
    + destruct (IH (S i) i x) as (v & H1 & H2 & H3). exists v. split.
      { intros y [->|Hy]%elem_of_cons; [done|auto]. }
      split; [lia|]. right. destruct H3 as [[-> ->]|(L & E & V & M)].
      * split; [done|]. rewrite Nat.sub_diag. split; [done|]. split; [done|]. intros; lia.
      * split; [lia|].
        assert (Er : min_index_from (S i) i x l - i = S (min_index_from (S i) i x l - S i)) by lia.
        rewrite Er. split; [done|]. split; [lia|]. intros j Hj.
        destruct (decide (j = i)) as [->|].
        -- rewrite Nat.sub_diag. by exists x.
        -- replace (j - i) with (S (j - S i)) by lia. apply M. lia.
    + destruct (IH (S i) bi b) as (v & H1 & H2 & H3). exists v. split.
      { intros y [->|Hy]%elem_of_cons; [lia|auto]. }
      split; [lia|]. destruct H3 as [[-> ->]|(L & E & V & M)].
      * by left.
      * right. split; [lia|].
        assert (Er : min_index_from (S i) bi b l - i = S (min_index_from (S i) bi b l - S i)) by lia.
        rewrite Er. split; [done|]. split; [done|]. intros j Hj.
        destruct (decide (j = i)) as [->|].
        -- rewrite Nat.sub_diag. exists x. split; [done|lia].
        -- replace (j - i) with (S (j - S i)) by lia. apply M. lia.
Qed.
Lemma min_index_ok l r : min_index l = Some r ->
  exists v, l !! r = Some v /\ (forall x, x ∈ l -> (v <= x)%N) /\
    forall j w, j < r -> l !! j = Some w -> (v < w)%N.
Proof.
  destruct l as [|x l]; [done|]. cbn [min_index]. intros [= <-].
  destruct (min_index_from_ok l 1 0 x) as (v & H1 & H2 & H3). exists v.
  destruct H3 as [[E ->]|(L & E & V & M)].
  - rewrite E. split; [done|]. split; [|intros; lia].
    intros y [->|Hy]%elem_of_cons; [done|auto].
  - replace (min_index_from 1 0 x l) with (S (min_index_from 1 0 x l - 1)) at 1 by lia.
    split; [done|]. split.
    { intros y [->|Hy]%elem_of_cons; [lia|auto]. }
    intros j w Hj Hw. destruct j as [|j].
    + cbn in Hw. injection Hw as <-. done.
    + destruct (M (S j) ltac:(lia)) as (w' & Hw' & Hv).
      replace (S j - 1) with j in Hw' by lia.
      change (l !! j = Some w) in Hw. rewrite Hw in Hw'. by injection Hw' as <-.
Qed.

Lemma closest_ok dist ds r :
  (forall a b, a ∈ ds -> b ∈ ds -> dist a b = Some (N.of_nat (diff_bits a b))) ->
  closest_to_median dist ds = Some r ->
  exists d, ds !! r = Some d /\ (forall x, x ∈ ds -> total_distance d ds <= total_distance x ds) /\
    forall j x, j < r -> ds !! j = Some x -> total_distance d ds < total_distance x ds.
Proof.
  intros Hd. unfold closest_to_median.
  assert (HM : forall i j, i < length ds -> j < length ds ->
    matrix_entry dist ds i j
    = Some (N.of_nat (diff_bits (default [] (ds !! j)) (default [] (ds !! i))))).
  { intros i j Hi Hj. destruct (lookup_lt_is_Some_2 ds i Hi) as [a Ha].
    destruct (lookup_lt_is_Some_2 ds j Hj) as [b Hb]. unfold matrix_entry. rewrite Ha, Hb. cbn [default].
    destruct (Nat.eqb_spec i j) as [->|Hne].
    - rewrite Ha in Hb. injection Hb as <-. change (default [] (Some a)) with a. by rewrite diff_bits_refl.
    - destruct (Nat.lt_total i j) as [Hij|[?|Hij]]; [|done|].
      + rewrite Nat.min_l, Nat.max_r by lia. rewrite Ha, Hb.
        rewrite Hd by (by eapply elem_of_list_lookup_2). by rewrite diff_bits_comm.
      + rewrite Nat.min_r, Nat.max_l by lia. rewrite Ha, Hb.
        by rewrite Hd by (by eapply elem_of_list_lookup_2). }
  rewrite (all_opt_map _ (fun j => N.of_nat (total_distance (default [] (ds !! j)) ds))).
  2: { intros j Hj. apply elem_of_seq in Hj.
       rewrite (sum_opt_map _ (fun i => diff_bits (default [] (ds !! j)) (default [] (ds !! i)))).
       - do 2 f_equal. unfold total_distance.
         rewrite <- (foldr_seq_lookup ds (diff_bits (default [] (ds !! j))) 0).
         generalize (seq 0 (length ds)). induction l as [|i l IH]; [done|].
         cbn [foldr]. by rewrite IH, Nat.sub_0_r.
       - intros i Hi. apply elem_of_seq in Hi. apply HM; lia. }
  intros E. destruct (min_index_ok _ _ E) as (v & E1 & E2 & E3).
  rewrite list_lookup_fmap in E1.
  destruct (seq 0 (length ds) !! r) as [r'|] eqn:Er; [|done]. apply lookup_seq in Er as [-> Hr].
  cbn in E1. injection E1 as E1. cbn [Nat.add] in *.
  destruct (lookup_lt_is_Some_2 ds r Hr) as [d Hdd]. rewrite Hdd in E1. cbn in E1.
  exists d. split; [done|]. split.
  - intros x Hx. apply elem_of_list_lookup in Hx as [k Hk].
    pose proof (lookup_lt_Some _ _ _ Hk) as Hkl.
    assert (Hin : N.of_nat (total_distance x ds) ∈
      ((fun j => N.of_nat (total_distance (default [] (ds !! j)) ds)) <$> seq 0 (length ds))).
    { apply elem_of_list_fmap. exists k. rewrite Hk. split; [done|]. apply elem_of_seq. lia. }
    apply E2 in Hin. lia.
  - intros j x Hj Hx.
    assert (Hin : ((fun j => N.of_nat (total_distance (default [] (ds !! j)) ds)) <$> seq 0 (length ds)) !! j
      = Some (N.of_nat (total_distance x ds))).
    { rewrite list_lookup_fmap, lookup_seq_lt by lia. cbn. by rewrite Hx. }
    apply (E3 _ _ Hj) in Hin. lia.
Qed.
Lemma closest_defined dist ds :
  (forall a b, a ∈ ds -> b ∈ ds -> dist a b = Some (N.of_nat (diff_bits a b))) -> ds <> [] ->
  exists r, closest_to_median dist ds = Some r.
Proof.
  intros Hd Hne. unfold closest_to_median.
  assert (HS : exists s, all_opt ((fun j => sum_opt ((fun i => matrix_entry dist ds i j) <$> seq 0 (length ds)))
     <$> seq 0 (length ds)) = Some s /\ length s = length ds).
  { rewrite (all_opt_map _ (fun j => default 0%N (sum_opt ((fun i => matrix_entry dist ds i j) <$> seq 0 (length ds))))).
    - eexists. split; [done|]. by rewrite fmap_length, seq_length.
    - intros j Hj. apply elem_of_seq in Hj.
      rewrite (sum_opt_map _ (fun i => N.to_nat (default 0%N (matrix_entry dist ds i j)))); [done|].
      intros i Hi. apply elem_of_seq in Hi. unfold matrix_entry.
      destruct (Nat.eqb_spec i j); [done|].
      destruct (lookup_lt_is_Some_2 ds (Nat.min i j)) as [a Ha]; [lia|].
      destruct (lookup_lt_is_Some_2 ds (Nat.max i j)) as [b Hb]; [lia|].
      rewrite Ha, Hb, Hd by (by eapply elem_of_list_lookup_2). cbn. by rewrite Nat2N.id. }
  destruct HS as (s & -> & Ls). destruct s as [|x s]; [|by eexists].
  destruct ds; [done|]. cbn in Ls. lia.
Qed.
