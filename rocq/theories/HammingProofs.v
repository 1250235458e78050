(** Proofs about the vectorised Hamming distance. *)
From Coq Require Import NArith ZArith Bool Lia.
From stdpp Require Import list list_numbers.
From Verif Require Import DescriptorModel DescriptorSpec.
Open Scope N_scope.

Definition dbyte (x y : N) : nat := diff (byte_bits x) (byte_bits y).
Definition sumN (l : list N) : N := foldr N.add 0 l.

(** Checks over all bytes, by computation. *)
Definition all_bytes : list N := N.of_nat <$> seq 0 256.
Lemma all_bytes_in x : x < 256 -> In x all_bytes.
Proof.
  intros H. unfold all_bytes. apply elem_of_list_In, elem_of_list_fmap.
  exists (N.to_nat x). split; [by rewrite N2Nat.id|]. apply elem_of_seq. lia.
Qed.
Lemma for_all_bytes (P : N -> bool) : forallb P all_bytes = true -> forall x, x < 256 -> P x = true.
Proof. intros H x Hx. rewrite forallb_forall in H. apply H, all_bytes_in, Hx. Qed.

Definition tab (i : N) : N := nth (N.to_nat i) popcount_4bit 0.

Lemma byte_check : forallb (fun x => forallb (fun y =>
   let z := N.lxor x y in
   (z <? 256) && (tab (N.land z 15) + tab (N.shiftr z 4) =? N.of_nat (dbyte x y))
   && (N.of_nat (dbyte x y) <=? 8)) all_bytes) all_bytes = true.
Proof. vm_compute. reflexivity. Qed.
Lemma byte_ok x y : x < 256 -> y < 256 ->
  N.lxor x y < 256 /\ tab (N.land (N.lxor x y) 15) + tab (N.shiftr (N.lxor x y) 4) = N.of_nat (dbyte x y)
  /\ N.of_nat (dbyte x y) <= 8.
Proof.
  intros Hx Hy. pose proof (for_all_bytes _ byte_check x Hx) as H. cbv beta in H.
  pose proof (for_all_bytes _ H y Hy) as H'. cbv beta zeta in H'.
  apply andb_prop in H' as [H' H3]. apply andb_prop in H' as [H1 H2].
  apply N.ltb_lt in H1. apply N.eqb_eq in H2. apply N.leb_le in H3. done.
Qed.
Lemma srl_check : forallb (fun lo => forallb (fun hi =>
   let x := N.shiftr (lo + 256 * hi) 4 in
   (N.land (x mod 256) 15 =? N.shiftr lo 4) && (N.land (x / 256) 15 =? N.shiftr hi 4)) all_bytes) all_bytes
   = true.
Proof. vm_compute. reflexivity. Qed.
Lemma nibble_check : forallb (fun z =>
   negb (N.testbit (N.land z 15) 7) && negb (N.testbit (N.shiftr z 4) 7)
   && (N.land (N.land z 15) 15 =? N.land z 15) && (N.land (N.shiftr z 4) 15 =? N.shiftr z 4)) all_bytes = true.
Proof. vm_compute. reflexivity. Qed.

Lemma srl_mask l : Nat.even (length l) = true -> is_bytes l ->
  and_mask (srl_epi16_4 l) = (fun z => N.shiftr z 4) <$> l.
Proof.
  assert (H : forall n l, (length l <= n)%nat -> Nat.even (length l) = true -> is_bytes l ->
    and_mask (srl_epi16_4 l) = (fun z => N.shiftr z 4) <$> l).
  { clear l. induction n as [|n IH]; intros l Hn He Hb.
    - by destruct l; [|cbn in Hn; lia].
    - destruct l as [|lo [|hi l]]; [done|done|].
      inversion Hb as [|? ? Hlo Hb1]; subst. inversion Hb1 as [|? ? Hhi Hb2]; subst.
      pose proof (for_all_bytes _ srl_check lo Hlo) as H. cbv beta in H.
      pose proof (for_all_bytes _ H hi Hhi) as H'. cbv beta zeta in H'.
      apply andb_prop in H' as [H1 H2]. apply N.eqb_eq in H1, H2.
      cbn [srl_epi16_4 and_mask fmap list_fmap]. unfold and_mask in *. cbn [fmap list_fmap].
      rewrite H1, H2. f_equal. f_equal. apply IH; [cbn in Hn; lia|done|done]. }
  intros. by apply (H (length l)).
Qed.
Lemma shuffle_lo l : is_bytes l ->
  shuffle_epi8 popcount_4bit (and_mask l) = (fun z => tab (N.land z 15)) <$> l.
Proof.
  intros Hb. unfold shuffle_epi8, and_mask. rewrite <- list_fmap_compose. apply list_fmap_ext.
  intros i z Hz. cbv beta delta [compose].
  pose proof (for_all_bytes _ nibble_check z (Forall_lookup_1 _ _ _ _ Hb Hz)) as H. cbv beta in H.
  apply andb_prop in H as [H H4]. apply andb_prop in H as [H H3]. apply andb_prop in H as [H1 H2].
  apply negb_true_iff in H1. apply N.eqb_eq in H3. rewrite H1, H3. done.
Qed.
Lemma shuffle_hi l : is_bytes l ->
  shuffle_epi8 popcount_4bit ((fun z => N.shiftr z 4) <$> l) = (fun z => tab (N.shiftr z 4)) <$> l.
Proof.
  intros Hb. unfold shuffle_epi8. rewrite <- list_fmap_compose. apply list_fmap_ext.
  intros i z Hz. cbv beta delta [compose].
  pose proof (for_all_bytes _ nibble_check z (Forall_lookup_1 _ _ _ _ Hb Hz)) as H. cbv beta in H.
  apply andb_prop in H as [H H4]. apply andb_prop in H as [H H3]. apply andb_prop in H as [H1 H2].
  apply negb_true_iff in H2. apply N.eqb_eq in H4. rewrite H2, H4. done.
Qed.

Lemma xor_bytes a b : is_bytes a -> is_bytes b -> is_bytes (xor_si128 a b).
Proof.
  intros Ha. revert b. induction Ha as [|x a Hx Ha IH]; intros b Hb; [by constructor|].
  destruct Hb as [|y b Hy Hb]; [by constructor|].
  constructor; [by apply byte_ok|by apply IH].
Qed.

(** Distances of the lanes of one word. *)
Definition lanes (a b : list N) : list N := zip_with (fun x y => N.of_nat (dbyte x y)) a b.

Lemma body_ok acc a b m : is_bytes a -> is_bytes b -> length a = 16%nat -> length b = 16%nat ->
  Forall (fun x => x <= m) acc -> m + 8 <= 255 ->
  sse_body acc a b = zip_with N.add acc (lanes a b).
Proof.
  intros Ha Hb La Lb HF Hm. unfold sse_body. cbv zeta.
  pose proof (xor_bytes _ _ Ha Hb) as Hx.
  rewrite srl_mask; [|unfold xor_si128; rewrite zip_with_length, La, Lb; done|done].
  rewrite shuffle_lo, shuffle_hi by done. clear Hx La Lb.
  unfold add_epi8, xor_si128, lanes.
  revert acc HF b Hb. induction Ha as [|x a Hx Ha IH]; intros acc HF b Hb.
  - by destruct HF.
  - destruct HF as [|z acc Hz HF]; [done|]. destruct Hb as [|y b Hy Hb]; [done|].
    cbn [zip_with fmap list_fmap].
    destruct (byte_ok x y Hx Hy) as (H1 & H2 & H3).
    f_equal; [|by apply IH].
    pose proof (N.le_0_l (tab (N.land (N.lxor x y) 15))).
    rewrite (N.mod_small (z + _)) by lia. rewrite N.mod_small by lia. lia.
Qed.

Lemma sumN_app l1 l2 : sumN (l1 ++ l2) = sumN l1 + sumN l2.
Proof. unfold sumN. induction l1 as [|x l IH]; cbn [foldr app]; [lia|]. rewrite IH. lia. Qed.
Lemma sumN_zip_add l1 l2 : length l1 = length l2 -> sumN (zip_with N.add l1 l2) = sumN l1 + sumN l2.
Proof.
  unfold sumN. revert l2. induction l1 as [|x l IH]; intros [|y l2] Hl; cbn in Hl; try done.
  cbn [zip_with foldr]. rewrite IH by lia. lia.
Qed.
Lemma diff_app a1 b1 a2 b2 : length a1 = length b1 ->
  diff (a1 ++ a2) (b1 ++ b2) = (diff a1 b1 + diff a2 b2)%nat.
Proof.
  revert b1. induction a1 as [|x a1 IH]; intros [|y b1] Hl; cbn in Hl; try done.
  cbn [app diff]. rewrite IH by lia. lia.
Qed.
Lemma diff_bits_cons x a y b : diff_bits (x :: a) (y :: b) = (dbyte x y + diff_bits a b)%nat.
Proof.
  unfold diff_bits, bits. cbn [fmap list_fmap concat]. by rewrite diff_app.
Qed.
Lemma diff_bits_app a1 b1 a2 b2 : length a1 = length b1 ->
  diff_bits (a1 ++ a2) (b1 ++ b2) = (diff_bits a1 b1 + diff_bits a2 b2)%nat.
Proof.
  revert b1. induction a1 as [|x a1 IH]; intros [|y b1] Hl; cbn in Hl; try done.
  cbn [app]. rewrite !diff_bits_cons, IH by lia. lia.
Qed.
Lemma sumN_lanes a b : length a = length b -> sumN (lanes a b) = N.of_nat (diff_bits a b).
Proof.
  unfold sumN, lanes. revert b. induction a as [|x a IH]; intros [|y b] Hl; cbn in Hl; try done.
  cbn [zip_with foldr]. rewrite IH, diff_bits_cons by lia. lia.
Qed.

Definition word (w : list N) : Prop := length w = 16%nat /\ is_bytes w.

Lemma zip_add_le acc l m : Forall (fun x => x <= m) acc -> Forall (fun x => x <= 8) l ->
  Forall (fun x => x <= m + 8) (zip_with N.add acc l).
Proof.
  intros HF. revert l. induction HF as [|x acc Hx HF IH]; intros l Hl; [constructor|].
  destruct Hl as [|y l Hy Hl]; [constructor|]. constructor; [lia|by apply IH].
Qed.
Lemma lanes_le a b : is_bytes a -> is_bytes b -> Forall (fun x => x <= 8) (lanes a b).
Proof.
  intros Ha. revert b. induction Ha as [|x a Hx Ha IH]; intros b Hb; [constructor|].
  destruct Hb as [|y b Hy Hb]; [constructor|]. constructor; [by apply byte_ok|by apply IH].
Qed.

Lemma loop_ok w1 : forall w2 acc m, length w1 = length w2 -> w1 <> [] ->
  Forall word w1 -> Forall word w2 -> length acc = 16%nat -> Forall (fun x => x <= m) acc ->
  m + 8 * N.of_nat (length w1) <= 255 ->
  exists acc', sse_loop (Z.of_nat (length w1)) w1 w2 acc = Some acc' /\
    length acc' = 16%nat /\ Forall (fun x => x <= 255) acc' /\
    sumN acc' = sumN acc + N.of_nat (diff_bits (concat w1) (concat w2)).
Proof.
  induction w1 as [|a w1 IH]; intros [|b w2] acc m Hl Hne H1 H2 Hacc HF Hm; try done.
  inversion H1 as [|? ? [La Ba] H1']; subst. inversion H2 as [|? ? [Lb Bb] H2']; subst.
  cbn [length] in Hl, Hm. cbn [sse_loop concat].
  rewrite (body_ok acc a b m) by (done || lia).
  set (acc1 := zip_with N.add acc (lanes a b)).
  assert (Ll : length (lanes a b) = 16%nat) by (unfold lanes; rewrite zip_with_length; lia).
  assert (L1 : length acc1 = 16%nat) by (unfold acc1; rewrite zip_with_length; lia).
  assert (F1 : Forall (fun x => x <= m + 8) acc1).
  { apply zip_add_le; [done|by apply lanes_le]. }
  assert (S1 : sumN acc1 = sumN acc + N.of_nat (diff_bits a b)).
  { unfold acc1. rewrite sumN_zip_add, sumN_lanes by lia. done. }
  rewrite diff_bits_app by lia.
  destruct w1 as [|a2 w1].
  - destruct w2; [|done]. change (Z.of_nat (length [a])) with 1%Z. cbn [Z.ltb Z.compare Pos.compare Pos.compare_cont].
    exists acc1. split; [done|]. split; [done|]. split.
    + eapply Forall_impl; [exact F1|]. intros; cbn in *; lia.
    + rewrite S1. cbn. lia.
  - destruct (Z.ltb_spec 1 (Z.of_nat (length (a :: a2 :: w1)))) as [_|Hc]; [|cbn [length] in Hc; lia].
    replace (Z.of_nat (length (a :: a2 :: w1)) - 1)%Z with (Z.of_nat (length (a2 :: w1)))
      by (cbn [length]; lia).
    destruct (IH w2 acc1 (m + 8)) as (acc' & E & L' & F' & S'); try done.
    + lia.
    + lia.
    + exists acc'. split; [exact E|]. split; [done|]. split; [done|]. rewrite S', S1. lia.
Qed.

Lemma words_fuel_ok k : forall f l, length l = (16 * k)%nat -> (k <= f)%nat -> is_bytes l ->
  length (words_fuel f l) = k /\ concat (words_fuel f l) = l /\ Forall word (words_fuel f l).
Proof.
  induction k as [|k IH]; intros f l Hl Hf Hb.
  - destruct l; [|cbn in Hl; lia]. destruct f; by repeat split; try constructor.
  - destruct f as [|f]; [lia|]. cbn [words_fuel].
    destruct (Nat.ltb_spec (length l) 16); [lia|].
    destruct (IH f (drop 16 l)) as (I1 & I2 & I3).
    + rewrite drop_length. lia. + lia. + by apply Forall_drop.
    + split; [cbn [length]; lia|]. split.
      * cbn [concat]. rewrite I2. apply take_drop.
      * constructor; [|done]. split; [rewrite take_length; lia|by apply Forall_take].
Qed.
Lemma words_ok k l : length l = (16 * k)%nat -> is_bytes l ->
  length (words l) = k /\ concat (words l) = l /\ Forall word (words l).
Proof. intros. unfold words. apply words_fuel_ok; [done|lia|done]. Qed.

Lemma sumN_le l m : Forall (fun x => x <= m) l -> sumN l <= N.of_nat (length l) * m.
Proof.
  unfold sumN. induction 1 as [|x l Hx HF IH]; cbn [foldr length]; [lia|]. nia.
Qed.

Lemma sse_exact ps a b k : (forall z, z <= 2 ^ 24 -> ps z = z) ->
  is_bytes a -> is_bytes b -> length a = (16 * k)%nat -> length b = (16 * k)%nat -> (1 <= k <= 31)%nat ->
  evaluate_sse ps a b (Z.of_nat (length a)) = Some (N.of_nat (diff_bits a b)).
Proof.
  intros Hps Ha Hb La Lb Hk. unfold evaluate_sse, ssse3_popcnt_of_xored.
  destruct (words_ok k a La Ha) as (A1 & A2 & A3). destruct (words_ok k b Lb Hb) as (B1 & B2 & B3).
  assert (Eq : Z.quot (Z.of_nat (length a)) 16 = Z.of_nat (length (words a))).
  { rewrite A1, La. rewrite Nat2Z.inj_mul, Z.mul_comm. by rewrite Z.quot_mul. }
  rewrite Eq.
  destruct (loop_ok (words a) (words b) (replicate 16 0) 0) as (acc & E & L & F & S).
  - congruence.
  - intros Hw. rewrite Hw in A1. cbn in A1. lia.
  - done.
  - done.
  - done.
  - apply Forall_replicate. lia.
  - rewrite A1. lia.
  - rewrite E. rewrite A2, B2 in S.
    change (sumN (replicate 16 0)) with 0 in S. rewrite N.add_0_l in S.
    unfold sad_epu8. cbn [nth]. fold (sumN (take 8 acc)). fold (sumN (drop 8 acc)).
    rewrite <- (take_drop 8 acc), sumN_app in S.
    rewrite Hps; [f_equal; lia|].
    pose proof (sumN_le (drop 8 acc) 255 (Forall_drop _ _ _ F)) as Hle.
    rewrite drop_length, L in Hle. cbn in Hle. etransitivity; [exact Hle|]. by vm_compute.
Qed.

(** ARM. *)
Lemma popcnt8_ok x y : x < 256 -> y < 256 -> popcnt8 (N.lxor x y) = N.of_nat (dbyte x y).
Proof. intros. by apply byte_ok. Qed.
Lemma neon_word a b : is_bytes a -> is_bytes b ->
  (popcnt8 <$> zip_with N.lxor a b) = lanes a b.
Proof.
  intros Ha. revert b. induction Ha as [|x a Hx Ha IH]; intros b Hb; [done|].
  destruct Hb as [|y b Hy Hb]; [done|]. cbn [zip_with fmap list_fmap].
  unfold lanes. cbn [zip_with]. rewrite popcnt8_ok by done. f_equal. by apply IH.
Qed.
Lemma diff_bits_le a b : is_bytes a -> is_bytes b -> N.of_nat (diff_bits a b) <= 8 * N.of_nat (length a).
Proof.
  intros Ha. revert b. induction Ha as [|x a Hx Ha IH]; intros b Hb; [cbn; lia|].
  destruct Hb as [|y b Hy Hb].
  - unfold diff_bits. cbn. lia.
  - rewrite diff_bits_cons. cbn [length]. destruct (byte_ok x y Hx Hy) as (_ & _ & ?).
    specialize (IH b Hb). lia.
Qed.
Lemma neon_loop_ok w1 : forall w2 r, length w1 = length w2 -> Forall word w1 -> Forall word w2 ->
  r + 128 * N.of_nat (length w1) < 2 ^ 32 ->
  neon_loop (length w1) w1 w2 r = Some (r + N.of_nat (diff_bits (concat w1) (concat w2))).
Proof.
  induction w1 as [|a w1 IH]; intros [|b w2] r Hl H1 H2 Hr; try done.
  - cbn. f_equal. lia.
  - inversion H1 as [|? ? [La Ba] H1']; subst. inversion H2 as [|? ? [Lb Bb] H2']; subst.
    cbn [length] in Hl, Hr. cbn [neon_loop length concat].
    rewrite neon_word by done. fold (sumN (lanes a b)). rewrite sumN_lanes by lia.
    pose proof (diff_bits_le a b Ba Bb) as Hle. rewrite La in Hle.
    rewrite N.mod_small by lia. rewrite IH by (done || lia).
    rewrite diff_bits_app by lia. f_equal. lia.
Qed.
Lemma neon_exact a b k :
  is_bytes a -> is_bytes b -> length a = (16 * k)%nat -> length b = (16 * k)%nat ->
  128 * N.of_nat k < 2 ^ 32 ->
  evaluate_neon a b (Z.of_nat (length a)) = Some (N.of_nat (diff_bits a b)).
Proof.
  intros Ha Hb La Lb Hk. unfold evaluate_neon.
  destruct (words_ok k a La Ha) as (A1 & A2 & A3). destruct (words_ok k b Lb Hb) as (B1 & B2 & B3).
  assert (Eq : Z.to_nat (Z.quot (Z.of_nat (length a)) 16) = length (words a)).
  { rewrite A1, La. rewrite Nat2Z.inj_mul, Z.mul_comm. rewrite Z.quot_mul by done. lia. }
  rewrite Eq, neon_loop_ok.
  - rewrite A2, B2. f_equal.
  - congruence.
  - done.
  - done.
  - rewrite A1. lia.
Qed.
