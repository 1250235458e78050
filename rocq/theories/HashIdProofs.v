(** Proofs about the ids. *)
From Coq Require Import ZArith Bool List Strings.Byte Lia FinFun.
From Verif Require Import SerializationModel SerializationSpec SerializationProofs HashIdModel HashIdSpec.
Import ListNotations.
Open Scope Z_scope.

Lemma lower_hex_char c v : lower_hex c v -> c = hex_char v.
Proof.
  intros [H E]. unfold hex_char. symmetry. apply nth_error_nth. exact E.
Qed.

Lemma hex_char_lower v : 0 <= v < 16 -> lower_hex (hex_char v) v.
Proof.
  intros H. split; [exact H|]. unfold hex_char. apply nth_error_nth'. simpl. lia.
Qed.

Ltac small_cases v :=
  let E := fresh in
  assert (v = 0 \/ v = 1 \/ v = 2 \/ v = 3 \/ v = 4 \/ v = 5 \/ v = 6 \/ v = 7 \/ v = 8 \/ v = 9 \/
          v = 10 \/ v = 11 \/ v = 12 \/ v = 13 \/ v = 14 \/ v = 15) as E by lia;
  repeat (destruct E as [E|E]; [subst v|]); [..|subst v].

Lemma any_hex_digit c v : any_hex c v -> hex_digit c = Some v.
Proof.
  intros [H | [H E]].
  - pose proof (proj1 H) as B. apply lower_hex_char in H. subst c.
    small_cases v; reflexivity.
  - assert (v = 10 \/ v = 11 \/ v = 12 \/ v = 13 \/ v = 14 \/ v = 15) as D by lia.
    repeat (destruct D as [D|D]; [subst v; injection E as <-; reflexivity|]).
    subst v; injection E as <-; reflexivity.
Qed.

Lemma any_hex_bounds c v : any_hex c v -> 0 <= v < 16.
Proof. intros [[H _]|[H _]]; lia. Qed.

(** A hexadecimal digit is neither white space nor a sign. *)
Lemma hex_digit_plain c v : hex_digit c = Some v ->
  is_space c = false /\ (byte_val c =? 45) = false /\ (byte_val c =? 43) = false.
Proof.
  unfold hex_digit, is_space. intros H. pose proof (byte_val_bounds c).
  destruct ((48 <=? byte_val c) && (byte_val c <=? 57)) eqn:E1;
    [|destruct ((97 <=? byte_val c) && (byte_val c <=? 102)) eqn:E2;
      [|destruct ((65 <=? byte_val c) && (byte_val c <=? 70)) eqn:E3; [|discriminate]]];
  rewrite ?andb_true_iff, ?Z.leb_le in *;
  rewrite orb_false_iff, andb_false_iff, !Z.eqb_neq, !Z.leb_gt; lia.
Qed.

Lemma stoul16_pair c1 c2 v1 v2 :
  hex_digit c1 = Some v1 -> hex_digit c2 = Some v2 -> stoul16 [c1; c2] = Some (16 * v1 + v2).
Proof.
  intros H1 H2. destruct (hex_digit_plain _ _ H1) as (P1 & P2 & P3).
  unfold stoul16, skip_space, take_sign. rewrite P1, P2, P3. cbn [skip_prefix]. rewrite H1.
  cbn [digits]. rewrite H1, H2. f_equal. lia.
Qed.

Lemma byte_of_eq b v : byte_val b = v -> byte_of v = b.
Proof. intros <-. apply byte_of_val. Qed.

Lemma parse_spells s i : spells any_hex s i -> parse_pairs s = Some i.
Proof.
  induction 1 as [|c1 c2 v1 v2 b s i H1 H2 Hb Hs IH]; [reflexivity|].
  cbn [parse_pairs]. rewrite (stoul16_pair c1 c2 v1 v2) by (apply any_hex_digit; auto).
  rewrite IH. rewrite <- Hb. fold (byte_val b). rewrite byte_of_val. reflexivity.
Qed.

Lemma hex_string_spells i : spells lower_hex (hex_string i) i.
Proof.
  induction i as [|b i IH]; [constructor|]. cbn [hex_string].
  pose proof (byte_val_bounds b) as B.
  assert (D : Z.shiftr (byte_val b) 4 = byte_val b / 16) by (rewrite Z.shiftr_div_pow2 by lia; reflexivity).
  assert (M : Z.land (byte_val b) 15 = byte_val b mod 16)
    by (change 15 with (Z.ones 4); rewrite Z.land_ones by lia; reflexivity).
  pose proof (Z.div_mod (byte_val b) 16 ltac:(lia)). pose proof (Z.mod_pos_bound (byte_val b) 16 ltac:(lia)).
  econstructor; [apply hex_char_lower; rewrite D; lia | apply hex_char_lower; rewrite M; lia | | exact IH].
  fold (byte_val b). rewrite D, M. lia.
Qed.

Lemma spells_weaken s i : spells lower_hex s i -> spells any_hex s i.
Proof. induction 1; econstructor; eauto; left; auto. Qed.

Lemma spells_lower_unique s i : spells lower_hex s i -> s = hex_string i.
Proof.
  induction 1 as [|c1 c2 v1 v2 b s i H1 H2 Hb Hs IH]; [reflexivity|]. cbn [hex_string].
  fold (byte_val b) in Hb.
  pose proof (proj1 H1). pose proof (proj1 H2).
  assert (D : Z.shiftr (byte_val b) 4 = v1).
  { rewrite Z.shiftr_div_pow2 by lia. change (2^4) with 16. rewrite Hb.
    replace (16 * v1 + v2) with (v2 + v1 * 16) by lia. rewrite Z_div_plus_full, Z.div_small by lia. lia. }
  assert (M : Z.land (byte_val b) 15 = v2).
  { change 15 with (Z.ones 4). rewrite Z.land_ones by lia. change (2^4) with 16. rewrite Hb.
    replace (16 * v1 + v2) with (v2 + v1 * 16) by lia. rewrite Z_mod_plus_full. apply Z.mod_small. lia. }
  rewrite D, M, <- IH. rewrite (lower_hex_char _ _ H1), (lower_hex_char _ _ H2). reflexivity.
Qed.

Lemma length_hex_string i : length (hex_string i) = (2 * length i)%nat.
Proof. induction i as [|b i IH]; [reflexivity|]. cbn [hex_string length]. rewrite IH. lia. Qed.

Lemma spells_length d s i : spells d s i -> length s = (2 * length i)%nat.
Proof. induction 1; simpl; lia. Qed.

Lemma from_hex_of_spells s i : is_id i -> spells any_hex s i -> from_hex_string s = Parsed i.
Proof.
  intros Hi Hs. unfold from_hex_string. rewrite (spells_length _ _ _ Hs), Hi.
  change (negb _) with false. cbv iota. rewrite (parse_spells _ _ Hs). reflexivity.
Qed.

Lemma parse_pairs_length n s i : length s = (2 * n)%nat -> parse_pairs s = Some i -> length i = n.
Proof.
  revert s i. induction n as [|n IH]; intros s i L.
  - destruct s; [|discriminate]. intros [= <-]. reflexivity.
  - destruct s as [|c1 [|c2 s]]; [discriminate|simpl in L; lia|]. cbn [parse_pairs].
    destruct (stoul16 _); [|discriminate]. destruct (parse_pairs s) eqn:E; [|discriminate].
    intros [= <-]. simpl. f_equal. apply (IH s); auto. simpl in L. lia.
Qed.

Lemma from_hex_is_id s i : from_hex_string s = Parsed i -> is_id i /\ length s = 32%nat.
Proof.
  unfold from_hex_string. destruct (Nat.eqb_spec (length s) 32); [|discriminate]. simpl negb. cbv iota.
  destruct (parse_pairs s) eqn:E; [|discriminate]. intros [= <-]. split; [|auto].
  apply (parse_pairs_length 16 s); auto.
Qed.

(** ** The two words *)
Lemma u64_bounds i : is_id i -> 0 <= u64_0 i < 2^64 /\ 0 <= u64_1 i < 2^64.
Proof.
  intros H. unfold u64_0, u64_1. pose proof (unle_bounds (firstn 8 i)) as A.
  pose proof (unle_bounds (skipn 8 i)) as B. unfold len in *.
  rewrite firstn_length, H in A. rewrite skipn_length, H in B. simpl Nat.min in A. simpl Nat.sub in B.
  change (256 ^ Z.of_nat 8) with (2^64) in *. lia.
Qed.

Lemma words_inj i j : is_id i -> is_id j -> u64_0 i = u64_0 j -> u64_1 i = u64_1 j -> i = j.
Proof.
  intros Hi Hj H0 H1. rewrite <- (firstn_skipn 8 i), <- (firstn_skipn 8 j). unfold u64_0, u64_1 in *.
  f_equal.
  - rewrite <- (le_unle (firstn 8 i)), <- (le_unle (firstn 8 j)), H0, !firstn_length, Hi, Hj. reflexivity.
  - rewrite <- (le_unle (skipn 8 i)), <- (le_unle (skipn 8 j)), H1, !skipn_length, Hi, Hj. reflexivity.
Qed.

Lemma from_uint64_id a b : is_id (from_uint64 a b).
Proof. unfold is_id, from_uint64. rewrite app_length, !length_le. reflexivity. Qed.

Lemma from_uint64_words a b : u64_0 (from_uint64 a b) = size_t a /\ u64_1 (from_uint64 a b) = size_t b.
Proof.
  unfold u64_0, u64_1, from_uint64. rewrite firstn_app, skipn_app, length_le.
  rewrite firstn_all2, skipn_all2 by (rewrite length_le; lia).
  rewrite Nat.sub_diag, firstn_O, skipn_O, app_nil_r. rewrite app_nil_l, !unle_le.
  split; reflexivity.
Qed.

Lemma words_roundtrip i : is_id i -> from_uint64 (fst (to_words i)) (snd (to_words i)) = i.
Proof.
  intros Hi. apply words_inj; [apply from_uint64_id|auto| |];
    simpl; rewrite ?(proj1 (from_uint64_words _ _)), ?(proj2 (from_uint64_words _ _));
    unfold size_t; apply Z.mod_small; apply u64_bounds; auto.
Qed.

Lemma id_eq_spec i j : is_id i -> is_id j -> id_eq i j = true <-> i = j.
Proof.
  intros Hi Hj. unfold id_eq. rewrite andb_true_iff, !Z.eqb_eq. split.
  - intros [H0 H1]. apply words_inj; auto.
  - intros ->. auto.
Qed.

Lemma id_lt_irrefl i : id_lt i i = false.
Proof. unfold id_lt. rewrite Z.eqb_refl. apply Z.ltb_irrefl. Qed.

Lemma id_lt_trans i j k : id_lt i j = true -> id_lt j k = true -> id_lt i k = true.
Proof.
  unfold id_lt. destruct (Z.eqb_spec (u64_0 i) (u64_0 j)), (Z.eqb_spec (u64_0 j) (u64_0 k)),
    (Z.eqb_spec (u64_0 i) (u64_0 k)); rewrite ?Z.ltb_lt; lia.
Qed.

Lemma id_lt_total i j : is_id i -> is_id j -> id_lt i j = true \/ i = j \/ id_lt j i = true.
Proof.
  intros Hi Hj. unfold id_lt.
  destruct (Z.eqb_spec (u64_0 i) (u64_0 j)) as [E|E].
  - rewrite <- E, Z.eqb_refl, !Z.ltb_lt.
    destruct (Z.lt_trichotomy (u64_1 i) (u64_1 j)) as [H|[H|H]]; auto.
    right; left. apply words_inj; auto.
  - destruct (Z.eqb_spec (u64_0 j) (u64_0 i)); [congruence|]. rewrite !Z.ltb_lt. lia.
Qed.

Lemma id_gt_lt i j : id_gt i j = id_lt j i.
Proof.
  unfold id_gt, id_lt. destruct (Z.eqb_spec (u64_0 i) (u64_0 j)), (Z.eqb_spec (u64_0 j) (u64_0 i));
    congruence || reflexivity.
Qed.

Lemma valid_spec i : is_id i -> is_valid i = true <-> i <> invalid_id.
Proof.
  intros Hi. unfold is_valid. rewrite orb_true_iff, !negb_true_iff, !Z.eqb_neq.
  assert (I0 : u64_0 invalid_id = 0) by reflexivity. assert (I1 : u64_1 invalid_id = 0) by reflexivity.
  split.
  - intros [H|H] ->; congruence.
  - intros H. destruct (Z.eq_dec (u64_0 i) 0); [|auto]. destruct (Z.eq_dec (u64_1 i) 0); [|auto].
    exfalso. apply H. apply words_inj; try congruence. reflexivity.
Qed.

(** ** Ids from integers *)
Lemma hex_char_val v : 0 <= v < 10 -> byte_val (hex_char v) = 48 + v.
Proof.
  intros H. assert (v = 0 \/ v = 1 \/ v = 2 \/ v = 3 \/ v = 4 \/ v = 5 \/ v = 6 \/ v = 7 \/ v = 8 \/ v = 9)
    as D by lia.
  repeat (destruct D as [D|D]; [subst v; reflexivity|]). subst v; reflexivity.
Qed.

Lemma length_decimal k n : length (decimal k n) = k.
Proof. revert n; induction k; intros; simpl; [|rewrite app_length, IHk; simpl; lia]; reflexivity. Qed.

Lemma decimal_value k n : 0 <= n < 10 ^ Z.of_nat k -> dec_value (decimal k n) = n.
Proof.
  unfold dec_value. revert n. induction k as [|k IH]; intros n H; [simpl in *; lia|].
  rewrite Nat2Z.inj_succ, Z.pow_succ_r in H by lia.
  cbn [decimal]. rewrite fold_left_app. cbn [fold_left].
  pose proof (Z.div_mod n 10 ltac:(lia)). pose proof (Z.mod_pos_bound n 10 ltac:(lia)).
  rewrite IH by (split; [apply Z.div_pos; lia | apply Z.div_lt_upper_bound; lia]).
  fold (byte_val (hex_char (n mod 10))). rewrite hex_char_val by lia. lia.
Qed.

Lemma decimal_dec k n : Forall is_dec (decimal k n).
Proof.
  revert n. induction k as [|k IH]; intros n; [constructor|]. cbn [decimal].
  apply Forall_app. split; [apply IH|]. constructor; [|constructor].
  pose proof (Z.mod_pos_bound n 10 ltac:(lia)).
  unfold is_dec. fold (byte_val (hex_char (n mod 10))). rewrite hex_char_val by lia. lia.
Qed.

Lemma is_dec_lower c : is_dec c -> exists v, lower_hex c v.
Proof.
  intros H. unfold is_dec in H. fold (byte_val c) in H. exists (byte_val c - 48).
  assert (E : c = hex_char (byte_val c - 48)).
  { rewrite <- (byte_of_val c) at 1. rewrite <- (byte_of_val (hex_char _)).
    rewrite hex_char_val by lia. f_equal. lia. }
  rewrite E at 1. apply hex_char_lower. lia.
Qed.

Lemma dec_spells n s : length s = (2 * n)%nat -> Forall is_dec s -> exists i, spells lower_hex s i.
Proof.
  revert s. induction n as [|n IH]; intros s L H.
  - destruct s; [|discriminate]. exists []. constructor.
  - destruct s as [|c1 [|c2 s]]; [discriminate|simpl in L; lia|].
    inversion H as [|? ? H1 H']; subst. inversion H' as [|? ? H2 H3]; subst.
    destruct (IH s ltac:(simpl in L; lia) H3) as [i Hi].
    destruct (is_dec_lower _ H1) as [v1 V1]. destruct (is_dec_lower _ H2) as [v2 V2].
    exists (byte_of (16 * v1 + v2) :: i).
    econstructor; eauto. fold (byte_val (byte_of (16 * v1 + v2))). rewrite byte_val_of.
    apply Z.mod_small. pose proof (proj1 V1). pose proof (proj1 V2). lia.
Qed.

Lemma id_from_int_ok n :
  exists i, id_from_int n = Parsed i /\ is_id i /\ hex_string i = decimal 32 n.
Proof.
  destruct (dec_spells 16 (decimal 32 n) (length_decimal 32 n) (decimal_dec 32 n)) as [i Hi].
  assert (Li : is_id i).
  { pose proof (spells_length _ _ _ Hi) as L. rewrite length_decimal in L. unfold is_id. lia. }
  exists i. repeat split; [|auto|symmetry; apply spells_lower_unique; auto].
  apply from_hex_of_spells; auto using spells_weaken.
Qed.

Lemma hex_invalid : hex_string invalid_id = decimal 32 0.
Proof. reflexivity. Qed.

Lemma hex_string_inj i j : hex_string i = hex_string j -> i = j.
Proof.
  intros E. pose proof (parse_spells _ _ (spells_weaken _ _ (hex_string_spells i))) as P.
  pose proof (parse_spells _ _ (spells_weaken _ _ (hex_string_spells j))) as Q. congruence.
Qed.

(** ** Generator *)
Definition counts (acts : list gen_act) : Z :=
  len (filter (fun a => match a with ACount _ => true | _ => false end) acts).

Lemma gen_run_words acts st st' out :
  gen_run st acts = Some (st', out) ->
  0 <= counter st -> counter st + counts acts < 2^64 ->
  map u64_1 out = map (fun k => counter st + 1 + Z.of_nat k) (seq 0 (length out)) /\
  Forall is_id out /\ counts acts = len out /\ counter st' = counter st + len out.
Proof.
  revert st out. induction acts as [|a acts IH]; intros st out; simpl.
  { intros [= <- <-] _ _. unfold counts, len. simpl. repeat split; auto; lia. }
  destruct (gen_step st a) as [[st1 o]|] eqn:Es; [|discriminate].
  destruct (gen_run st1 acts) as [[st2 o']|] eqn:Er; [|discriminate].
  intros [= <- <-] H0 HB.
  assert (Hc : 0 <= counts acts) by apply len_nonneg.
  destruct a as [t h0|t]; simpl in Es.
  - destruct (take_pending t (pending st)); [discriminate|]. injection Es as <- <-.
    change (counts (AClock t h0 :: acts)) with (counts acts) in *. simpl app.
    apply IH in Er; simpl; auto.
  - assert (Hcc : counts (ACount t :: acts) = 1 + counts acts).
    { unfold counts, len. simpl filter. simpl length. lia. }
    destruct (take_pending t (pending st)) as [[h0 p]|]; [|discriminate]. injection Es as <- <-.
    rewrite Hcc in *.
    assert (Ec : size_t (counter st + 1) = counter st + 1) by (unfold size_t; apply Z.mod_small; lia).
    rewrite Ec in *. apply IH in Er as (I1 & I2 & I3 & I4); cbn [counter] in *; try lia.
    simpl app. cbn [map length seq]. rewrite I1, (proj2 (from_uint64_words _ _)), Ec.
    repeat split.
    + f_equal; [lia|]. rewrite <- seq_shift, map_map. apply map_ext. intros k. lia.
    + constructor; [apply from_uint64_id | auto].
    + unfold len in *. simpl length. lia.
    + unfold len in *. simpl length. lia.
Qed.

Lemma gen_unique acts st' out :
  gen_run gen_init acts = Some (st', out) -> counts acts < 2^64 ->
  NoDup out /\ Forall is_id out /\ Forall (fun i => is_valid i = true) out.
Proof.
  intros H HB. apply gen_run_words in H as (H1 & H2 & _); simpl; try lia.
  simpl counter in H1.
  split; [|split; [exact H2|]].
  - apply (NoDup_map_inv u64_1). rewrite H1. apply Injective_map_NoDup; [|apply seq_NoDup].
    intros x y E. lia.
  - apply Forall_forall. intros i Hi. unfold is_valid.
    apply (in_map u64_1) in Hi. rewrite H1 in Hi. apply in_map_iff in Hi as (k & Ek & _).
    rewrite orb_true_iff, !negb_true_iff, !Z.eqb_neq. right. lia.
Qed.
