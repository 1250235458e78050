(** Property theorems C21-C23, C60, C61. *)
From Coq Require Import ZArith Bool List Strings.Byte Lia.
From Verif Require Import SerializationModel SerializationProofs HashIdModel HashIdSpec HashIdProofs.
Import ListNotations.
Open Scope Z_scope.

Definition ex_id : id := from_uint64 81985529216486895 18364758544493064720.
Example ex_id_text : is_id ex_id /\ hex_string ex_id =
  [x65;x66;x63;x64;x61;x62;x38;x39;x36;x37;x34;x35;x32;x33;x30;x31;
   x31;x30;x33;x32;x35;x34;x37;x36;x39;x38;x62;x61;x64;x63;x66;x65].
Proof. split; vm_compute; reflexivity. Qed.

(** ** C21: the text form consists of two lower-case digits per byte, is injective and is read back. *)
Theorem hx_roundtrip : forall i, is_id i ->
  spells lower_hex (hex_string i) i /\ length (hex_string i) = 32%nat /\
  from_hex_string (hex_string i) = Parsed i.
Proof.
  intros i Hi. split; [apply hex_string_spells|]. split.
  - rewrite length_hex_string, Hi. reflexivity.
  - apply from_hex_of_spells; auto using spells_weaken, hex_string_spells.
Qed.
Print Assumptions hx_roundtrip.
Theorem hx_injective : forall i j, hex_string i = hex_string j -> i = j.
Proof. exact hex_string_inj. Qed.
Print Assumptions hx_injective.
(** Upper and lower case are read; other lengths are rejected. *)
Theorem hx_parse : forall s,
  (forall i, is_id i -> spells any_hex s i -> from_hex_string s = Parsed i) /\
  (length s <> 32%nat -> from_hex_string s = Rejected) /\
  (forall i, from_hex_string s = Parsed i -> is_id i).
Proof.
  intros s. split; [|split].
  - intros i. apply from_hex_of_spells.
  - intros H. unfold from_hex_string. rewrite (proj2 (Nat.eqb_neq _ _) H). reflexivity.
  - intros i H. apply from_hex_is_id in H. tauto.
Qed.
Print Assumptions hx_parse.
Example hx_parse_ex :
  from_hex_string (x41 :: x66 :: repeat x30 30) = Parsed (xaf :: repeat x00 15) /\
  from_hex_string (repeat x30 31) = Rejected.
Proof. split; reflexivity. Qed.

(** ** C60: 32 characters that are not hexadecimal digits are not always refused: "0x" and "-1" and
    "1g" are taken for a byte. *)
Theorem hx_garbage_refuted : exists s i, from_hex_string s = Parsed i /\
  exists c, In c s /\ hex_digit c = None.
Proof.
  exists ([x30; x78; x2d; x31; x31; x67] ++ repeat x30 26), ([x00; xff; x01] ++ repeat x00 13).
  split; [reflexivity|]. exists x67. split; [simpl; auto 10 | reflexivity].
Qed.
Print Assumptions hx_garbage_refuted.
(** Exactly these texts are read: pairs with a digit, and only white space or a sign before it. *)
Lemma hex_digit_any c v : hex_digit c = Some v -> any_hex c v.
Proof. destruct c; intros H; vm_compute in H; try discriminate; injection H as <-; (left; split; [lia|reflexivity]) || (right; split; [lia|reflexivity]). Qed.
Lemma hex_digit_none c : hex_digit c = None <-> forall v, ~ any_hex c v.
Proof. split; [intros H v V; apply any_hex_digit in V; congruence|]. intros H. destruct (hex_digit c) eqn:E; [|reflexivity]. apply hex_digit_any in E. destruct (H _ E). Qed.
Lemma is_space_spec c : is_space c = true \/ (byte_val c =? 43) = true <-> In c [x20; x09; x0a; x0b; x0c; x0d; x2b].
Proof. destruct c; vm_compute; split; intros H; repeat destruct H as [H|H]; try discriminate; try contradiction; auto 10. Qed.
Lemma minus_spec c : (byte_val c =? 45) = true -> c = x2d.
Proof. destruct c; vm_compute; intros; try discriminate; reflexivity. Qed.
Lemma stoul_lenient c1 c2 v : lenient c1 c2 v -> exists w, stoul16 [c1; c2] = Some w /\ w mod 256 = v mod 256.
Proof.
  intros H. destruct H as [c1 c2 u v H1 H2|c1 c2 u H1 H2|c1 c2 v H1 H2|c2 v H].
  - eexists. split; [apply stoul16_pair; apply any_hex_digit; eassumption|reflexivity].
  - apply any_hex_digit in H1. apply hex_digit_none in H2. destruct (hex_digit_plain _ _ H1) as (P1 & P2 & P3).
    unfold stoul16, skip_space, take_sign. rewrite P1, P2, P3. cbn [skip_prefix]. rewrite H1. cbn [digits]. rewrite H1, H2. eexists. split; [reflexivity|]. reflexivity.
  - apply any_hex_digit in H2. destruct (hex_digit_plain _ _ H2) as (P1 & P2 & P3). unfold stoul16. cbn [skip_space].
    assert (E : exists r, take_sign (if is_space c1 then if is_space c2 then [] else [c2] else [c1; c2]) = (false, r) /\ r = [c2]).
    { rewrite P1. apply is_space_spec in H1. destruct (is_space c1) eqn:S; [cbn; rewrite P2, P3; eauto|]. destruct H1 as [?|H1]; [discriminate|]. cbn [take_sign]. apply Z.eqb_eq in H1. rewrite H1. cbn. eauto. }
    destruct E as (r & -> & ->). cbn [skip_prefix]. rewrite H2. cbn [digits]. rewrite H2. eexists. split; [reflexivity|]. reflexivity.
  - apply any_hex_digit in H. unfold stoul16. cbn [skip_space]. change (is_space x2d) with false. cbv iota. cbn [take_sign]. change (byte_val x2d =? 45) with true. cbv iota. cbn [skip_prefix]. rewrite H. cbn [digits]. rewrite H.
    eexists. split; [reflexivity|]. cbv iota. change 256 with (2 ^ 8). rewrite <- (Znumtheory.Zmod_div_mod (2 ^ 8) (2 ^ 64)); [f_equal; lia|lia|lia|]. exists (2 ^ 56). reflexivity.
Qed.
Lemma stoul_some c1 c2 w : stoul16 [c1; c2] = Some w -> exists v, lenient c1 c2 v.
Proof.
  intros H. destruct (hex_digit c1) as [u|] eqn:E1, (hex_digit c2) as [v|] eqn:E2.
  - eexists. eapply lenient_both; apply hex_digit_any; eassumption.
  - eexists. eapply lenient_first; [apply hex_digit_any; eassumption|]. apply hex_digit_none, E2.
  - destruct (is_space c1) eqn:S; [exists v; apply lenient_space; [apply is_space_spec; auto|apply hex_digit_any, E2]|].
    destruct (byte_val c1 =? 43) eqn:P; [exists v; apply lenient_space; [apply is_space_spec; auto|apply hex_digit_any, E2]|].
    destruct (byte_val c1 =? 45) eqn:M; [rewrite (minus_spec _ M); exists (- v); apply lenient_minus, hex_digit_any, E2|].
    unfold stoul16 in H. cbn [skip_space] in H. rewrite S in H. cbn [take_sign] in H. rewrite M, P in H. cbn [skip_prefix] in H. rewrite E1 in H. discriminate.
  - exfalso. unfold stoul16 in H. cbn [skip_space] in H.
    destruct (is_space c1); [destruct (is_space c2)|]; cbn [take_sign] in H; repeat (destruct (byte_val _ =? _) in H); cbn [skip_prefix] in H; rewrite ?E1, ?E2 in H; discriminate.
Qed.
Theorem hx_accepts s i : from_hex_string s = Parsed i <-> length s = 32%nat /\ lenient_text s i.
Proof.
  assert (P : forall n s i, length s = (2 * n)%nat -> parse_pairs s = Some i <-> lenient_text s i).
  { clear. induction n as [|n IH]; intros s i L; [destruct s; [|discriminate]; cbn; split; [intros H; injection H as <-; constructor|intros H; inversion H; reflexivity]|].
    destruct s as [|c1 [|c2 s]]; [discriminate|simpl in L; lia|]. cbn [parse_pairs]. split.
    - destruct (stoul16 [c1; c2]) as [w|] eqn:E; [|discriminate]. destruct (parse_pairs s) as [j|] eqn:Ej; [|discriminate]. intros H. injection H as <-. destruct (stoul_some _ _ _ E) as [v V].
      destruct (stoul_lenient _ _ _ V) as (w' & E' & M). rewrite E in E'. injection E' as <-. apply (lenient_cons c1 c2 v); [exact V| |apply IH; [simpl in L; lia|exact Ej]]. fold (byte_val (byte_of w)). rewrite byte_val_of. exact M.
    - intros H. inversion H as [|? ? v b ? j V B T]; subst. destruct (stoul_lenient _ _ _ V) as (w & E & M). rewrite E. apply IH in T; [|simpl in L; lia]. rewrite T. do 2 f_equal.
      rewrite <- (byte_of_val (byte_of w)), byte_val_of, M, <- B. apply byte_of_val. }
  unfold from_hex_string. destruct (Nat.eqb_spec (length s) 32) as [L|N]; cbn [negb].
  - rewrite <- (P 16%nat s i L). destruct (parse_pairs s); split; try discriminate; [intros H; injection H as <-; auto|intros [_ H]; injection H as <-; reflexivity|intros [_ H]; discriminate].
  - split; [discriminate|intros [? _]; contradiction].
Qed.
Print Assumptions hx_accepts.
(** If neither character of some pair is a digit the parse throws. *)
Lemma stoul_none c1 c2 : hex_digit c1 = None -> hex_digit c2 = None -> stoul16 [c1; c2] = None.
Proof.
  intros H1 H2. unfold stoul16. cbn [skip_space].
  destruct (is_space c1); [destruct (is_space c2)|]; cbn [take_sign];
    repeat (destruct (byte_val _ =? _)); cbn [skip_prefix]; rewrite ?H1, ?H2; reflexivity.
Qed.
Theorem hx_garbage_partial : forall pre c1 c2 post,
  Nat.Even (length pre) -> length (pre ++ c1 :: c2 :: post) = 32%nat ->
  hex_digit c1 = None -> hex_digit c2 = None ->
  from_hex_string (pre ++ c1 :: c2 :: post) = Thrown.
Proof.
  intros pre c1 c2 post [k Hk] L H1 H2. unfold from_hex_string. rewrite L. simpl negb. cbv iota.
  assert (E : parse_pairs (pre ++ c1 :: c2 :: post) = None); [|rewrite E; reflexivity].
  clear L. revert pre Hk. induction k as [|k IH]; intros pre Hk.
  - destruct pre; [|discriminate]. simpl app. cbn [parse_pairs]. rewrite stoul_none; auto.
  - destruct pre as [|a [|b pre]]; [discriminate|simpl in Hk; lia|]. simpl app. cbn [parse_pairs].
    rewrite IH by (simpl in Hk; lia). destruct (stoul16 [a; b]); reflexivity.
Qed.
Print Assumptions hx_garbage_partial.
Example hx_garbage_ex : hex_digit x67 = None /\ from_hex_string (repeat x67 32) = Thrown.
Proof. split; reflexivity. Qed.

(** ** C22 *)
Theorem hx_from_int : forall n m, 0 <= n < 2^32 -> 0 <= m < 2^32 ->
  exists i j, id_from_int n = Parsed i /\ id_from_int m = Parsed j /\
    (i = j <-> n = m) /\ (is_valid i = true <-> n <> 0) /\
    dec_value (hex_string i) = n.
Proof.
  intros n m Hn Hm.
  destruct (id_from_int_ok n) as (i & Ei & Li & Hi). destruct (id_from_int_ok m) as (j & Ej & Lj & Hj).
  assert (Vn : dec_value (decimal 32 n) = n) by (apply decimal_value; simpl Z.of_nat; lia).
  assert (Vm : dec_value (decimal 32 m) = m) by (apply decimal_value; simpl Z.of_nat; lia).
  exists i, j. split; [exact Ei|]. split; [exact Ej|]. split; [|split].
  - split; [intros ->; congruence|]. intros ->. apply hex_string_inj. congruence.
  - rewrite valid_spec by auto. split; intros H E; apply H.
    + subst n. apply hex_string_inj. rewrite Hi. symmetry. apply hex_invalid.
    + subst i. rewrite hex_invalid in Hi. rewrite <- Vn, <- Hi. reflexivity.
  - rewrite Hi. exact Vn.
Qed.
Print Assumptions hx_from_int.
Example hx_from_int_ex : id_from_int 4294967295 =
  Parsed [x00;x00;x00;x00;x00;x00;x00;x00;x00;x00;x00;x42;x94;x96;x72;x95].
Proof. vm_compute. reflexivity. Qed.

(** ** C23: any number of threads, any clock values and seeds. *)
Theorem hx_generated_unique : forall acts st out,
  gen_run gen_init acts = Some (st, out) ->
  Z.of_nat (length (filter (fun a => match a with ACount _ => true | _ => false end) acts)) < 2^64 ->
  NoDup out /\ Forall is_id out /\ Forall (fun i => is_valid i = true) out.
Proof. exact gen_unique. Qed.
Print Assumptions hx_generated_unique.
(** Two threads, same clock reading. *)
Example hx_generated_ex : exists st out,
  gen_run gen_init [AClock 0 77; AClock 1 77; ACount 1; AClock 1 77; ACount 0; ACount 1] = Some (st, out)
  /\ length out = 3%nat.
Proof. eexists. eexists. split; [reflexivity|reflexivity]. Qed.

(** ** C61: ids can be used as keys: == is equality, < a strict total order, > its converse, hash
    compatible with ==, and the two-word form is faithful. *)
Theorem hx_order : forall i j k, is_id i -> is_id j -> is_id k ->
  (id_eq i j = true <-> i = j) /\
  id_lt i i = false /\
  (id_lt i j = true -> id_lt j k = true -> id_lt i k = true) /\
  (id_lt i j = true \/ i = j \/ id_lt j i = true) /\
  id_gt i j = id_lt j i /\
  (id_eq i j = true -> hash_to_size_t i = hash_to_size_t j) /\
  (is_valid i = true <-> i <> invalid_id).
Proof.
  intros i j k Hi Hj Hk. split; [apply id_eq_spec; auto|]. split; [apply id_lt_irrefl|].
  split; [apply id_lt_trans|]. split; [apply id_lt_total; auto|]. split; [apply id_gt_lt|].
  split; [|apply valid_spec; auto]. intros E. apply id_eq_spec in E; auto. congruence.
Qed.
Print Assumptions hx_order.
Theorem hx_words : forall i a b, is_id i ->
  from_uint64 (fst (to_words i)) (snd (to_words i)) = i /\
  (0 <= a < 2^64 -> 0 <= b < 2^64 -> to_words (from_uint64 a b) = (a, b)).
Proof.
  intros i a b Hi. split; [apply words_roundtrip; auto|]. intros Ha Hb. unfold to_words.
  rewrite (proj1 (from_uint64_words a b)), (proj2 (from_uint64_words a b)). unfold size_t.
  rewrite !Z.mod_small by lia. reflexivity.
Qed.
Print Assumptions hx_words.
Example hx_order_ex : is_id ex_id /\ is_id invalid_id /\ id_lt invalid_id ex_id = true /\
  is_valid ex_id = true.
Proof. repeat split; vm_compute; reflexivity. Qed.
