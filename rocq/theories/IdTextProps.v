(** Proofs about the texts of ids. *)
From Coq Require Import ZArith List Strings.Byte Lia Bool FinFun Znumtheory.
From Verif Require Import SerializationModel SerializationSpec SerializationProofs HashIdModel HashIdSpec HashIdProofs HashIdProps IdTextModel IdTextSpec.
Import ListNotations.
Open Scope Z_scope.

Lemma hex_string_app a b : hex_string (a ++ b) = hex_string a ++ hex_string b.
Proof. induction a as [|c a IH]; [reflexivity|]. cbn [hex_string app]. rewrite IH. reflexivity. Qed.
Lemma id_parts i : is_id i -> exists a b c d m, i = [a; b] ++ m ++ [c; d] /\ length m = 12%nat.
Proof.
  intros L. unfold is_id in L. do 16 (destruct i as [|? i]; [discriminate|]). destruct i; [|discriminate].
  eexists _, _, _, _, [_; _; _; _; _; _; _; _; _; _; _; _]. split; reflexivity.
Qed.
Lemma print_parts a b c d m : length m = 12%nat -> print_string ([a; b] ++ m ++ [c; d]) = hex_string [a; b] ++ [x2e; x2e] ++ hex_string [c; d].
Proof. intros L. do 12 (destruct m as [|? m]; [discriminate|]). destruct m; [|discriminate]. reflexivity. Qed.
Lemma ends_parts a b c d m : length m = 12%nat -> ends ([a; b] ++ m ++ [c; d]) = ([a; b], [c; d]).
Proof. intros L. do 12 (destruct m as [|? m]; [discriminate|]). destruct m; [|discriminate]. reflexivity. Qed.
(** The text has ten characters and tells the first two and the last two bytes, and nothing else. *)
Theorem itx_text i j : is_id i -> is_id j -> length (print_string i) = 10%nat /\ print_string i = hex_string (fst (ends i)) ++ [x2e; x2e] ++ hex_string (snd (ends i)) /\ (print_string i = print_string j <-> ends i = ends j).
Proof.
  intros I J. destruct (id_parts i I) as (a & b & c & d & m & -> & L). destruct (id_parts j J) as (a' & b' & c' & d' & m' & -> & L'). rewrite !print_parts, !ends_parts by assumption. cbn [fst snd]. split; [reflexivity|]. split; [reflexivity|]. split; [|intros [= -> -> -> ->]; reflexivity].
  intros E. assert (H : hex_string [a; b] = hex_string [a'; b'] /\ hex_string [c; d] = hex_string [c'; d']) by (cbn [hex_string app] in *; injection E; intros; split; congruence). destruct H as [H1 H2]. apply hx_injective in H1, H2. congruence.
Qed.
(** The short tag tells the first two bytes. *)
Theorem itx_short i j : is_id i -> is_id j -> length (short_hex i) = 4%nat /\ (short_hex i = short_hex j <-> firstn 2 i = firstn 2 j).
Proof.
  intros I J. destruct (id_parts i I) as (a & b & c & d & m & -> & L). destruct (id_parts j J) as (a' & b' & c' & d' & m' & -> & L'). unfold short_hex, substr. cbn [skipn]. rewrite !hex_string_app. split; [reflexivity|]. cbn [app firstn hex_string].
  split; [|intros [= -> ->]; reflexivity]. intros E. enough (H : [a; b] = [a'; b']) by exact H. apply hx_injective. exact E.
Qed.
(** Ids made from numbers print the same exactly if their numbers have the same last four digits; their short tags are all the same. *)
Lemma decimal_tail k n : decimal (S (S (S (S k)))) n = decimal k (n / 10000) ++ decimal 4 (n mod 10000).
Proof.
  cbn [decimal]. rewrite <- !app_assoc. cbn [app]. rewrite !Z.div_div by lia. change (10 * 10) with 100. change (10 * 100) with 1000. change (10 * (10 * 10)) with 1000. change (10 * 1000) with 10000.
  assert (D : forall k, 0 < k -> (k | 1000) -> (n mod 10000) / k mod 10 = n / k mod 10).
  { intros q Q [r R]. pose proof (Z.div_mod n 10000 ltac:(lia)) as M. set (e := n / 10000) in *. set (f := n mod 10000) in *. assert (N : n = f + (e * r * 10) * q) by (rewrite M; replace (e * r * 10 * q) with (10 * e * (r * q)) by ring; rewrite <- R; ring). rewrite N, Z.div_add by lia. rewrite Z.mod_add by lia. reflexivity. }
  pose proof (D 1 ltac:(lia) ltac:(exists 1000; lia)) as D1. rewrite !Z.div_1_r in D1. rewrite D1, (D 10 ltac:(lia) ltac:(exists 100; lia)), (D 100 ltac:(lia) ltac:(exists 10; lia)), (D 1000 ltac:(lia) ltac:(exists 1; lia)). reflexivity.
Qed.
Lemma decimal_split a k n : decimal (a + k) n = decimal a (n / 10 ^ Z.of_nat k) ++ decimal k n.
Proof.
  revert n. induction k as [|k IH]; intros n; [rewrite Z.div_1_r, app_nil_r, Nat.add_0_r; reflexivity|]. replace (a + S k)%nat with (S (a + k)) by lia. cbn [decimal]. rewrite IH. rewrite Z.div_div by lia. replace (10 * 10 ^ Z.of_nat k) with (10 ^ Z.of_nat (S k)) by (rewrite Nat2Z.inj_succ, Z.pow_succ_r by lia; reflexivity). rewrite app_assoc. reflexivity.
Qed.
Lemma decimal_head k n : decimal (4 + k) n = decimal 4 (n / 10 ^ Z.of_nat k) ++ decimal k n.
Proof. apply decimal_split. Qed.
Lemma print_hex i : is_id i -> print_string i = firstn 4 (hex_string i) ++ [x2e; x2e] ++ skipn 28 (hex_string i).
Proof. intros I. unfold is_id in I. do 16 (destruct i as [|? i]; [discriminate|]). destruct i; [|discriminate]. reflexivity. Qed.
Lemma print_int n i : 0 <= n < 2 ^ 32 -> id_from_int n = Parsed i -> print_string i = [x30; x30; x30; x30; x2e; x2e] ++ decimal 4 (n mod 10000) /\ short_hex i = [x30; x30; x30; x30].
Proof.
  intros N E. destruct (id_from_int_ok n) as (i' & Ei & Li & Hi). assert (i' = i) as -> by congruence.
  assert (H4 : firstn 4 (hex_string i) = [x30; x30; x30; x30]).
  { rewrite Hi. change 32%nat with (4 + 28)%nat at 1. rewrite decimal_head. rewrite (Z.div_small n (10 ^ Z.of_nat 28)) by (change (10 ^ Z.of_nat 28) with 10000000000000000000000000000; lia). reflexivity. }
  split; [|exact H4]. rewrite print_hex by exact Li. rewrite H4, Hi. change 32%nat with (S (S (S (S 28)))) at 1. rewrite decimal_tail. rewrite skipn_app, skipn_all2 by (rewrite length_decimal; lia). rewrite length_decimal, Nat.sub_diag. reflexivity.
Qed.
Theorem itx_int n m i j : 0 <= n < 2 ^ 32 -> 0 <= m < 2 ^ 32 -> id_from_int n = Parsed i -> id_from_int m = Parsed j -> (print_string i = print_string j <-> n mod 10000 = m mod 10000) /\ short_hex i = short_hex j.
Proof.
  intros N M I J. destruct (print_int n i N I) as [-> ->]. destruct (print_int m j M J) as [-> ->]. split; [|reflexivity]. split; [|intros ->; reflexivity].
  intros E. apply app_inv_head in E. rewrite <- (decimal_value 4 (n mod 10000)), <- (decimal_value 4 (m mod 10000)), E by (change (10 ^ Z.of_nat 4) with 10000; apply Z.mod_pos_bound; lia). reflexivity.
Qed.
(** So different valid ids print the same. *)
Theorem itx_unique_refuted n : 0 < n -> n + 10000 < 2 ^ 32 -> exists i j, id_from_int n = Parsed i /\ id_from_int (n + 10000) = Parsed j /\ i <> j /\ is_valid i = true /\ is_valid j = true /\ print_string i = print_string j.
Proof.
  intros N M. destruct (hx_from_int n (n + 10000) ltac:(lia) ltac:(lia)) as (i & j & I & J & D & V & _). destruct (hx_from_int (n + 10000) n ltac:(lia) ltac:(lia)) as (j' & i' & J' & I' & _ & V' & _). assert (j' = j) as -> by congruence.
  exists i, j. split; [exact I|]. split; [exact J|]. split; [intros E; apply D in E; lia|]. split; [apply V; lia|]. split; [apply V'; lia|]. apply (itx_int n (n + 10000) i j ltac:(lia) ltac:(lia) I J). rewrite <- (Z.mod_add n 1 10000) by lia. reflexivity.
Qed.

(** ** Generated ids *)
Fixpoint counts (acts : list gen_act) : nat := match acts with [] => O | ACount _ :: l => S (counts l) | AClock _ _ :: l => counts l end.
Lemma le_top k n : 0 <= n < 256 ^ Z.of_nat k -> forall r, le (k + r) n = le k n ++ repeat x00 r.
Proof.
  revert n. induction k as [|k IH]; intros n N r.
  - assert (n = 0) as -> by (cbn in N; lia). cbn [Nat.add le app]. induction r as [|r IHr]; [reflexivity|]. cbn [le repeat]. rewrite Z.div_0_l by lia. rewrite IHr. reflexivity.
  - cbn [Nat.add le app]. rewrite IH; [reflexivity|]. rewrite Nat2Z.inj_succ, Z.pow_succ_r in N by lia. split; [apply Z.div_pos; lia|apply Z.div_lt_upper_bound; lia].
Qed.
Lemma gen_print a b : 0 <= b < 2 ^ 48 -> skipn 14 (from_uint64 a b) = [x00; x00].
Proof.
  intros B. unfold from_uint64. rewrite skipn_app, skipn_all2 by (rewrite length_le; lia). rewrite length_le. change (14 - 8)%nat with 6%nat. change 8%nat with (6 + 2)%nat. rewrite le_top by (change (256 ^ Z.of_nat 6) with (2 ^ 48); lia). rewrite skipn_app, skipn_all2 by (rewrite length_le; lia). rewrite length_le. reflexivity.
Qed.
Lemma gen_run_print acts : forall st st' out, 0 <= counter st -> counter st + Z.of_nat (counts acts) < 2 ^ 48 -> gen_run st acts = Some (st', out) -> Forall (fun i => skipn 14 i = [x00; x00]) out.
Proof.
  induction acts as [|a acts IH]; intros st st' out C B E; cbn [gen_run] in E; [injection E as _ <-; constructor|].
  destruct (gen_step st a) as [[s o]|] eqn:G; [|discriminate]. destruct (gen_run s acts) as [[s' o']|] eqn:R; [|discriminate]. injection E as _ <-. destruct a as [t h0|t]; cbn [gen_step counts] in *.
  - destruct (take_pending t (pending st)); [discriminate|]. injection G as <- <-. apply (IH _ _ _) in R; [exact R|exact C|cbn [counter]; lia].
  - destruct (take_pending t (pending st)) as [[h0 p]|]; [|discriminate]. injection G as <- <-. assert (size_t (counter st + 1) = counter st + 1) as S by (unfold size_t; apply Z.mod_small; lia). rewrite S in *. cbn [app]. constructor; [apply gen_print; lia|]. apply (IH _ _ _) in R; [exact R|cbn [counter]; lia|cbn [counter]; lia].
Qed.
(** All texts of the first 2^48 generated ids of a process end alike: they tell 16 bits. *)
Theorem itx_generated acts st out : Z.of_nat (counts acts) < 2 ^ 48 -> gen_run gen_init acts = Some (st, out) ->
  Forall is_id out /\ forall i j, In i out -> In j out -> (print_string i = print_string j <-> short_hex i = short_hex j).
Proof.
  intros B E. pose proof (gen_run_print acts gen_init st out ltac:(cbn; lia) ltac:(cbn [counter gen_init]; lia) E) as F.
  assert (I : Forall is_id out). { apply (hx_generated_unique acts st out E). assert (L : forall l, length (filter (fun a => match a with ACount _ => true | _ => false end) l) = counts l) by (induction l as [|[] l IH]; cbn; congruence). rewrite L. lia. }
  split; [exact I|]. rewrite Forall_forall in F, I. intros i j Hi Hj. rewrite (proj2 (proj2 (itx_text i j (I i Hi) (I j Hj)))), (proj2 (itx_short i j (I i Hi) (I j Hj))). unfold ends. rewrite (F i Hi), (F j Hj). split; [intros [= H]; exact H|intros ->; reflexivity].
Qed.
Lemma in_short a b c d m : length m = 12%nat -> In (hex_string [a; b]) (map (fun n => hex_string [byte_of (Z.of_nat n / 256); byte_of (Z.of_nat n mod 256)]) (seq 0 (Z.to_nat 65536))) /\ short_hex ([a; b] ++ m ++ [c; d]) = hex_string [a; b].
Proof.
  intros L. split; [|unfold short_hex; rewrite hex_string_app; reflexivity]. pose proof (byte_val_bounds a). pose proof (byte_val_bounds b).
  apply in_map_iff. exists (Z.to_nat (byte_val a * 256 + byte_val b)). split; [|apply in_seq; lia]. rewrite Z2Nat.id by lia. rewrite Z.div_add_l by lia. rewrite (Z.div_small (byte_val b)) by lia. rewrite Z.add_0_r, (Z.add_comm _ (byte_val b)), Z.mod_add, Z.mod_small by lia. rewrite !byte_of_val. reflexivity.
Qed.
(** Among more than 65536 generated ids there are two that print the same. *)
Theorem itx_generated_refuted acts st out : Z.of_nat (counts acts) < 2 ^ 48 -> gen_run gen_init acts = Some (st, out) -> 65536 < Z.of_nat (length out) -> NoDup out /\ ~ NoDup (map print_string out).
Proof.
  intros B E L. assert (N : NoDup out). { apply (hx_generated_unique acts st out E). assert (C : forall l, length (filter (fun a => match a with ACount _ => true | _ => false end) l) = counts l) by (induction l as [|[] l IH]; cbn; congruence). rewrite C. lia. }
  split; [exact N|]. destruct (itx_generated acts st out B E) as [I T]. intros D.
  assert (D' : NoDup (map short_hex out)).
  { clear L E N. rewrite Forall_forall in I. induction out as [|i out IH]; [constructor|]. cbn [map] in *. inversion D as [|x l H1 H2]; subst. constructor; [|apply IH; auto; [intros; apply I; right; assumption|intros; apply T; right; assumption]].
    intros H. apply H1. apply in_map_iff in H as (j & Ej & Hj). apply in_map_iff. exists j. split; [|exact Hj]. apply T; [right; exact Hj|left; reflexivity|exact Ej]. }
  apply (NoDup_incl_length (l' := map (fun n => hex_string [byte_of (Z.of_nat n / 256); byte_of (Z.of_nat n mod 256)]) (seq 0 (Z.to_nat 65536)))) in D'.
  - rewrite !map_length, seq_length in D'. lia.
  - intros t Ht. apply in_map_iff in Ht as (i & <- & Hi). rewrite Forall_forall in I. destruct (id_parts i (I i Hi)) as (a & b & c & d & m & -> & Lm). destruct (in_short a b c d m Lm) as [H ->]. exact H.
Qed.

(** ** Containers *)
Lemma print_container_eq text l : print_container text l = [x5b; x20] ++ flat_map (fun i => text i ++ [x20]) l ++ [x5d].
Proof.
  unfold print_container. rewrite app_assoc. f_equal. generalize [x5b; x20]. induction l as [|i l IH]; intros s; cbn [fold_left flat_map]; [rewrite app_nil_r; reflexivity|]. rewrite IH, <- app_assoc. reflexivity.
Qed.
Lemma words_text a : ~ In x20 a -> forall t cur, words (a ++ x20 :: t) cur = (rev cur ++ a) :: words t [].
Proof.
  induction a as [|c a IH]; intros N t cur; [cbn; rewrite app_nil_r; reflexivity|]. assert (C : c <> x20) by (intros ->; apply N; left; reflexivity).
  replace (words ((c :: a) ++ x20 :: t) cur) with (words (a ++ x20 :: t) (c :: cur)) by (destruct c; (reflexivity || contradiction)). rewrite IH by (intros H; apply N; right; exact H). cbn [rev]. rewrite <- app_assoc. reflexivity.
Qed.
Lemma read_container text l : (forall i, In i l -> ~ In x20 (text i)) -> read_list (print_container text l) = map text l.
Proof.
  intros N. rewrite print_container_eq. cbn [app read_list]. induction l as [|i l IH]; [reflexivity|]. cbn [flat_map map]. rewrite <- !app_assoc. cbn [app]. rewrite words_text by (apply N; left; reflexivity). cbn [rev app]. f_equal. apply IH. intros; apply N; right; assumption.
Qed.
Lemma hex_char_visible v : hex_char v <> x20.
Proof. unfold hex_char. generalize (Z.to_nat v). intros n. do 17 (destruct n as [|n]; [discriminate|]). destruct n; discriminate. Qed.
Lemma hex_no_space i : ~ In x20 (hex_string i).
Proof. induction i as [|c i IH]; cbn [hex_string]; [intros []|]. intros [H|[H|H]]; [eapply hex_char_visible, H|eapply hex_char_visible, H|apply IH, H]. Qed.
Lemma firstn_incl {A} n (l : list A) x : In x (firstn n l) -> In x l.
Proof. intros H. rewrite <- (firstn_skipn n l). apply in_or_app. left. exact H. Qed.
Lemma skipn_incl {A} n (l : list A) x : In x (skipn n l) -> In x l.
Proof. intros H. rewrite <- (firstn_skipn n l). apply in_or_app. right. exact H. Qed.
Lemma print_no_space i : ~ In x20 (print_string i).
Proof.
  unfold print_string, substr. cbv zeta. intros H. apply in_app_or in H as [H|H]; [apply firstn_incl in H; exact (hex_no_space i H)|]. apply in_app_or in H as [[H|[H|[]]]|H]; [discriminate|discriminate|]. apply firstn_incl, skipn_incl in H. exact (hex_no_space i H).
Qed.
(** The text of a container can be read back: the texts of its elements in their order. That of plain HashIds tells the ids. *)
Theorem itx_container l : read_list (print_container print_string l) = map print_string l /\ read_list (print_container hex_string l) = map hex_string l /\
  forall l', print_container hex_string l = print_container hex_string l' -> l = l'.
Proof.
  assert (R : forall l, read_list (print_container hex_string l) = map hex_string l) by (intros; apply read_container; intros; apply hex_no_space).
  split; [apply read_container; intros; apply print_no_space|]. split; [apply R|]. intros l' E. assert (M : map hex_string l = map hex_string l') by (rewrite <- !R, E; reflexivity). clear E. revert l' M. induction l as [|i l IH]; intros [|j l'] M; try discriminate; [reflexivity|]. cbn [map] in M. injection M as M1 M2. apply hx_injective in M1. subst j. f_equal. apply IH, M2.
Qed.

(** ** Hashes *)
Definition inverse_prime : Z := 14886173955864302971.
Lemma times_prime a b : 0 <= a < 2 ^ 64 -> 0 <= b < 2 ^ 64 -> size_t (a * 1099511628211) = size_t (b * 1099511628211) -> a = b.
Proof.
  intros A B E. assert (X : forall x, 0 <= x < 2 ^ 64 -> (size_t (x * 1099511628211) * inverse_prime) mod 2 ^ 64 = x).
  { intros x R. unfold size_t. rewrite Z.mul_mod_idemp_l by lia. rewrite <- Z.mul_assoc, Z.mul_mod by lia. replace ((1099511628211 * inverse_prime) mod 2 ^ 64) with 1 by reflexivity. rewrite Z.mul_1_r, Z.mod_mod by lia. apply Z.mod_small, R. }
  rewrite <- (X a A), <- (X b B), E. reflexivity.
Qed.
Lemma lxor_bound a b : 0 <= a < 2 ^ 64 -> 0 <= b < 2 ^ 64 -> 0 <= Z.lxor a b < 2 ^ 64.
Proof.
  intros A B. assert (0 <= Z.lxor a b) as N by (apply Z.lxor_nonneg; lia). split; [exact N|]. destruct (Z.eq_dec (Z.lxor a b) 0) as [->|D]; [lia|]. apply Z.log2_lt_pow2; [lia|]. eapply Z.le_lt_trans; [apply Z.log2_lxor; lia|].
  assert (L : forall x, 0 <= x < 2 ^ 64 -> Z.log2 x < 64) by (intros x X; destruct (Z.eq_dec x 0) as [->|]; [reflexivity|apply Z.log2_lt_pow2; lia]). apply Z.max_lub_lt; apply L; assumption.
Qed.
Lemma lxor_cancel a b c : Z.lxor a b = Z.lxor a c -> b = c.
Proof. intros E. assert (H : Z.lxor a (Z.lxor a b) = Z.lxor a (Z.lxor a c)) by congruence. rewrite <- !Z.lxor_assoc, !Z.lxor_nilpotent, !Z.lxor_0_l in H. exact H. Qed.
Lemma word_bounds i : is_id i -> 0 <= u64_0 i < 2 ^ 64 /\ 0 <= u64_1 i < 2 ^ 64.
Proof.
  intros I. unfold u64_0, u64_1, is_id in *. split; [pose proof (unle_bounds (firstn 8 i)) as B|pose proof (unle_bounds (skipn 8 i)) as B]; unfold len in B; rewrite ?firstn_length, ?skipn_length, I in B; exact B.
Qed.
Lemma words_eq i j : is_id i -> is_id j -> u64_0 i = u64_0 j -> u64_1 i = u64_1 j -> i = j.
Proof. intros I J A B. apply (hx_order i j i I J I). unfold id_eq. rewrite A, B, !Z.eqb_refl. reflexivity. Qed.
(** Different ids that agree in one of their words have different hashes of both kinds. *)
Theorem itx_hash i j : is_id i -> is_id j -> i <> j -> u64_0 i = u64_0 j \/ u64_1 i = u64_1 j -> hash_to_size_t i <> hash_to_size_t j /\ hash_fast i <> hash_fast j.
Proof.
  intros I J D W. destruct (word_bounds i I) as [I0 I1]. destruct (word_bounds j J) as [J0 J1]. assert (T : forall x, 0 <= size_t x < 2 ^ 64) by (intros; unfold size_t; apply Z.mod_pos_bound; lia).
  split; intros H; apply D.
  - unfold hash_to_size_t in H. apply times_prime in H; [|apply lxor_bound; [apply T|assumption]|apply lxor_bound; [apply T|assumption]]. destruct W as [W|W].
    + rewrite W in H. apply lxor_cancel in H. apply words_eq; assumption.
    + rewrite W, !(Z.lxor_comm _ (u64_1 j)) in H. apply lxor_cancel in H. apply times_prime in H; [|apply lxor_bound; [lia|assumption]|apply lxor_bound; [lia|assumption]]. apply lxor_cancel in H. apply words_eq; assumption.
  - unfold hash_fast in H. rewrite !Z.lxor_assoc in H. apply lxor_cancel in H. destruct W as [W|W].
    + rewrite W in H. apply lxor_cancel in H. apply words_eq; assumption.
    + rewrite W, !(Z.lxor_comm _ (u64_1 j)) in H. apply lxor_cancel in H. apply words_eq; assumption.
Qed.
Lemma app_head {A} (a : list A) : forall b c d, length a = length b -> a ++ c = b ++ d -> a = b.
Proof. induction a as [|x a IH]; intros [|y b] c d L E; try discriminate; [reflexivity|]. cbn in L, E. injection E as -> E. f_equal. apply (IH b c d); [lia|exact E]. Qed.
Lemma int_word n i : 0 <= n < 2 ^ 32 -> id_from_int n = Parsed i -> is_id i /\ u64_0 i = 0.
Proof.
  intros N E. destruct (id_from_int_ok n) as (i' & Ei & Li & Hi). assert (i' = i) as -> by congruence. split; [exact Li|].
  enough (F : firstn 8 i = repeat x00 8) by (unfold u64_0; rewrite F; reflexivity). apply hx_injective.
  assert (H : hex_string (firstn 8 i) ++ hex_string (skipn 8 i) = hex_string (repeat x00 8) ++ decimal 16 n).
  { rewrite <- hex_string_app, firstn_skipn, Hi. change 32%nat with (16 + 16)%nat. rewrite decimal_split. rewrite (Z.div_small n (10 ^ Z.of_nat 16)) by (change (10 ^ Z.of_nat 16) with 10000000000000000; lia). reflexivity. }
  eapply app_head; [|exact H]. rewrite !length_hex_string, firstn_length, Li. reflexivity.
Qed.
(** So the hashes of ids made from different numbers differ. *)
Theorem itx_int_hash n m i j : 0 <= n < 2 ^ 32 -> 0 <= m < 2 ^ 32 -> n <> m -> id_from_int n = Parsed i -> id_from_int m = Parsed j -> hash_to_size_t i <> hash_to_size_t j /\ hash_fast i <> hash_fast j.
Proof.
  intros N M D I J. destruct (int_word n i N I) as [Ii Zi]. destruct (int_word m j M J) as [Ij Zj]. apply itx_hash; [assumption|assumption| |left; congruence]. destruct (hx_from_int n m N M) as (i' & j' & I' & J' & Q & _). assert (i' = i) as -> by congruence. assert (j' = j) as -> by congruence. intros E. apply D, Q, E.
Qed.
(** Every id with equal halves, as the invalid id, has the offset basis of FNV as its fast hash. *)
Theorem itx_basis a : 0 <= a < 2 ^ 64 -> hash_fast (from_uint64 a a) = 14695981039346656037.
Proof. intros A. unfold hash_fast. rewrite (proj1 (from_uint64_words _ _)), (proj2 (from_uint64_words _ _)), Z.lxor_assoc, Z.lxor_nilpotent. apply Z.lxor_0_r. Qed.
Print Assumptions itx_basis.
Example itx_basis_ex : 0 <= 12345 < 2 ^ 64.
Proof. lia. Qed.
(** The hash of a pair separates pairs with the same first element as well as the hash of ids does, *)
Theorem itx_pair a b c : hash_pair (a, b) = hash_pair (a, c) <-> hash_to_size_t b = hash_to_size_t c.
Proof. unfold hash_pair. cbn [fst snd]. split; [apply lxor_cancel|congruence]. Qed.
(** but not a pair from the exchanged one, and all pairs of an id with itself have the hash 0; the fast hash does not see which word is which. *)
Theorem itx_pair_refuted : exists i j, is_id i /\ is_id j /\ i <> j /\ hash_pair (i, j) = hash_pair (j, i) /\ (forall k, hash_pair (k, k) = 0) /\ forall a b, 0 <= a < 2 ^ 64 -> 0 <= b < 2 ^ 64 -> hash_fast (from_uint64 a b) = hash_fast (from_uint64 b a).
Proof.
  exists (from_uint64 1 2), (from_uint64 2 1). split; [reflexivity|]. split; [reflexivity|]. split; [vm_compute; discriminate|]. split; [reflexivity|]. split; [intros; apply Z.lxor_nilpotent|].
  intros a b A B. unfold hash_fast. rewrite !(proj1 (from_uint64_words _ _)), !(proj2 (from_uint64_words _ _)). unfold size_t. rewrite !Z.mod_small by assumption. rewrite !Z.lxor_assoc. f_equal. apply Z.lxor_comm.
Qed.
(** Examples *)
Example itx_text_ex : print_string (from_uint64 (16 * 171 + 1) 5) = [x62; x31; x30; x61; x2e; x2e; x30; x30; x30; x30].
Proof. reflexivity. Qed.
Example itx_short_ex : is_id invalid_id /\ short_hex invalid_id = [x30; x30; x30; x30].
Proof. split; reflexivity. Qed.
Example itx_unique_ex : 0 < 7 /\ 7 + 10000 < 2 ^ 32 /\ exists i, id_from_int 10007 = Parsed i /\ print_string i = [x30; x30; x30; x30; x2e; x2e; x30; x30; x30; x37].
Proof. split; [lia|]. split; [lia|]. eexists. split; [vm_compute; reflexivity|reflexivity]. Qed.
Example itx_generated_ex : exists st out, gen_run gen_init [AClock 0 77; ACount 0; AClock 1 77; ACount 1] = Some (st, out) /\ map print_string out = repeat [x34; x64; x30; x30; x2e; x2e; x30; x30; x30; x30] 2.
Proof. eexists _, _. split; vm_compute; reflexivity. Qed.
(** Runs with many ids exist. *)
Lemma long_run n : forall k c, 0 <= c -> c + Z.of_nat n < 2 ^ 48 -> exists st out, gen_run (GenState c []) (flat_map (fun k => [AClock 0 (Z.of_nat k); ACount 0]) (seq k n)) = Some (st, out) /\ length out = n.
Proof.
  induction n as [|n IH]; intros k c C B; [eexists _, _; split; reflexivity|]. cbn [seq flat_map app gen_run gen_step take_pending pending counter Nat.eqb]. assert (size_t (c + 1) = c + 1) as -> by (unfold size_t; apply Z.mod_small; lia). destruct (IH (S k) (c + 1) ltac:(lia) ltac:(lia)) as (st & out & E & L). rewrite E. eexists _, _. split; [reflexivity|]. cbn [app length]. rewrite L. reflexivity.
Qed.
Example itx_generated_refuted_ex : exists acts st out, gen_run gen_init acts = Some (st, out) /\ Z.of_nat (counts acts) < 2 ^ 48 /\ 65536 < Z.of_nat (length out).
Proof.
  set (n := Z.to_nat 70000). destruct (long_run n 0%nat 0 ltac:(lia) ltac:(unfold n; lia)) as (st & out & E & L). eexists _, st, out. split; [exact E|]. split; [|rewrite L; unfold n; lia].
  assert (C : forall n k, counts (flat_map (fun k => [AClock 0 (Z.of_nat k); ACount 0]) (seq k n)) = n) by (induction n0 as [|q IH]; intros k; [reflexivity|]; cbn [seq flat_map app counts]; rewrite IH; reflexivity). rewrite C. unfold n. lia.
Qed.
Example itx_hash_ex : is_id (from_uint64 3 4) /\ is_id (from_uint64 3 5) /\ from_uint64 3 4 <> from_uint64 3 5 /\ u64_0 (from_uint64 3 4) = u64_0 (from_uint64 3 5).
Proof. split; [reflexivity|]. split; [reflexivity|]. split; [vm_compute; discriminate|reflexivity]. Qed.
Example itx_container_ex : length (print_container print_string [invalid_id; from_uint64 1 2]) = 25%nat.
Proof. reflexivity. Qed.
Print Assumptions itx_text.
Print Assumptions itx_short.
Print Assumptions itx_int.
Print Assumptions itx_unique_refuted.
Print Assumptions itx_generated.
Print Assumptions itx_generated_refuted.
Print Assumptions itx_container.
Print Assumptions itx_hash.
Print Assumptions itx_int_hash.
Print Assumptions itx_pair.
Print Assumptions itx_pair_refuted.
