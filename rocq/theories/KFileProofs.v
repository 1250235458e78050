(** Proofs about numbers as text: digits, rounding to six digits, reading back. *)
From Coq Require Import ZArith QArith Qpower Qabs List Bool Ascii Lia Lqa.
From Verif Require Import KFileModel KFileSpec.
Import ListNotations.
Local Open Scope Z_scope.

(** ** Digits *)
Definition is_digit (d : Z) : Prop := 0 <= d < 10.
Definition value (l : list Z) : Z := fold_left (fun a d => 10 * a + d) l 0.
Lemma digit_cases d : is_digit d -> d = 0 \/ d = 1 \/ d = 2 \/ d = 3 \/ d = 4 \/ d = 5 \/ d = 6 \/ d = 7 \/ d = 8 \/ d = 9.
Proof. unfold is_digit. lia. Qed.
Ltac by_digit H := apply digit_cases in H; destruct H as [->|[->|[->|[->|[->|[->|[->|[->|[->| ->]]]]]]]]].
Lemma digit_of_digit d : is_digit d -> digit_of (digit d) = Some d.
Proof. intros H. by_digit H; reflexivity. Qed.
Lemma digit_no_blank d : is_digit d -> blank (digit d) = false.
Proof. intros H. by_digit H; reflexivity. Qed.
Lemma digit_no_minus d : is_digit d -> Ascii.eqb (digit d) "-" = false /\ Ascii.eqb (digit d) "i" = false.
Proof. intros H. by_digit H; split; reflexivity. Qed.
Lemma fold_value l : forall a, fold_left (fun a d => 10 * a + d) l a = a * 10 ^ Z.of_nat (length l) + value l.
Proof.
  unfold value. induction l as [|d l IH]; intros a; cbn [fold_left length]; [cbn; lia|]. rewrite IH, (IH (10 * 0 + d)). rewrite Nat2Z.inj_succ, Z.pow_succ_r by lia. ring.
Qed.
Lemma value_app a b : value (a ++ b) = value a * 10 ^ Z.of_nat (length b) + value b.
Proof. unfold value at 1. rewrite fold_left_app, fold_value. reflexivity. Qed.
Lemma value_zeros k : value (repeat 0 k) = 0.
Proof. induction k as [|k IH]; [reflexivity|]. change (repeat 0 (S k)) with ([0] ++ repeat 0 k). rewrite value_app, IH. reflexivity. Qed.
Lemma value_lead k l : value (repeat 0 k ++ l) = value l.
Proof. rewrite value_app, value_zeros. lia. Qed.

Lemma digits_loop_spec fuel : forall n acc, 0 <= n < 10 ^ Z.of_nat fuel -> fuel <> O -> exists l, digits_loop fuel n acc = l ++ acc /\ Forall is_digit l /\ value l = n /\ l <> [] /\
  n < 10 ^ Z.of_nat (length l) /\ (0 < n -> 10 ^ (Z.of_nat (length l) - 1) <= n).
Proof.
  induction fuel as [|fuel IH]; intros n acc [N0 N] NF; [contradiction|]. rewrite Nat2Z.inj_succ, Z.pow_succ_r in N by lia. cbn [digits_loop]. destruct (Z.ltb_spec n 10) as [L|L].
  - exists [n]. split; [reflexivity|]. split; [constructor; [unfold is_digit; lia|constructor]|]. split; [reflexivity|]. split; [discriminate|]. cbn. lia.
  - assert (D : n = 10 * (n / 10) + n mod 10) by (apply Z.div_mod; lia). pose proof (Z.mod_pos_bound n 10). destruct fuel as [|f]; [cbn in N; lia|].
    destruct (IH (n / 10) (n mod 10 :: acc)) as (l & E & F & V & NE & B & C); [lia|discriminate|]. exists (l ++ [n mod 10]). rewrite E, <- app_assoc. split; [reflexivity|]. split; [apply Forall_app; split; [exact F|constructor; [unfold is_digit; lia|constructor]]|].
    split; [rewrite value_app, V; cbn; lia|]. split; [destruct l; discriminate|]. rewrite app_length. cbn [length]. rewrite Nat.add_1_r, Nat2Z.inj_succ. rewrite Z.pow_succ_r by lia.
    split; [lia|]. intros _. replace (Z.succ (Z.of_nat (length l)) - 1) with (Z.succ (Z.of_nat (length l) - 1)) by lia. rewrite Z.pow_succ_r by (destruct l; [contradiction|cbn [length]; lia]). specialize (C ltac:(lia)). lia.
Qed.
Lemma digits_spec n : 0 <= n -> Forall is_digit (digits n) /\ value (digits n) = n /\ digits n <> [] /\ n < 10 ^ Z.of_nat (length (digits n)) /\ (0 < n -> 10 ^ (Z.of_nat (length (digits n)) - 1) <= n).
Proof.
  intros N. destruct (digits_loop_spec (S (Z.to_nat (Z.log2 n))) n []) as (l & E & R); [|discriminate|].
  - split; [exact N|]. rewrite Nat2Z.inj_succ, Z2Nat.id by apply Z.log2_nonneg. destruct (Z.eq_dec n 0) as [->|NZ]; [reflexivity|]. pose proof (Z.log2_spec n ltac:(lia)). pose proof (Z.log2_nonneg n).
    apply Z.lt_le_trans with (2 ^ Z.succ (Z.log2 n)); [lia|]. apply Z.pow_le_mono_l. lia.
  - unfold digits. rewrite E, app_nil_r. exact R.
Qed.
Lemma digits_length n k : 0 < k -> 10 ^ (k - 1) <= n < 10 ^ k -> length (digits n) = Z.to_nat k.
Proof.
  intros K [A B]. assert (0 < 10 ^ (k - 1)) by (apply Z.pow_pos_nonneg; lia). destruct (digits_spec n) as (_ & _ & NE & C & D); [lia|]. specialize (D ltac:(lia)).
  assert (L : 0 < Z.of_nat (length (digits n))) by (destruct (digits n); [contradiction|cbn [length]; lia]).
  assert (Z.of_nat (length (digits n)) = k); [|lia]. apply Z.le_antisymm.
  - assert (10 ^ (Z.of_nat (length (digits n)) - 1) < 10 ^ k) by lia. apply Z.pow_lt_mono_r_iff in H0; lia.
  - assert (10 ^ (k - 1) < 10 ^ Z.of_nat (length (digits n))) by lia. apply Z.pow_lt_mono_r_iff in H0; lia.
Qed.

Lemma read_digits_app l t : Forall is_digit l -> forall v k, read_digits (map digit l ++ t) v k = read_digits t (v * 10 ^ Z.of_nat (length l) + value l) (k + length l).
Proof.
  induction 1 as [|d l D _ IH]; intros v k; cbn [map app length].
  - f_equal; [cbn; lia|lia].
  - cbn [read_digits]. rewrite digit_of_digit, IH by exact D. f_equal; [|lia]. change (value (d :: l)) with (value ([d] ++ l)). rewrite value_app, Nat2Z.inj_succ, Z.pow_succ_r by lia. change (value [d]) with (10 * 0 + d). ring.
Qed.
Definition stops (t : list ascii) : Prop := match t with [] => True | c :: _ => digit_of c = None end.
Lemma read_digits_stop t v k : stops t -> read_digits t v k = (v, k, t).
Proof. destruct t as [|c t]; [reflexivity|]. cbn. intros ->. reflexivity. Qed.
Lemma read_digits_all l t : Forall is_digit l -> stops t -> forall v k, read_digits (map digit l ++ t) v k = (v * 10 ^ Z.of_nat (length l) + value l, (k + length l)%nat, t).
Proof. intros F S v k. rewrite read_digits_app by exact F. apply read_digits_stop, S. Qed.
Lemma read_nat_digits l : Forall is_digit l -> l <> [] -> read_nat (map digit l) = Some (value l).
Proof. intros F NE. unfold read_nat. rewrite <- (app_nil_r (map digit l)), read_digits_all by (exact F || exact I). destruct l as [|d l]; [contradiction|]. reflexivity. Qed.
Lemma read_print_int n : 0 <= n -> read_nat (print_int n) = Some n.
Proof. intros N. destruct (digits_spec n N) as (F & V & NE & _). unfold print_int. rewrite read_nat_digits, V by assumption. reflexivity. Qed.

Lemma strip_spec l : exists k, l = strip l ++ repeat 0 k.
Proof.
  induction l as [|d l [k IH]]; [exists O; reflexivity|]. cbn [strip]. destruct (strip l) as [|a q].
  - destruct (Z.eqb_spec d 0) as [->|]; [exists (S k)|exists k]; cbn in *; congruence.
  - exists k. cbn in *. congruence.
Qed.
Lemma strip_digits l : Forall is_digit l -> Forall is_digit (strip l).
Proof. destruct (strip_spec l) as [k E]. intros F. rewrite E in F. apply Forall_app in F. apply F. Qed.

(** ** Rounding *)
Lemma round_div_spec n d : 0 <= n -> 0 < d -> 0 <= round_div n d /\ Z.abs (2 * (d * round_div n d - n)) <= d.
Proof.
  intros N D. unfold round_div. pose proof (Z.div_mod n d ltac:(lia)) as E. pose proof (Z.mod_pos_bound n d D). pose proof (Z.div_pos n d N D).
  destruct (Z.ltb_spec (2 * (n mod d)) d); [|destruct (Z.ltb_spec d (2 * (n mod d))); [|destruct (Z.even (n / d))]]; split; try lia; nia.
Qed.
Lemma round_div_tie n d : 0 <= n -> 0 < d -> Z.abs (2 * (d * round_div n d - n)) = d -> Z.even (round_div n d) = true.
Proof.
  intros N D. unfold round_div. pose proof (Z.div_mod n d ltac:(lia)) as E. pose proof (Z.mod_pos_bound n d D).
  destruct (Z.ltb_spec (2 * (n mod d)) d); [intros T; exfalso; nia|]. destruct (Z.ltb_spec d (2 * (n mod d))); [intros T; exfalso; nia|]. destruct (Z.even (n / d)) eqn:V; [intros _; exact V|]. intros _. rewrite Z.even_add, V. reflexivity.
Qed.
Lemma exponent_spec n d : 0 < n -> 0 < d -> let e := exponent n d in
  (0 <= e /\ d * 10 ^ e <= n < d * 10 ^ (e + 1)) \/ (e < 0 /\ d <= n * 10 ^ (- e) /\ n * 10 ^ (- e - 1) < d).
Proof.
  intros N D. unfold exponent. cbv zeta. destruct (Z.leb_spec d n) as [L|L].
  - left. assert (1 <= n / d) by (apply Z.div_le_lower_bound; lia). destruct (digits_spec (n / d)) as (_ & _ & NE & B & C); [lia|]. specialize (C ltac:(lia)). set (k := Z.of_nat (length (digits (n / d)))) in *.
    assert (1 <= k) by (unfold k; destruct (digits (n / d)); [contradiction|cbn [length]; lia]). split; [lia|]. pose proof (Z.div_mod n d ltac:(lia)) as E. pose proof (Z.mod_pos_bound n d D). replace (k - 1 + 1) with k by lia. nia.
  - right. set (c := (d - 1) / n). assert (1 <= c) by (apply Z.div_le_lower_bound; lia). destruct (digits_spec c) as (_ & _ & NE & B & C); [lia|]. specialize (C ltac:(lia)). set (k := Z.of_nat (length (digits c))) in *.
    assert (1 <= k) by (unfold k; destruct (digits c); [contradiction|cbn [length]; lia]). split; [lia|]. pose proof (Z.div_mod (d - 1) n ltac:(lia)) as E. pose proof (Z.mod_pos_bound (d - 1) n N). fold c in E.
    rewrite Z.opp_involutive. nia.
Qed.

(** Powers of ten. *)
Lemma ten_pos e : (0 < 10 ^ e)%Q.
Proof. apply Qpower_0_lt. reflexivity. Qed.
Lemma ten_plus a b : (10 ^ (a + b) == 10 ^ a * 10 ^ b)%Q.
Proof. apply Qpower_plus. discriminate. Qed.
Lemma ten_Z e : 0 <= e -> (10 ^ e == inject_Z (10 ^ e))%Q.
Proof. intros E. rewrite Zpower_Qpower by exact E. reflexivity. Qed.
Lemma ten_mono a b : a <= b -> (10 ^ a <= 10 ^ b)%Q.
Proof. intros L. apply Qpower_le_compat_l; [exact L|discriminate]. Qed.
Lemma frac n d : 0 < d -> (n # Z.to_pos d == inject_Z n * / inject_Z d)%Q.
Proof. intros D. destruct d as [|d|d]; try lia. rewrite (Qmake_Qdiv n d). reflexivity. Qed.
Lemma ten_inv e : (10 ^ e * 10 ^ (- e) == 1)%Q.
Proof. rewrite <- ten_plus, Z.add_opp_diag_r. reflexivity. Qed.
Lemma inj_le a b : a <= b -> (inject_Z a <= inject_Z b)%Q.
Proof. rewrite Zle_Qle. auto. Qed.
Lemma inj_lt a b : a < b -> (inject_Z a < inject_Z b)%Q.
Proof. rewrite Zlt_Qlt. auto. Qed.
Lemma cancel_le (d a b : Q) : (0 < d)%Q -> (a * d <= b * d)%Q -> (a <= b)%Q.
Proof. intros D H. apply Qmult_le_r in H; assumption. Qed.
Lemma cancel_lt (d a b : Q) : (0 < d)%Q -> (a * d < b * d)%Q -> (a < b)%Q.
Proof. intros D H. apply Qmult_lt_r in H; assumption. Qed.
Definition ratio (n d : Z) : Q := (inject_Z n / inject_Z d)%Q.
Lemma ratio_mul n d : 0 < d -> (ratio n d * inject_Z d == inject_Z n)%Q.
Proof. intros D. unfold ratio. field. apply inj_lt in D. change (inject_Z 0) with 0%Q in D. intros H. rewrite H in D. lra. Qed.
Lemma exponent_Q n d : 0 < n -> 0 < d -> (10 ^ exponent n d <= ratio n d /\ ratio n d < 10 ^ (exponent n d + 1))%Q.
Proof.
  intros N D. pose proof (exponent_spec n d N D) as S. cbv zeta in S. set (e := exponent n d) in *. pose proof (ratio_mul n d D) as R. assert (DP : (0 < inject_Z d)%Q) by (apply inj_lt in D; exact D).
  destruct S as [[E [A B]]|[E [A B]]].
  - split; [apply (cancel_le (inject_Z d)); [exact DP|]|apply (cancel_lt (inject_Z d)); [exact DP|]]; rewrite R, ten_Z by lia; rewrite <- inject_Z_mult; [apply inj_le|apply inj_lt]; lia.
  - split.
    + apply (cancel_le (inject_Z d)); [exact DP|]. rewrite R. apply (cancel_le (10 ^ (- e))); [apply ten_pos|]. apply inj_le in A. rewrite inject_Z_mult, <- ten_Z in A by lia. pose proof (ten_inv e) as T.
      setoid_replace (10 ^ e * inject_Z d * 10 ^ (- e))%Q with (10 ^ e * 10 ^ (- e) * inject_Z d)%Q by ring. rewrite T. lra.
    + apply (cancel_lt (inject_Z d)); [exact DP|]. rewrite R. apply (cancel_lt (10 ^ (- e - 1))); [apply ten_pos|]. apply inj_lt in B. rewrite inject_Z_mult, <- ten_Z in B by lia. pose proof (ten_inv (e + 1)) as T. replace (- (e + 1)) with (- e - 1) in T by lia.
      setoid_replace (10 ^ (e + 1) * inject_Z d * 10 ^ (- e - 1))%Q with (10 ^ (e + 1) * 10 ^ (- e - 1) * inject_Z d)%Q by ring. rewrite T. lra.
Qed.
Definition rounded (n d e : Z) : Z := if e <=? 5 then round_div (n * 10 ^ (5 - e)) d else round_div n (d * 10 ^ (e - 5)).
Lemma abs_scale a d : (0 < d)%Q -> (Qabs a * d == Qabs (a * d))%Q.
Proof. intros D. rewrite Qabs_Qmult, (Qabs_pos d) by lra. reflexivity. Qed.
Lemma rounded_Q n d e : 0 < n -> 0 < d -> (Qabs (inject_Z (rounded n d e) - ratio n d * 10 ^ (5 - e)) <= 1 # 2)%Q.
Proof.
  intros N D. assert (DP : (0 < inject_Z d)%Q) by (apply inj_lt in D; exact D). pose proof (ratio_mul n d D) as R. unfold rounded. destruct (Z.leb_spec e 5) as [L|L].
  - assert (P : 0 < 10 ^ (5 - e)) by (apply Z.pow_pos_nonneg; lia). destruct (round_div_spec (n * 10 ^ (5 - e)) d ltac:(nia) D) as [_ B]. set (m := round_div _ _) in *. rewrite ten_Z by lia. set (p := 10 ^ (5 - e)) in *.
    apply (cancel_le (inject_Z d)); [exact DP|]. rewrite abs_scale by exact DP. setoid_replace ((inject_Z m - ratio n d * inject_Z p) * inject_Z d)%Q with (inject_Z m * inject_Z d - ratio n d * inject_Z d * inject_Z p)%Q by ring. rewrite R.
    assert (B1 : 2 * (d * m) <= 2 * (n * p) + d) by lia. assert (B2 : 2 * (n * p) <= 2 * (d * m) + d) by lia. apply inj_le in B1, B2. rewrite ?inject_Z_plus, ?inject_Z_mult in B1. rewrite ?inject_Z_plus, ?inject_Z_mult in B2. change (inject_Z 2) with 2%Q in *.
    apply Qabs_Qle_condition. split; lra.
  - assert (P : 0 < 10 ^ (e - 5)) by (apply Z.pow_pos_nonneg; lia). destruct (round_div_spec n (d * 10 ^ (e - 5)) ltac:(lia) ltac:(nia)) as [_ B]. set (m := round_div _ _) in *.
    pose proof (ten_inv (e - 5)) as T. replace (- (e - 5)) with (5 - e) in T by lia. rewrite (ten_Z (e - 5)) in T by lia. set (p := 10 ^ (e - 5)) in *. set (q := (10 ^ (5 - e))%Q) in *. clearbody p q m. assert (PP : (0 < inject_Z p)%Q) by (apply inj_lt in P; exact P).
    apply (cancel_le (inject_Z d)); [exact DP|]. rewrite abs_scale by exact DP. apply (cancel_le (inject_Z p)); [exact PP|]. rewrite abs_scale by exact PP.
    setoid_replace ((inject_Z m - ratio n d * q) * inject_Z d * inject_Z p)%Q with (inject_Z m * inject_Z d * inject_Z p - (ratio n d * inject_Z d) * (inject_Z p * q))%Q by ring. rewrite R, T.
    assert (B1 : 2 * (d * p * m) <= 2 * n + d * p) by lia. assert (B2 : 2 * n <= 2 * (d * p * m) + d * p) by lia. apply inj_le in B1, B2. rewrite ?inject_Z_plus, ?inject_Z_mult in B1. rewrite ?inject_Z_plus, ?inject_Z_mult in B2. change (inject_Z 2) with 2%Q in *.
    apply Qabs_Qle_condition. split; lra.
Qed.
Lemma inj_eq a b : (inject_Z a == inject_Z b)%Q -> a = b.
Proof. intros H. apply inject_Z_injective. exact H. Qed.
Lemma rounded_tie n d e : 0 < n -> 0 < d -> (Qabs (inject_Z (rounded n d e) - ratio n d * 10 ^ (5 - e)) == 1 # 2)%Q -> Z.even (rounded n d e) = true.
Proof.
  intros N D. assert (DP : (0 < inject_Z d)%Q) by (apply inj_lt in D; exact D). pose proof (ratio_mul n d D) as R. unfold rounded.
  assert (C : forall a b : Q, (Qabs a == b)%Q -> (a == b \/ a == - b)%Q) by (intros a b; destruct (Qlt_le_dec a 0); [rewrite Qabs_neg by lra; intros <-; right; ring|rewrite Qabs_pos by lra; auto]).
  destruct (Z.leb_spec e 5) as [L|L]; intros H; apply C in H.
  - assert (P : 0 < 10 ^ (5 - e)) by (apply Z.pow_pos_nonneg; lia). apply round_div_tie; [nia|exact D|]. set (m := round_div _ _) in *. rewrite ten_Z in H by lia. set (p := 10 ^ (5 - e)) in *.
    assert (G : ((inject_Z m - ratio n d * inject_Z p) * inject_Z d == inject_Z m * inject_Z d - inject_Z n * inject_Z p)%Q) by (rewrite <- R; ring).
    destruct H as [H|H]; rewrite H in G.
    + assert (2 * (d * m) = 2 * (n * p) + d) by (apply inj_eq; rewrite ?inject_Z_plus, ?inject_Z_mult; change (inject_Z 2) with 2%Q; lra). lia.
    + assert (2 * (d * m) + d = 2 * (n * p)) by (apply inj_eq; rewrite ?inject_Z_plus, ?inject_Z_mult; change (inject_Z 2) with 2%Q; lra). lia.
  - assert (P : 0 < 10 ^ (e - 5)) by (apply Z.pow_pos_nonneg; lia). apply round_div_tie; [lia|nia|]. set (m := round_div _ _) in *.
    pose proof (ten_inv (e - 5)) as T. replace (- (e - 5)) with (5 - e) in T by lia. rewrite (ten_Z (e - 5)) in T by lia. set (p := 10 ^ (e - 5)) in *. set (q := (10 ^ (5 - e))%Q) in *. clearbody p q m.
    assert (G : ((inject_Z m - ratio n d * q) * inject_Z d * inject_Z p == inject_Z m * inject_Z d * inject_Z p - inject_Z n)%Q).
    { setoid_replace ((inject_Z m - ratio n d * q) * inject_Z d * inject_Z p)%Q with (inject_Z m * inject_Z d * inject_Z p - (ratio n d * inject_Z d) * (inject_Z p * q))%Q by ring. rewrite R, T. ring. }
    destruct H as [H|H]; rewrite H in G.
    + assert (2 * (d * p * m) = 2 * n + d * p) by (apply inj_eq; rewrite ?inject_Z_plus, ?inject_Z_mult; change (inject_Z 2) with 2%Q; lra). lia.
    + assert (2 * (d * p * m) + d * p = 2 * n) by (apply inj_eq; rewrite ?inject_Z_plus, ?inject_Z_mult; change (inject_Z 2) with 2%Q; lra). lia.
Qed.
Lemma rounded_range n d : 0 < n -> 0 < d -> 10 ^ 5 <= rounded n d (exponent n d) <= 10 ^ 6.
Proof.
  intros N D. set (e := exponent n d). pose proof (rounded_Q n d e N D) as B. destruct (exponent_Q n d N D) as [L U]. fold e in L, U. apply Qabs_Qle_condition in B.
  assert (T : (10 ^ e * 10 ^ (5 - e) == 100000)%Q) by (rewrite <- ten_plus; replace (e + (5 - e)) with 5 by lia; reflexivity). assert (T' : (10 ^ (e + 1) * 10 ^ (5 - e) == 1000000)%Q) by (rewrite <- ten_plus; replace (e + 1 + (5 - e)) with 6 by lia; reflexivity).
  pose proof (ten_pos (5 - e)) as TP. apply (Qmult_le_r _ _ _ TP) in L. apply (Qmult_lt_r _ _ _ TP) in U. rewrite T in L. rewrite T' in U. set (m := rounded n d e) in *. split.
  - assert (H : (inject_Z (10 ^ 5 - 1) < inject_Z m)%Q) by (change (inject_Z (10 ^ 5 - 1)) with 99999%Q; lra). rewrite <- Zlt_Qlt in H. lia.
  - assert (H : (inject_Z m < inject_Z (10 ^ 6 + 1))%Q) by (change (inject_Z (10 ^ 6 + 1)) with 1000001%Q; lra). rewrite <- Zlt_Qlt in H. lia.
Qed.
Lemma significant_spec n d m e : 0 < n -> 0 < d -> significant n d = (m, e) -> 10 ^ 5 <= m < 10 ^ 6 /\ six_digits (ratio n d) (inject_Z m * 10 ^ (e - 5)).
Proof.
  intros N D. unfold significant. cbv zeta. change (if exponent n d <=? 5 then _ else _) with (rounded n d (exponent n d)). pose proof (rounded_range n d N D) as R. pose proof (rounded_Q n d (exponent n d) N D) as B. destruct (exponent_Q n d N D) as [L U].
  set (e0 := exponent n d) in *. set (m0 := rounded n d e0) in *. intros E.
  assert (V : (inject_Z m * 10 ^ (e - 5) == inject_Z m0 * 10 ^ (e0 - 5))%Q /\ 10 ^ 5 <= m < 10 ^ 6).
  { destruct (Z.eqb_spec m0 (10 ^ 6)) as [M|M]; injection E as <- <-; [|split; [reflexivity|lia]]. split; [|lia]. rewrite M. replace (e0 + 1 - 5) with (1 + (e0 - 5)) by lia. rewrite ten_plus. change (inject_Z (10 ^ 6)) with (inject_Z (10 ^ 5) * 10 ^ 1)%Q. apply Qmult_assoc. }
  destruct V as [V RM]. split; [exact RM|]. right. exists e0, m0. assert (RP : (0 < ratio n d)%Q) by (pose proof (ten_pos e0); lra). rewrite (Qabs_pos (ratio n d)) by lra. split; [auto|]. split; [exact V|]. split; [lia|].
  rewrite V. pose proof (ten_pos (e0 - 5)) as TP. pose proof (ten_inv (5 - e0)) as T. replace (- (5 - e0)) with (e0 - 5) in T by lia.
  setoid_replace (inject_Z m0 * 10 ^ (e0 - 5) - ratio n d)%Q with ((inject_Z m0 - ratio n d * 10 ^ (5 - e0)) * 10 ^ (e0 - 5))%Q.
  - rewrite <- abs_scale by exact TP. split; [apply Qmult_le_r; assumption|]. intros TIE. apply (rounded_tie n d e0 N D). apply Qmult_inj_r in TIE; [exact TIE|]. intros Z0. rewrite Z0 in TP. lra.
  - rewrite <- (Qmult_1_r (ratio n d)) at 1. rewrite <- T. ring.
Qed.

(** ** Reading back *)
Lemma fraction_cases l : Forall is_digit l -> exists f k, l = f ++ repeat 0 k /\ Forall is_digit f /\ (fraction l = match f with [] => [] | _ => point :: map digit f end).
Proof. intros F. destruct (strip_spec l) as [k E]. exists (strip l), k. split; [exact E|]. split; [apply strip_digits, F|]. unfold fraction. destruct (strip l); reflexivity. Qed.
Definition exponent_text (t : list ascii) : Prop := stops t /\ match t with c :: _ => Ascii.eqb c "." = false | [] => True end.
(** Some digits, a fraction, and an exponent. *)
Lemma read_parts i l t z : Forall is_digit i -> i <> [] -> Forall is_digit l -> exponent_text t -> read_exponent t = Some z ->
  exists q, read_positive (map digit i ++ fraction l ++ t) = Some q /\ (q == inject_Z (value (i ++ l)) * 10 ^ (z - Z.of_nat (length l)))%Q.
Proof.
  intros FI NI FL [ST NP] RE. destruct (fraction_cases l FL) as (f & k & -> & FF & ->). unfold read_positive.
  assert (Q0 : forall w, value (i ++ f) = w -> (inject_Z w * 10 ^ (z - Z.of_nat (length f)) == inject_Z (value (i ++ f ++ repeat 0%Z k)) * 10 ^ (z - Z.of_nat (length (f ++ repeat 0%Z k))))%Q).
  { intros w <-. rewrite app_assoc, (value_app (i ++ f)), value_zeros, Z.add_0_r, app_length, repeat_length, Nat2Z.inj_add. rewrite inject_Z_mult, <- ten_Z by lia.
    replace (z - Z.of_nat (length f)) with (Z.of_nat k + (z - (Z.of_nat (length f) + Z.of_nat k))) by lia. rewrite ten_plus. ring. }
  assert (NL : exists p, length i = S p) by (destruct i; [contradiction|eexists; reflexivity]). destruct NL as [p NL]. destruct f as [|d f].
  - cbn [app]. rewrite read_digits_all by assumption. rewrite NL. cbn [Nat.add]. rewrite <- NL. rewrite Z.mul_0_l, Z.add_0_l.
    assert (H : exists q, scaled (value i) 0 (read_exponent t) = Some q /\ (q == inject_Z (value i) * 10 ^ (z - 0))%Q) by (rewrite RE; cbn [scaled option_map]; eexists; split; [reflexivity|reflexivity]).
    destruct H as (q & H & HQ). exists q. split; [|rewrite HQ; apply (Q0 (value i)); rewrite app_nil_r; reflexivity].
    destruct t as [|c t]; [exact H|]. cbn in NP. rewrite NP. exact H.
  - replace (map digit i ++ (point :: map digit (d :: f)) ++ t) with (map digit i ++ (point :: map digit (d :: f) ++ t)) by reflexivity. rewrite read_digits_all by (assumption || reflexivity). rewrite NL. cbn [Nat.add]. rewrite <- NL. change (Ascii.eqb point ".") with true. cbn iota.
    rewrite Z.mul_0_l, Z.add_0_l. rewrite read_digits_all by assumption. rewrite RE. cbn [scaled option_map Nat.add]. eexists. split; [reflexivity|]. apply Q0. apply value_app.
Qed.
Lemma read_exponent_text e : let t := ["e"%char; if e <? 0 then minus else plus] ++ (if Z.abs e <? 10 then [zero] else []) ++ print_int (Z.abs e) in exponent_text t /\ read_exponent t = Some e.
Proof.
  cbv zeta. split; [split; reflexivity|]. cbn [app read_exponent]. change (Ascii.eqb "e" "e") with true. cbn iota.
  assert (R : read_nat ((if Z.abs e <? 10 then [zero] else []) ++ print_int (Z.abs e)) = Some (Z.abs e)).
  { destruct (digits_spec (Z.abs e)) as (F & V & NE & _); [lia|]. destruct (Z.abs e <? 10); [|apply read_print_int; lia]. change ([zero] ++ print_int (Z.abs e)) with (map digit (0 :: digits (Z.abs e))). rewrite read_nat_digits.
    - change (0 :: digits (Z.abs e)) with (repeat 0 1 ++ digits (Z.abs e)). rewrite value_lead, V. reflexivity.
    - constructor; [unfold is_digit; lia|exact F].
    - discriminate. }
  destruct (Z.ltb_spec e 0); cbn [Ascii.eqb]; rewrite R; [change (Ascii.eqb minus "-") with true|change (Ascii.eqb plus "-") with false; change (Ascii.eqb plus "+") with true]; cbn; f_equal; lia.
Qed.
Lemma repeat_digits k : Forall is_digit (repeat 0 k).
Proof. apply Forall_forall. intros d H. apply repeat_spec in H. subst d. unfold is_digit. lia. Qed.
Lemma read_print_positive n d : 0 < n -> 0 < d -> exists q, read_positive (print_positive n d) = Some q /\ six_digits (ratio n d) q.
Proof.
  intros N D. unfold print_positive. destruct (significant n d) as [m e] eqn:S. destruct (significant_spec n d m e N D S) as [M SD].
  assert (K : forall q, (q == inject_Z m * 10 ^ (e - 5))%Q -> six_digits (ratio n d) q).
  { intros q Q0. destruct SD as [[A B]|(e' & m' & A & B & C & E)]; [left; split; [exact A|rewrite Q0; exact B]|]. right. exists e', m'. rewrite Q0. auto. }
  destruct (digits_spec m) as (F & V & NE & _ & _); [lia|]. pose proof (digits_length m 6 ltac:(lia) ltac:(cbn in M |- *; lia)) as LE. change (Z.to_nat 6) with 6%nat in LE. set (ds := digits m) in *.
  assert (FS : forall k, Forall is_digit (firstn k ds) /\ Forall is_digit (skipn k ds)) by (intros k; apply Forall_app; rewrite firstn_skipn; exact F).
  destruct (_ || _) eqn:G.
  - destruct (read_exponent_text e) as [T RE]. destruct (FS 1%nat) as [F1 F2]. destruct (read_parts (firstn 1 ds) (skipn 1 ds) _ e F1 ltac:(destruct ds; discriminate) F2 T RE) as (q & R & Q0). exists q. split; [exact R|]. apply K. rewrite Q0, firstn_skipn, V, skipn_length, LE. reflexivity.
  - apply orb_false_iff in G. destruct G as [G1 G2]. apply Z.ltb_ge in G1. apply Z.leb_gt in G2. destruct (Z.ltb_spec e 0).
    + assert (FR : Forall is_digit (repeat 0 (Z.to_nat (- e - 1)) ++ ds)) by (apply Forall_app; split; [apply repeat_digits|exact F]).
      destruct (read_parts [0] _ [] 0 ltac:(constructor; [unfold is_digit; lia|constructor]) ltac:(discriminate) FR ltac:(split; exact I) eq_refl) as (q & R & Q0). rewrite app_nil_r in R. exists q. split; [exact R|]. apply K. rewrite Q0.
      change [0] with (repeat 0 1). rewrite value_lead, value_lead, V, app_length, repeat_length, LE. replace (0 - Z.of_nat (Z.to_nat (- e - 1) + 6)) with (e - 5) by lia. reflexivity.
    + destruct (FS (Z.to_nat (e + 1))) as [F1 F2]. destruct (read_parts (firstn (Z.to_nat (e + 1)) ds) (skipn (Z.to_nat (e + 1)) ds) [] 0 F1 ltac:(destruct ds; [contradiction|]; destruct (Z.to_nat (e + 1)) eqn:Z1; [lia|discriminate]) F2 ltac:(split; exact I) eq_refl) as (q & R & Q0).
      rewrite app_nil_r in R. exists q. split; [exact R|]. apply K. rewrite Q0, firstn_skipn, V, skipn_length, LE. replace (0 - Z.of_nat (6 - Z.to_nat (e + 1))) with (e - 5) by lia. reflexivity.
Qed.
Lemma six_digits_opp x q : six_digits x q -> six_digits (- x) (- q).
Proof.
  intros [[A B]|(e & m & A & B & C & D)]; [left; rewrite A, B; split; reflexivity|]. right. exists e, (- m). rewrite Qabs_opp. split; [exact A|]. split; [rewrite B, inject_Z_opp; ring|]. split; [lia|].
  setoid_replace (- q - - x)%Q with (- (q - x))%Q by ring. rewrite Qabs_opp, Z.even_opp. exact D.
Qed.
Lemma six_digits_eq x x' q : (x == x')%Q -> six_digits x q -> six_digits x' q.
Proof. intros E [[A B]|(e & m & A & B & C & D)]; [left; rewrite <- E; auto|]. right. exists e, m. rewrite <- E. auto. Qed.

(** ** Characters of numbers *)
Definition word (w : list ascii) : Prop := w <> [] /\ forallb (fun c => negb (blank c)) w = true.
Lemma word_app a b : word a -> forallb (fun c => negb (blank c)) b = true -> word (a ++ b).
Proof. intros [N W] B. split; [destruct a; [contradiction|discriminate]|]. rewrite forallb_app, W, B. reflexivity. Qed.
Lemma digits_chars l : Forall is_digit l -> forallb (fun c => negb (blank c)) (map digit l) = true.
Proof. induction 1 as [|d l D _ IH]; [reflexivity|]. cbn. rewrite digit_no_blank, IH by exact D. reflexivity. Qed.
Lemma digits_word l : Forall is_digit l -> l <> [] -> word (map digit l).
Proof. intros F N. split; [destruct l; [contradiction|discriminate]|apply digits_chars, F]. Qed.
Lemma fraction_chars l : Forall is_digit l -> forallb (fun c => negb (blank c)) (fraction l) = true.
Proof. intros F. destruct (fraction_cases l F) as (f & k & _ & FF & ->). destruct f as [|d f]; [reflexivity|]. apply digits_chars in FF. cbn [forallb]. rewrite FF. reflexivity. Qed.
Lemma print_int_word n : 0 <= n -> word (print_int n).
Proof. intros N. destruct (digits_spec n N) as (F & _ & NE & _). apply digits_word; assumption. Qed.
Lemma print_positive_word n d : 0 < n -> 0 < d -> word (print_positive n d) /\ exists c t, print_positive n d = c :: t /\ Ascii.eqb c "-" = false /\ Ascii.eqb c "i" = false.
Proof.
  intros N D. unfold print_positive. destruct (significant n d) as [m e] eqn:SG. destruct (significant_spec n d m e N D SG) as [M _].
  destruct (digits_spec m) as (F & V & NE & _ & _); [lia|]. set (ds := digits m) in *. clearbody ds.
  assert (FS : forall k, Forall is_digit (firstn k ds) /\ Forall is_digit (skipn k ds)) by (intros k; apply Forall_app; rewrite firstn_skipn; exact F).
  assert (LEAD : forall k r, forallb (fun c => negb (blank c)) r = true -> word (map digit (firstn (S k) ds) ++ r) /\ exists c t, map digit (firstn (S k) ds) ++ r = c :: t /\ Ascii.eqb c "-" = false /\ Ascii.eqb c "i" = false).
  { intros k r R. destruct (FS (S k)) as [F1 _]. split; [apply word_app; [apply digits_word; [exact F1|destruct ds; [contradiction|discriminate]]|exact R]|]. destruct ds as [|a ds]; [contradiction|]. cbn. do 2 eexists. split; [reflexivity|]. apply digit_no_minus. inversion F; assumption. }
  destruct (_ || _) eqn:G.
  - apply LEAD. rewrite !forallb_app, fraction_chars by apply FS. destruct (print_int_word (Z.abs e)) as [_ ->]; [lia|]. destruct (e <? 0), (Z.abs e <? 10); reflexivity.
  - destruct (Z.ltb_spec e 0).
    + split; [|exists zero; eexists; split; [reflexivity|split; reflexivity]]. apply word_app; [split; [discriminate|reflexivity]|]. apply fraction_chars, Forall_app. split; [apply repeat_digits|exact F].
    + replace (Z.to_nat (e + 1)) with (S (Z.to_nat e)) by lia. apply LEAD, fraction_chars, FS.
Qed.
Lemma print_word q : word (print q).
Proof.
  unfold print. destruct (Qnum q) as [|n|n]; [split; [discriminate|reflexivity]|apply print_positive_word; reflexivity|]. destruct (print_positive_word (Zpos n) (Zpos (Qden q)) eq_refl eq_refl) as [[_ W] _]. split; [discriminate|]. cbn [forallb]. rewrite W. reflexivity.
Qed.
Lemma ratio_Q n d : (ratio n (Zpos d) == n # d)%Q.
Proof. unfold ratio. rewrite (Qmake_Qdiv n d). reflexivity. Qed.

(** ** Words of the file *)
Lemma words_loop_word w : forallb (fun c => negb (blank c)) w = true -> forall t acc, words_loop (w ++ t) acc = words_loop t (rev w ++ acc).
Proof. induction w as [|c w IH]; intros W t acc; [reflexivity|]. cbn in W. apply andb_true_iff in W. destruct W as [C W]. apply negb_true_iff in C. cbn [app words_loop]. rewrite C, IH by exact W. cbn [rev]. rewrite <- app_assoc. reflexivity. Qed.
Lemma words_blank w c t : word w -> blank c = true -> words (w ++ c :: t) = w :: words t.
Proof.
  intros [N W] C. unfold words. rewrite words_loop_word by exact W. cbn [words_loop]. rewrite C, app_nil_r. destruct (rev w) as [|a r] eqn:R; [|rewrite <- R, rev_involutive; reflexivity].
  apply (f_equal (@rev ascii)) in R. rewrite rev_involutive in R. contradiction.
Qed.
Lemma words_list w ws c t : word w -> Forall word ws -> blank c = true -> words (w ++ concat (map (cons space) ws) ++ c :: t) = w :: ws ++ words t.
Proof.
  intros W F C. revert w W. induction F as [|v ws V _ IH]; intros w W; cbn [map concat app]; [apply words_blank; assumption|].
  rewrite <- app_assoc. rewrite words_blank by (assumption || reflexivity). rewrite IH by assumption. reflexivity.
Qed.
Definition number_text (v : option Q) : list ascii := match v with Some q => print q | None => infinity end.
Lemma number_text_word v : word (number_text v).
Proof. destruct v; [apply print_word|split; [discriminate|reflexivity]]. Qed.
Lemma line_words a k row t : words (line a k row ++ t) = map number_text (row_of a k row) ++ words t.
Proof.
  assert (P : print_scale a k = number_text (scale_of a k)) by (unfold print_scale, scale_of; destruct (Qeq_bool _ _); reflexivity).
  unfold line. rewrite P. rewrite <- !app_assoc. cbn [app].
  rewrite (words_blank (print (x k)) space) by (apply print_word || reflexivity). rewrite (words_blank (print (y k)) space) by (apply print_word || reflexivity).
  rewrite (words_blank (number_text (scale_of a k)) space) by (apply number_text_word || reflexivity). rewrite (words_blank (print 0) space) by (apply print_word || reflexivity).
  replace (concat (map (fun v => space :: print v) row)) with (concat (map (cons space) (map number_text (map Some row)))) by (rewrite !map_map; reflexivity).
  rewrite words_list; [reflexivity|apply number_text_word| |reflexivity]. apply Forall_forall. intros w H. apply in_map_iff in H. destruct H as (v & <- & _). apply number_text_word.
Qed.
Lemma lines_words a kpts desc : forall t, lines a kpts desc = Some t -> words t = map number_text (concat (table a kpts desc)).
Proof.
  revert kpts. induction desc as [|row desc IH]; intros [|k kpts] t E; cbn in E; try discriminate; try (injection E as <-; reflexivity). destruct (lines a kpts desc) as [u|] eqn:L; [|discriminate]. injection E as <-.
  rewrite line_words, (IH kpts u L). unfold table. cbn [combine map concat fst snd]. rewrite map_app. reflexivity.
Qed.
