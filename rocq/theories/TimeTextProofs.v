(** Lemmas about time texts. *)
From Coq Require Import ZArith Lia.
From stdpp Require Import list.
From Verif Require Import TimeTextModel TimeTextSpec.
Local Open Scope Z_scope.

Definition val (l : list Z) (v : Z) : Z := foldl (fun v c => 10 * v + (c - 48)) v l.
Lemma val_app l l' v : val (l ++ l') v = val l' (val l v).
Proof. apply foldl_app. Qed.
Lemma val_shift l v : val l v = v * 10 ^ Z.of_nat (length l) + val l 0.
Proof.
  revert v. induction l as [|c l IH]; intros v; [cbn; lia|]. unfold val in *. cbn [foldl length].
  rewrite IH. rewrite (IH (10 * 0 + _)). rewrite Nat2Z.inj_succ, Z.pow_succ_r by lia. ring.
Qed.
Lemma read_digits_app l rest n v : Forall is_digit l -> (forall c r, rest = c :: r -> ~ is_digit c) ->
  read_digits (l ++ rest) n v = (n + Z.of_nat (length l), val l v, rest).
Proof.
  intros Hl Hr. revert n v. induction Hl as [|c l Hc Hl IH]; intros n v; cbn [app read_digits].
  - cbn [length]. destruct rest as [|c r]; cbn; [by rewrite Z.add_0_r|]. rewrite decide_False by (by apply (Hr c r)). by rewrite Z.add_0_r.
  - rewrite decide_True by done. rewrite IH. cbn [length val foldl]. f_equal. f_equal. lia.
Qed.
Lemma read_number_app lenient l rest : Forall is_digit l -> (forall c r, rest = c :: r -> ~ is_digit c) ->
  read_number lenient (l ++ rest) = if decide (l = [] /\ lenient = false) then None else Some (val l 0, rest).
Proof.
  intros Hl Hr. unfold read_number. rewrite (read_digits_app l rest 0 0 Hl Hr).
  destruct l as [|c l]; cbn [length].
  - destruct lenient; done.
  - rewrite !decide_False; [done|intros [? ?]; done|intros [? ?]; lia].
Qed.
(** ** Decimal digits *)
Lemma dec_digits_spec : forall fuel n acc, 0 <= n < 10 ^ Z.of_nat fuel -> (0 < fuel)%nat ->
  exists l, dec_digits fuel n acc = l ++ acc /\ Forall is_digit l /\ val l 0 = n /\ (0 < length l)%nat /\
    n < 10 ^ Z.of_nat (length l) /\ (10 ^ (Z.of_nat (length l) - 1) <= n \/ n = 0 /\ length l = 1%nat).
Proof.
  induction fuel as [|f IH]; intros n acc Hn Hf; [lia|]. cbn [dec_digits]. destruct (Z.ltb_spec n 10) as [L|L].
  - exists [48 + n]. split; [done|]. split; [by repeat constructor; unfold is_digit; lia|]. split; [cbn; lia|]. cbn [length].
    split; [lia|]. split; [cbn; lia|]. change (10 ^ (Z.of_nat 1 - 1)) with 1. lia.
  - rewrite Nat2Z.inj_succ, Z.pow_succ_r in Hn by lia.
    pose proof (Z.div_mod n 10 ltac:(lia)) as D. pose proof (Z.mod_pos_bound n 10 ltac:(lia)) as M.
    assert (Hf' : (0 < f)%nat). { destruct f; [cbn in Hn; lia|lia]. }
    destruct (IH (n / 10) ((48 + n mod 10) :: acc) ltac:(split; [apply Z.div_pos; lia|apply Z.div_lt_upper_bound; lia]) Hf')
      as (l & -> & Hd & Hv & Hl & Hu & Hlo).
    exists (l ++ [48 + n mod 10]). split; [by rewrite <- app_assoc|]. split; [apply Forall_app; split; [done|]; repeat constructor; unfold is_digit; lia|].
    split; [rewrite val_app, Hv; cbn; lia|]. rewrite app_length. cbn [length]. split; [lia|].
    replace (Z.of_nat (length l + 1)) with (Z.succ (Z.of_nat (length l))) by lia. rewrite Z.pow_succ_r by lia. split; [lia|]. left.
    replace (Z.succ (Z.of_nat (length l)) - 1) with (Z.succ (Z.of_nat (length l) - 1)) by lia.
    destruct Hlo as [Hlo|[Hz Hl1]].
    + rewrite Z.pow_succ_r by lia. lia.
    + rewrite Hl1. change (10 ^ Z.succ (Z.of_nat 1 - 1)) with 10. lia.
Qed.
Lemma digits_of n : 0 <= n <= 2 ^ 63 -> exists l, dec_digits 20 n [] = l /\ Forall is_digit l /\ val l 0 = n /\ (0 < length l)%nat /\
  ((9 < length l)%nat -> 10 ^ 9 <= n) /\ ((length l = 9)%nat -> 10 ^ 8 <= n < 10 ^ 9) /\ ((length l < 9)%nat -> n < 10 ^ 8).
Proof.
  intros Hn. destruct (dec_digits_spec 20 n [] ltac:(change (10 ^ Z.of_nat 20) with 100000000000000000000; lia) ltac:(lia))
    as (l & E & Hd & Hv & Hl & Hu & Hlo).
  exists l. rewrite app_nil_r in E. split; [done|]. split; [done|]. split; [done|]. split; [done|]. split; [|split].
  - intros L. destruct Hlo as [Hlo|[-> ?]]; [|lia]. etransitivity; [|exact Hlo]. apply Z.pow_le_mono_r; lia.
  - intros L. rewrite L in *. change (Z.of_nat 9 - 1) with 8 in Hlo. change (Z.of_nat 9) with 9 in Hu. lia.
  - intros L. eapply Z.lt_le_trans; [exact Hu|]. apply Z.pow_le_mono_r; lia.
Qed.
(** ** Reading *)
Lemma magnitude_short lenient l : Forall is_digit l -> l <> [] -> read_magnitude lenient (l ++ str_ns) = Some (val l 0).
Proof.
  intros Hl Hn. unfold read_magnitude. rewrite read_number_app; [|done|].
  - rewrite decide_False by (intros [? ?]; done). done.
  - intros c r E. injection E as <- _. unfold is_digit. lia.
Qed.
Lemma magnitude_long lenient l l' : Forall is_digit l -> Forall is_digit l' -> l <> [] \/ lenient = true -> length l' = 9%nat ->
  read_magnitude lenient (l ++ str_s ++ l' ++ str_ns) = Some (val (l ++ l') 0).
Proof.
  intros Hl Hl' Hn H9. unfold read_magnitude. rewrite (read_number_app lenient l); [|done|].
  - rewrite decide_False. 2:{ intros [-> ->]. by destruct Hn. } cbn [mbind option_bind str_s app].
    rewrite (read_number_app lenient l'); [|done|].
    + rewrite decide_False. 2:{ intros [-> ?]. done. } cbn. f_equal. rewrite val_app, (val_shift l' (val l 0)), H9. done.
    + intros c r E. injection E as <- _. unfold is_digit. lia.
  - intros c r E. injection E as <- _. unfold is_digit. lia.
Qed.
Lemma magnitude_empty_strict l' : read_magnitude false (str_s ++ l' ++ str_ns) = None.
Proof. done. Qed.
Lemma read_time_digit lenient c s : is_digit c -> read_time lenient (c :: s) = read_magnitude lenient (c :: s).
Proof.
  intros Hc. unfold is_digit in Hc. unfold read_time. assert (48 <= c) by lia. assert (c <= 57) by lia.
  destruct c as [|p|p]; [done| |done]. do 6 (destruct p as [p|p|]; try done; try lia).
Qed.
Lemma read_time_s lenient c s : c = 115 -> read_time lenient (c :: s) = read_magnitude lenient (c :: s).
Proof. by intros ->. Qed.
Lemma take_drop_digits l k : Forall is_digit l -> Forall is_digit (take k l) /\ Forall is_digit (drop k l).
Proof. intros H. rewrite <- (take_drop k l) in H. by apply Forall_app in H. Qed.
Lemma read_pos lenient t : 0 <= t < 2 ^ 63 -> read_time lenient (time_text t) = Some t.
Proof.
  intros Ht. unfold time_text, to_text. rewrite (proj2 (Z.ltb_ge t 0)) by lia.
  destruct (digits_of t ltac:(lia)) as (l & -> & Hd & Hv & Hl & _).
  destruct (Nat.ltb_spec (length l) 10) as [L|L].
  - assert (l <> []) by (intros ->; cbn in Hl; lia). destruct l as [|c l']; [done|]. cbn [app]. rewrite read_time_digit by (by inversion Hd).
    rewrite <- Hv. by apply (magnitude_short lenient (c :: l')).
  - set (k := (length l - 9)%nat). destruct (take_drop_digits l k Hd) as [H1 H2].
    assert (N : take k l <> []). { intros E. apply (f_equal length) in E. rewrite take_length in E. cbn in E. lia. }
    pose proof (magnitude_long lenient (take k l) (drop k l) H1 H2 (or_introl N) ltac:(rewrite drop_length; unfold k; lia)) as R.
    rewrite take_drop, Hv in R. destruct (take k l) as [|c l'] eqn:E; [done|]. cbn [app] in *.
    rewrite read_time_digit by (by inversion H1). done.
Qed.
Lemma read_neg_eq lenient s : read_time lenient (45 :: s) = (v ← read_magnitude lenient s; Some (- v)).
Proof. done. Qed.
Lemma read_neg lenient t : - 2 ^ 63 <= t < 0 -> lenient = true \/ ~ (- (10 ^ 9) < t <= - (10 ^ 8)) ->
  read_time lenient (time_text t) = Some t.
Proof.
  intros Ht Hr. unfold time_text, to_text. rewrite (proj2 (Z.ltb_lt t 0)) by lia.
  destruct (digits_of (- t) ltac:(lia)) as (l & -> & Hd & Hv & Hl & _ & H9 & _).
  cbn [length]. destruct (Nat.ltb_spec (S (length l)) 10) as [L|L].
  - assert (l <> []) by (intros ->; cbn in Hl; lia). cbn [app]. rewrite read_neg_eq, magnitude_short by done. cbn. f_equal. lia.
  - replace (S (length l) - 9)%nat with (S (length l - 9))%nat by lia. cbn [take drop app].
    set (k := (length l - 9)%nat). destruct (take_drop_digits l k Hd) as [H1 H2].
    rewrite read_neg_eq, magnitude_long; [|done|done| |rewrite drop_length; unfold k; lia].
    + rewrite take_drop. cbn. f_equal. lia.
    + destruct Hr as [->|Hr]; [by right|left]. intros E. apply (f_equal length) in E. rewrite take_length in E. cbn in E.
      assert (length l = 9)%nat by lia. apply Hr. specialize (H9 ltac:(lia)). lia.
Qed.
Lemma read_neg_gap t : - (10 ^ 9) < t <= - (10 ^ 8) -> read_time false (time_text t) = None.
Proof.
  intros Ht. unfold time_text, to_text. rewrite (proj2 (Z.ltb_lt t 0)) by lia.
  destruct (digits_of (- t) ltac:(lia)) as (l & -> & Hd & Hv & Hl & Hgt & H9 & Hlt).
  assert (E : length l = 9%nat). { destruct (decide (length l < 9)%nat) as [X|]; [specialize (Hlt X); lia|].
    destruct (decide (9 < length l)%nat) as [X|]; [specialize (Hgt X); lia|lia]. }
  cbn [length]. rewrite E. done.
Qed.
