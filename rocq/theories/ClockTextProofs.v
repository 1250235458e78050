(** Lemmas about the texts of the timing registry. *)

From Coq Require Import ZArith QArith Qround Qabs List Lia Lqa Bool.
From Verif Require Import ClockTextModel ClockTextSpec.
Import ListNotations.
Open Scope Z_scope.

Lemma pow10_pos v : 0 < 10 ^ Z.of_nat v.
Proof. apply Z.pow_pos_nonneg; lia. Qed.

Lemma pow10_S v : 10 ^ Z.of_nat (S v) = 10 * 10 ^ Z.of_nat v.
Proof. rewrite Nat2Z.inj_succ, Z.pow_succ_r; lia. Qed.

Lemma fixed_len w n : length (fixed w n) = w.
Proof. induction w; cbn; auto. Qed.

Lemma fixed_snoc w n : fixed (S w) n = fixed w (n / 10) ++ [ch_zero + n mod 10].
Proof.
  induction w as [|w IH].
  - cbn [fixed app]. change (10 ^ Z.of_nat 0) with 1. now rewrite Z.div_1_r.
  - change (fixed (S (S w)) n)
      with ((ch_zero + (n / 10 ^ Z.of_nat (S w)) mod 10) :: fixed (S w) n).
    rewrite IH. cbn [fixed app]. do 3 f_equal.
    rewrite pow10_S, Z.div_div; [reflexivity|lia|apply pow10_pos].
Qed.

Lemma fixed_reads w : forall n, 0 <= n < 10 ^ Z.of_nat w -> reads (fixed w n) n.
Proof.
  induction w as [|w IH]; intros n H.
  - change (10 ^ Z.of_nat 0) with 1 in H. replace n with 0 by lia. constructor.
  - rewrite fixed_snoc. rewrite (Z.div_mod n 10) at 3 by lia.
    constructor.
    + apply IH. rewrite pow10_S in H. split; [apply Z.div_pos; lia|].
      apply Z.div_lt_upper_bound; lia.
    + apply Z.mod_pos_bound. lia.
Qed.

Lemma ndigits_go_ub f : forall n, 0 <= n < 2 ^ (Z.of_nat f + 1) ->
  n < 10 ^ Z.of_nat (ndigits_go f n).
Proof.
  induction f as [|f IH]; intros n H.
  - cbn in *. lia.
  - cbn [ndigits_go]. destruct (Z.ltb_spec n 10) as [L|L]; [cbn; lia|].
    rewrite pow10_S.
    assert (P : n / 10 < 10 ^ Z.of_nat (ndigits_go f (n / 10))).
    { apply IH. split; [apply Z.div_pos; lia|].
      apply Z.div_lt_upper_bound; [lia|].
      rewrite Nat2Z.inj_succ in H.
      replace (Z.succ (Z.of_nat f) + 1) with (Z.succ (Z.of_nat f + 1)) in H by lia.
      rewrite Z.pow_succ_r in H by lia. lia. }
    pose proof (Z.div_mod n 10 ltac:(lia)). pose proof (Z.mod_pos_bound n 10 ltac:(lia)). lia.
Qed.

Lemma ndigits_ub n : 0 <= n -> n < 10 ^ Z.of_nat (ndigits n).
Proof.
  intros H. apply ndigits_go_ub. split; [lia|].
  rewrite Z2Nat.id by apply Z.log2_nonneg.
  destruct (Z.eq_dec n 0) as [->|N]; [reflexivity|].
  apply Z.log2_spec. lia.
Qed.

Lemma ndigits_go_le f : forall n w, 0 <= n < 10 ^ Z.of_nat (S w) -> (ndigits_go f n <= S w)%nat.
Proof.
  induction f as [|f IH]; intros n w H; cbn [ndigits_go]; [lia|].
  destruct (Z.ltb_spec n 10) as [L|L]; [lia|].
  destruct w as [|w]; [cbn in H; lia|].
  apply le_n_S, IH. rewrite pow10_S in H. split; [apply Z.div_pos; lia|].
  apply Z.div_lt_upper_bound; lia.
Qed.

Lemma ndigits_le n w : (1 <= w)%nat -> 0 <= n < 10 ^ Z.of_nat w -> (ndigits n <= w)%nat.
Proof. intros W H. destruct w as [|w]; [lia|]. now apply ndigits_go_le. Qed.

(** ** Rounding *)

Lemma floor_bounds q : (inject_Z (Qfloor q) <= q < inject_Z (Qfloor q) + 1)%Q.
Proof.
  split; [apply Qfloor_le|]. pose proof (Qlt_floor q) as H.
  rewrite inject_Z_plus in H. exact H.
Qed.

Lemma floor_unique q z : (inject_Z z <= q)%Q -> (q < inject_Z z + 1)%Q -> Qfloor q = z.
Proof.
  intros A B. destruct (floor_bounds q) as [C D].
  assert (E : (inject_Z z < inject_Z (Qfloor q + 1))%Q) by (rewrite inject_Z_plus; change (inject_Z 1) with 1%Q; lra).
  assert (F : (inject_Z (Qfloor q) < inject_Z (z + 1))%Q) by (rewrite inject_Z_plus; change (inject_Z 1) with 1%Q; lra).
  rewrite <- Zlt_Qlt in E, F. lia.
Qed.

Lemma floor_ge q z : (inject_Z z <= q)%Q -> z <= Qfloor q.
Proof.
  intros A. destruct (floor_bounds q) as [_ D].
  assert (E : (inject_Z z < inject_Z (Qfloor q + 1))%Q) by (rewrite inject_Z_plus; change (inject_Z 1) with 1%Q; lra).
  rewrite <- Zlt_Qlt in E. lia.
Qed.

Lemma floor_lt q z : (q < inject_Z z)%Q -> Qfloor q < z.
Proof.
  intros A. destruct (floor_bounds q) as [C _].
  assert (E : (inject_Z (Qfloor q) < inject_Z z)%Q) by lra.
  now rewrite <- Zlt_Qlt in E.
Qed.

Lemma round_bounds q : Qfloor q <= round_even q <= Qfloor q + 1.
Proof.
  unfold round_even. destruct (Qcompare _ _); try lia. destruct (Z.even _); lia.
Qed.

Lemma round_near q :
  (inject_Z (round_even q) - (1 # 2) <= q <= inject_Z (round_even q) + (1 # 2))%Q.
Proof.
  destruct (floor_bounds q) as [A B]. unfold round_even.
  destruct (Qcompare (q - inject_Z (Qfloor q)) (1 # 2)) eqn:C.
  - apply Qeq_alt in C. destruct (Z.even _); [lra|]. rewrite inject_Z_plus.
    change (inject_Z 1) with 1%Q. lra.
  - apply Qlt_alt in C. lra.
  - apply Qgt_alt in C. rewrite inject_Z_plus. change (inject_Z 1) with 1%Q. lra.
Qed.

Lemma round_mono p q : (p <= q)%Q -> round_even p <= round_even q.
Proof.
  intros H. pose proof (Qfloor_resp_le _ _ H) as F.
  pose proof (round_bounds p) as [P1 P2]. pose proof (round_bounds q) as [Q1 Q2].
  destruct (Z.eq_dec (Qfloor p) (Qfloor q)) as [E|E]; [|lia].
  clear P1 P2 Q1 Q2. unfold round_even. rewrite E.
  destruct (Qcompare (p - _) _) eqn:C; destruct (Qcompare (q - _) _) eqn:D;
    first [apply Qeq_alt in C|apply Qlt_alt in C|apply Qgt_alt in C];
    first [apply Qeq_alt in D|apply Qlt_alt in D|apply Qgt_alt in D];
    try (exfalso; lra); try (destruct (Z.even _)); lia.
Qed.

Lemma round_nonneg q : (0 <= q)%Q -> 0 <= round_even q.
Proof. intros H. pose proof (round_bounds q). pose proof (floor_ge q 0 H). lia. Qed.

Lemma round_le_bound q z : (q < inject_Z z)%Q -> round_even q <= z.
Proof. intros H. pose proof (round_bounds q). pose proof (floor_lt q z H). lia. Qed.

(** ** The parts of a duration *)

Lemma trunc_pos q : (0 <= q)%Q -> trunc q = Qfloor q.
Proof. intros H. unfold trunc. apply Qle_bool_iff in H. now rewrite H. Qed.

Lemma trunc_neg q : (q < 0)%Q -> trunc q = - Qfloor (- q).
Proof.
  intros H. unfold trunc. destruct (Qle_bool 0 q) eqn:E; [|reflexivity].
  apply Qle_bool_iff in E. lra.
Qed.

Lemma int_ok_iff z : int_ok z = true <-> - 2 ^ 31 <= z < 2 ^ 31.
Proof.
  unfold int_ok. rewrite andb_true_iff, Z.leb_le, Z.ltb_lt. reflexivity.
Qed.

Lemma floor_3600 q : (0 <= q)%Q -> Qfloor (q / 3600) = Qfloor (q / 60) / 60.
Proof.
  intros H. apply floor_unique.
  - destruct (floor_bounds (q / 60)) as [A B].
    assert (C : (inject_Z (60 * (Qfloor (q / 60) / 60)) <= inject_Z (Qfloor (q / 60)))%Q).
    { rewrite <- Zle_Qle. apply Z.mul_div_le. lia. }
    rewrite inject_Z_mult in C. change (inject_Z 60) with 60%Q in C.
    set (x := inject_Z (Qfloor (q / 60) / 60)) in *.
    setoid_replace (q / 3600)%Q with ((q / 60) / 60)%Q by field.
    apply Qle_shift_div_l; lra.
  - destruct (floor_bounds (q / 60)) as [A B].
    assert (C : (inject_Z (Qfloor (q / 60) + 1) <= inject_Z (60 * (Qfloor (q / 60) / 60) + 60))%Q).
    { rewrite <- Zle_Qle.
      pose proof (Z.div_mod (Qfloor (q / 60)) 60 ltac:(lia)).
      pose proof (Z.mod_pos_bound (Qfloor (q / 60)) 60 ltac:(lia)). lia. }
    rewrite !inject_Z_plus, inject_Z_mult in C. change (inject_Z 60) with 60%Q in C.
    change (inject_Z 1) with 1%Q in C.
    set (x := inject_Z (Qfloor (q / 60) / 60)) in *.
    setoid_replace (q / 3600)%Q with ((q / 60) / 60)%Q by field.
    apply Qlt_shift_div_r; lra.
Qed.

Lemma fmod60_range q : (0 <= q)%Q -> (0 <= fmod60 q < 60)%Q.
Proof.
  intros H. unfold fmod60.
  assert (H' : (0 <= q / 60)%Q) by (apply Qle_shift_div_l; lra).
  rewrite trunc_pos by assumption.
  destruct (floor_bounds (q / 60)) as [A B].
  rewrite inject_Z_mult. change (inject_Z 60) with 60%Q.
  set (x := inject_Z (Qfloor (q / 60))) in *.
  assert (E : (q == 60 * (q / 60))%Q) by field.
  split; lra.
Qed.

(** The three numbers in the text of a duration. *)
Definition t_min (q : Q) : Z := Qfloor (q / 60).
Definition t_hour (q : Q) : Z := t_min q / 60.
Definition t_micro (q : Q) : Z := round_even (fmod60 q * inject_Z million).

Lemma t_min_nonneg q : (0 <= q)%Q -> 0 <= t_min q.
Proof.
  intros H. apply floor_ge. change (inject_Z 0) with 0%Q. apply Qle_shift_div_l; lra.
Qed.

Lemma t_micro_range q : (0 <= q)%Q -> 0 <= t_micro q <= 60 * million.
Proof.
  intros H. destruct (fmod60_range q H) as [A B]. unfold t_micro. split.
  - apply round_nonneg. change (inject_Z million) with 1000000%Q. lra.
  - apply round_le_bound. rewrite inject_Z_mult. change (inject_Z million) with 1000000%Q.
    change (inject_Z 60) with 60%Q. lra.
Qed.

Lemma defined_pos q : (0 <= q)%Q -> (q < 60 * 2147483648)%Q ->
  time_string q =
    Some (fixed (Nat.max 2 (ndigits (t_hour q))) (t_hour q) ++ [ch_colon] ++
          fixed 2 (t_min q mod 60) ++ [ch_colon] ++
          fixed 2 (t_micro q / million) ++ [ch_dot] ++ fixed 6 (t_micro q mod million)).
Proof.
  intros H K.
  assert (H1 : (0 <= q / 60)%Q) by (apply Qle_shift_div_l; lra).
  assert (H2 : (0 <= q / 3600)%Q) by (apply Qle_shift_div_l; lra).
  assert (M0 : 0 <= t_min q) by now apply t_min_nonneg.
  assert (M1 : t_min q < 2147483648).
  { apply floor_lt. apply Qlt_shift_div_r; [lra|]. change (inject_Z 2147483648) with 2147483648%Q. lra. }
  pose proof (Z.div_mod (t_min q) 60 ltac:(lia)) as D.
  pose proof (Z.mod_pos_bound (t_min q) 60 ltac:(lia)) as D'.
  assert (D0 : 0 <= t_min q / 60) by (apply Z.div_pos; lia).
  unfold time_string. rewrite !trunc_pos, floor_3600 by assumption.
  fold (t_min q). change (t_min q / 60) with (t_hour q) in *.
  assert (O1 : int_ok (t_min q) = true) by (apply int_ok_iff; lia).
  assert (O2 : int_ok (t_hour q) = true) by (apply int_ok_iff; lia).
  assert (O3 : int_ok (t_hour q * 60) = true) by (apply int_ok_iff; lia).
  assert (O4 : int_ok (t_min q - t_hour q * 60) = true) by (apply int_ok_iff; lia).
  rewrite O1, O2, O3, O4. cbn [negb]. f_equal.
  replace (t_min q - t_hour q * 60) with (t_min q mod 60) by lia.
  unfold pad_int.
  destruct (Z.ltb_spec (t_hour q) 0) as [L|_]; [lia|].
  destruct (Z.ltb_spec (t_min q mod 60) 0) as [L|_]; [lia|].
  rewrite (Nat.max_l 2 (ndigits (t_min q mod 60))) by (apply ndigits_le; [lia|change (10 ^ Z.of_nat 2) with 100; lia]).
  do 4 f_equal. unfold pad_fix6.
  destruct (fmod60_range q H) as [F1 F2].
  apply Qle_bool_iff in F1. rewrite F1. cbn [negb app]. fold (t_micro q).
  destruct (t_micro_range q H) as [T1 T2].
  rewrite (Nat.max_l 2 (ndigits (t_micro q / million))); [reflexivity|].
  apply ndigits_le; [lia|]. split; [apply Z.div_pos; unfold million in *; lia|].
  change (10 ^ Z.of_nat 2) with 100; apply Z.div_lt_upper_bound; unfold million in *; lia.
Qed.

(** ** Dictionary order *)

Lemma lex_refl l : lex_le l l.
Proof. induction l; [apply lex_nil|apply lex_eq; assumption]. Qed.

Lemma lex_app c a b : lex_le a b -> lex_le (c ++ a) (c ++ b).
Proof. intros H. induction c; cbn; [assumption|now apply lex_eq]. Qed.

Lemma lex_field w : forall a b x y,
  a mod 10 ^ Z.of_nat w < b mod 10 ^ Z.of_nat w ->
  lex_le (fixed w a ++ x) (fixed w b ++ y).
Proof.
  induction w as [|w IH]; intros a b x y H.
  - change (10 ^ Z.of_nat 0) with 1 in H. rewrite !Z.mod_1_r in H. lia.
  - pose proof (pow10_pos w) as P. rewrite pow10_S, Z.mul_comm in H.
    rewrite !Z.rem_mul_r in H by lia.
    pose proof (Z.mod_pos_bound a _ P). pose proof (Z.mod_pos_bound b _ P).
    cbn [fixed app].
    set (da := (a / 10 ^ Z.of_nat w) mod 10) in *. set (db := (b / 10 ^ Z.of_nat w) mod 10) in *.
    destruct (Z.lt_trichotomy da db) as [L|[L|L]].
    + apply lex_lt. lia.
    + rewrite L. apply lex_eq, IH. rewrite L in H. lia.
    + exfalso. nia.
Qed.

Lemma lex_field_lt w a b x y : 0 <= a -> a < b -> b < 10 ^ Z.of_nat w ->
  lex_le (fixed w a ++ x) (fixed w b ++ y).
Proof. intros A L B. apply lex_field. rewrite !Z.mod_small; lia. Qed.

(** ** Characters *)

Lemma reads_chars l n : reads l n -> Forall (fun c => 48 <= c <= 57) l.
Proof.
  induction 1; [constructor|]. apply Forall_app. split; [assumption|].
  constructor; [lia|constructor].
Qed.

Lemma clock_chars l h m s u : clock l h m s u -> Forall (fun c => 46 <= c <= 58) l.
Proof.
  intros (a & b & c & d & -> & A & B & C & D & _).
  apply reads_chars in A, B, C, D.
  assert (W : forall k, Forall (fun c => 48 <= c <= 57) k -> Forall (fun c => 46 <= c <= 58) k).
  { intros k. apply Forall_impl. intros; lia. }
  repeat (apply Forall_app; split); auto; repeat constructor; lia.
Qed.

(** ** Tags *)

Lemma text_eqb_eq a : forall b, text_eqb a b = true <-> a = b.
Proof.
  induction a as [|x a IH]; intros [|y b]; cbn.
  - split; auto.
  - split; intros E; discriminate E.
  - split; intros E; discriminate E.
  - rewrite andb_true_iff, Z.eqb_eq, IH. split.
    + intros [-> ->]. reflexivity.
    + intros E. injection E as -> ->. auto.
Qed.

Lemma find_tag_none t m : find_tag t m = None -> forall h, ~ In (t, h) m.
Proof.
  induction m as [|[k g] m IH]; cbn; intros F h I; [assumption|].
  destruct (text_eqb t k) eqn:E; [discriminate|].
  destruct I as [I|I].
  - injection I as -> ->. rewrite (proj2 (text_eqb_eq t t) eq_refl) in E. discriminate.
  - now apply (IH F h).
Qed.

Lemma insert_tag_in t h m e : In e (insert_tag t h m) <-> e = (t, h) \/ In e m.
Proof.
  induction m as [|[k g] m IH]; cbn.
  - split; [intros [<-|[]]; auto|intros [->|[]]; auto].
  - destruct (text_ltb t k); cbn.
    + split; [intros [<-|I]; auto|intros [->|I]; auto].
    + rewrite IH. split.
      * intros [<-|[->|I]]; auto.
      * intros [->|[<-|I]]; auto.
Qed.

Lemma insert_tag_keys t h m k : In k (map fst (insert_tag t h m)) <-> k = t \/ In k (map fst m).
Proof.
  rewrite !in_map_iff. split.
  - intros (e & <- & I). apply insert_tag_in in I. destruct I as [->|I]; [now left|].
    right. now exists e.
  - intros [->|(e & <- & I)].
    + exists (t, h). split; [reflexivity|]. apply insert_tag_in. now left.
    + exists e. split; [reflexivity|]. apply insert_tag_in. now right.
Qed.

Lemma insert_tag_nodup t h m :
  ~ In t (map fst m) -> NoDup (map fst m) -> NoDup (map fst (insert_tag t h m)).
Proof.
  induction m as [|[k g] m IH]; cbn; intros N D.
  - repeat constructor. intros [].
  - destruct (text_ltb t k); cbn.
    + constructor; [|assumption]. exact N.
    + inversion D as [|? ? D1 D2]; subst. constructor.
      * rewrite insert_tag_keys. intros [->|I]; [apply N; now left|contradiction].
      * apply IH; [|assumption]. intros I. apply N. now right.
Qed.

Definition reg_ok (r : reg) : Prop :=
  NoDup (map fst (tag_map r)) /\
  (forall t h, In (t, h) (tag_map r) -> (length t <= max_len r)%nat).

Lemma step_ok c r : reg_ok r -> reg_ok (step c r).
Proof.
  intros [D L]. destruct c as [t|]; cbn.
  - unfold get_handle. destruct (find_tag t (tag_map r)) eqn:F; cbn; [split; assumption|].
    split; cbn.
    + apply insert_tag_nodup; [|assumption]. intros I. apply in_map_iff in I.
      destruct I as ([k h] & E & I). cbn in E. subst k. exact (find_tag_none _ _ F h I).
    + intros k h I. apply insert_tag_in in I. destruct I as [E|I].
      * injection E as -> ->. lia.
      * apply L in I. lia.
  - split; cbn; [constructor|intros ? ? []].
Qed.

Lemma run_ok l : reg_ok (run l).
Proof.
  unfold run. assert (G : forall l r, reg_ok r -> reg_ok (fold_left (fun r c => step c r) l r)).
  { induction l0 as [|c l0 IH]; cbn; intros r O; [assumption|]. now apply IH, step_ok. }
  apply G. split; cbn; [constructor|intros ? ? []].
Qed.

Lemma label_clean t : ~ In ch_colon t -> ~ In ch_hash t -> label t = t.
Proof.
  intros A B. unfold label, replace_ch. rewrite map_map. rewrite <- (map_id t) at 2.
  apply map_ext_in. intros c I.
  destruct (Z.eqb_spec c ch_colon) as [->|_]; [contradiction|].
  destruct (Z.eqb_spec c ch_hash) as [->|_]; [contradiction|reflexivity].
Qed.

Lemma some_inj (a b : text) : Some a = Some b -> a = b.
Proof. congruence. Qed.

Lemma reads_value l n : reads l n -> n = fold_left (fun a c => 10 * a + (c - 48)) l 0.
Proof.
  induction 1 as [|l d n R IH D]; [reflexivity|].
  rewrite fold_left_app, <- IH. cbn [fold_left]. lia.
Qed.

Lemma reads_fun l n n' : reads l n -> reads l n' -> n = n'.
Proof. intros A B. now rewrite (reads_value l n A), (reads_value l n' B). Qed.
