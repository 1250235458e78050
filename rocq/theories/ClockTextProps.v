(** C124: the texts of the timing registry say what was measured. *)

From Coq Require Import ZArith QArith Qround Qabs List Lia Lqa Bool Sorting.Sorted.
From Verif Require Import ClockTextModel ClockTextSpec ClockTextProofs.
Import ListNotations.
Open Scope Z_scope.

(** The text of every duration from zero on (below 2^31 minutes) is a clock text
    that stands for it up to half a microsecond, with minutes below sixty. *)
Theorem tsx_clock : forall q, (0 <= q)%Q -> (q < 60 * 2147483648)%Q ->
  exists l h m s u,
    time_string q = Some l /\ clock l h m s u /\
    (Qabs (clock_value h m s u - q) <= 1 # 2000000)%Q /\ 0 <= m < 60 /\ 0 <= s <= 60.
Proof.
  intros q H K. rewrite (defined_pos q H K).
  eexists. exists (t_hour q), (t_min q mod 60), (t_micro q / million), (t_micro q mod million).
  split; [reflexivity|].
  pose proof (t_min_nonneg q H) as M.
  pose proof (Z.div_mod (t_min q) 60 ltac:(lia)) as D.
  pose proof (Z.mod_pos_bound (t_min q) 60 ltac:(lia)) as D'.
  assert (D0 : 0 <= t_hour q) by (apply Z.div_pos; lia).
  destruct (t_micro_range q H) as [T1 T2].
  assert (U : t_micro q = million * (t_micro q / million) + t_micro q mod million)
    by (apply Z.div_mod; unfold million; lia).
  assert (U' : 0 <= t_micro q mod million < million) by (apply Z.mod_pos_bound; unfold million; lia).
  assert (S0 : 0 <= t_micro q / million) by (apply Z.div_pos; unfold million; lia).
  assert (S1 : t_micro q / million <= 60) by (unfold million in *; lia).
  split; [|split; [|lia]].
  - eexists _, _, _, _. split; [reflexivity|].
    split; [|split; [|split; [|split; [|split; [|split; [|split]]]]]]; rewrite ?fixed_len; try lia.
    + apply fixed_reads. split; [assumption|].
      pose proof (ndigits_ub (t_hour q) D0).
      eapply Z.lt_le_trans; [eassumption|]. apply Z.pow_le_mono_r; lia.
    + apply fixed_reads. change (10 ^ Z.of_nat 2) with 100. lia.
    + apply fixed_reads. change (10 ^ Z.of_nat 2) with 100. lia.
    + apply fixed_reads. change (10 ^ Z.of_nat 6) with million. lia.
  - pose proof (round_near (fmod60 q * inject_Z million)) as [N1 N2]. fold (t_micro q) in N1, N2.
    assert (V : (clock_value (t_hour q) (t_min q mod 60) (t_micro q / million) (t_micro q mod million)
                 == inject_Z (60 * t_min q) + inject_Z (t_micro q) / 1000000)%Q).
    { unfold clock_value.
      replace (3600 * t_hour q + 60 * (t_min q mod 60) + t_micro q / million)
        with (60 * t_min q + t_micro q / million) by (unfold t_hour; lia).
      rewrite U at 3. rewrite !inject_Z_plus, !inject_Z_mult.
      change (inject_Z million) with 1000000%Q. field. }
    rewrite V. clear V.
    assert (F : (fmod60 q == q - inject_Z (60 * t_min q))%Q).
    { unfold fmod60. rewrite trunc_pos by (apply Qle_shift_div_l; lra). reflexivity. }
    change (inject_Z million) with 1000000%Q in *. rewrite F in N1, N2.
    set (c := inject_Z (60 * t_min q)) in *. set (u := inject_Z (t_micro q)) in *.
    apply Qabs_case; intros _.
    + setoid_replace (c + u / 1000000 - q)%Q with ((u - (q - c) * 1000000) / 1000000)%Q by field.
      apply Qle_shift_div_r; [lra|]. lra.
    + setoid_replace (- (c + u / 1000000 - q))%Q with (((q - c) * 1000000 - u) / 1000000)%Q by field.
      apply Qle_shift_div_r; [lra|]. lra.
Qed.

(** One hour, two minutes, three and a half seconds. *)
Example tsx_clock_ex :
  time_string (7447 # 2) = Some [48;49;58; 48;50;58; 48;51;46;53;48;48;48;48;48] /\
  (0 <= 7447 # 2)%Q /\ (7447 # 2 < 60 * 2147483648)%Q.
Proof. split; [reflexivity|split; reflexivity || discriminate]. Qed.
Print Assumptions tsx_clock.

(** The seconds are below sixty unless the duration is within half a microsecond of
    the next minute ... *)
Theorem tsx_below_sixty : forall q l h m s u, (0 <= q)%Q -> (q < 60 * 2147483648)%Q ->
  (fmod60 q <= 60 - (1 # 1000000))%Q ->
  time_string q = Some l -> clock l h m s u -> s < 60.
Proof.
  intros q l h m s u H K F E C. rewrite (defined_pos q H K) in E. apply some_inj in E. rewrite <- E in *. clear E.
  assert (T : t_micro q <= 60 * million - 1).
  { transitivity (round_even (inject_Z (60 * million - 1))).
    - apply round_mono. change (inject_Z (60 * million - 1)) with 59999999%Q.
      change (inject_Z million) with 1000000%Q. lra.
    - unfold round_even. rewrite Qfloor_Z. vm_compute. discriminate. }
  destruct (t_micro_range q H) as [T1 _].
  destruct C as (a & b & c & d & E & A & B & CC & D & LA & LB & LC & LD).
  assert (TL : forall (x y x' y' : list Z), length y = length y' -> x ++ y = x' ++ y' -> x = x' /\ y = y').
  { intros x y x' y' L Q. assert (length x = length x').
    { apply (f_equal (@length Z)) in Q. rewrite !app_length in Q. lia. }
    revert x' Q H0. induction x as [|e x IH]; intros [|e' x'] Q N; cbn in N; try lia; cbn in Q.
    - auto.
    - injection Q as -> Q. destruct (IH x' Q) as [-> ->]; [lia|auto]. }
  rewrite !app_assoc in E.
  apply TL in E; [|rewrite fixed_len; lia]. destruct E as [E _].
  apply TL in E; [|reflexivity]. destruct E as [E _].
  apply TL in E; [|rewrite fixed_len; lia]. destruct E as [_ E]. subst c.
  assert (R : reads (fixed 2 (t_micro q / million)) (t_micro q / million)).
  { apply fixed_reads. change (10 ^ Z.of_nat 2) with 100. split; [apply Z.div_pos; unfold million; lia|].
    apply Z.div_lt_upper_bound; unfold million in *; lia. }
  rewrite (reads_fun _ _ _ CC R).
  apply Z.div_lt_upper_bound; unfold million in *; lia.
Qed.

Example tsx_below_sixty_ex : (fmod60 (7447 # 2) <= 60 - (1 # 1000000))%Q.
Proof. vm_compute. discriminate. Qed.
Print Assumptions tsx_below_sixty.

(** ... where the text shows sixty seconds: 59.9999999 s is "00:00:60.000000". *)
Theorem tsx_sixty_refuted : exists q l,
  (0 <= q)%Q /\ (q < 60)%Q /\ time_string q = Some l /\ clock l 0 0 60 0.
Proof.
  exists (599999999 # 10000000), [48;48;58; 48;48;58; 54;48;46; 48;48;48;48;48;48].
  split; [discriminate|split; [reflexivity|split; [reflexivity|]]].
  exists (fixed 2 0), (fixed 2 0), (fixed 2 60), (fixed 6 0).
  split; [reflexivity|].
  split; [|split; [|split; [|split]]]; try (apply fixed_reads; vm_compute; split; [discriminate|reflexivity]).
  vm_compute. repeat split; lia.
Qed.
Print Assumptions tsx_sixty_refuted.

(** Below a hundred hours the texts sort like the durations ... *)
Theorem tsx_order : forall p q lp lq, (0 <= p)%Q -> (p <= q)%Q -> (q < 360000)%Q ->
  time_string p = Some lp -> time_string q = Some lq -> lex_le lp lq.
Proof.
  intros p q lp lq P PQ Q Ep Eq.
  assert (Q0 : (0 <= q)%Q) by lra.
  rewrite defined_pos in Ep by lra. rewrite defined_pos in Eq by lra.
  apply some_inj in Ep. rewrite <- Ep. clear Ep. apply some_inj in Eq. rewrite <- Eq. clear Eq.
  pose proof (t_min_nonneg p P) as MP. pose proof (t_min_nonneg q Q0) as MQ.
  assert (M : t_min p <= t_min q).
  { apply Qfloor_resp_le. apply Qle_shift_div_l; [lra|].
    setoid_replace (p / 60 * 60)%Q with p by field. exact PQ. }
  assert (B : t_min q < 6000).
  { apply floor_lt. apply Qlt_shift_div_r; [lra|]. change (inject_Z 6000) with 6000%Q. lra. }
  pose proof (Z.div_mod (t_min p) 60 ltac:(lia)) as Dp. pose proof (Z.mod_pos_bound (t_min p) 60 ltac:(lia)).
  pose proof (Z.div_mod (t_min q) 60 ltac:(lia)) as Dq. pose proof (Z.mod_pos_bound (t_min q) 60 ltac:(lia)).
  fold (t_hour p) in Dp. fold (t_hour q) in Dq.
  assert (HP : 0 <= t_hour p < 100) by lia. assert (HQ : 0 <= t_hour q < 100) by lia.
  rewrite (Nat.max_l 2 (ndigits (t_hour p))) by (apply ndigits_le; [lia|change (10 ^ Z.of_nat 2) with 100; lia]).
  rewrite (Nat.max_l 2 (ndigits (t_hour q))) by (apply ndigits_le; [lia|change (10 ^ Z.of_nat 2) with 100; lia]).
  destruct (Z.eq_dec (t_hour p) (t_hour q)) as [E|E].
  2:{ apply lex_field_lt; [lia|lia|change (10 ^ Z.of_nat 2) with 100; lia]. }
  rewrite E. apply lex_app, lex_eq. cbn [app].
  destruct (Z.eq_dec (t_min p mod 60) (t_min q mod 60)) as [F|F].
  2:{ apply lex_field_lt; [lia|lia|change (10 ^ Z.of_nat 2) with 100; lia]. }
  rewrite F. apply lex_app, lex_eq. cbn [app].
  assert (G : t_min p = t_min q) by lia.
  assert (U : t_micro p <= t_micro q).
  { apply round_mono. unfold fmod60.
    rewrite !trunc_pos by (apply Qle_shift_div_l; lra).
    fold (t_min p). fold (t_min q). rewrite G. change (inject_Z million) with 1000000%Q. lra. }
  destruct (t_micro_range p P) as [TP TP']. destruct (t_micro_range q Q0) as [TQ TQ'].
  assert (UP : t_micro p = million * (t_micro p / million) + t_micro p mod million)
    by (apply Z.div_mod; unfold million; lia).
  assert (UQ : t_micro q = million * (t_micro q / million) + t_micro q mod million)
    by (apply Z.div_mod; unfold million; lia).
  assert (UP' : 0 <= t_micro p mod million < million) by (apply Z.mod_pos_bound; unfold million; lia).
  assert (UQ' : 0 <= t_micro q mod million < million) by (apply Z.mod_pos_bound; unfold million; lia).
  destruct (Z.eq_dec (t_micro p / million) (t_micro q / million)) as [I|I].
  2:{ apply lex_field_lt; [|unfold million in *; lia|change (10 ^ Z.of_nat 2) with 100; unfold million in *; lia].
      apply Z.div_pos; unfold million; lia. }
  rewrite I. apply lex_app, lex_eq.
  destruct (Z.eq_dec (t_micro p mod million) (t_micro q mod million)) as [J|J].
  { rewrite J. apply lex_refl. }
  rewrite <- (app_nil_r (fixed 6 (t_micro p mod million))).
  rewrite <- (app_nil_r (fixed 6 (t_micro q mod million))).
  apply lex_field_lt; [lia|lia|change (10 ^ Z.of_nat 6) with million; lia].
Qed.

(** The last instant of a minute shows sixty seconds and still sorts before the
    next minute. *)
Example tsx_order_ex :
  time_string (599999999 # 10000000) = Some [48;48;58; 48;48;58; 54;48;46; 48;48;48;48;48;48] /\
  time_string 60 = Some [48;48;58; 48;49;58; 48;48;46; 48;48;48;48;48;48] /\
  (599999999 # 10000000 <= 60)%Q.
Proof. repeat split; reflexivity || discriminate. Qed.
Print Assumptions tsx_order.

(** ... but a hundred hours sort before ninety nine. *)
Theorem tsx_order_refuted : exists p q lp lq,
  (0 <= p)%Q /\ (p < q)%Q /\ time_string p = Some lp /\ time_string q = Some lq /\ ~ lex_le lp lq.
Proof.
  exists 356400%Q, 360000%Q. eexists _, _.
  split; [discriminate|split; [reflexivity|split; [vm_compute; reflexivity|split; [vm_compute; reflexivity|]]]].
  intros L. inversion L; lia.
Qed.
Print Assumptions tsx_order_refuted.

(** The text is defined exactly when the minutes fit an int: the other three
    computations add no undefined case. *)
Theorem tsx_defined : forall q,
  time_string q <> None <-> (- (60 * 2147483649) < q /\ q < 60 * 2147483648)%Q.
Proof.
  assert (NEG : forall x, (x < 0)%Q -> int_ok (trunc (x / 60)) = true <-> (- (60 * 2147483649) < x)%Q).
  { intros x X. rewrite int_ok_iff.
    rewrite trunc_neg by (apply Qlt_shift_div_r; lra).
    assert (X' : (0 <= - (x / 60))%Q).
    { setoid_replace (- (x / 60))%Q with ((- x) / 60)%Q by field. apply Qle_shift_div_l; lra. }
    pose proof (floor_ge _ 0 X') as F0.
    assert (E : (x == - (60 * - (x / 60)))%Q) by field.
    set (y := (- (x / 60))%Q) in *.
    destruct (floor_bounds y) as [A B].
    split.
    - intros [L _]. assert (Z1 : Qfloor y <= 2147483648) by lia.
      rewrite Zle_Qle in Z1. change (inject_Z 2147483648) with 2147483648%Q in Z1. lra.
    - intros L. split; [|lia].
      assert (Z1 : Qfloor y < 2147483649).
      { apply floor_lt. change (inject_Z 2147483649) with 2147483649%Q. lra. }
      lia. }
  intros q. destruct (Qlt_le_dec q 0) as [S|S].
  - pose proof (NEG q S) as N. unfold time_string. split.
    + intros D. destruct (int_ok (trunc (q / 60))) eqn:O; [|now elim D].
      split; [now apply N|lra].
    + intros [L _]. rewrite (proj2 N L). cbn [negb].
      assert (Y : (0 <= - q)%Q) by lra.
      pose proof (floor_3600 (- q) Y) as F.
      rewrite !trunc_neg by (apply Qlt_shift_div_r; lra).
      assert (Q1 : Qfloor (- (q / 3600)) = Qfloor (- q / 3600)) by (apply Qfloor_comp; field).
      assert (Q2 : Qfloor (- (q / 60)) = Qfloor (- q / 60)) by (apply Qfloor_comp; field).
      rewrite Q1, Q2, F. fold (t_min (- q)).
      pose proof (t_min_nonneg (- q) Y) as M0.
      assert (M1 : t_min (- q) < 2147483649).
      { apply floor_lt. apply Qlt_shift_div_r; [lra|].
        change (inject_Z 2147483649) with 2147483649%Q. lra. }
      pose proof (Z.div_mod (t_min (- q)) 60 ltac:(lia)) as D.
      pose proof (Z.mod_pos_bound (t_min (- q)) 60 ltac:(lia)) as D'.
      assert (D0 : 0 <= t_min (- q) / 60) by (apply Z.div_pos; lia).
      rewrite (proj2 (int_ok_iff (- (t_min (- q) / 60)))) by lia.
      rewrite (proj2 (int_ok_iff (- (t_min (- q) / 60) * 60))) by lia.
      rewrite (proj2 (int_ok_iff (- t_min (- q) - - (t_min (- q) / 60) * 60))) by lia.
      discriminate.
  - split.
    + intros D. split; [lra|]. destruct (Qlt_le_dec q (60 * 2147483648)) as [L|L]; [assumption|].
      elim D. unfold time_string.
      assert (H1 : (0 <= q / 60)%Q) by (apply Qle_shift_div_l; lra).
      assert (O : int_ok (trunc (q / 60)) = false).
      { destruct (int_ok (trunc (q / 60))) eqn:O; [|reflexivity]. apply int_ok_iff in O.
        rewrite trunc_pos in O by assumption.
        assert (G : 2147483648 <= Qfloor (q / 60)).
        { apply floor_ge. change (inject_Z 2147483648) with 2147483648%Q.
          apply Qle_shift_div_l; lra. }
        lia. }
      rewrite O. reflexivity.
    + intros [_ L]. rewrite (defined_pos q S L). discriminate.
Qed.

Example tsx_defined_ex :
  time_string (- (3661)) <> None /\ time_string (60 * 2147483648) = None.
Proof. split; [discriminate|reflexivity]. Qed.
Print Assumptions tsx_defined.

(** The buffer of 256 characters is large enough. *)
Theorem tsx_length : forall q l, time_string q = Some l -> (0 <= q)%Q -> (length l <= 21)%nat.
Proof.
  intros q l E H. assert (D : time_string q <> None) by (rewrite E; discriminate).
  apply tsx_defined in D. destruct D as [_ K]. rewrite (defined_pos q H K) in E. apply some_inj in E. rewrite <- E in *. clear E.
  rewrite !app_length, !fixed_len. cbn [length].
  assert (N : (ndigits (t_hour q) <= 8)%nat).
  { pose proof (t_min_nonneg q H) as M0.
    assert (M1 : t_min q < 2147483648).
    { apply floor_lt. apply Qlt_shift_div_r; [lra|].
      change (inject_Z 2147483648) with 2147483648%Q. lra. }
    apply ndigits_le; [lia|]. change (10 ^ Z.of_nat 8) with 100000000. unfold t_hour.
    split; [apply Z.div_pos; lia|apply Z.div_lt_upper_bound; lia]. }
  lia.
Qed.

Example tsx_length_ex : exists l, time_string (128849018879) = Some l /\ length l = 21%nat.
Proof. eexists. split; [vm_compute; reflexivity|reflexivity]. Qed.
Print Assumptions tsx_length.

(** Every defined text gives the duration when each field is read with its sign. *)
Theorem tsx_signed : forall q l, time_string q = Some l ->
  exists a b c h m v, l = a ++ [58] ++ b ++ [58] ++ c /\
    signed a h /\ signed b m /\ seconds_text c v /\
    (Qabs (inject_Z (3600 * h + 60 * m) + inject_Z v / 1000000 - q) <= 1 # 2000000)%Q.
Proof.
  assert (SI : forall w n, signed (pad_int w n) n).
  { intros w n. unfold pad_int. destruct (Z.ltb_spec n 0) as [N|N].
    - rewrite <- (Z.opp_involutive n) at 3. apply signed_minus, fixed_reads. split; [lia|].
      eapply Z.lt_le_trans; [apply (ndigits_ub (- n)); lia|]. apply Z.pow_le_mono_r; lia.
    - apply signed_plus, fixed_reads. split; [lia|].
      eapply Z.lt_le_trans; [apply (ndigits_ub n); lia|]. apply Z.pow_le_mono_r; lia. }
  assert (SS : forall x, exists v, seconds_text (pad_fix6 x) v /\
            (Qabs (inject_Z v / 1000000 - x) <= 1 # 2000000)%Q).
  { intros x. unfold pad_fix6.
    assert (G : forall y, (0 <= y)%Q -> forall w,
              let u := round_even (y * inject_Z million) in
              reads (fixed (Nat.max w (ndigits (u / million))) (u / million)) (u / million) /\
              reads (fixed 6 (u mod million)) (u mod million) /\
              (Qabs (inject_Z (1000000 * (u / million) + u mod million) / 1000000 - y) <= 1 # 2000000)%Q).
    { intros y Y w u. assert (U0 : 0 <= u).
      { apply round_nonneg. change (inject_Z million) with 1000000%Q. lra. }
      assert (D0 : 0 <= u / million) by (apply Z.div_pos; unfold million; lia).
      split; [|split].
      - apply fixed_reads. split; [assumption|]. eapply Z.lt_le_trans; [apply ndigits_ub; assumption|].
        apply Z.pow_le_mono_r; lia.
      - apply fixed_reads. change (10 ^ Z.of_nat 6) with million. apply Z.mod_pos_bound. unfold million; lia.
      - change 1000000 with million at 1. rewrite <- Z.div_mod by (unfold million; lia).
        destruct (round_near (y * inject_Z million)) as [N1 N2]. fold u in N1, N2.
        change (inject_Z million) with 1000000%Q in N1, N2. set (z := inject_Z u) in *.
        apply Qabs_case; intros _.
        + setoid_replace (z / 1000000 - y)%Q with ((z - y * 1000000) / 1000000)%Q by field.
          apply Qle_shift_div_r; [lra|]. lra.
        + setoid_replace (- (z / 1000000 - y))%Q with ((y * 1000000 - z) / 1000000)%Q by field.
          apply Qle_shift_div_r; [lra|]. lra. }
    destruct (Qle_bool 0 x) eqn:S; cbn [negb].
    - apply Qle_bool_iff in S. destruct (G x S 2%nat) as (A & B & C).
      eexists. split; [apply seconds_plus; [exact A|exact B|apply fixed_len]|exact C].
    - assert (X : (0 <= - x)%Q).
      { destruct (Qlt_le_dec x 0) as [L|L]; [lra|]. apply Qle_bool_iff in L. congruence. }
      destruct (G (- x)%Q X 1%nat) as (A & B & C).
      eexists. split; [apply seconds_minus; [exact A|exact B|apply fixed_len]|].
      revert C. set (k := 1000000 * _ + _). intros C. rewrite inject_Z_opp.
      setoid_replace (- inject_Z k / 1000000 - x)%Q with (- (inject_Z k / 1000000 - - x))%Q by field.
      rewrite Qabs_opp. exact C. }
  intros q l E. unfold time_string in E.
  destruct (negb (int_ok (trunc (q / 60)))); [discriminate|].
  destruct (negb (int_ok (trunc (q / 3600)))); [discriminate|].
  destruct (negb (int_ok (trunc (q / 3600) * 60))); [discriminate|].
  destruct (negb (int_ok (trunc (q / 60) - trunc (q / 3600) * 60))); [discriminate|].
  apply some_inj in E. destruct (SS (fmod60 q)) as (v & V & W).
  exists (pad_int 2 (trunc (q / 3600))), (pad_int 2 (trunc (q / 60) - trunc (q / 3600) * 60)), (pad_fix6 (fmod60 q)).
  exists (trunc (q / 3600)), (trunc (q / 60) - trunc (q / 3600) * 60), v.
  split; [symmetry; exact E|]. split; [apply SI|]. split; [apply SI|]. split; [exact V|].
  replace (3600 * trunc (q / 3600) + 60 * (trunc (q / 60) - trunc (q / 3600) * 60)) with (60 * trunc (q / 60)) by lia.
  unfold fmod60 in W. set (t := inject_Z (60 * trunc (q / 60))) in *.
  setoid_replace (t + inject_Z v / 1000000 - q)%Q with (inject_Z v / 1000000 - (q - t))%Q by ring. exact W.
Qed.

Example tsx_signed_ex :
  time_string (- (7447 # 2)) = Some [45;49;58; 45;50;58; 45;51;46;53;48;48;48;48;48].
Proof. reflexivity. Qed.
Print Assumptions tsx_signed.

(** A negative duration (the system clock was set back between Start and Stop) gives
    a text that is no clock text: -90 s is "00:-1:-30.000000". *)
Theorem tsx_negative_refuted : exists q l,
  time_string q = Some l /\ forall h m s u, ~ clock l h m s u.
Proof.
  exists (- (90))%Q. eexists. split; [vm_compute; reflexivity|].
  intros h m s u C. apply clock_chars in C.
  rewrite Forall_forall in C. specialize (C 45 ltac:(cbn; tauto)). lia.
Qed.
Print Assumptions tsx_negative_refuted.

(** ** The table *)

Lemma tab_at_spaces n l : tab_at (repeat ch_space n ++ ch_tab :: l) n.
Proof. induction n; cbn; constructor; [discriminate|assumption]. Qed.

Lemma tab_at_app t l n : ~ In 9 t -> tab_at l n -> tab_at (t ++ l) (length t + n).
Proof.
  induction t as [|c t IH]; cbn; intros N H; [assumption|].
  constructor; [intros ->; apply N; now left|]. apply IH; [|assumption]. intros I. apply N. now right.
Qed.

(** Whatever was asked for before, the first column of all rows ends at the same place,
    and so does the second while the counts have at most seven digits. *)
Theorem tsx_columns : forall l t h n, In (t, h) (tag_map (run l)) -> ~ In 9 t ->
  0 <= n < 10000000 ->
  tab_at (row_head (run l) t n) (max_len (run l)) /\
  length (row_head (run l) t n) = (max_len (run l) + 9)%nat.
Proof.
  intros l t h n I T N. destruct (run_ok l) as [_ L]. apply L in I.
  unfold row_head. split.
  - replace (max_len (run l)) with (length t + (max_len (run l) - length t))%nat at 2 by lia.
    apply tab_at_app; [assumption|]. cbn [app]. apply tab_at_spaces.
  - rewrite !app_length, !repeat_length, fixed_len. cbn [length].
    assert (ndigits n <= 7)%nat by (apply ndigits_le; [lia|change (10 ^ Z.of_nat 7) with 10000000; lia]).
    lia.
Qed.

Example tsx_columns_ex :
  let r := run [CGet [98;98]; CReset; CGet [97]] in
  tag_map r = [([97], 1%nat)] /\ max_len r = 2%nat /\
  row_head r [97] 12 = [97;32;9; 32;32;32;32;32;49;50;9].
Proof. repeat split. Qed.
Print Assumptions tsx_columns.

(** The rows of the report and the blocks of the file are in dictionary order. *)
Lemma text_ltb_lex a b : (text_ltb a b = true -> lex_le a b) /\ (text_ltb a b = false -> lex_le b a).
Proof.
  revert b. induction a as [|x a IH]; intros [|y b]; cbn; split; intros H; try discriminate; try (constructor; fail).
  - destruct (Z.ltb_spec x y); [constructor; assumption|]. cbn in H. destruct (Z.eqb_spec x y) as [->|]; [|discriminate]. apply lex_eq. now apply IH.
  - destruct (Z.ltb_spec x y); [discriminate|]. cbn in H. destruct (Z.eqb_spec x y) as [->|]; [apply lex_eq; now apply IH|constructor; lia].
Qed.
Lemma lex_le_trans a b c : lex_le a b -> lex_le b c -> lex_le a c.
Proof.
  intros H. revert c. induction H as [b|x y a b L|x a b H IH]; intros c K; [constructor|inversion K; subst; constructor; lia|].
  inversion K; subst; [constructor; assumption|]. apply lex_eq. now apply IH.
Qed.
Lemma insert_tag_sorted t h m : StronglySorted lex_le (map fst m) -> StronglySorted lex_le (map fst (insert_tag t h m)).
Proof.
  induction m as [|[k g] m IH]; cbn; intros S; [repeat constructor|]. inversion S as [|? ? S1 S2]; subst.
  destruct (text_ltb t k) eqn:E; cbn.
  - apply text_ltb_lex in E. constructor; [exact S|]. constructor; [exact E|]. eapply Forall_impl; [|exact S2]. intros c. apply lex_le_trans. exact E.
  - apply text_ltb_lex in E. constructor; [apply IH; assumption|]. apply Forall_forall. intros c I. apply insert_tag_keys in I as [->|I]; [exact E|]. rewrite Forall_forall in S2. now apply S2.
Qed.
Theorem tsx_sorted : forall l, StronglySorted lex_le (map fst (tag_map (run l))).
Proof.
  intros l. unfold run. assert (K : StronglySorted lex_le (map fst (tag_map reg0))) by constructor. revert K. generalize reg0.
  induction l as [|c l IH]; intros r K; cbn [fold_left]; [exact K|]. apply IH. destruct c as [t|]; cbn [step]; [|constructor].
  unfold get_handle. destruct (find_tag t (tag_map r)); cbn; [exact K|]. apply insert_tag_sorted, K.
Qed.
Print Assumptions tsx_sorted.
Example tsx_sorted_ex : map fst (tag_map (run [CGet [97;98]; CGet [98]; CGet [97]; CGet [97;97]])) = [[97]; [97;97]; [97;98]; [98]].
Proof. reflexivity. Qed.

(** A count of eight digits moves its row. *)
Theorem tsx_columns_refuted : exists r t n,
  In (t, O) (tag_map r) /\ 0 <= n /\ length (row_head r t n) <> length (row_head r t 1).
Proof.
  exists (run [CGet [97]]), [97], 10000000. split; [now left|split; [lia|vm_compute; discriminate]].
Qed.
Print Assumptions tsx_columns_refuted.

(** Asking for the statistics of an unknown tag adds a row to the table. *)
Theorem tsx_query_refuted : exists r t, find_tag t (tag_map r) = None /\
  tag_map (snd (get_handle t r)) <> tag_map r.
Proof. exists reg0, [97]. split; [reflexivity|discriminate]. Qed.
Print Assumptions tsx_query_refuted.

(** ** The YAML file *)

Section Yaml.
  Context {A : Type}.
  Variables (stats : nat -> A) (samples : nat -> nat).

  (** A reader finds under the label of a tag with samples the numbers of that tag, if
      no other tag with samples has the same label. *)
  Theorem tsx_yaml : forall l t h open old,
    In (t, h) (tag_map (run l)) -> (0 < samples h)%nat -> open = true ->
    (forall t' h', In (t', h') (tag_map (run l)) -> (0 < samples h')%nat ->
                   label t' = label t -> h' = h) ->
    exists f, write_yaml stats samples open old (run l) = Some f /\ finds f (label t) (stats h).
  Proof.
    intros l t h open old I S O U. exists (blocks stats samples (tag_map (run l))).
    unfold write_yaml. rewrite O. split.
    - destruct (tag_map (run l)); [destruct I|reflexivity].
    - unfold blocks. revert I U. generalize (tag_map (run l)). intros m. clear l.
      induction m as [|[k g] m IH]; intros I U; [destruct I|]. cbn [filter snd].
      assert (R : In (t, h) m -> finds (map (fun e => (label (fst e), stats (snd e)))
                    (filter (fun e => Nat.ltb 0 (samples (snd e))) m)) (label t) (stats h)).
      { intros J. apply IH; [assumption|]. intros t' h' K. apply U. now right. }
      destruct (Nat.ltb_spec 0 (samples g)) as [G|G]; cbn [map fst snd].
      + destruct (list_eq_dec Z.eq_dec (label t) (label k)) as [E|E].
        * rewrite E. rewrite <- (U k g (or_introl eq_refl) G (eq_sym E)). constructor.
        * apply finds_later; [assumption|]. apply R. destruct I as [J|J]; [|assumption].
          injection J as -> ->. now elim E.
      + apply R. destruct I as [J|J]; [|assumption]. injection J as -> ->. lia.
  Qed.

  (** In particular if no tag has a colon or a hash, and then the label is the tag. *)
  Theorem tsx_yaml_plain : forall l t h old,
    (forall t' h', In (t', h') (tag_map (run l)) -> ~ In 58 t' /\ ~ In 35 t') ->
    In (t, h) (tag_map (run l)) -> (0 < samples h)%nat ->
    exists f, write_yaml stats samples true old (run l) = Some f /\ finds f t (stats h).
  Proof.
    intros l t h old P I S. destruct (P t h I) as [P1 P2].
    assert (G : exists f, write_yaml stats samples true old (run l) = Some f /\ finds f (label t) (stats h)).
    2:{ rewrite (label_clean t P1 P2) in G. exact G. }
    apply tsx_yaml; [assumption|assumption|reflexivity|].
    intros t' h' I' _ E. destruct (P t' h' I') as [P1' P2'].
    rewrite (label_clean t P1 P2), (label_clean t' P1' P2') in E. subst t'.
    destruct (run_ok l) as [D _]. clear - D I I'. induction (tag_map (run l)) as [|[k g] m IH]; [destruct I|].
    inversion D as [|? ? D1 D2]; subst.
    destruct I as [E1|I]; destruct I' as [E2|I'].
    - congruence.
    - injection E1 as -> ->. elim D1. apply in_map_iff. now exists (t, h').
    - injection E2 as -> ->. elim D1. apply in_map_iff. now exists (t, h).
    - now apply IH.
  Qed.

  (** A file that is written has no block of a tag that has no samples. *)
  Theorem tsx_yaml_only : forall l k v old f,
    tag_map (run l) <> [] -> write_yaml stats samples true old (run l) = Some f -> In (k, v) f ->
    exists t h, In (t, h) (tag_map (run l)) /\ (0 < samples h)%nat /\ k = label t /\ v = stats h.
  Proof.
    intros l k v old f N W I. unfold write_yaml in W.
    destruct (tag_map (run l)) as [|e m] eqn:M; [now elim N|]. injection W as <-.
    unfold blocks in I. apply in_map_iff in I. destruct I as ([t h] & E & J).
    apply filter_In in J. destruct J as [J S]. cbn [fst snd] in E, S. apply Nat.ltb_lt in S.
    exists t, h. injection E as <- <-. auto.
  Qed.
End Yaml.

Example tsx_yaml_ex :
  let r := run [CGet [98]; CGet [97;58;99]; CGet [97]] in
  tag_map r = [([97], 2%nat); ([97;58;99], 1%nat); ([98], 0%nat)] /\
  write_yaml (fun h => h) (fun h => h) true None r
    = Some [([97], 2%nat); ([97;95;99], 1%nat)].
Proof. split; reflexivity. Qed.
Print Assumptions tsx_yaml.
Print Assumptions tsx_yaml_plain.
Print Assumptions tsx_yaml_only.

(** Two tags that differ in a colon and a hash share a key, and the reader gets the
    numbers of the other one. *)
Theorem tsx_yaml_refuted : exists l t h f,
  In (t, h) (tag_map (run l)) /\
  write_yaml (fun h => h) (fun _ => 1%nat) true None (run l) = Some f /\
  ~ finds f (label t) h.
Proof.
  exists [CGet [97;58;98]; CGet [97;35;98]], [97;58;98], 0%nat.
  eexists. split; [vm_compute; tauto|split; [vm_compute; reflexivity|]].
  intros F. inversion F; subst. match goal with H : _ <> _ |- _ => now elim H end.
Qed.
Print Assumptions tsx_yaml_refuted.

(** After a Reset the file of the earlier run stays as it is. *)
Theorem tsx_stale_refuted : exists (l : list call) (f : list (text * nat)),
  f <> [] /\ tag_map (run l) = [] /\
  write_yaml (fun h => h) (fun _ => 1%nat) true (Some f) (run l) = Some f.
Proof.
  exists [CGet [97]; CReset], [([97], 0%nat)]. split; [discriminate|split; reflexivity].
Qed.
Print Assumptions tsx_stale_refuted.
