(** C85, C86: matrices survive being written to YAML and read back; documents are read as what they mean or not at all. *)
From Coq Require Import ZArith List Bool Lia.
From Verif Require Import YamlMatrixModel YamlMatrixSpec.
Import ListNotations.
Local Open Scope Z_scope.

Lemma Forall2_length {A B} (R : A -> B -> Prop) l r : Forall2 R l r -> length l = length r.
Proof. induction 1; cbn; congruence. Qed.
Section Proofs.
Context {T S : Type} (c : codec T S).

Lemma as_scalar_done n x : as_scalar c n = Done x <-> number c n x.
Proof.
  unfold number. split.
  - destruct n as [|t|l|a b d]; cbn; try discriminate. destruct (get c t) eqn:E; [|discriminate]. intros [= ->]. exists t. split; [reflexivity|exact E].
  - intros (t & -> & E). cbn. rewrite E. reflexivity.
Qed.
Lemma read_coeffs_done f l r : Forall2 (fun n x => f n = Done x) l r -> forall it, read_coeffs f (length r) (l ++ it) = @Done (list S * list (node T)) (r, it).
Proof. induction 1 as [|n x l r E F IH]; intros it; cbn; [reflexivity|]. rewrite E. cbn. rewrite IH. reflexivity. Qed.
Lemma read_coeffs_inv f k : forall it (r : list S) rest, read_coeffs f k it = Done (r, rest) -> exists l : list (node T), it = l ++ rest /\ length r = k /\ Forall2 (fun n x => f n = Done x) l r.
Proof.
  induction k as [|k IH]; intros it r rest H; cbn in H; [injection H as <- <-; exists []; repeat split; constructor|].
  destruct it as [|n it]; [discriminate|]. destruct (f n) as [x| | | |] eqn:E; try discriminate. cbn in H. destruct (read_coeffs f k it) as [[r' rest']| | | |] eqn:E2; try discriminate.
  cbn in H. injection H as <- <-. destruct (IH it r' rest' E2) as (l & -> & <- & F). exists (n :: l). repeat split. constructor; [exact E|exact F].
Qed.
Lemma linear_element_number n x : number c n x -> linear_element c n = Done x.
Proof. intros H. pose proof (proj2 (as_scalar_done n x) H) as E. destruct H as (t & -> & _). exact E. Qed.
Lemma Forall2_impl' {A B} (P Q : A -> B -> Prop) l r : (forall a b, P a b -> Q a b) -> Forall2 P l r -> Forall2 Q l r.
Proof. intros H F. induction F; constructor; auto. Qed.
Lemma read_linear_done d cols : Forall (fun r => length r = cols) d -> forall l rest, Forall2 (number c) l (concat d) -> read_linear c (length d) cols (l ++ rest) = Done d.
Proof.
  induction 1 as [|r d L F IH]; intros l rest H; [reflexivity|]. cbn [length read_linear concat] in *. apply Forall2_app_inv_r in H as (l1 & l2 & H1 & H2 & ->).
  rewrite <- app_assoc, <- L. rewrite (read_coeffs_done _ l1 r) by (eapply Forall2_impl'; [|exact H1]; apply linear_element_number). cbn [obind snd fst]. rewrite L, IH by exact H2. reflexivity.
Qed.
Lemma read_linear_inv rows : forall cols it d, read_linear c rows cols it = Done d ->
  exists l rest, it = l ++ rest /\ length d = rows /\ Forall (fun r => length r = cols) d /\ Forall2 (fun n x => linear_element c n = Done x) l (concat d).
Proof.
  induction rows as [|rows IH]; intros cols it d H; cbn [read_linear] in H; [injection H as <-; exists [], it; repeat split; constructor|].
  destruct (read_coeffs _ cols it) as [[r rest]| | | |] eqn:E; try discriminate. cbn [obind fst snd] in H. destruct (read_linear c rows cols rest) as [rs| | | |] eqn:E2; try discriminate.
  cbn in H. injection H as <-. apply read_coeffs_inv in E as (l1 & -> & L1 & F1). destruct (IH _ _ _ E2) as (l2 & rest2 & -> & L2 & F2 & G2). exists (l1 ++ l2), rest2.
  split; [apply app_assoc|]. split; [cbn; congruence|]. split; [constructor; [exact L1|exact F2]|]. apply Forall2_app; assumption.
Qed.
Lemma read_row_sequence cols k r : Z.of_nat (length r) = cols -> Forall2 (number c) k r -> read_row c cols (Sequence k) = Done r.
Proof.
  intros L F. cbn [read_row]. rewrite (Forall2_length _ _ _ F), L, Z.eqb_refl, <- L, Nat2Z.id. rewrite <- (app_nil_r k).
  rewrite (read_coeffs_done _ k r) by (eapply Forall2_impl'; [|exact F]; intros; apply as_scalar_done; assumption). reflexivity.
Qed.
Lemma read_rows_done cols l d : Forall (fun r => Z.of_nat (length r) = cols) d -> row_form c l d -> read_rows c cols (length d) l = Done d.
Proof.
  intros F H. induction H as [|n r l d (k & -> & Hk) H IH]; [reflexivity|]. inversion F as [|? ? L F' E]. subst. cbn [length read_rows]. rewrite (read_row_sequence _ k r) by (try reflexivity; exact Hk).
  cbn [obind]. rewrite IH by exact F'. reflexivity.
Qed.
Lemma read_rows_inv cols rows : 0 <= cols -> forall it d, read_rows c cols rows it = Done d -> length it = rows ->
  length d = rows /\ Forall (fun r => Z.of_nat (length r) = cols) d /\ Forall2 (fun n r => read_row c cols n = Done r) it d.
Proof.
  intros C. induction rows as [|rows IH]; intros it d H L; cbn [read_rows] in H; [injection H as <-; destruct it; [|discriminate]; repeat split; constructor|].
  destruct it as [|n it]; [discriminate|]. destruct (read_row c cols n) as [r| | | |] eqn:E; try discriminate. cbn in H. destruct (read_rows c cols rows it) as [rs| | | |] eqn:E2; try discriminate.
  cbn in H. injection H as <-. destruct (IH _ _ E2) as (L2 & F2 & G2); [cbn in L; lia|]. split; [cbn; lia|]. split; [|constructor; assumption]. constructor; [|exact F2].
  destruct n as [|t|k|x y z]; cbn [read_row] in E.
  1,2,4: destruct (Z.eqb_spec cols 1) as [->|]; [|discriminate]; destruct (as_scalar c _); try discriminate; injection E as <-; reflexivity.
  destruct (Z.eqb_spec (Z.of_nat (length k)) cols) as [EQ|]; [|discriminate]. destruct (read_coeffs _ _ k) as [[r' rest]| | | |] eqn:E3; try discriminate. injection E as <-.
  apply read_coeffs_inv in E3 as (l1 & -> & L1 & _). cbn. lia.
Qed.

(** Reading the data of a document whose sizes fit. *)
Lemma decode_fits wr wc n rows cols l : document c n rows cols l -> fits wr wc rows cols -> in_range rows cols -> decode c wr wc n = decode_data c (Some (Sequence l)) rows cols.
Proof.
  intros (tr & tc & -> & Er & Ec) [F1 F2] (R1 & R2 & R3). unfold decode. cbn [as_index]. rewrite Er, Ec. cbn [obind].
  assert ((match wr with Some a => negb (rows =? a) | None => false end || match wc with Some b => negb (cols =? b) | None => false end) = false) as ->.
  { destruct wr as [a|], wc as [b|]; subst; rewrite ?Z.eqb_refl; reflexivity. }
  destruct (Z.ltb_spec rows 0); [lia|]. destruct (Z.ltb_spec cols 0); [lia|]. destruct (Z.leb_spec (2 ^ 31) rows); [lia|]. destruct (Z.leb_spec (2 ^ 31) cols); [lia|].
  destruct (Z.leb_spec (2 ^ 31) (rows * cols)); [lia|]. reflexivity.
Qed.
Lemma length_concat (d : list (list S)) cols : Forall (fun r => Z.of_nat (length r) = cols) d -> Z.of_nat (length (concat d)) = Z.of_nat (length d) * cols.
Proof. induction 1 as [|r d L F IH]; [reflexivity|]. cbn [concat length]. rewrite app_length. lia. Qed.
Lemma shaped_nat rows cols (d : list (list S)) : 0 <= cols -> shaped rows cols d -> Z.to_nat rows = length d /\ Forall (fun r => length r = Z.to_nat cols) d.
Proof. intros C [L F]. split; [lia|]. eapply Forall_impl; [|exact F]. cbn. intros r E. lia. Qed.
Lemma decode_data_linear rows cols l d : in_range rows cols -> shaped rows cols d -> linear_form c l d -> decode_data c (Some (Sequence l)) rows cols = Done (Matrix rows cols d).
Proof.
  intros (R1 & R2 & _) SH LF. unfold decode_data. destruct (Z.eqb_spec rows 0); [lia|]. cbn [andb]. rewrite (Forall2_length _ _ _ LF). pose proof SH as [SL SF].
  rewrite (length_concat d cols SF), SL, Z.eqb_refl. destruct (shaped_nat rows cols d) as [N F]; [lia|exact SH|]. rewrite N, <- (app_nil_r l), (read_linear_done d _ F l []) by exact LF. reflexivity.
Qed.
Lemma decode_data_rows rows cols l d : in_range rows cols -> cols <> 1 -> shaped rows cols d -> row_form c l d -> decode_data c (Some (Sequence l)) rows cols = Done (Matrix rows cols d).
Proof.
  intros (R1 & R2 & _) C [SL SF] RF. unfold decode_data. destruct (Z.eqb_spec rows 0); [lia|]. cbn [andb]. rewrite (Forall2_length _ _ _ RF), SL.
  destruct (Z.eqb_spec rows (rows * cols)) as [E|_]; [nia|]. rewrite Z.eqb_refl. replace (Z.to_nat rows) with (length d) by lia. rewrite read_rows_done by assumption. reflexivity.
Qed.
End Proofs.

(** C85. A matrix with at least one coefficient is written, and reading it into any matrix type that can hold it gives the same sizes and the coefficients after conversion
    to text and back; [f] is the identity if the texts have enough digits. *)
Theorem ymx_round_trip {T S} (c : codec T S) (f : S -> S) (m : matrix S) wr wc :
  (forall x, get c (emit c x) = Some (f x)) -> (forall x, get c (put c x) = Some (f x)) -> (forall k, get_index c (put_index c k) = Some k) ->
  in_range (m_rows m) (m_cols m) -> shaped (m_rows m) (m_cols m) (coeffs m) -> fits wr wc (m_rows m) (m_cols m) ->
  exists n, encode c m = Done n /\ decode c wr wc n = Done (Matrix (m_rows m) (m_cols m) (map (map f) (coeffs m))).
Proof.
  intros GE GP GI R SH F. destruct m as [rows cols d]. cbn [m_rows m_cols coeffs] in *. unfold encode. cbn [m_rows m_cols coeffs]. pose proof R as (R1 & R2 & _).
  destruct (Z.ltb_spec 0 rows); [|lia]. destruct (Z.ltb_spec 0 cols); [|lia]. cbn [negb].
  assert (shaped rows cols (map (map f) d)) as SH'.
  { destruct SH as [SL SF]. split; [rewrite map_length; exact SL|]. apply Forall_map. eapply Forall_impl; [|exact SF]. cbn. intros r E. rewrite map_length. exact E. }
  destruct (Z.ltb_spec 1 cols) as [C|C].
  - assert (encode_rows c cols d = Done (map (fun r => Sequence (map (fun x => Scalar (emit c x)) r)) d)) as ->.
    { clear SH SH'. induction d as [|r d IH]; [reflexivity|]. cbn [encode_rows]. unfold encode_row at 1. destruct (Z.ltb_spec 1 cols); [|lia]. cbn [obind]. rewrite IH. reflexivity. }
    eexists. split; [reflexivity|]. etransitivity; [eapply decode_fits; [eexists _, _; split; [reflexivity|split; apply GI]|exact F|exact R]|]. apply decode_data_rows; [exact R|lia|exact SH'|].
    unfold row_form. clear SH SH'. induction d as [|r d IH]; constructor; [|exact IH]. eexists. split; [reflexivity|]. clear IH. induction r as [|x r IH]; constructor; [|exact IH].
    eexists. split; [reflexivity|apply GE].
  - assert (cols = 1) by lia. subst cols.
    assert (exists xs, d = map (fun x => [x]) xs) as (xs & ->).
    { destruct SH as [_ SF]. clear SH'. clear R R1. induction SF as [|r d L SF IH]; [exists []; reflexivity|]. destruct IH as (xs & ->). destruct r as [|x [|y r]]; cbn in L; try lia. exists (x :: xs). reflexivity. }
    assert (encode_rows c 1 (map (fun x => [x]) xs) = Done (map (fun x => Scalar (put c x)) xs)) as ->.
    { clear. induction xs as [|x xs IH]; [reflexivity|]. cbn [map encode_rows]. unfold encode_row at 1. cbn [obind Z.ltb Z.compare Pos.compare Pos.compare_cont]. rewrite IH. reflexivity. }
    eexists. split; [reflexivity|]. etransitivity; [eapply decode_fits; [eexists _, _; split; [reflexivity|split; apply GI]|exact F|exact R]|]. apply decode_data_linear; [exact R|exact SH'|].
    unfold linear_form. assert (forall ys, concat (map (map f) (map (fun x => [x]) ys)) = map f ys) as -> by (clear; induction ys as [|x ys IH]; cbn; [reflexivity|rewrite IH; reflexivity]).
    clear R R1 SH SH' F. induction xs as [|x xs IH]; constructor; [|exact IH]. eexists. split; [reflexivity|apply GP].
Qed.
Print Assumptions ymx_round_trip.

(** A codec for examples: numbers are their own texts. *)
Definition plain : codec Z Z := Codec Z Z (fun x => x) (fun x => x) Some (fun x => x) Some.
Definition row_of (xs : list Z) : node Z := Sequence (map Scalar xs).
Definition document_of (rows cols : Z) (l : list (node Z)) : node Z := Table (Some (Scalar rows)) (Some (Scalar cols)) (Some (Sequence l)).
Example ymx_round_trip_ex : in_range 2 3 /\ shaped 2 3 [[1; 2; 3]; [4; 5; 6]] /\ fits (Some 2) None 2 3 /\ encode plain (Matrix 2 3 [[1; 2; 3]; [4; 5; 6]]) = Done (document_of 2 3 [row_of [1; 2; 3]; row_of [4; 5; 6]]) /\ encode plain (Matrix 3 1 [[1]; [2]; [3]]) = Done (document_of 3 1 [Scalar 1; Scalar 2; Scalar 3]) /\ decode plain (Some 3) None (document_of 3 1 [Scalar 1; Scalar 2; Scalar 3]) = Done (Matrix 3 1 [[1]; [2]; [3]]).
Proof. split; [unfold in_range; lia|]. split; [split; [reflexivity|repeat constructor]|]. repeat split. Qed.
(** Matrices without coefficients are not written: the program aborts. *)
Theorem ymx_empty_refuted : exists m : matrix Z, shaped (m_rows m) (m_cols m) (coeffs m) /\ encode plain m = Aborted.
Proof. exists (Matrix 0 3 []). split; [split; [reflexivity|constructor]|reflexivity]. Qed.
Print Assumptions ymx_empty_refuted.

(** C86. A document in one of the two forms is read as the matrix it means. Partial: the form with one sequence per row is only read for matrices with several columns. *)
Theorem ymx_accepts_partial {T S} (c : codec T S) n rows cols l (d : list (list S)) wr wc : document c n rows cols l -> fits wr wc rows cols -> in_range rows cols -> shaped rows cols d ->
  linear_form c l d \/ (row_form c l d /\ cols <> 1) -> decode c wr wc n = Done (Matrix rows cols d).
Proof.
  intros D F R SH H. rewrite (decode_fits c wr wc n rows cols l D F R). destruct H as [H|[H C]]; [apply decode_data_linear|apply decode_data_rows]; assumption.
Qed.
Print Assumptions ymx_accepts_partial.
(** What is read, is what the document means. Partial: if the number of nodes is the number of coefficients, none of the nodes is a sequence. *)
Theorem ymx_sound_partial {T S} (c : codec T S) n rows cols l (m : matrix S) wr wc : document c n rows cols l -> in_range rows cols ->
  (Z.of_nat (length l) = rows * cols -> Forall (fun k => forall ks, k <> Sequence ks) l) -> decode c wr wc n = Done m ->
  fits wr wc rows cols /\ m_rows m = rows /\ m_cols m = cols /\ shaped rows cols (coeffs m) /\ (linear_form c l (coeffs m) \/ row_form c l (coeffs m)).
Proof.
  intros D R NS H. assert (fits wr wc rows cols) as F.
  { destruct D as (tr & tc & -> & Er & Ec). unfold decode in H. cbn [as_index] in H. rewrite Er, Ec in H. cbn [obind] in H. unfold fits.
    destruct wr as [a|], wc as [b|]; repeat match type of H with context [?x =? ?y] => destruct (Z.eqb_spec x y) end; cbn in H; try discriminate; auto. }
  split; [exact F|]. rewrite (decode_fits c wr wc n rows cols l D F R) in H. unfold decode_data in H. destruct R as (R1 & R2 & _). destruct (Z.eqb_spec rows 0); [lia|]. cbn [andb] in H.
  destruct (Z.eqb_spec (Z.of_nat (length l)) (rows * cols)) as [E|NE].
  - destruct (read_linear c _ _ l) as [d| | | |] eqn:RL; try discriminate. cbn in H. injection H as <-. cbn [m_rows m_cols coeffs]. split; [reflexivity|]. split; [reflexivity|].
    apply read_linear_inv in RL as (k & rest & -> & L & SF & F2).
    assert (shaped rows cols d) as SH by (split; [lia|]; eapply Forall_impl; [|exact SF]; cbn; intros r Lr; lia). split; [exact SH|]. left. unfold linear_form.
    assert (rest = []) as ->.
    { pose proof (Forall2_length _ _ _ F2) as L2. pose proof (length_concat d cols (proj2 SH)) as L3. rewrite app_length in E. destruct SH as [SL _]. assert (length rest = 0)%nat by nia. destruct rest; [reflexivity|discriminate]. }
    rewrite app_nil_r in *. specialize (NS E). clear - NS F2. induction F2 as [|x y xs ys Exy F2 IH]; constructor.
    + inversion NS as [|? ? Nx NS' E1]. subst. apply as_scalar_done. destruct x as [|t|ks|x1 x2 x3]; try exact Exy. destruct (Nx ks). reflexivity.
    + inversion NS. subst. apply IH. assumption.
  - destruct (Z.eqb_spec (Z.of_nat (length l)) rows) as [E|]; [|discriminate]. destruct (read_rows c cols _ l) as [d| | | |] eqn:RR; try discriminate. cbn in H. injection H as <-. cbn [m_rows m_cols coeffs].
    split; [reflexivity|]. split; [reflexivity|]. apply read_rows_inv in RR as (L & SF & F2); [|lia|lia]. split; [split; [lia|exact SF]|]. right. unfold row_form.
    assert (cols <> 1) as C by (intros ->; lia). clear - F2 C. induction F2 as [|x y xs ys Exy F2 IH]; constructor; [|exact IH]. destruct x as [|t|ks|x1 x2 x3]; cbn [read_row] in Exy.
    1,2,4: destruct (Z.eqb_spec cols 1); [contradiction|discriminate].
    exists ks. split; [reflexivity|]. destruct (Z.eqb_spec (Z.of_nat (length ks)) cols) as [E|]; [|discriminate]. destruct (read_coeffs _ _ ks) as [[r rest]| | | |] eqn:RC; try discriminate. cbn in Exy. injection Exy as <-.
    apply read_coeffs_inv in RC as (k & -> & L & F). assert (rest = []) as ->.
    { pose proof (Forall2_length _ _ _ F) as L2. rewrite app_length in E. assert (length rest = 0)%nat by lia. destruct rest; [reflexivity|discriminate]. }
    rewrite app_nil_r. eapply Forall2_impl'; [|exact F]. intros a b. apply as_scalar_done.
Qed.
Print Assumptions ymx_sound_partial.
(** A document of the wrong size for the type is refused and the caller told so. *)
Theorem ymx_wrong_size {T S} (c : codec T S) n rows cols l wr wc : document c n rows cols l -> ~ fits wr wc rows cols -> decode c wr wc n = Refused.
Proof.
  intros (tr & tc & -> & Er & Ec) F. unfold decode. cbn [as_index]. rewrite Er, Ec. cbn [obind]. unfold fits in F.
  destruct wr as [a|], wc as [b|]; try (destruct (Z.eqb_spec rows a)); try (destruct (Z.eqb_spec cols b)); cbn; try reflexivity; tauto.
Qed.
Print Assumptions ymx_wrong_size.
(** Negative sizes, and sizes whose number of entries does not fit into an int, have no defined result. *)
Theorem ymx_too_large {T S} (c : codec T S) n rows cols l wr wc : document c n rows cols l -> fits wr wc rows cols ->
  (rows < 0 \/ cols < 0 \/ 2147483648 <= rows \/ 2147483648 <= cols \/ 2147483648 <= rows * cols) -> decode c wr wc n = Undefined.
Proof.
  intros (tr & tc & -> & Er & Ec) F N. unfold decode. cbn [as_index]. rewrite Er, Ec. cbn [obind]. unfold fits in F. change (2 ^ 31) with 2147483648.
  replace (match wr with Some a => negb (rows =? a) | None => false end || match wc with Some b => negb (cols =? b) | None => false end) with false.
  2:{ destruct F as [F1 F2], wr as [a|], wc as [b|]; subst; rewrite ?Z.eqb_refl; reflexivity. }
  replace (_ || _) with true; [reflexivity|]. symmetry. rewrite !orb_true_iff, !Z.ltb_lt, !Z.leb_le. tauto.
Qed.
Print Assumptions ymx_too_large.
Example ymx_too_large_ex : document plain (document_of 65536 32768 []) 65536 32768 [] /\ fits None (Some 32768) 65536 32768 /\ decode plain None None (document_of 65536 32768 []) = Undefined.
Proof. split; [exists 65536, 32768; auto|]. split; [split; auto|]. reflexivity. Qed.
(** The wrong number of rows is refused as well. *)
Theorem ymx_wrong_length {T S} (c : codec T S) n rows cols l wr wc : document c n rows cols l -> in_range rows cols ->
  Z.of_nat (length l) <> rows -> Z.of_nat (length l) <> rows * cols -> decode c wr wc n = Refused.
Proof.
  intros D R N1 N2. assert (fits wr wc rows cols \/ ~ fits wr wc rows cols) as [F|F].
  { unfold fits. destruct wr as [a|], wc as [b|]; try destruct (Z.eq_dec rows a); try destruct (Z.eq_dec cols b); tauto. }
  - rewrite (decode_fits c wr wc n rows cols l D F R). unfold decode_data. destruct R as (R1 & _). destruct (Z.eqb_spec rows 0); [lia|]. cbn [andb].
    destruct (Z.eqb_spec (Z.of_nat (length l)) (rows * cols)); [contradiction|]. destruct (Z.eqb_spec (Z.of_nat (length l)) rows); [contradiction|]. reflexivity.
  - eapply ymx_wrong_size; eassumption.
Qed.
Print Assumptions ymx_wrong_length.
Example ymx_accepts_ex :
  decode plain None None (document_of 2 2 [Scalar 1; Scalar 2; Scalar 3; Scalar 4]) = Done (Matrix 2 2 [[1; 2]; [3; 4]]) /\
  decode plain None (Some 2) (document_of 2 2 [row_of [1; 2]; row_of [3; 4]]) = Done (Matrix 2 2 [[1; 2]; [3; 4]]) /\
  document plain (document_of 2 2 [Scalar 1; Scalar 2; Scalar 3; Scalar 4]) 2 2 [Scalar 1; Scalar 2; Scalar 3; Scalar 4] /\ linear_form plain [Scalar 1; Scalar 2; Scalar 3; Scalar 4] [[1; 2]; [3; 4]] /\
  row_form plain [row_of [1; 2]; row_of [3; 4]] [[1; 2]; [3; 4]] /\ decode plain (Some 3) None (document_of 2 2 [row_of [1; 2]; row_of [3; 4]]) = Refused /\
  decode plain None None (document_of 2 2 [Scalar 1; Scalar 2; Scalar 3]) = Refused.
Proof.
  split; [reflexivity|]. split; [reflexivity|]. split; [eexists _, _; repeat split|]. split; [repeat (constructor; [eexists; split; reflexivity|]); constructor|].
  split; [|split; reflexivity]. repeat (constructor; [eexists; split; [reflexivity|]; repeat (constructor; [eexists; split; reflexivity|]); constructor|]). constructor.
Qed.

(** Refutations. A column written with one sequence per row is correct but aborts the program: the CHECK for the length of the sequences is inverted. *)
Theorem ymx_column_refuted : exists n l d, document plain n 2 1 l /\ row_form plain l d /\ shaped 2 1 d /\ decode plain None None n = Aborted.
Proof.
  exists (document_of 2 1 [row_of [1]; row_of [2]]), [row_of [1]; row_of [2]], [[1]; [2]]. split; [eexists _, _; repeat split|]. split; [|split; [split; [reflexivity|repeat constructor]|reflexivity]].
  repeat (constructor; [eexists; split; [reflexivity|]; repeat (constructor; [eexists; split; reflexivity|]); constructor|]). constructor.
Qed.
Print Assumptions ymx_column_refuted.
(** Rows that are too long are accepted for a column, and all but the first number of each is dropped. Empty ones are read beyond their end. *)
Theorem ymx_long_rows_refuted : decode plain None None (document_of 2 1 [row_of [1; 2]; row_of [3; 4]]) = Done (Matrix 2 1 [[1]; [3]]) /\
  decode plain None None (document_of 2 1 [row_of []; row_of []]) = Undefined.
Proof. split; reflexivity. Qed.
Print Assumptions ymx_long_rows_refuted.
(** For sizes 0 x 0 any data is accepted. *)
Theorem ymx_data_ignored_refuted : decode plain None None (document_of 0 0 [Scalar 1; Scalar 2]) = Done (Matrix 0 0 []).
Proof. reflexivity. Qed.
Print Assumptions ymx_data_ignored_refuted.
