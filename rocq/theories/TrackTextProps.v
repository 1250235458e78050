(** C153: printed tables of feature tracks. *)
From Coq Require Import List NArith String Ascii Decimal DecimalString DecimalN DecimalPos DecimalNat DecimalFacts Lia Arith.
From Verif Require Import TrackTextModel TrackTextSpec.
Import ListNotations.
Local Open Scope string_scope.

Lemma app_len a b : length (a ++ b) = length a + length b.
Proof. induction a; cbn; [reflexivity|]. now rewrite IHa. Qed.
Lemma app_assoc_s a b c : (a ++ b) ++ c = a ++ b ++ c.
Proof. induction a; cbn; [reflexivity|]. now rewrite IHa. Qed.
Lemma substring_skip a b m : forall n, n = length a -> forall k, substring (n + k) m (a ++ b) = substring k m b.
Proof. induction a as [|c a IH]; intros n -> k; cbn; [reflexivity|]. now apply IH. Qed.
Lemma substring_take a b : substring 0 (length a) (a ++ b) = a.
Proof. induction a as [|c a IH]; cbn; [now destruct b|]. now rewrite IH. Qed.
Lemma fill_len c n : length (fill_with c n) = n.
Proof. induction n; cbn; auto. Qed.
Lemma digits_head n : exists c s, digits n = String c s /\ Ascii.eqb c " " = false.
Proof. unfold digits. destruct (N.to_uint n); cbn; eauto. Qed.
Lemma strip_fill n s : strip (fill_with " " n ++ s) = strip s.
Proof. induction n; cbn; auto. Qed.
Lemma to_uint_nonnil n : N.to_uint n <> Nil.
Proof. destruct n as [|p]; [discriminate|]. apply DecimalPos.Unsigned.to_uint_nonnil. Qed.
Lemma number_digits n k : number (fill_with " " k ++ digits n) = Some n.
Proof.
  unfold number. rewrite strip_fill. destruct (digits_head n) as (c & s & E & H). rewrite E. cbn [strip]. rewrite H, <- E. unfold digits.
  rewrite NilZero.usu; [cbn; now rewrite DecimalN.Unsigned.of_to|]. apply to_uint_nonnil.
Qed.
(** Lengths of numbers. *)
Lemma string_len u : length (NilEmpty.string_of_uint u) = nb_digits u.
Proof. induction u; cbn; auto. Qed.
Lemma digits_len n : length (digits n) = nb_digits (N.to_uint n).
Proof. unfold digits. assert (H := to_uint_nonnil n). destruct (N.to_uint n); [contradiction|..]; cbn; now rewrite string_len. Qed.

Definition plain (f : format) : Prop := fill f = " "%char.
Lemma field_len f s : length s <= 10 -> length (field f s) = 10.
Proof. intros L. unfold field. rewrite app_len, fill_len. lia. Qed.
Lemma field_number f n : plain f -> number (field f (digits n)) = Some n.
Proof. intros P. unfold field. rewrite P. apply number_digits. Qed.
Definition fits (t : track) : Prop := short (track_id t) /\ short (hd 0%N (frame_indices t)) /\ short (N.of_nat (List.length (frame_indices t))).
Definition header : string := "  track id" ++ "camera idx" ++ "    length" ++ newline.
Lemma rows_some ts : forall f, (forall t, In t ts -> frame_indices t <> []) -> exists text f', rows f ts = Some (text, f').
Proof.
  induction ts as [|t ts IH]; intros f H; cbn [rows]; [eauto|]. unfold first_frame. destruct (frame_indices t) as [|i l] eqn:E; [destruct (H t (or_introl eq_refl) E)|]. destruct (IH (set_precision (set_fill (set_fixed f)))) as (text & f' & ->); [intros u I; apply H; now right|]. eauto.
Qed.
Lemma rows_none ts : forall f, (exists t, In t ts /\ frame_indices t = []) -> rows f ts = None.
Proof.
  induction ts as [|t ts IH]; intros f (u & I & E); [destruct I|]. cbn [rows]. unfold first_frame. destruct (frame_indices t) as [|i l] eqn:Et; [reflexivity|]. rewrite IH; [reflexivity|]. exists u. destruct I as [->|I]; [congruence|auto].
Qed.
Lemma print_header f ts text f' : print f ts = Some (text, f') -> exists rest, text = header ++ rest /\ (ts <> [] -> exists g, rows g ts = Some (rest, f')).
Proof.
  unfold print. destruct ts as [|t ts]; [intros E; injection E as <- _; eexists; split; [reflexivity|congruence]|]. destruct (rows _ (t :: ts)) as [[r g]|] eqn:R; [|discriminate]. intros E. injection E as <- <-. exists r. split; [reflexivity|]. eauto.
Qed.
Lemma rows_entry ts : forall f text f' i t, rows f ts = Some (text, f') -> (forall t, In t ts -> fits t) -> nth_error ts i = Some t ->
  entry text i 0 = Some (track_id t) /\ entry text i 1 = Some (hd 0%N (frame_indices t)) /\ entry text i 2 = Some (N.of_nat (List.length (frame_indices t))).
Proof.
  induction ts as [|u ts IH]; intros f text f' i t R F N; [destruct i; discriminate|]. cbn [rows] in R. set (g := set_precision (set_fill (set_fixed f))) in R. assert (P : plain g) by reflexivity. unfold first_frame in R. destruct (frame_indices u) as [|j l] eqn:Eu; [discriminate|]. destruct (rows g ts) as [[rest h]|] eqn:R'; [|discriminate]. injection R as <- _.
  destruct (F u (or_introl eq_refl)) as (S1 & S2 & S3). unfold short in S1, S2, S3. rewrite Eu in S2, S3. cbn [hd] in S2. rewrite <- digits_len in S1, S2, S3.
  set (a := field g (digits (track_id u))). set (b := field g (digits j)). set (c := field g (digits (N.of_nat (List.length (j :: l))))). assert (La : length a = 10) by now apply field_len. assert (Lb : length b = 10) by now apply field_len. assert (Lc : length c = 10) by now apply field_len.
  unfold entry. destruct i as [|i].
  - injection N as <-. rewrite Eu. cbn [hd]. replace (31 * 0 + 10 * 0) with 0 by lia. replace (31 * 0 + 10 * 1) with (10 + 0) by lia. replace (31 * 0 + 10 * 2) with (10 + (10 + 0)) by lia.
    split; [rewrite <- La at 1; rewrite substring_take; now apply field_number|]. rewrite !(substring_skip a) by now rewrite La. split; [rewrite <- Lb at 1; rewrite substring_take; now apply field_number|]. rewrite (substring_skip b) by now rewrite Lb. rewrite <- Lc at 1. rewrite substring_take. now apply field_number.
  - cbn [nth_error] in N. specialize (IH g rest h i t R' (fun v I => F v (or_intror I)) N). unfold entry in IH.
    assert (K : forall k, substring (31 * S i + 10 * k) 10 (a ++ b ++ c ++ newline ++ rest) = substring (31 * i + 10 * k) 10 rest).
    { intros k. replace (31 * S i + 10 * k) with (10 + (10 + (10 + (1 + (31 * i + 10 * k))))) by lia. rewrite (substring_skip a) by now rewrite La. rewrite (substring_skip b) by now rewrite Lb. rewrite (substring_skip c) by now rewrite Lc. now rewrite (substring_skip newline) by reflexivity. }
    rewrite !K. exact IH.
Qed.
(** The table is printed exactly if all tracks have observations. *)
Theorem ttx_printed f ts : (exists text f', print f ts = Some (text, f')) <-> forall t, In t ts -> frame_indices t <> [].
Proof.
  split.
  - intros (text & f' & E) t I N. unfold print in E. destruct ts as [|u ts]; [destruct I|]. rewrite rows_none in E by eauto. discriminate.
  - intros H. unfold print. destruct ts as [|u ts]; [eauto|]. destruct (rows_some (u :: ts) (set_fill (set_fixed f)) H) as (text & f' & ->). eauto.
Qed.
(** Whatever the format of the stream was: the header, then on line i + 1 the id, the frame of the first observation and the length of track i. *)
Theorem ttx_read f ts text f' : print f ts = Some (text, f') -> (forall t, In t ts -> fits t) -> substring 0 31 text = "  track idcamera idx    length" ++ newline /\
  forall i t, nth_error ts i = Some t -> entry text (S i) 0 = Some (track_id t) /\ entry text (S i) 1 = nth_error (frame_indices t) 0 /\ entry text (S i) 2 = Some (N.of_nat (List.length (frame_indices t))).
Proof.
  intros E F. assert (T : forall t, In t ts -> frame_indices t <> []) by (apply (ttx_printed f); eauto). destruct (print_header _ _ _ _ E) as (rest & -> & R). split; [exact (substring_take header rest)|]. intros i t N. destruct ts as [|u ts]; [destruct i; discriminate|]. destruct R as (g & R); [discriminate|].
  destruct (rows_entry _ _ _ _ i t R F N) as (A & B & C). unfold entry in *. assert (K : forall k, substring (31 * S i + 10 * k) 10 (header ++ rest) = substring (31 * i + 10 * k) 10 rest).
  { intros k. replace (31 * S i + 10 * k) with (31 + (31 * i + 10 * k)) by lia. now apply substring_skip. }
  rewrite !K. split; [exact A|]. split; [|exact C]. rewrite B. specialize (T t (nth_error_In _ _ N)). destruct (frame_indices t); [congruence|reflexivity].
Qed.
(** The text does not depend on the format that the stream had; afterwards the stream is fixed, fills with blanks and, if there was a track, has precision 3. *)
Lemma rows_format ts : forall f g, match rows f ts, rows g ts with Some (a, _), Some (b, _) => a = b | None, None => True | _, _ => False end.
Proof.
  induction ts as [|t ts IH]; intros f g; cbn [rows]; [reflexivity|]. destruct (first_frame t); [|exact I]. change (set_precision (set_fill (set_fixed f))) with (set_precision (set_fill (set_fixed g))). destruct (rows _ ts) as [[a f']|]; [reflexivity|exact I].
Qed.
Lemma rows_after ts : forall f text f', rows f ts = Some (text, f') -> f' = match ts with [] => f | _ => Format true " " 3 end.
Proof.
  induction ts as [|t ts IH]; intros f text f' E; cbn [rows] in E; [now injection E|]. destruct (first_frame t); [|discriminate]. destruct (rows _ ts) as [[a g]|] eqn:R; [|discriminate]. injection E as _ <-. apply IH in R. rewrite R. now destruct ts.
Qed.
Theorem ttx_format f g ts text f' : print f ts = Some (text, f') -> option_map fst (print g ts) = Some text /\ f' = Format true " " (match ts with [] => precision f | _ => 3 end).
Proof.
  unfold print. destruct ts as [|t ts]; [intros E; injection E as <- <-; split; reflexivity|]. destruct (rows _ (t :: ts)) as [[a h]|] eqn:R; [|discriminate]. intros E. injection E as <- <-. split; [|apply rows_after in R; exact R].
  pose proof (rows_format (t :: ts) (set_fill (set_fixed f)) (set_fill (set_fixed g))) as H. rewrite R in H. destruct (rows (set_fill (set_fixed g)) (t :: ts)) as [[b h']|]; [|destruct H]. rewrite H. reflexivity.
Qed.
(** The tracks of a rig: printed exactly if all tracks of all cameras have observations; the text of each camera follows its number. *)
Theorem ttx_rig cameras : forall f i, (exists text f', print_rig f i cameras = Some (text, f')) <-> forall ts t, In ts cameras -> In t ts -> frame_indices t <> [].
Proof.
  induction cameras as [|ts cameras IH]; intros f i; cbn [print_rig]; [split; [intros _ ts t []|eauto]|]. split.
  - intros (text & f' & E) us t I J. destruct (print f ts) as [[a g]|] eqn:P; [|discriminate]. destruct (print_rig g (N.succ i) cameras) as [[b h]|] eqn:R; [|discriminate]. destruct I as [->|I]; [apply (proj1 (ttx_printed f us)); eauto|]. apply (proj1 (IH g (N.succ i))) with (ts := us); eauto.
  - intros H. destruct (proj2 (ttx_printed f ts)) as (a & g & ->); [intros t J; apply (H ts t); [now left|exact J]|]. destruct (proj2 (IH g (N.succ i))) as (b & h & ->); [intros us t I J; apply (H us t); [now right|exact J]|]. eauto.
Qed.
Theorem ttx_rig_cons f i ts cameras text f' : print_rig f i (ts :: cameras) = Some (text, f') -> exists table g rest, print f ts = Some (table, g) /\ print_rig g (i + 1) cameras = Some (rest, f') /\ text = "Camera: " ++ digits i ++ ":" ++ newline ++ table ++ newline ++ rest.
Proof.
  cbn [print_rig]. destruct (print f ts) as [[a g]|]; [|discriminate]. destruct (print_rig g (N.succ i) cameras) as [[b h]|] eqn:R; [|discriminate]. intros E. injection E as <- <-. exists a, g, b. rewrite N.add_1_r. auto.
Qed.
(** Longer numbers run into each other: two different tracks with the same text. *)
Theorem ttx_columns_refuted : exists t u, t <> u /\ frame_indices t <> [] /\ forall f, option_map fst (print f [t]) = option_map fst (print f [u]).
Proof.
  exists (Track 1234567890 [12345678901%N]), (Track 12345678901 [2345678901%N]). split; [discriminate|]. split; [discriminate|]. intros f. vm_compute. reflexivity.
Qed.
(** One track without observations makes printing the table abort. *)
Theorem ttx_empty_refuted : exists ts, ts <> [] /\ forall f, print f ts = None.
Proof. exists [Track 4 [0%N]; Track 5 []]. split; [discriminate|]. intros f. reflexivity. Qed.
(** Printing changes how the stream prints afterwards. *)
Theorem ttx_stream_refuted : exists f ts text f', print f ts = Some (text, f') /\ f' <> f.
Proof. exists (Format false "0" 6), [Track 4 [0%N]]. eexists _, _. split; [reflexivity|]. discriminate. Qed.
Print Assumptions ttx_printed.
Print Assumptions ttx_read.
Print Assumptions ttx_format.
Print Assumptions ttx_rig.
Print Assumptions ttx_rig_cons.
Print Assumptions ttx_columns_refuted.
Print Assumptions ttx_empty_refuted.
Print Assumptions ttx_stream_refuted.

(** ** Cases *)
Example ttx_read_ex : exists text f', print (Format false "x" 6) [Track 12 [1; 0; 1]%N; Track 7 [0]%N] = Some (text, f') /\ entry text 1 0 = Some 12%N /\ entry text 2 1 = Some 0%N /\ entry text 1 2 = Some 3%N /\ fits (Track 12 [1; 0; 1]%N) /\ text = "  track idcamera idx    length" ++ newline ++ "        12         1         3" ++ newline ++ "         7         0         1" ++ newline.
Proof. eexists _, _. split; [reflexivity|]. repeat split; try (vm_compute; reflexivity); unfold short; cbn; lia. Qed.
Example ttx_none_ex : option_map fst (print (Format false "x" 6) []) = Some ("  track idcamera idx    length" ++ newline ++ "No tracks!").
Proof. reflexivity. Qed.
Example ttx_rig_ex : option_map fst (print_rig (Format false "x" 6) 0 [[]; [Track 7 [1]%N]]) = Some ("Camera: 0:" ++ newline ++ "  track idcamera idx    length" ++ newline ++ "No tracks!" ++ newline ++ "Camera: 1:" ++ newline ++ "  track idcamera idx    length" ++ newline ++ "         7         1         1" ++ newline ++ newline).
Proof. reflexivity. Qed.
