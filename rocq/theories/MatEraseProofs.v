(** Lemmas on the erasure of columns or rows. *)
From Coq Require Import List Arith Bool Sorted Lia.
From Verif Require Import MatEraseModel MatEraseSpec.
Import ListNotations.

Fixpoint inc (a n : nat) (l : list nat) : Prop := match l with [] => a <= n | i :: r => a <= i /\ i < n /\ inc (S i) n r end.
Definition stay (a n : nat) (l : list nat) : list nat := filter (fun k => negb (existsb (Nat.eqb k) l)) (seq a (n - a)).
Lemma inc_length : forall l a n, inc a n l -> length l + a <= n.
Proof. induction l as [|i r IH]; intros a n; cbn; [lia|]. intros (H1 & H2 & H3). apply IH in H3. lia. Qed.
Lemma inc_ge : forall l a n i, inc a n l -> In i l -> a <= i.
Proof. induction l as [|j r IH]; intros a n i; cbn; [tauto|]. intros (H1 & H2 & H3) [<-|H]; [lia|]. pose proof (IH _ _ _ H3 H). lia. Qed.
Lemma inc_of : forall l a n, StronglySorted lt l -> (forall i, In i l -> a <= i < n) -> a <= n -> inc a n l.
Proof.
  induction l as [|j r IH]; intros a n S H L; cbn; [exact L|]. pose proof (H j (or_introl eq_refl)). inversion S as [|x y S1 S2]; subst. split; [lia|]. split; [lia|].
  apply IH; [exact S1| |lia]. intros i I. rewrite Forall_forall in S2. pose proof (S2 i I). pose proof (H i (or_intror I)). lia.
Qed.
Lemma inc_proper : forall l a n, inc a n l -> StronglySorted lt l /\ forall i, In i l -> i < n.
Proof.
  induction l as [|j r IH]; intros a n; cbn; [split; [constructor|tauto]|]. intros (H1 & H2 & H3). destruct (IH _ _ H3) as [S L]. split.
  - constructor; [exact S|]. rewrite Forall_forall. intros i I. pose proof (inc_ge _ _ _ _ H3 I). lia.
  - intros i [<-|I]; [exact H2|apply L, I].
Qed.
Lemma filter_ext_in' {B} (f g : B -> bool) l : (forall x, In x l -> f x = g x) -> filter f l = filter g l.
Proof. induction l as [|x l IH]; intros H; cbn; [reflexivity|]. rewrite (H x (or_introl eq_refl)), IH; [reflexivity|]. intros y I. apply H. right; exact I. Qed.
Lemma filter_all {B} (f : B -> bool) l : (forall x, In x l -> f x = true) -> filter f l = l.
Proof. induction l as [|x l IH]; intros H; cbn; [reflexivity|]. rewrite (H x (or_introl eq_refl)), IH; [reflexivity|]. intros y I. apply H. right; exact I. Qed.
Lemma existsb_In k l : existsb (Nat.eqb k) l = true <-> In k l.
Proof. rewrite existsb_exists. split; [intros (x & I & E); apply Nat.eqb_eq in E; subst; exact I|intros I; exists k; split; [exact I|apply Nat.eqb_refl]]. Qed.
Lemma stay_nil a n : stay a n [] = seq a (n - a).
Proof. unfold stay. apply filter_all. reflexivity. Qed.
Lemma stay_cons a n i r : inc a n (i :: r) -> stay a n (i :: r) = seq a (i - a) ++ stay (S i) n r.
Proof.
  cbn. intros (H1 & H2 & H3). unfold stay. replace (n - a) with ((i - a) + S (n - S i)) by lia. rewrite seq_app, filter_app. f_equal.
  - apply filter_all. intros k K. apply in_seq in K. destruct (existsb _ _) eqn:E; [|reflexivity]. apply existsb_In in E. destruct E as [<-|E]; [lia|]. pose proof (inc_ge _ _ _ _ H3 E). lia.
  - replace (a + (i - a)) with i by lia. cbn [seq filter]. cbn [existsb]. rewrite Nat.eqb_refl. cbn [orb negb]. apply filter_ext_in'. intros k K. apply in_seq in K. destruct (Nat.eqb_spec k i); [lia|reflexivity].
Qed.
Lemma stay_length : forall l a n, inc a n l -> length (stay a n l) = n - a - length l.
Proof.
  induction l as [|i r IH]; intros a n H; [rewrite stay_nil, seq_length; cbn; lia|]. rewrite (stay_cons _ _ _ _ H), app_length, seq_length. pose proof (inc_length _ _ _ H). cbn in H. destruct H as (H1 & H2 & H3). rewrite (IH _ _ H3). pose proof (inc_length _ _ _ H3). cbn [length] in *. lia.
Qed.
Lemma rev_last (l : list nat) x y : rev l = x :: y -> l <> [] /\ last l 0 = x.
Proof. intros E. assert (Q : l = rev y ++ [x]) by (rewrite <- (rev_involutive l), E; reflexivity). rewrite Q, last_last. split; [destruct (rev y); discriminate|reflexivity]. Qed.
Lemma last_In (l : list nat) : l <> [] -> In (last l 0) l.
Proof. intros N. destruct (exists_last N) as (u & v & ->). rewrite last_last. apply in_or_app. right; left; reflexivity. Qed.
Section Loop.
Context {A : Type}.
Implicit Types m : mat A.
Lemma copy_done d ss ds size src dst : ss + size <= lines d src -> ds + size <= lines d dst -> exists m, copy_middle d ss ds size src dst = Done m /\ lines d m = lines d dst /\ width d m = width d dst /\
  forall k j, get d m k j = if (ds <=? k) && (k <? ds + size) then @get A d src (ss + (k - ds)) j else get d dst k j.
Proof.
  intros H1 H2. unfold copy_middle. change (dynamic_size d src) with (lines d src). change (dynamic_size d dst) with (lines d dst). rewrite (proj2 (Nat.leb_le _ _) H1), (proj2 (Nat.leb_le _ _) H2). cbn [andb]. eexists. split; [reflexivity|]. destruct d; repeat split.
Qed.
Lemma loop_done d n src : @lines A d src = n -> forall l fill start dst, inc start n l -> lines d dst = fill + (n - start - length l) ->
  exists m, erase_loop d n src fill start l dst = Done m /\ lines d m = lines d dst /\ width d m = width d dst /\
  forall k j, (k < fill -> get d m k j = get d dst k j) /\ (forall i, fill <= k -> nth_error (stay start n l) (k - fill) = Some i -> get d m k j = get d src i j).
Proof.
  intros N. induction l as [|i r IH]; intros fill start dst H L.
  - cbn in H, L. cbn [erase_loop]. destruct (copy_done d start fill (n - start) src dst) as (m & -> & E1 & E2 & E3); [lia|lia|]. exists m. split; [reflexivity|]. split; [exact E1|]. split; [exact E2|]. intros k j. rewrite E3. split.
    + intros K. destruct (Nat.leb_spec fill k); [lia|]. reflexivity.
    + intros q K Q. rewrite stay_nil in Q. assert (k - fill < n - start) by (rewrite <- (seq_length (n - start) start); apply nth_error_Some; congruence).
      rewrite (nth_error_nth' _ 0) in Q by (rewrite seq_length; lia). rewrite seq_nth in Q by lia. injection Q as <-. destruct (Nat.leb_spec fill k); [|lia]. destruct (Nat.ltb_spec k (fill + (n - start))); [|lia]. reflexivity.
  - pose proof (inc_length _ _ _ H) as B. pose proof (stay_cons _ _ _ _ H) as C. cbn [length] in *. cbn [inc] in H. destruct H as (H1 & H2 & H3). cbn [erase_loop]. rewrite (proj2 (Nat.leb_le _ _) H1). cbn [negb].
    pose proof (inc_length _ _ _ H3). destruct (copy_done d start fill (i - start) src dst) as (m & -> & E1 & E2 & E3); [lia|lia|]. cbn [bind]. replace (i + 1) with (S i) by lia.
    destruct (IH (fill + (i - start)) (S i) m H3) as (m' & -> & F1 & F2 & F3); [lia|]. exists m'. split; [reflexivity|]. split; [lia|]. split; [congruence|]. intros k j. destruct (F3 k j) as [G1 G2]. split.
    + intros K. rewrite G1 by lia. rewrite E3. destruct (Nat.leb_spec fill k); [lia|]. reflexivity.
    + intros q K Q. rewrite C in Q. destruct (Nat.lt_ge_cases (k - fill) (i - start)) as [X|X].
      * rewrite nth_error_app1 in Q by (rewrite seq_length; exact X). rewrite (nth_error_nth' _ 0) in Q by (rewrite seq_length; lia). rewrite seq_nth in Q by lia. injection Q as <-. rewrite G1 by lia. rewrite E3. destruct (Nat.leb_spec fill k); [|lia]. destruct (Nat.ltb_spec k (fill + (i - start))); [|lia]. reflexivity.
      * rewrite nth_error_app2 in Q by (rewrite seq_length; exact X). rewrite seq_length in Q. apply G2; [lia|]. replace (k - (fill + (i - start))) with (k - fill - (i - start)) by lia. exact Q.
Qed.
Lemma loop_order d n src : forall l fill start dst m, @erase_loop A d n src fill start l dst = Done m -> forall b, last l 0 < b -> start <= b -> inc start b l.
Proof.
  induction l as [|i r IH]; intros fill start dst m E b B Sb; [exact Sb|]. cbn [erase_loop] in E. destruct (Nat.leb_spec start i); [|discriminate]. cbn [negb] in E. destruct (copy_middle _ _ _ _ _ _) as [x| |]; try discriminate. cbn [bind] in E. cbn [inc]. split; [assumption|].
  destruct r as [|j r]; [cbn in *; split; lia|]. destruct (Nat.lt_ge_cases i b) as [X|X].
  - split; [exact X|]. replace (S i) with (i + 1) by lia. apply (IH _ _ _ _ E); [exact B|lia].
  - exfalso. pose proof (IH _ _ _ _ E (S (Nat.max (i + 1) (last (j :: r) 0))) ltac:(lia) ltac:(lia)) as Q. assert (I : In (last (j :: r) 0) (j :: r)) by (apply last_In; discriminate). pose proof (inc_ge _ _ _ _ Q I). change (last (i :: j :: r) 0) with (last (j :: r) 0) in B. lia.
Qed.
End Loop.
