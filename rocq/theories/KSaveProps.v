(** C147: the saved pictures of the scale space. *)
From Coq Require Import Reals ZArith List Bool Decimal DecimalNat Lra Lia.
From Verif Require Import KUtilModel KUtilSpec KUtilProps KSaveModel KSaveSpec.
Import ListNotations.
Local Open Scope R_scope.

Lemma cv_round_near r : Rabs (IZR (cv_round r) - r) <= / 2.
Proof.
  unfold cv_round. destruct (base_Int_part r) as [A B]. destruct (Rlt_dec (r - IZR (Int_part r)) (/ 2)); [apply Rabs_le; lra|]. destruct (Rlt_dec (/ 2) (r - IZR (Int_part r))); [rewrite plus_IZR; apply Rabs_le; lra|]. destruct (Z.even _); [|rewrite plus_IZR]; apply Rabs_le; lra.
Qed.
Lemma to_byte_range r : 0 <= r <= 1 -> to_byte r = cv_round (255 * r) /\ (0 <= to_byte r <= 255)%Z.
Proof.
  intros B. unfold to_byte. replace (255 * r + 0) with (255 * r) by lra. pose proof (cv_round_near (255 * r)) as N. pose proof (Rle_abs (IZR (cv_round (255 * r)) - 255 * r)). pose proof (Rle_abs (- (IZR (cv_round (255 * r)) - 255 * r))) as M. rewrite Rabs_Ropp in M.
  assert (X : -1 < IZR (cv_round (255 * r))) by lra. assert (Y : IZR (cv_round (255 * r)) < 256) by lra. apply lt_IZR in X. apply lt_IZR in Y. lia.
Qed.
Lemma name_inj k k' i j : file_name k i = file_name k' j -> k = k' /\ i = j.
Proof.
  intros E. injection E as K E. split; [exact K|]. assert (P : forall n, Nat.of_uint (snd (file_name k n)) = n).
  { intros n. unfold file_name. cbn [snd]. destruct (Nat.ltb n 10); [change (Nat.of_uint (D0 (Nat.to_uint n))) with (Nat.of_uint (Nat.to_uint n))|]; apply Unsigned.of_to. }
  rewrite <- (P i), <- (P j). unfold file_name. cbn [snd]. rewrite E. reflexivity.
Qed.
(** Different pictures have different files. *)
Theorem ksx_names : forall k k' i j, file_name k i = file_name k' j -> k = k' /\ i = j.
Proof. exact name_inj. Qed.
Print Assumptions ksx_names.
(** The name consists of the kind and the number of the level, with at least two digits, so that up to one hundred levels sort by name in their order. *)
Theorem ksx_digits k i : fst (file_name k i) = k /\ Nat.of_uint (snd (file_name k i)) = i /\ (2 <= nb_digits (snd (file_name k i)))%nat /\ ((10 <= i)%nat -> snd (file_name k i) = Nat.to_uint i).
Proof.
  unfold file_name. destruct (Nat.ltb_spec i 10) as [L|L]; cbn [fst snd].
  - split; [reflexivity|]. split; [|split; [|lia]].
    + do 10 (destruct i as [|i]; [reflexivity|]). lia.
    + do 10 (destruct i as [|i]; [cbn; lia|]). lia.
  - split; [reflexivity|]. split; [apply DecimalNat.Unsigned.of_to|]. split; [|reflexivity].
    destruct (Nat.to_uint i) as [|u|u|u|u|u|u|u|u|u|u] eqn:E; pose proof (DecimalNat.Unsigned.of_to i) as O; rewrite E in O; [cbn in O; lia|..]; (destruct u; [cbn in O; lia|..]); cbn; lia.
Qed.
Print Assumptions ksx_digits.
Lemma same_name_iff a b : same_name a b = true <-> a = b.
Proof.
  destruct a as [k u], b as [k' u']. unfold same_name. cbn [fst snd]. destruct (uint_eq_dec u u') as [->|N]; destruct k, k'; cbn; split; try reflexivity; try discriminate; intros E; injection E; intros; contradiction.
Qed.
Lemma write_other dir d n c m : n <> m -> write dir d n c m = d m.
Proof. intros N. unfold write. destruct (same_name n m) eqn:E; [apply same_name_iff in E; contradiction|]. rewrite andb_false_r. reflexivity. Qed.
Lemma write_same d n c : write true d n c n = Some c.
Proof. unfold write. rewrite (proj2 (same_name_iff n n) eq_refl). reflexivity. Qed.
Lemma save_images k dir : forall levels i d, fst (save_from k dir i levels d) = map (fun im => fst (save_level im)) levels.
Proof.
  induction levels as [|im rest IH]; intros i d; [reflexivity|]. cbn [save_from map]. destruct (save_level im) as [im' p]. specialize (IH (S i) (write dir d (file_name k i) p)). destruct (save_from k dir (S i) rest _) as [r d']. cbn [fst] in *. congruence.
Qed.
Lemma save_disk k : forall levels i d m, snd (save_from k true i levels d) m = d m \/ exists j, (i <= j < i + length levels)%nat /\ m = file_name k j.
Proof.
  induction levels as [|im rest IH]; intros i d m; [left; reflexivity|]. cbn [save_from length]. destruct (save_level im) as [im' p]. specialize (IH (S i) (write true d (file_name k i) p) m). destruct (save_from k true (S i) rest _) as [r d']. cbn [snd] in *. destruct IH as [E|(j & J & E)]; [|right; exists j; split; [lia|exact E]].
  rewrite E. destruct (same_name (file_name k i) m) eqn:S; [right; exists i; split; [lia|]; apply same_name_iff in S; congruence|left]. unfold write. rewrite S. reflexivity.
Qed.
Lemma save_file k : forall levels i d j im, nth_error levels j = Some im -> snd (save_from k true i levels d) (file_name k (i + j)) = Some (snd (save_level im)).
Proof.
  induction levels as [|x rest IH]; intros i d j im N; [destruct j; discriminate|]. cbn [save_from]. destruct (save_level x) as [x' p] eqn:S. destruct j as [|j].
  - injection N as <-. rewrite S, Nat.add_0_r. pose proof (save_disk k rest (Datatypes.S i) (write true d (file_name k i) p) (file_name k i)) as D. destruct (save_from k true (Datatypes.S i) rest _) as [r d']. cbn [snd] in *. destruct D as [D|(j & J & E)]; [rewrite D; apply write_same|]. apply name_inj in E. lia.
  - pose proof (IH (Datatypes.S i) (write true d (file_name k i) p) j im N) as H. destruct (save_from k true (Datatypes.S i) rest _) as [r d']. cbn [snd] in *. rewrite <- H. f_equal. f_equal. lia.
Qed.
Lemma level_scaled l lo hi : contrasty l lo hi -> save_level (Some l) = (Some (scaled lo hi l), Some (map to_byte (scaled lo hi l))) /\ contrasty (scaled lo hi l) 0 1.
Proof.
  intros (L & H & D & T). pose proof (kux_scale l lo hi L H T D) as E. unfold save_level. rewrite E. split; [reflexivity|]. destruct (kux_range l lo hi _ L H T D E) as (R & I0 & I1 & _). split; [split; [exact I0|intros v V; apply R, V]|]. split; [split; [exact I1|intros v V; apply R, V]|]. lra.
Qed.
(** Every level with contrast is saved to its file as a picture from black to white; other files stay. *)
Theorem ksx_files e d : let '(e', d') := save_scale_space true e d in
  (forall i l lo hi, nth_error (lts e) i = Some (Some l) -> contrasty l lo hi -> exists p, d' (file_name Scale_space i) = Some (Some p) /\ picture_of l lo hi p) /\
  (forall m, (forall i, (i < length (lts e))%nat -> m <> file_name Scale_space i) -> d' m = d m).
Proof.
  unfold save_scale_space. pose proof (save_disk Scale_space (lts e) 0 d) as D. pose proof (save_file Scale_space (lts e) 0 d) as F. destruct (save_from _ _ _ _ _) as [l' d']. cbn [snd] in *. split.
  - intros i l lo hi N C. specialize (F i (Some l) N). cbn [Nat.add] in F. destruct (level_scaled l lo hi C) as [S _]. rewrite S in F. cbn [snd] in F. eexists. split; [exact F|]. destruct C as (L & H & Q & T). destruct L as [_ L], H as [_ H]. clear S F N. unfold picture_of, scaled. rewrite map_map. induction l as [|v l IH]; [constructor|]. cbn [map]. constructor.
    + assert (B : 0 <= (v - lo) / (hi - lo) <= 1). { pose proof (L v (or_introl eq_refl)). pose proof (H v (or_introl eq_refl)). assert (P : 0 < / (hi - lo)) by (apply Rinv_0_lt_compat; lra). unfold Rdiv. split; [apply Rmult_le_pos; lra|]. apply Rmult_le_reg_l with (hi - lo); [lra|]. replace ((hi - lo) * ((v - lo) * / (hi - lo))) with (v - lo) by (field; lra). lra. }
      destruct (to_byte_range _ B) as [E R]. split; [exact R|]. rewrite E. apply cv_round_near.
    + apply IH; intros x X; [apply L|apply H]; right; exact X.
  - intros m M. destruct (D m) as [E|(j & J & E)]; [exact E|]. exfalso. apply (M j); [lia|exact E].
Qed.
Print Assumptions ksx_files.
(** The same of the responses. *)
Theorem ksx_responses e d : let '(e', d') := save_detector_responses true e d in let '(s, t) := save_scale_space true (Evolution (ldets e) (lts e)) (fun m => d (match fst m with Scale_space => Responses | Responses => Scale_space end, snd m)) in
  lts e' = lts e /\ ldets e' = lts s /\ forall i, (i < length (ldets e))%nat -> d' (file_name Responses i) = t (file_name Scale_space i).
Proof.
  unfold save_detector_responses, save_scale_space. cbn [lts ldets]. pose proof (save_images Responses true (ldets e) 0 d) as A. pose proof (save_file Responses (ldets e) 0 d) as F. destruct (save_from Responses _ _ _ _) as [l1 d1].
  match goal with |- context [save_from Scale_space true 0 (ldets e) ?dd] => pose proof (save_images Scale_space true (ldets e) 0 dd) as B; pose proof (save_file Scale_space (ldets e) 0 dd) as G; destruct (save_from Scale_space true 0 (ldets e) dd) as [l2 d2] end. cbn [fst snd lts ldets] in *.
  split; [reflexivity|]. split; [congruence|]. intros i I. destruct (nth_error (ldets e) i) as [im|] eqn:N; [|apply nth_error_None in N; lia]. specialize (F i im N). specialize (G i im N). cbn [Nat.add] in F, G. congruence.
Qed.
Print Assumptions ksx_responses.
(** Saving again writes the same files and changes nothing more. *)
Theorem ksx_twice e d : (forall i im, nth_error (lts e) i = Some im -> exists l lo hi, im = Some l /\ contrasty l lo hi) ->
  let '(e1, d1) := save_scale_space true e d in let '(e2, d2) := save_scale_space true e1 d1 in e2 = e1 /\ forall m, d2 m = d1 m.
Proof.
  intros C. unfold save_scale_space. pose proof (save_images Scale_space true (lts e) 0 d) as A. pose proof (save_file Scale_space (lts e) 0 d) as F. destruct (save_from _ _ 0%nat (lts e) d) as [l1 d1]. cbn [fst snd lts ldets] in *.
  pose proof (save_images Scale_space true l1 0 d1) as B. pose proof (save_file Scale_space l1 0 d1) as G. pose proof (save_disk Scale_space l1 0 d1) as D. destruct (save_from _ _ 0%nat l1 d1) as [l2 d2]. cbn [fst snd] in *.
  assert (Q : forall im, In im (lts e) -> save_level (fst (save_level im)) = save_level im).
  { intros im I. apply In_nth_error in I. destruct I as (i & N). destruct (C i im N) as (l & lo & hi & -> & K). destruct (level_scaled l lo hi K) as [S K1]. rewrite S. cbn [fst]. destruct (level_scaled _ 0 1 K1) as [S1 _]. rewrite S1.
    assert (X : scaled 0 1 (scaled lo hi l) = scaled lo hi l) by (unfold scaled at 1; rewrite <- (map_id (scaled lo hi l)) at 2; apply map_ext; intros v; field). rewrite X. reflexivity. }
  assert (E : l2 = l1). { rewrite B, A, map_map. apply map_ext_in. intros im I. rewrite (Q im I). reflexivity. }
  split; [rewrite E; reflexivity|]. intros m. destruct (D m) as [X|(j & J & ->)]; [exact X|]. rewrite A, map_length in J. destruct (nth_error (lts e) j) as [im|] eqn:N; [|apply nth_error_None in N; lia].
  specialize (F j im N). cbn [Nat.add] in F. rewrite F. specialize (G j (fst (save_level im))). rewrite A, nth_error_map, N in G. specialize (G eq_refl). cbn [Nat.add] in G. rewrite G, (Q im (nth_error_In _ _ N)). reflexivity.
Qed.
Print Assumptions ksx_twice.
(** But saving replaces the scale space by the scaled images: afterwards every level has the values 0 and 1, *)
Theorem ksx_state_refuted dir e d i l lo hi : nth_error (lts e) i = Some (Some l) -> contrasty l lo hi ->
  exists l', nth_error (lts (fst (save_scale_space dir e d))) i = Some (Some l') /\ contrasty l' 0 1 /\ ldets (fst (save_scale_space dir e d)) = ldets e /\ ((lo <> 0 \/ hi <> 1) -> l' <> l).
Proof.
  intros N C. unfold save_scale_space. pose proof (save_images Scale_space dir (lts e) 0 d) as A. destruct (save_from _ _ _ _ _) as [l1 d1]. cbn [fst lts ldets] in *. destruct (level_scaled l lo hi C) as [S K]. exists (scaled lo hi l). rewrite A, nth_error_map, N. cbn [option_map]. rewrite S. split; [reflexivity|]. split; [exact K|]. split; [reflexivity|].
  intros D E. rewrite E in K. destruct C as ((I1 & L) & (I2 & H) & _), K as ((J1 & L') & (J2 & H') & _). pose proof (L _ J1). pose proof (L' _ I1). pose proof (H _ J2). pose proof (H' _ I2). destruct D; lra.
Qed.
Print Assumptions ksx_state_refuted.
(** also if no file could be written; *)
Theorem ksx_missing_refuted e d : (forall m, snd (save_scale_space false e d) m = d m) /\ fst (save_scale_space false e d) = fst (save_scale_space true e d).
Proof.
  unfold save_scale_space. assert (G : forall k levels i d m, snd (save_from k false i levels d) m = d m).
  { induction levels as [|im rest IH]; intros i d0 m; [reflexivity|]. cbn [save_from]. destruct (save_level im) as [im' p]. specialize (IH (S i) (write false d0 (file_name k i) p) m). destruct (save_from k false (S i) rest _) as [r d']. cbn [snd] in *. rewrite IH. reflexivity. }
  specialize (G Scale_space (lts e) 0%nat d). pose proof (save_images Scale_space false (lts e) 0 d) as A. pose proof (save_images Scale_space true (lts e) 0 d) as B. destruct (save_from _ false _ _ _) as [l1 d1], (save_from _ true _ _ _) as [l2 d2]. cbn [fst snd] in *. split; [exact G|congruence].
Qed.
Print Assumptions ksx_missing_refuted.
(** and a flat level is lost. *)
Theorem ksx_flat_refuted dir e d i l c : nth_error (lts e) i = Some (Some l) -> l <> [] -> (forall v, In v l -> v = c) -> c <= 1000 -> nth_error (lts (fst (save_scale_space dir e d))) i = Some None.
Proof.
  intros N NE F T. unfold save_scale_space. pose proof (save_images Scale_space dir (lts e) 0 d) as A. destruct (save_from _ _ _ _ _) as [l1 d1]. cbn [fst lts] in *. rewrite A, nth_error_map, N. cbn [option_map save_level]. rewrite (kux_flat_refuted l c NE F T). reflexivity.
Qed.
Print Assumptions ksx_flat_refuted.

(** ** Cases *)
Lemma contrasty_ex : contrasty [3; 5; 4] 3 5.
Proof. split; [split; [left; reflexivity|]; cbn; intros v [<-|[<-|[<-|[]]]]; lra|]. split; [split; [right; left; reflexivity|]; cbn; intros v [<-|[<-|[<-|[]]]]; lra|]. lra. Qed.
Example ksx_state_ex : nth_error (lts (Evolution [None; Some [3; 5; 4]] [])) 1 = Some (Some [3; 5; 4]) /\ contrasty [3; 5; 4] 3 5 /\ 3 <> 0.
Proof. split; [reflexivity|]. split; [exact contrasty_ex|lra]. Qed.
Example ksx_twice_ex : forall i im, nth_error (lts (Evolution [Some [3; 5; 4]] [])) i = Some im -> exists l lo hi, im = Some l /\ contrasty l lo hi.
Proof. intros [|i] im E; cbn in E; [|destruct i; discriminate]. injection E as <-. exists [3; 5; 4], 3, 5. split; [reflexivity|exact contrasty_ex]. Qed.
Example ksx_flat_ex : [2; 2] <> [] /\ (forall v, In v [2; 2] -> v = 2) /\ 2 <= 1000.
Proof. split; [discriminate|]. split; [intros v [<-|[<-|[]]]; reflexivity|lra]. Qed.
Example ksx_names_ex : file_name Scale_space 7 = (Scale_space, D0 (D7 Nil)) /\ file_name Responses 12 = (Responses, D1 (D2 Nil)).
Proof. split; reflexivity. Qed.
