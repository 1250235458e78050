(** Properties of the files of keypoints. *)
From Coq Require Import ZArith QArith Qpower Qabs List Bool Ascii String Lia Lqa.
From Verif Require Import KFileModel KFileSpec KFileProofs.
Import ListNotations.
Local Open Scope Z_scope.

(** Every number is read back rounded to six significant digits. *)
Theorem kwx_number q : exists y, read_number (print q) = Some (Some y) /\ six_digits q y.
Proof.
  destruct q as [n d]. unfold print. cbn [Qnum Qden]. destruct n as [|n|n].
  - exists (inject_Z 0 * 10 ^ (0 - 0))%Q. split; [reflexivity|]. left. split; reflexivity.
  - destruct (print_positive_word (Zpos n) (Zpos d) eq_refl eq_refl) as (_ & c & t & E & M & I). destruct (read_print_positive (Zpos n) (Zpos d) eq_refl eq_refl) as (y & R & S). exists y. unfold read_number. rewrite E, M, I, <- E, R. split; [reflexivity|].
    apply (six_digits_eq (ratio (Zpos n) (Zpos d))); [apply ratio_Q|exact S].
  - destruct (read_print_positive (Zpos n) (Zpos d) eq_refl eq_refl) as (y & R & S). exists (- y)%Q. unfold read_number. change (Ascii.eqb minus "-") with true. cbn iota. rewrite R. split; [reflexivity|].
    apply (six_digits_eq (- ratio (Zpos n) (Zpos d))); [rewrite ratio_Q; reflexivity|apply six_digits_opp, S].
Qed.
Print Assumptions kwx_number.
Example kwx_number_case : string_of_list_ascii (print (1 # 3)) = "0.333333"%string /\ string_of_list_ascii (print (-123456789 # 1)) = "-1.23457e+08"%string /\ string_of_list_ascii (print (9999996 # 10)) = "1e+06"%string /\
  string_of_list_ascii (print (1 # 1024)) = "0.000976562"%string /\ string_of_list_ascii (print (1 # 300000)) = "3.33333e-06"%string /\ string_of_list_ascii (print (640 # 1)) = "640"%string.
Proof. vm_compute. repeat split. Qed.

(** The relative error is at most five millionths. *)
Theorem kwx_error a b : six_digits a b -> (Qabs (b - a) <= (5 # 1000000) * Qabs a)%Q.
Proof.
  intros [[A B]|(e & m & [A _] & _ & _ & D & _)]; [rewrite A, B; discriminate|]. eapply Qle_trans; [exact D|]. replace (e - 5) with (-5 + e) by lia. rewrite ten_plus. change (10 ^ (-5))%Q with (1 # 100000)%Q. lra.
Qed.
Print Assumptions kwx_error.
(** Numbers of at most six significant digits are kept. *)
Theorem kwx_exact a b k j : six_digits a b -> (a == inject_Z k * 10 ^ j)%Q -> Z.abs k < 10 ^ 6 -> (b == a)%Q.
Proof.
  intros [[A B]|(e & m & [A _] & B & _ & D & _)] E K; [rewrite A, B; reflexivity|].
  assert (J : e - 5 <= j).
  { destruct (Z.le_gt_cases (e - 5) j) as [|G]; [assumption|]. exfalso. rewrite E, Qabs_Qmult in A. rewrite (Qabs_pos (10 ^ j)) in A by (apply Qlt_le_weak, ten_pos). change (Qabs (inject_Z k)) with (inject_Z (Z.abs k)) in A.
    assert (H : (10 ^ (6 + j) <= 10 ^ e)%Q) by (apply ten_mono; lia). rewrite ten_plus in H. apply inj_lt in K. apply (Qmult_lt_r _ _ _ (ten_pos j)) in K. change (inject_Z (10 ^ 6)) with (10 ^ 6)%Q in K. lra. }
  set (c := k * 10 ^ (j - (e - 5))). assert (EC : (a == inject_Z c * 10 ^ (e - 5))%Q).
  { rewrite E. unfold c. rewrite inject_Z_mult, <- ten_Z by lia. replace j with ((j - (e - 5)) + (e - 5)) at 1 by lia. rewrite ten_plus. apply Qmult_assoc. }
  assert (M : m = c); [|rewrite B, EC, M; reflexivity].
  rewrite B, EC in D. assert (D2 : (Qabs ((inject_Z m - inject_Z c) * 10 ^ (e - 5)) <= (1 # 2) * 10 ^ (e - 5))%Q) by (setoid_replace ((inject_Z m - inject_Z c) * 10 ^ (e - 5))%Q with (inject_Z m * 10 ^ (e - 5) - inject_Z c * 10 ^ (e - 5))%Q by ring; exact D).
  rewrite <- abs_scale in D2 by apply ten_pos. apply (cancel_le (10 ^ (e - 5))) in D2; [|apply ten_pos]. unfold Qminus in D2. rewrite <- inject_Z_opp, <- inject_Z_plus in D2. change (Qabs (inject_Z (m + - c))) with (inject_Z (Z.abs (m + - c))) in D2.
  assert (H : (inject_Z (Z.abs (m + - c)) < inject_Z 1)%Q) by (change (inject_Z 1) with 1%Q; lra). rewrite <- Zlt_Qlt in H. lia.
Qed.
Print Assumptions kwx_exact.
(** In particular whole numbers of pixels, and quarters of pixels below 10000. *)
Example kwx_exact_case : forall b, six_digits (40475 # 100) b -> (b == 40475 # 100)%Q.
Proof. intros b H. apply (kwx_exact _ _ 40475 (-2) H); [reflexivity|lia]. Qed.
Example kwx_exact_reached : exists b, six_digits (40475 # 100) b.
Proof. destruct (kwx_number (40475 # 100)) as (b & _ & H). exists b. exact H. Qed.

(** ** The file *)
Lemma read_number_text v : exists w, read_number (number_text v) = Some w /\ shown v w.
Proof. destruct v as [q|]; [|exists None; split; [reflexivity|exact I]]. destruct (kwx_number q) as (b & R & S). exists (Some b). split; [exact R|exact S]. Qed.
Lemma read_all_text l : exists r, read_all (map number_text l) = Some r /\ Forall2 shown l r.
Proof.
  induction l as [|v l (r & R & F)]; [exists []; split; [reflexivity|constructor]|]. destruct (read_number_text v) as (w & W & S). exists (w :: r). cbn [map read_all]. rewrite W, R. split; [reflexivity|constructor; assumption].
Qed.
Lemma shown_length l r : Forall2 shown l r -> List.length l = List.length r.
Proof. induction 1; cbn; congruence. Qed.
Lemma read_rows_spec w t : Forall (fun l => List.length l = w) t -> forall r, Forall2 shown (List.concat t) r -> exists rows, read_rows w (List.length t) r = Some rows /\ Forall2 (Forall2 shown) t rows.
Proof.
  induction 1 as [|l t L _ IH]; intros r F; cbn [List.concat List.length read_rows] in *.
  - inversion F. exists []. split; [reflexivity|constructor].
  - apply Forall2_app_inv_l in F. destruct F as (r1 & r2 & F1 & F2 & ->). pose proof (shown_length _ _ F1) as L1. assert (W : List.length r1 = w) by lia. destruct (IH r2 F2) as (rows & R & FR).
    rewrite app_length. replace (w <=? List.length r1 + List.length r2)%nat with true by (symmetry; apply Nat.leb_le; lia). rewrite <- W, firstn_app, skipn_app, Nat.sub_diag, firstn_all, skipn_all, firstn_O, skipn_O, app_nil_r, W. cbn [app]. rewrite R. exists (r1 :: rows). split; [reflexivity|constructor; assumption].
Qed.
Lemma table_widths a cols kpts desc : Forall (fun row => List.length row = cols) desc -> Forall (fun l => List.length l = (5 + cols)%nat) (table a kpts desc).
Proof.
  intros F. revert kpts. induction F as [|row desc R _ IH]; intros [|k kpts]; try constructor.
  - cbn [fst snd]. unfold row_of. rewrite app_length, map_length, R. reflexivity.
  - apply IH.
Qed.
Lemma lines_defined a kpts : forall desc, (exists t, lines a kpts desc = Some t) <-> (List.length desc <= List.length kpts)%nat.
Proof.
  induction kpts as [|k kpts IH]; intros [|row desc]; cbn [lines List.length].
  - split; [lia|eauto].
  - split; [intros [t H]; discriminate|lia].
  - split; [lia|eauto].
  - rewrite <- Nat.succ_le_mono, <- (IH desc). destruct (lines a kpts desc); cbn; split; intros [t H]; try discriminate; eauto.
Qed.
(** If there is a keypoint for every row and the file fits on the disk, the file says how long and how many the descriptors are, and the rows are position, 1/r^2, 0, 1/r^2 and descriptor of the keypoints in
    their order, each to six digits. *)
Theorem kwx_file a kpts (cols : nat) desc : (List.length desc <= List.length kpts)%nat -> Forall (fun row => List.length row = cols) desc -> exists t, forall room old,
  save_keypoints a true room old kpts (Z.of_nat cols) desc = Some (1, Some (firstn room t)) /\
  ((List.length t <= room)%nat -> exists rows, read_file (firstn room t) = Some (Z.of_nat cols, Z.of_nat (List.length desc), rows) /\ Forall2 (Forall2 shown) (table a kpts desc) rows).
Proof.
  intros L F. apply (lines_defined a kpts) in L as L'. destruct L' as [ls LS]. unfold save_keypoints, contents. rewrite LS. cbn [option_map]. eexists. intros room old. split; [reflexivity|]. intros R. rewrite firstn_all2 by exact R. unfold read_file. cbn [app].
  rewrite !words_blank by (reflexivity || apply print_int_word; lia). rewrite !read_print_int by lia. rewrite (lines_words _ _ _ _ LS). destruct (read_all_text (List.concat (table a kpts desc))) as (r & -> & FR). rewrite !Nat2Z.id.
  destruct (read_rows_spec _ _ (table_widths a cols kpts desc F) r FR) as (rows & RR & FF). assert (LT : List.length (table a kpts desc) = List.length desc) by (unfold table; rewrite map_length, combine_length; lia). rewrite LT in RR. rewrite RR. exists rows. split; [reflexivity|exact FF].
Qed.
Print Assumptions kwx_file.
Definition plain : arithmetic := Arithmetic (fun d => (d / 2) * (d / 2))%Q (fun s => / s)%Q.
Example kwx_file_case : exists t, save_keypoints plain true 1000 None [Keypoint (21 # 2) (1 # 3) 4; Keypoint 640 480 0] 2 [[1 # 8; 2 # 3]; [0%Q; (-1)%Q]] = Some (1, Some t) /\
  string_of_list_ascii t = ("2" ++ String newline ("2" ++ String newline ("10.5 0.333333 0.25 0 0.25 0.125 0.666667" ++ String newline ("640 480 inf 0 inf 0 -1" ++ String newline ""))))%string.
Proof. eexists. split; vm_compute; reflexivity. Qed.
(** The file has two lines and one for every descriptor. *)
Theorem kwx_lines a kpts cols desc t : 0 <= cols -> contents a kpts cols desc = Some t -> count_occ ascii_dec t (ascii_of_nat 10) = (2 + List.length desc)%nat /\ (exists u, t = u ++ [ascii_of_nat 10]).
Proof.
  intros C. assert (W : forall w, word w -> count_occ ascii_dec w (ascii_of_nat 10) = 0%nat).
  { intros w [_ W]. apply count_occ_not_In. intros I. rewrite forallb_forall in W. specialize (W _ I). discriminate. }
  assert (N : count_occ ascii_dec [newline] (ascii_of_nat 10) = 1%nat) by reflexivity. assert (S : count_occ ascii_dec [space] (ascii_of_nat 10) = 0%nat) by reflexivity.
  assert (P : forall k, print_scale a k = number_text (scale_of a k)) by (intros k; unfold print_scale, scale_of; destruct (Qeq_bool _ _); reflexivity).
  assert (L : forall k row, count_occ ascii_dec (line a k row) (ascii_of_nat 10) = 1%nat).
  { intros k row. unfold line. rewrite P, !count_occ_app, N, !S, !(W _ (print_word _)), !(W _ (number_text_word _)). cbn [Nat.add]. rewrite Nat.add_1_r. f_equal.
    induction row as [|v row IH]; [reflexivity|]. cbn [map List.concat]. change (space :: print v) with ([space] ++ print v). rewrite !count_occ_app, S, (W _ (print_word _)), IH. reflexivity. }
  assert (G : forall desc kpts l, lines a kpts desc = Some l -> count_occ ascii_dec l (ascii_of_nat 10) = List.length desc /\ (l = [] \/ exists u, l = u ++ [ascii_of_nat 10])).
  { clear kpts desc t. induction desc as [|row desc IH]; intros [|k kpts] l E; cbn [lines] in E; try discriminate; try (injection E as <-; split; [reflexivity|auto]).
    destruct (lines a kpts desc) as [m|] eqn:M; [|discriminate]. injection E as <-. destruct (IH kpts m M) as [IH1 IH2]. rewrite count_occ_app, L, IH1. split; [reflexivity|]. right. destruct IH2 as [-> | [u ->]].
    - unfold line. rewrite app_nil_r, !app_assoc. eexists. reflexivity.
    - rewrite app_assoc. eexists. reflexivity. }
  unfold contents. destruct (lines a kpts desc) as [l|] eqn:E; [|discriminate]. cbn [option_map]. intros T. apply (f_equal (fun o => match o with Some v => v | None => [] end)) in T. cbn beta iota in T. subst t. destruct (G desc kpts l E) as [G1 G2]. split.
  - rewrite !count_occ_app, !N, G1, (W _ (print_int_word cols C)), (W _ (print_int_word (Z.of_nat (List.length desc)) ltac:(lia))). reflexivity.
  - destruct G2 as [-> | [u ->]].
    + exists (print_int cols ++ [newline] ++ print_int (Z.of_nat (List.length desc))). rewrite <- !app_assoc. reflexivity.
    + exists (print_int cols ++ [newline] ++ print_int (Z.of_nat (List.length desc)) ++ [newline] ++ u). rewrite <- !app_assoc. reflexivity.
Qed.
Print Assumptions kwx_lines.
(** Without descriptors for it a keypoint is not written, and a descriptor without keypoint is undefined behaviour; a file that cannot be opened is reported and left alone. *)
Theorem kwx_defined a opens room old kpts cols desc : (exists r, save_keypoints a opens room old kpts cols desc = Some r) <-> opens = false \/ (List.length desc <= List.length kpts)%nat.
Proof.
  unfold save_keypoints, contents. pose proof (lines_defined a kpts desc) as L. destruct opens; [|split; eauto]. destruct (lines a kpts desc) as [t|]; cbn [option_map].
  - split; [|eauto]. intros _. right. apply L. eauto.
  - split; [intros [r H]; discriminate|]. intros [H|H]; [discriminate|]. apply L in H. destruct H. discriminate.
Qed.
Print Assumptions kwx_defined.
Theorem kwx_result a opens room old kpts cols desc r f : save_keypoints a opens room old kpts cols desc = Some (r, f) -> (r = 1 /\ opens = true) \/ (r = -1 /\ opens = false /\ f = old).
Proof. unfold save_keypoints. destruct opens; [destruct (contents a kpts cols desc); [|discriminate]|]; intros [= <- <-]; auto. Qed.
Print Assumptions kwx_result.
Theorem kwx_unmatched a opens room old kpts more cols desc : List.length desc = List.length kpts -> save_keypoints a opens room old (kpts ++ more) cols desc = save_keypoints a opens room old kpts cols desc.
Proof.
  intros L. assert (E : lines a (kpts ++ more) desc = lines a kpts desc); [|unfold save_keypoints, contents; rewrite E; reflexivity]. revert desc L. induction kpts as [|k kpts IH]; intros [|row desc] L; try discriminate; [destruct more; reflexivity|].
  cbn. rewrite IH by (cbn in L; lia). reflexivity.
Qed.
Print Assumptions kwx_unmatched.

(** ** What does not hold *)
(** Different positions become one: 1000.03125 and 1000.0302734375 are floats 1/1024 apart. *)
Theorem kwx_position_refuted : exists a k1 k2, ~ (x k1 == x k2)%Q /\ (Qnum (Qred (x k1 * 1024)) = 1024032 /\ Qnum (Qred (x k2 * 1024)) = 1024031) /\ contents a [k1] 0 [[]] = contents a [k2] 0 [[]] /\ contents a [k1] 0 [[]] <> None.
Proof. exists plain, (Keypoint (1024032 # 1024) 0 2), (Keypoint (1024031 # 1024) 0 2). split; [discriminate|]. split; [split; reflexivity|]. split; [vm_compute; reflexivity|]. vm_compute. discriminate. Qed.
Print Assumptions kwx_position_refuted.
(** On a full disk the result is still 1: the old file is gone and the new one cannot be read. *)
Theorem kwx_full_refuted : exists room kpts desc t old, save_keypoints plain true room (Some old) kpts 1 desc = Some (1, Some t) /\ read_file t = None /\ read_file old <> None /\ List.length desc = List.length kpts.
Proof.
  exists 5%nat, [Keypoint 1 2 2], [[1%Q]], (firstn 5 (list_ascii_of_string (String "1" (String newline (String "1" (String newline "1")))))), (list_ascii_of_string (String "0" (String newline (String "0" (String newline ""))))).
  split; [vm_compute; reflexivity|]. split; [vm_compute; reflexivity|]. split; [vm_compute; discriminate|reflexivity].
Qed.
Print Assumptions kwx_full_refuted.
(** It may even look complete: the last digits of a descriptor are missing. *)
Theorem kwx_truncated_refuted : exists room kpts desc t rows, save_keypoints plain true room None kpts 1 desc = Some (1, Some t) /\ read_file t = Some (1, 1, rows) /\ ~ Forall2 (Forall2 shown) (table plain kpts desc) rows.
Proof.
  exists 15%nat, [Keypoint 1 2 2], [[123456%Q]]. eexists. eexists. split; [vm_compute; reflexivity|]. split; [vm_compute; reflexivity|]. intros F. inversion F as [|? ? ? ? F1 _]; subst. do 5 (inversion F1 as [|? ? ? ? _ F2]; subst; clear F1; rename F2 into F1).
  inversion F1 as [|? ? ? ? S _]; subst. cbn [shown] in S. apply (kwx_exact _ _ 123456 0) in S; [discriminate S|reflexivity|lia].
Qed.
Print Assumptions kwx_truncated_refuted.
(** A keypoint of size zero has an infinite scale, which is not a number of the file format. *)
Theorem kwx_size_refuted a p q (cols : nat) row : (square a 0 == 0)%Q -> List.length row = cols -> exists t, forall room old, (List.length t <= room)%nat ->
  save_keypoints a true room old [Keypoint p q 0] (Z.of_nat cols) [row] = Some (1, Some t) /\ exists l, read_file t = Some (Z.of_nat cols, 1, [l]) /\ nth_error l 2 = Some None.
Proof.
  intros Z0 L. destruct (kwx_file a [Keypoint p q 0] cols [row]) as (t & H); [cbn; lia|constructor; [exact L|constructor]|]. exists t. intros room old R. destruct (H room old) as [E F]. rewrite firstn_all2 in E, F by exact R. split; [exact E|].
  destruct (F R) as (rows & RF & FF). cbn [table combine map fst snd] in FF. inversion FF as [|? l ? ? F1 F2]; subst. inversion F2; subst. exists l. split; [exact RF|].
  unfold row_of, scale_of in F1. cbn [diameter] in F1. apply Qeq_bool_iff in Z0. rewrite Z0 in F1. cbn [app] in F1. inversion F1 as [|? ? ? ? _ F3]; subst. inversion F3 as [|? ? ? ? _ F4]; subst. inversion F4 as [|? z ? ? S5 _]; subst. destruct z; [destruct S5|reflexivity].
Qed.
Print Assumptions kwx_size_refuted.
Example kwx_size_case : (square plain 0 == 0)%Q.
Proof. reflexivity. Qed.
