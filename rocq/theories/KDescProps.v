(** C129: all descriptors of a list of keypoints, computed in parallel. *)
From Coq Require Import ZArith Reals List Bool Arith Lia Lra.
From Verif Require Import OrientModel OrientProps SurfModel SurfSpec SurfProps KDescModel KDescSpec.
Import ListNotations.
Local Open Scope R_scope.

(** The numbers of the types, their functions and the width of the result belong together. *)
Theorem kdx_types k up ext t v :
  (variant_of (type_number k up ext) = Some (Variant k up ext)) /\ (variant_of t = Some v -> t = type_number (kind v) (upright v) (extended v) /\ columns_of t = row_length (extended v)).
Proof.
  split; [destruct k, up, ext; reflexivity|]. intros H. do 12 (destruct t as [|t]; [injection H as <-; split; reflexivity|]). discriminate.
Qed.
Print Assumptions kdx_types.

Lemma update_length {A} (g : A -> A) l : forall i, length (update i g l) = length l.
Proof. induction l as [|a l IH]; intros [|i]; cbn; auto. Qed.
Lemma update_nth {A} (g : A -> A) l : forall i j, nth_error (update i g l) j = if Nat.eqb i j then option_map g (nth_error l j) else nth_error l j.
Proof.
  induction l as [|a l IH]; intros i j; [destruct i, j; cbn; try reflexivity; destruct (Nat.eqb i j); reflexivity|]. destruct i, j; cbn [update nth_error Nat.eqb option_map]; try reflexivity. apply IH.
Qed.

Section Image.
Variables (height width : Z) (levels : list derivatives).
Notation level_of := (level_of levels).
Notation orient_at := (orient_at height width).
Notation row_at := (row_at height width).
Notation do_step := (do_step height width levels).
Notation compute := (compute_descriptors height width levels).

Lemma level_known kp : (0 <= class_id kp < Z.of_nat (length levels))%Z -> exists D, level_of kp = Some D /\ nth_error levels (Z.to_nat (class_id kp)) = Some D.
Proof.
  intros H. unfold KDescModel.level_of. destruct (Z.ltb_spec (class_id kp) 0); [lia|]. destruct (nth_error levels (Z.to_nat (class_id kp))) as [D|] eqn:E; [eauto|]. apply nth_error_None in E. lia.
Qed.
Definition local (v : variant) (D : derivatives) (p : keypoint * row) (s : step) : keypoint * row :=
  match s with Orient _ => (orient_at D (fst p), snd p) | Describe _ => (fst p, row_at v D (fst p)) end.
Lemma run_local v order : forall kpts rows, length rows = length kpts -> known_levels (length levels) kpts ->
  (forall s, In s order -> exists i, of_iteration i s = true /\ (i < length kpts)%nat) ->
  exists kpts' rows', fold_left (do_step v) order (Fine (kpts, rows)) = Fine (kpts', rows') /\ length kpts' = length kpts /\ length rows' = length kpts /\
  forall i kp r D, nth_error kpts i = Some kp -> nth_error rows i = Some r -> level_of kp = Some D ->
    nth_error kpts' i = Some (fst (fold_left (local v D) (filter (of_iteration i) order) (kp, r))) /\
    nth_error rows' i = Some (snd (fold_left (local v D) (filter (of_iteration i) order) (kp, r))).
Proof.
  induction order as [|s order IH]; intros kpts rows L K B; cbn [fold_left].
  { exists kpts, rows. repeat split; auto. }
  destruct (B s (or_introl eq_refl)) as (i & Ei & Li). destruct (nth_error kpts i) as [kp|] eqn:Nk; [|apply nth_error_None in Nk; lia].
  destruct (level_known kp) as (D & LD & _). { apply nth_error_In in Nk. unfold known_levels in K. rewrite Forall_forall in K. apply K. exact Nk. }
  assert (match s with Orient j => j | Describe j => j end = i) as Ej by (destruct s as [j|j]; cbn in Ei; apply Nat.eqb_eq in Ei; congruence).
  assert (exists st, do_step v (Fine (kpts, rows)) s = Fine st /\ length (fst st) = length kpts /\ length (snd st) = length kpts /\ known_levels (length levels) (fst st) /\
    forall j kq r E, nth_error kpts j = Some kq -> nth_error rows j = Some r -> level_of kq = Some E ->
      let p := if of_iteration j s then local v E (kq, r) s else (kq, r) in nth_error (fst st) j = Some (fst p) /\ nth_error (snd st) j = Some (snd p) /\ level_of (fst p) = Some E) as (st & Est & L1 & L2 & K' & N').
  { unfold KDescModel.do_step. rewrite Ej, Nk, LD. eexists. split; [reflexivity|]. destruct s as [j|j]; subst j; cbn [fst snd local of_iteration].
    - rewrite update_length. split; [reflexivity|]. split; [exact L|]. split.
      { unfold known_levels in *. rewrite Forall_forall in *. intros x X. apply In_nth_error in X as (n & X). rewrite update_nth in X. destruct (Nat.eqb i n); [|apply K; eapply nth_error_In; exact X].
        destruct (nth_error kpts n) as [y|] eqn:Y; [|discriminate]. injection X as <-. cbn. apply nth_error_In in Y. apply (K y Y). }
      intros j kq r E Hk Hr HE. rewrite update_nth, Hk, Hr. destruct (Nat.eq_dec i j) as [<-|Ne]; [rewrite Nat.eqb_refl; cbn [option_map fst snd]|rewrite (proj2 (Nat.eqb_neq i j) Ne), ?(proj2 (Nat.eqb_neq j i) (not_eq_sym Ne)); cbn [option_map fst snd]; auto].
      rewrite Nk in Hk. injection Hk as <-. rewrite LD in HE. injection HE as <-. repeat split. exact LD.
    - rewrite update_length. split; [reflexivity|]. split; [exact L|]. split; [exact K|].
      intros j kq r E Hk Hr HE. rewrite update_nth, Hk, Hr. destruct (Nat.eq_dec i j) as [<-|Ne]; [rewrite Nat.eqb_refl; cbn [option_map fst snd]|rewrite (proj2 (Nat.eqb_neq i j) Ne), ?(proj2 (Nat.eqb_neq j i) (not_eq_sym Ne)); cbn [option_map fst snd]; auto].
      rewrite Nk in Hk. injection Hk as <-. rewrite LD in HE. injection HE as <-. repeat split. exact LD. }
  rewrite Est. destruct st as [k1 r1]. cbn [fst snd] in *. destruct (IH k1 r1) as (k2 & r2 & F & M1 & M2 & Q); [lia|exact K'| |].
  { intros s' I. destruct (B s' (or_intror I)) as (j & X & Y). exists j. split; [exact X|lia]. }
  exists k2, r2. split; [exact F|]. split; [lia|]. split; [lia|]. intros j kq r E Hk Hr HE. destruct (N' j kq r E Hk Hr HE) as (A1 & A2 & A3). destruct (Q j _ _ E A1 A2 A3) as (C1 & C2). cbn [filter].
  destruct (of_iteration j s); cbn [fold_left fst snd] in *; [|split; assumption]. destruct (local v E (kq, r) s) as [a b]. split; assumption.
Qed.

(** For every interleaving of the iterations: row i is the descriptor of keypoint i, of the kind asked for; the rotated kinds set the angle of the keypoint first, nothing else changes. *)
Theorem kdx_rows t v kpts order : variant_of t = Some v -> known_levels (length levels) kpts -> execution t (length kpts) order ->
  exists kpts' rows, compute t kpts order = Fine (kpts', rows) /\ length kpts' = length kpts /\ length rows = length kpts /\
  forall i kp, nth_error kpts i = Some kp -> exists D kp', nth_error levels (Z.to_nat (class_id kp)) = Some D /\ nth_error kpts' i = Some kp' /\ same_but_angle kp kp' /\
    angle kp' = (if upright v then angle kp else main_orientation height width (dLx D) (dLy D) (pt_x kp) (pt_y kp) (size kp) (angle kp)) /\
    nth_error rows i = Some (match descriptor height width v D (pt_x kp) (pt_y kp) (size kp) (angle kp') with Some l => Numbers l | None => NotNumbers (row_length (extended v)) end).
Proof.
  intros V K X. unfold compute_descriptors. rewrite V. set (desc := repeat _ _). assert (length desc = length kpts) as Ld by apply repeat_length.
  destruct (run_local v order kpts desc Ld K) as (kpts' & rows & E & L1 & L2 & Q).
  { intros s I. exists (match s with Orient j => j | Describe j => j end). assert (of_iteration (match s with Orient j => j | Describe j => j end) s = true) as O by (destruct s; apply Nat.eqb_refl). split; [exact O|].
    set (i := match s with Orient j => j | Describe j => j end) in *. specialize (X i). destruct (Nat.ltb_spec i (length kpts)); [assumption|exfalso]. assert (In s (filter (of_iteration i) order)) as J by (apply filter_In; auto). rewrite X in J. destruct J. }
  exists kpts', rows. split; [exact E|]. split; [exact L1|]. split; [exact L2|]. intros i kp Hk. assert (i < length kpts)%nat as Li by (apply nth_error_Some; congruence).
  destruct (nth_error desc i) as [r|] eqn:Hr; [|apply nth_error_None in Hr; lia]. destruct (level_known kp) as (D & LD & ND). { unfold known_levels in K. rewrite Forall_forall in K. apply K. eapply nth_error_In. exact Hk. }
  destruct (Q i kp r D Hk Hr LD) as (A & B). rewrite (X i) in A, B. destruct (Nat.ltb_spec i (length kpts)); [|lia]. unfold body in A, B. rewrite V in A, B. exists D.
  destruct (upright v) eqn:U; cbn [fold_left local fst snd] in A, B; eexists; (split; [exact ND|]); (split; [exact A|]); (split; [repeat split|]); (split; [reflexivity|]); rewrite B; reflexivity.
Qed.

Lemma two_lists {A} (l l' : list A) : (forall i, nth_error l i = nth_error l' i) -> l = l'.
Proof.
  revert l'. induction l as [|a l IH]; intros [|b l'] H; [reflexivity|discriminate (H 0%nat)|discriminate (H 0%nat)|]. f_equal; [specialize (H 0%nat); cbn in H; congruence|]. apply IH. intros i. apply (H (S i)).
Qed.
Lemma keypoint_ext a b : same_but_angle a b -> angle a = angle b -> a = b.
Proof. destruct a, b. intros (A & B & C & D) E. cbn in *. congruence. Qed.
(** The result does not depend on the interleaving; nor on calling it once more. *)
Lemma slide_snd res W : forall m a b, snd (fold_left (slide res) W (m, a)) = snd (fold_left (slide res) W (m, b)) \/ (snd (fold_left (slide res) W (m, a)) = a /\ snd (fold_left (slide res) W (m, b)) = b).
Proof.
  induction W as [|w W IH]; intros m a b; [right; auto|]. cbn [fold_left slide]. destruct (window_sum res w) as [x y]. destruct (Rlt_dec m (x * x + y * y)); [left; reflexivity|apply IH].
Qed.
Lemma main_again Lx Ly x y s a : main_orientation height width Lx Ly x y s (main_orientation height width Lx Ly x y s a) = main_orientation height width Lx Ly x y s a.
Proof.
  unfold main_orientation. set (res := responses _ _ _ _ _ _ _). set (b := snd (fold_left (slide res) windows (0, a))). destruct (slide_snd res windows 0 a b) as [H|(_ & H)]; [rewrite <- H; reflexivity|exact H].
Qed.
Theorem kdx_order t v kpts order order' : variant_of t = Some v -> known_levels (length levels) kpts -> execution t (length kpts) order -> execution t (length kpts) order' ->
  exists kpts' rows, compute t kpts order = Fine (kpts', rows) /\ compute t kpts order' = Fine (kpts', rows) /\ compute t kpts' order = Fine (kpts', rows).
Proof.
  intros V K X X'. destruct (kdx_rows t v kpts order V K X) as (k1 & r1 & E1 & A1 & B1 & C1), (kdx_rows t v kpts order' V K X') as (k2 & r2 & E2 & A2 & B2 & C2).
  assert (known_levels (length levels) k1) as K1.
  { unfold known_levels in *. rewrite Forall_forall in *. intros q Q. apply In_nth_error in Q as (i & Q). destruct (nth_error kpts i) as [kp|] eqn:N. 2:{ apply nth_error_None in N. assert (i < length k1)%nat by (apply nth_error_Some; congruence). lia. }
    destruct (C1 i kp N) as (D & q' & _ & Q' & S & _). rewrite Q in Q'. injection Q' as <-. destruct S as (_ & _ & _ & <-). apply K. eapply nth_error_In. exact N. }
  rewrite <- A1 in X. destruct (kdx_rows t v k1 order V K1 X) as (k3 & r3 & E3 & A3 & B3 & C3). exists k1, r1. split; [exact E1|].
  assert (forall k r, length k = length kpts -> length r = length kpts -> (forall i kp, nth_error kpts i = Some kp -> nth_error k i = nth_error k1 i /\ nth_error r i = nth_error r1 i) -> k = k1 /\ r = r1) as Z.
  { intros k r Lk Lr H. split; apply two_lists; intros i; (destruct (nth_error kpts i) as [kp|] eqn:N; [apply (H i kp N)|]); apply nth_error_None in N; rewrite (proj2 (nth_error_None _ _)), (proj2 (nth_error_None _ _)); try reflexivity; lia. }
  split.
  - destruct (Z k2 r2 A2 B2) as (-> & ->); [|exact E2]. intros i kp N. destruct (C1 i kp N) as (D & a & D1 & N1 & S1 & G1 & R1), (C2 i kp N) as (D' & b & D2 & N2 & S2 & G2 & R2). rewrite D1 in D2. injection D2 as <-.
    rewrite N1, N2, R1, R2, G1, G2. split; [|reflexivity]. f_equal. apply keypoint_ext; [|congruence]. destruct S1 as (? & ? & ? & ?), S2 as (? & ? & ? & ?). repeat split; congruence.
  - destruct (Z k3 r3) as (-> & ->); [lia|lia| |exact E3]. intros i kp N. destruct (C1 i kp N) as (D & a & D1 & N1 & (P1 & P2 & P3 & P4) & G1 & R1). destruct (C3 i a N1) as (D' & b & D2 & N2 & (Q1 & Q2 & Q3 & Q4) & G2 & R2).
    rewrite <- P4, D1 in D2. injection D2 as <-. rewrite <- P1, <- P2, <- P3 in *. assert (angle b = angle a) as Eab. { rewrite G2. destruct (upright v); [reflexivity|]. rewrite G1. apply main_again. }
    rewrite N1, N2, R1, R2, Eab. split; [|reflexivity]. f_equal. symmetry. apply keypoint_ext; [|congruence]. repeat split; congruence.
Qed.

(** All rows have the length of the kind and are unit vectors, or have no numbers. *)
Theorem kdx_good t v kpts order kpts' rows : variant_of t = Some v -> known_levels (length levels) kpts -> execution t (length kpts) order -> compute t kpts order = Fine (kpts', rows) ->
  Forall (good_row (columns_of t)) rows.
Proof.
  intros V K X E. destruct (kdx_rows t v kpts order V K X) as (k1 & r1 & E1 & A & B & C). rewrite E in E1. injection E1 as <- <-. apply Forall_forall. intros r I. apply In_nth_error in I as (i & I).
  destruct (nth_error kpts i) as [kp|] eqn:N. 2:{ apply nth_error_None in N. assert (i < length rows)%nat by (apply nth_error_Some; congruence). lia. }
  destruct (C i kp N) as (D & kp' & _ & _ & _ & _ & R). rewrite I in R. injection R as ->. rewrite (proj2 (proj2 (kdx_types Surf true true t v) V)). destruct (descriptor _ _ _ _ _ _ _ _) as [l|] eqn:F; [|reflexivity]. apply sux_unit in F. exact F.
Qed.
End Image.
Print Assumptions kdx_rows.
Print Assumptions kdx_order.
Print Assumptions kdx_good.

(** More contrast changes nothing. *)
Theorem kdx_rows_contrast height width levels c t v kpts order : 0 < c -> variant_of t = Some v -> known_levels (length levels) kpts -> execution t (length kpts) order ->
  compute_descriptors height width (map (scale_derivatives c) levels) t kpts order = compute_descriptors height width levels t kpts order.
Proof.
  intros C V K X. destruct (kdx_rows height width levels t v kpts order V K X) as (k1 & r1 & E1 & A1 & B1 & C1).
  destruct (kdx_rows height width (map (scale_derivatives c) levels) t v kpts order V) as (k2 & r2 & E2 & A2 & B2 & C2); [rewrite map_length; exact K|exact X|].
  rewrite E1, E2. f_equal. f_equal; apply two_lists; intros i; (destruct (nth_error kpts i) as [kp|] eqn:N; [|apply nth_error_None in N; rewrite (proj2 (nth_error_None _ _)), (proj2 (nth_error_None _ _)); try reflexivity; lia]);
    destruct (C1 i kp N) as (D & a & D1 & N1 & S1 & G1 & R1), (C2 i kp N) as (D' & b & D2 & N2 & S2 & G2 & R2); rewrite nth_error_map, D1 in D2; injection D2 as <-;
    (assert (angle b = angle a) as Eab; [rewrite G1, G2; destruct (upright v); [reflexivity|]; cbn [scale_derivatives dLx dLy]; apply orx_contrast; exact C|]).
  - rewrite N1, N2. f_equal. apply keypoint_ext; [|exact Eab]. destruct S1 as (? & ? & ? & ?), S2 as (? & ? & ? & ?). repeat split; congruence.
  - rewrite R1, R2, Eab, sux_contrast by exact C. reflexivity.
Qed.
Print Assumptions kdx_rows_contrast.

(** A number that is none of the types gives rows of zeros without notice. *)
Theorem kdx_unknown_refuted height width levels kpts order : kpts <> [] -> exists t rows, compute_descriptors height width levels t kpts order = Fine (kpts, rows) /\ length rows = length kpts /\ Forall (fun r => ~ good_row 64 r /\ ~ good_row 128 r) rows /\ rows <> [].
Proof.
  intros N. exists 12%nat. eexists. split; [reflexivity|]. rewrite repeat_length. split; [reflexivity|]. split; [|destruct kpts; [contradiction|discriminate]].
  apply Forall_forall. intros r I. apply repeat_spec in I as ->. split; intros (L & S); [|discriminate L].
  assert (forall n, sum_of_squares (repeat 0 n) = 0) as Z. { induction n as [|n IH]; [reflexivity|]. unfold sum_of_squares in *. cbn [repeat map fold_right]. rewrite IH. ring. } rewrite Z in S. lra.
Qed.
Print Assumptions kdx_unknown_refuted.
(** A keypoint of another scale space, with a level that this one does not have, is read outside of the levels. *)
Theorem kdx_level_refuted height width levels t v kp : variant_of t = Some v -> ~ (0 <= class_id kp < Z.of_nat (length levels))%Z ->
  exists order, execution t 1 order /\ compute_descriptors height width levels t [kp] order = Undefined.
Proof.
  intros V B. exists (body t 0). split.
  - intros i. unfold body. rewrite V. destruct i as [|i]; cbn [Nat.ltb Nat.leb]; destruct (upright v); reflexivity.
  - assert (level_of levels kp = None) as L. { unfold level_of. destruct (Z.ltb_spec (class_id kp) 0); [reflexivity|]. apply nth_error_None. lia. }
    unfold compute_descriptors, body. rewrite V. destruct (upright v); cbn [fold_left]; unfold do_step at 1; cbn [nth_error length repeat]; [rewrite L; reflexivity|]. unfold do_step. cbn [nth_error]. rewrite L. reflexivity.
Qed.
Print Assumptions kdx_level_refuted.

Example kdx_ex : exists order, execution 5 2 order /\ order = [Orient 1; Orient 0; Describe 1; Describe 0] /\ known_levels 3 [Keypoint 4 5 6 2 0; Keypoint 7 8 9 0 0] /\ variant_of 5 = Some (Variant Msurf false false).
Proof.
  eexists. split; [|split; [reflexivity|split; [repeat constructor; cbn; lia|reflexivity]]]. intros [|[|i]]; reflexivity.
Qed.
