(** C110: masks of cameras. *)
From Coq Require Import Reals ZArith List Bool Lia Lra.
From Verif Require Import MaskModel MaskSpec.
Import ListNotations.
Local Open Scope R_scope.

Definition fits (c : camera) : Prop := empty (mask c) = true \/ (m_rows (mask c) = image_height c /\ m_cols (mask c) = image_width c)%Z.

Lemma pixel_int v n : pixel_of v n <-> n = Int_part v.
Proof.
  destruct (base_Int_part v) as [B1 B2]. unfold pixel_of. split; [|intros ->; lra]. intros [L1 L2]. assert (n < Int_part v + 1)%Z by (apply lt_IZR; rewrite plus_IZR; lra). assert (Int_part v < n + 1)%Z by (apply lt_IZR; rewrite plus_IZR; lra). lia.
Qed.
Lemma int_range v n : 0 <= v < IZR n -> (0 <= Int_part v < n)%Z.
Proof. intros [L1 L2]. destruct (base_Int_part v) as [B1 B2]. split; [assert (-1 < Int_part v)%Z; [apply lt_IZR; lra|lia]|apply lt_IZR; lra]. Qed.
Lemma outside_spec c x y : (less (Some x) (Some 0) || at_least (Some x) (Some (IZR (image_width c))) || less (Some y) (Some 0) || at_least (Some y) (Some (IZR (image_height c))))%bool = false <-> inside (image_width c) (image_height c) x y.
Proof.
  unfold inside, less, at_least. destruct (Rlt_dec x 0), (Rle_dec (IZR (image_width c)) x), (Rlt_dec y 0), (Rle_dec (IZR (image_height c)) y); cbn; split; try discriminate; try lra; intros; reflexivity.
Qed.
Lemma is_masked_inside s c x y : fits c -> inside (image_width c) (image_height c) x y -> is_masked s c (Some x) (Some y) = Answer (if empty (mask c) then false else (heap s (m_buffer (mask c)) (Int_part y) (Int_part x) =? 0)%Z).
Proof.
  intros F I. unfold is_masked. rewrite (proj2 (outside_spec c x y) I). destruct F as [E|[E1 E2]]; [rewrite E; reflexivity|]. destruct (empty (mask c)) eqn:E; [reflexivity|]. unfold masked_at. destruct I as [I1 I2]. apply int_range in I1, I2. rewrite E1, E2. replace ((0 <=? Int_part y)%Z && (Int_part y <? image_height c)%Z && (0 <=? Int_part x)%Z && (Int_part x <? image_width c)%Z)%bool with true; [reflexivity|]. symmetry. rewrite !andb_true_iff, !Z.leb_le, !Z.ltb_lt. lia.
Qed.
Lemma is_masked_outside s c x y : ~ inside (image_width c) (image_height c) x y -> is_masked s c (Some x) (Some y) = Answer true.
Proof. intros N. unfold is_masked. destruct (_ || _)%bool eqn:E; [reflexivity|]. apply outside_spec in E. contradiction. Qed.
Lemma inside_dec w h x y : inside w h x y \/ ~ inside w h x y.
Proof. unfold inside. destruct (Rle_dec 0 x), (Rlt_dec x (IZR w)), (Rle_dec 0 y), (Rlt_dec y (IZR h)); try (left; lra); right; lra. Qed.

(** A keypoint is not masked exactly if it is in the image and the pixel of the mask under it, if there is a mask, is not zero. *)
Theorem mkx_meaning s c x y : fits c -> exists b, is_masked s c (Some x) (Some y) = Answer b /\
  (b = false <-> inside (image_width c) (image_height c) x y /\ (empty (mask c) = false -> uncovered (heap s (m_buffer (mask c))) x y)).
Proof.
  intros F. destruct (inside_dec (image_width c) (image_height c) x y) as [I|N].
  - rewrite is_masked_inside by assumption. eexists. split; [reflexivity|]. destruct (empty (mask c)).
    + split; [intros _; split; [exact I|discriminate]|reflexivity].
    + rewrite Z.eqb_neq. split.
      * intros D. split; [exact I|]. intros _ r q R Q. apply pixel_int in R, Q. subst. exact D.
      * intros [_ U]. apply (U eq_refl); apply pixel_int; reflexivity.
  - rewrite is_masked_outside by exact N. exists true. split; [reflexivity|]. split; [discriminate|]. intros [I _]. contradiction.
Qed.
(** Without a mask exactly the visible keypoints are not masked. *)
Theorem mkx_without s c x y : empty (mask c) = true -> is_masked s c (Some x) (Some y) = Answer (negb (is_keypoint_visible c (Some x) (Some y))).
Proof.
  intros E. assert (is_keypoint_visible c (Some x) (Some y) = true <-> inside (image_width c) (image_height c) x y) as V.
  { unfold is_keypoint_visible, inside, less, at_least. destruct (Rlt_dec x (IZR (image_width c))), (Rlt_dec y (IZR (image_height c))), (Rle_dec 0 y), (Rle_dec 0 x); cbn; split; try discriminate; try lra; intros; reflexivity. }
  destruct (inside_dec (image_width c) (image_height c) x y) as [I|N].
  - rewrite is_masked_inside; [|left; exact E|exact I]. rewrite E, (proj2 V I). reflexivity.
  - rewrite is_masked_outside by exact N. destruct (is_keypoint_visible c (Some x) (Some y)); [|reflexivity]. exfalso. apply N, V. reflexivity.
Qed.

(** ** Programs *)
Definition resizes (o : op) : Prop := match o with SetWidth _ _ | SetHeight _ _ => True | _ => False end.
Lemma run_fits o s s' : ~ resizes o -> (forall k c, cameras s k = Some c -> fits c) -> run o s = Some s' -> forall k c, cameras s' k = Some c -> fits c.
Proof.
  intros R F E k c. destruct o as [b r q v|i m|i|i w|i h|i n]; cbn [run resizes] in *; try tauto.
  - injection E as <-. apply F.
  - destruct (cameras s i) as [ci|] eqn:C; [|discriminate]. destruct (_ && _ && _)%bool eqn:B; [|discriminate]. injection E as <-. cbn [cameras]. unfold update. destruct (Nat.eqb k i); [|apply F]. intros E. injection E as <-. right. cbn. rewrite !andb_true_iff, !Z.eqb_eq in B. lia.
  - destruct (cameras s i) as [ci|] eqn:C; [|discriminate]. injection E as <-. cbn [cameras]. unfold update. destruct (Nat.eqb k i); [|apply F]. intros E. injection E as <-. left. reflexivity.
  - destruct (cameras s i) as [ci|] eqn:C; [|discriminate]. destruct (cameras s n) eqn:CN; [discriminate|]. destruct (empty (mask ci)) eqn:EM; injection E as <-; cbn [cameras]; unfold update; destruct (Nat.eqb k n); try apply F; intros E; injection E as <-; [left; reflexivity|]. destruct (F i ci C) as [D|D]; [congruence|]. right. cbn. exact D.
Qed.
(** In every program that does not change the size of the image, isMasked only reads pixels of the mask. *)
Theorem mkx_safe l s s' : (forall k c, cameras s k = Some c -> fits c) -> Forall (fun o => ~ resizes o) l -> run_all l s = Some s' ->
  forall k c x y, cameras s' k = Some c -> is_masked s' c (Some x) (Some y) <> Undefined.
Proof.
  intros F N E k c x y C. assert (fits c) as FC. { revert s F E. induction N as [|o l NO N IH]; intros s F E; cbn [run_all] in E; [injection E as <-; apply (F k c C)|]. destruct (run o s) as [s1|] eqn:R; [|discriminate]. apply (IH s1); [|exact E]. exact (run_fits o s s1 NO F R). }
  destruct (mkx_meaning s' c x y FC) as (b & -> & _). discriminate.
Qed.
(** A copy of a camera keeps the mask the original has at that time, whatever is done with other cameras and with the matrices of the caller. *)
Definition leaves (n buffer : nat) (o : op) : Prop :=
  match o with
  | Write b _ _ _ => b <> buffer
  | SetMask k _ | ClearMask k | SetWidth k _ | SetHeight k _ => k <> n
  | Clone _ _ => True
  end.
Lemma run_leaves n b c o s s' : leaves n b o -> (b < fresh s)%nat -> cameras s n = Some c -> run o s = Some s' -> cameras s' n = Some c /\ heap s' b = heap s b /\ (b < fresh s')%nat.
Proof.
  intros L B C E. destruct o as [b' r q v|i m|i|i w|i h|i k]; cbn [run leaves] in *.
  - injection E as <-. cbn. unfold update. destruct (Nat.eqb_spec b b'); [congruence|auto].
  - destruct (cameras s i) as [ci|]; [|discriminate]. destruct (_ && _ && _)%bool; [|discriminate]. injection E as <-. cbn. unfold update. destruct (Nat.eqb_spec n i); [congruence|auto].
  - destruct (cameras s i) as [ci|]; [|discriminate]. injection E as <-. cbn. unfold update. destruct (Nat.eqb_spec n i); [congruence|auto].
  - destruct (cameras s i) as [ci|]; [|discriminate]. injection E as <-. cbn. unfold update. destruct (Nat.eqb_spec n i); [congruence|auto].
  - destruct (cameras s i) as [ci|]; [|discriminate]. injection E as <-. cbn. unfold update. destruct (Nat.eqb_spec n i); [congruence|auto].
  - destruct (cameras s i) as [ci|]; [|discriminate]. destruct (cameras s k) eqn:K; [discriminate|]. destruct (empty (mask ci)); injection E as <-; cbn; unfold update; destruct (Nat.eqb_spec n k); try congruence; [auto|]. destruct (Nat.eqb_spec b (fresh s)); [lia|]. auto.
Qed.
Theorem mkx_clone k n c s s1 l s2 x y : cameras s k = Some c -> run (Clone k n) s = Some s1 -> Forall (leaves n (fresh s)) l -> run_all l s1 = Some s2 ->
  exists c', cameras s2 n = Some c' /\ is_masked s2 c' x y = is_masked s c x y.
Proof.
  intros C R L E. cbn [run] in R. rewrite C in R. destruct (cameras s n); [discriminate|]. destruct (empty (mask c)) eqn:EM; injection R as <-.
  - assert (forall l s1, Forall (leaves n (fresh s)) l -> cameras s1 n = Some (Camera (image_width c) (image_height c) no_mat) -> run_all l s1 = Some s2 -> cameras s2 n = Some (Camera (image_width c) (image_height c) no_mat)) as G.
    { clear. induction l as [|o l IH]; intros s1 L CN E; cbn [run_all] in E; [injection E as <-; exact CN|]. inversion L as [|? ? LO LL]; subst. destruct (run o s1) as [s1'|] eqn:RO; [|discriminate]. apply (IH s1' LL); [|exact E]. destruct o as [b' r q v|i m|i|i w|i h|i k]; cbn [run leaves] in *.
      - injection RO as <-. exact CN.
      - destruct (cameras s1 i) as [ci|]; [|discriminate]. destruct (_ && _ && _)%bool; [|discriminate]. injection RO as <-. cbn. unfold update. destruct (Nat.eqb_spec n i); [congruence|auto].
      - destruct (cameras s1 i) as [ci|]; [|discriminate]. injection RO as <-. cbn. unfold update. destruct (Nat.eqb_spec n i); [congruence|auto].
      - destruct (cameras s1 i) as [ci|]; [|discriminate]. injection RO as <-. cbn. unfold update. destruct (Nat.eqb_spec n i); [congruence|auto].
      - destruct (cameras s1 i) as [ci|]; [|discriminate]. injection RO as <-. cbn. unfold update. destruct (Nat.eqb_spec n i); [congruence|auto].
      - destruct (cameras s1 i) as [ci|]; [|discriminate]. destruct (cameras s1 k) eqn:K; [discriminate|]. destruct (empty (mask ci)); injection RO as <-; cbn; unfold update; destruct (Nat.eqb_spec n k); congruence. }
    pose proof (fun p => G l _ L p E) as G'. cbn in G'. unfold update in G'. rewrite Nat.eqb_refl in G'. specialize (G' eq_refl). eexists. split; [exact G'|]. unfold is_masked. cbn [image_width image_height mask]. rewrite EM. reflexivity.
  - set (c' := Camera (image_width c) (image_height c) (Mat (m_rows (mask c)) (m_cols (mask c)) (m_type (mask c)) (fresh s))) in *.
    assert (forall l s1, Forall (leaves n (fresh s)) l -> (fresh s < fresh s1)%nat -> cameras s1 n = Some c' -> run_all l s1 = Some s2 -> cameras s2 n = Some c' /\ heap s2 (fresh s) = heap s1 (fresh s)) as G.
    { clearbody c'. clear. induction l as [|o l IH]; intros s1 L B CN E; cbn [run_all] in E; [injection E as <-; auto|]. inversion L as [|? ? LO LL]; subst. destruct (run o s1) as [s1'|] eqn:RO; [|discriminate]. destruct (run_leaves n (fresh s) c' o s1 s1' LO B CN RO) as (C1 & H1 & B1). destruct (IH s1' LL B1 C1 E) as [C2 H2]. split; [exact C2|congruence]. }
    pose proof (fun p q => G l _ L p q E) as G'. cbn in G'. unfold update in G'. rewrite !Nat.eqb_refl in G'. destruct (G' ltac:(lia) eq_refl) as [C2 H2]. exists c'. split; [exact C2|]. unfold is_masked, masked_at, c'. cbn [image_width image_height mask]. unfold empty. cbn [m_rows m_cols m_buffer]. rewrite H2. reflexivity.
Qed.

(** ** Refutations *)
Definition start (w h : Z) : state := State (fun _ _ _ => 255%Z) 5 (update (fun _ => None) 0 (Some (Camera w h no_mat))).
Definition mine (w h : Z) : mat := Mat h w CV_8UC1 1.
Lemma int_0 : Int_part 0 = 0%Z.
Proof. symmetry. apply (proj1 (pixel_int 0 0)). unfold pixel_of. lra. Qed.
Lemma int_int n : Int_part (IZR n) = n.
Proof. symmetry. apply pixel_int. unfold pixel_of. lra. Qed.
(** Writing a pixel of a matrix changes this pixel only, and no camera. *)
Theorem mkx_write b r c v s s' : run (Write b r c v) s = Some s' ->
  heap s' b r c = v /\ (forall b' r' c', (b', r', c') <> (b, r, c) -> heap s' b' r' c' = heap s b' r' c') /\ forall k, cameras s' k = cameras s k.
Proof.
  intros H. injection H as <-. cbn [heap cameras]. unfold update. split; [rewrite Nat.eqb_refl, !Z.eqb_refl; reflexivity|]. split; [|reflexivity].
  intros b' r' c' N. destruct (Nat.eqb_spec b' b) as [->|]; [|reflexivity]. destruct (Z.eqb_spec r' r) as [->|]; [|reflexivity]. destruct (Z.eqb_spec c' c) as [->|]; [contradiction|reflexivity].
Qed.
Print Assumptions mkx_write.
(** The size of the image can be changed while there is a mask; visible keypoints are then looked up outside of it. *)
Theorem mkx_resize_refuted w h bigger : (0 < w)%Z -> (0 < h)%Z -> (w < bigger)%Z -> exists s c, run_all [SetMask 0 (mine w h); SetWidth 0 bigger] (start w h) = Some s /\ cameras s 0%nat = Some c /\
  is_keypoint_visible c (Some (IZR w)) (Some 0) = true /\ is_masked s c (Some (IZR w)) (Some 0) = Undefined.
Proof.
  intros W H B. cbn [run_all run start cameras update]. unfold update at 1. cbn [Nat.eqb image_height image_width mine m_rows m_cols m_type]. rewrite !Z.eqb_refl. cbn. do 2 eexists. split; [reflexivity|]. cbn. split; [reflexivity|]. apply IZR_lt in W, H, B.
  split.
  - unfold is_keypoint_visible, less, at_least. cbn. destruct (Rle_dec 0 (IZR w)), (Rle_dec 0 0), (Rlt_dec (IZR w) (IZR bigger)), (Rlt_dec 0 (IZR h)); cbn; lra || reflexivity.
  - unfold is_masked, less, at_least. cbn [image_width image_height mask]. destruct (Rlt_dec (IZR w) 0), (Rle_dec (IZR bigger) (IZR w)), (Rlt_dec 0 0), (Rle_dec (IZR h) 0); cbn [orb]; try lra. unfold empty, mine. cbn [m_rows m_cols]. apply lt_IZR in W, H. replace (h * w =? 0)%Z with false by (symmetry; apply Z.eqb_neq; nia). unfold masked_at. cbn [m_rows m_cols]. rewrite !int_int. replace (w <? w)%Z with false by (symmetry; apply Z.ltb_ge; lia). rewrite andb_false_r. reflexivity.
Qed.
(** The camera shares the matrix of the caller: writing into it afterwards changes the answer. *)
Theorem mkx_alias_refuted w h : (0 < w)%Z -> (0 < h)%Z -> exists s c s' c', run_all [SetMask 0 (mine w h)] (start w h) = Some s /\ cameras s 0%nat = Some c /\ is_masked s c (Some 0) (Some 0) = Answer false /\
  run_all [SetMask 0 (mine w h); Write 1 0 0 0] (start w h) = Some s' /\ cameras s' 0%nat = Some c' /\ is_masked s' c' (Some 0) (Some 0) = Answer true.
Proof.
  intros W H. cbn [run_all run start cameras]. unfold update at 1 2. cbn [Nat.eqb image_height image_width mine m_rows m_cols m_type]. rewrite !Z.eqb_refl. cbn [andb Z.eqb]. do 4 eexists. split; [reflexivity|]. cbn [cameras]. unfold update at 1. cbn [Nat.eqb]. split; [reflexivity|].
  assert (empty (mine w h) = false) as E by (unfold empty, mine; cbn [m_rows m_cols]; apply Z.eqb_neq; nia). assert (inside w h 0 0) as I by (unfold inside; apply IZR_lt in W, H; lra). split; [|split; [unfold update; cbn [Nat.eqb image_height image_width mine m_rows m_cols m_type]; rewrite !Z.eqb_refl; reflexivity|split]].
  - rewrite is_masked_inside; cbn [mask image_width image_height]; [|right; split; reflexivity|exact I]. rewrite E. cbn. reflexivity.
  - reflexivity.
  - rewrite is_masked_inside; cbn [mask image_width image_height]; [|right; split; reflexivity|exact I]. rewrite E, int_0. reflexivity.
Qed.
(** NaN is not masked, though not visible, without a mask, and with one the behaviour is undefined. *)
Theorem mkx_nan_refuted s c y : inside (image_width c) (image_height c) 0 y ->
  is_keypoint_visible c None (Some y) = false /\ is_masked s c None (Some y) = if empty (mask c) then Answer false else Undefined.
Proof.
  intros I. split; [reflexivity|]. unfold is_masked. pose proof (proj2 (outside_spec c 0 y) I) as O. rewrite !orb_false_iff in O. destruct O as [[[_ _] O1] O2]. rewrite O1, O2. reflexivity.
Qed.
Example mkx_ex : exists s c, run_all [SetMask 0 (mine 3 2); Clone 0 1; Write 1 1 2 0] (start 3 2) = Some s /\ cameras s 1%nat = Some c /\ fits c /\ Forall (fun o => ~ resizes o) [SetMask 0 (mine 3 2); Clone 0 1; Write 1 1 2 0] /\ leaves 1 5 (Write 1 1 2 0).
Proof. do 2 eexists. split; [reflexivity|]. cbn. split; [reflexivity|]. split; [right; split; reflexivity|]. split; [repeat constructor; intros []|discriminate]. Qed.
Print Assumptions mkx_meaning.
Print Assumptions mkx_without.
Print Assumptions mkx_safe.
Print Assumptions mkx_clone.
Print Assumptions mkx_resize_refuted.
Print Assumptions mkx_alias_refuted.
Print Assumptions mkx_nan_refuted.
