(** C116: the comparison of images. *)
From Coq Require Import Reals List Bool Arith Lra Lia.
From Verif Require Import ImageEqModel ImageEqSpec.
Import ListNotations.
Local Open Scope R_scope.

Lemma forallb_seq n f : forallb f (seq 0 n) = true <-> forall i, (i < n)%nat -> f i = true.
Proof. rewrite forallb_forall. split; intros H i L; apply H; [apply in_seq; lia|apply in_seq in L; lia]. Qed.
(** The tolerance that is used. *)
Lemma equal_typed_iff A B t : equal_typed A B t = true <->
  rows A = rows B /\ cols A = cols B /\ channels A = channels B /\
  forall r c ch, (r < rows A)%nat -> (c < cols A)%nat -> (ch < channels A)%nat ->
    value_ok (kind A) (if Rlt_dec t 0 then default_tolerance (kind A) else t) (scalar A r (c + ch)) (scalar B r (c + ch)) = true.
Proof.
  unfold equal_typed. cbv zeta. set (u := if Rlt_dec t 0 then _ else _). rewrite !andb_true_iff, !Nat.eqb_eq. rewrite forallb_seq. split.
  - intros [[[X Y] Z] H]. repeat split; try assumption. intros r c ch R C K. specialize (H r R). rewrite forallb_seq in H. specialize (H c C). rewrite forallb_seq in H. exact (H ch K).
  - intros [X [Y [Z H]]]. repeat split; try assumption. intros r R. rewrite forallb_seq. intros c C. rewrite forallb_seq. intros ch K. exact (H r c ch R C K).
Qed.
Lemma images_equal_iff A B t : images_equal A B t = true <-> kind A = kind B /\ kind A <> F64 /\ equal_typed A B t = true.
Proof.
  unfold images_equal. destruct (depth_dec (kind A) (kind B)) as [E|E]; [|split; [discriminate|intros [K _]; contradiction]].
  destruct (Nat.eqb_spec (channels A) (channels B)) as [F|F].
  - destruct (kind A) eqn:K; (split; [intros H; first [discriminate H|split; [exact E|split; [discriminate|exact H]]]|intros [_ [N H]]; try exact H; contradiction N; reflexivity]).
  - split; [discriminate|]. intros [_ [_ H]]. apply equal_typed_iff in H. destruct H as [_ [_ [H _]]]. contradiction.
Qed.
Lemma ok_whole k t a b : whole_numbers k -> value_ok k t a b = true <-> same a b.
Proof.
  intros [N M]. unfold same. destruct a as [x|], b as [y|]; cbn; try (split; [discriminate|intros [? [? ?]]; discriminate]).
  unfold is_approx. destruct k; try congruence; destruct (Req_EM_T x y) as [->|D]; (split; [intros H; try discriminate H; exists y; split; reflexivity|intros [z [H1 H2]]; try reflexivity; injection H1 as ->; injection H2 as ->; contradiction D; reflexivity]).
Qed.
Lemma ok_float t a b : 0 <= t -> value_ok F32 t a b = true <-> relative t a b.
Proof.
  intros T. unfold relative. destruct a as [x|], b as [y|]; cbn; try (split; [discriminate|intros [? [? [? [? _]]]]; discriminate]).
  destruct (Rle_dec _ _) as [H|H]; split; intros K; try discriminate K; try reflexivity.
  - exists x, y. split; [reflexivity|]. split; [reflexivity|]. pose proof (Rmin_l (Rabs x) (Rabs y)). pose proof (Rmin_r (Rabs x) (Rabs y)). split; nra.
  - destruct K as [x' [y' [H1 [H2 [H3 H4]]]]]. injection H1 as <-. injection H2 as <-. contradiction H. unfold Rmin. destruct (Rle_dec _ _); lra.
Qed.

(** Images of whole numbers with one channel: the result is true exactly if they are the same, whatever the tolerance. *)
Theorem imx_whole A B t : whole_numbers (kind A) -> channels A = 1%nat ->
  images_equal A B t = true <-> same_shape A B /\ all_pixels same A B.
Proof.
  intros W C1. rewrite images_equal_iff, equal_typed_iff. unfold same_shape, all_pixels, pixel. split.
  - intros [K [_ [R [C [CH H]]]]]. repeat split; try assumption. intros r c ch Lr Lc Lch. rewrite <- CH, C1, Nat.mul_1_r. apply (ok_whole (kind A) (if Rlt_dec t 0 then default_tolerance (kind A) else t) _ _ W). apply H; assumption.
  - intros [[R [C [CH K]]] H]. destruct W as [W1 W2]. repeat split; try assumption. intros r c ch Lr Lc Lch. apply ok_whole; [split; assumption|]. specialize (H r c ch Lr Lc Lch). rewrite <- CH, C1, Nat.mul_1_r in H. exact H.
Qed.
Print Assumptions imx_whole.

(** Float images with one channel: all numbers are finite and agree relative to the smaller one. *)
Theorem imx_float A B t : kind A = F32 -> channels A = 1%nat -> 0 <= t ->
  images_equal A B t = true <-> same_shape A B /\ all_pixels (relative t) A B.
Proof.
  intros W C1 T. rewrite images_equal_iff, equal_typed_iff. unfold same_shape, all_pixels, pixel. rewrite W. destruct (Rlt_dec t 0) as [L|_]; [lra|]. split.
  - intros [K [_ [R [C [CH H]]]]]. repeat split; try assumption. intros r c ch Lr Lc Lch. rewrite <- CH, C1, Nat.mul_1_r. apply ok_float; [exact T|]. apply H; assumption.
  - intros [[R [C [CH K]]] H]. split; [exact K|]. split; [discriminate|]. repeat split; try assumption. intros r c ch Lr Lc Lch. apply ok_float; [exact T|]. specialize (H r c ch Lr Lc Lch). rewrite <- CH, C1, Nat.mul_1_r in H. exact H.
Qed.
Print Assumptions imx_float.
(** Without a tolerance: whole numbers are compared for equality, floats relative to 1e-8. *)
Theorem imx_default A B : channels A = 1%nat ->
  (whole_numbers (kind A) -> images_equal_default A B = true <-> same_shape A B /\ all_pixels same A B) /\
  (kind A = F32 -> images_equal_default A B = true <-> same_shape A B /\ all_pixels (relative (/ 10 ^ 8)) A B).
Proof.
  intros C1. unfold images_equal_default. split; [intros W; exact (imx_whole A B (-1) W C1)|]. intros F.
  assert (T : 0 <= / 10 ^ 8) by (left; apply Rinv_0_lt_compat; lra). rewrite <- (imx_float A B (/ 10 ^ 8) F C1 T). rewrite !images_equal_iff, !equal_typed_iff. rewrite F. cbn [default_tolerance].
  destruct (Rlt_dec (-1) 0) as [_|N]; [|lra]. destruct (Rlt_dec (/ 10 ^ 8) 0) as [N|_]; [lra|]. reflexivity.
Qed.
Print Assumptions imx_default.
(** The typed comparison of doubles (which ImagesEqual does not offer) uses 1e-15. *)
Theorem imx_double A B : kind A = F64 -> channels A = 1%nat ->
  equal_typed A B (-1) = true <-> (rows A = rows B /\ cols A = cols B /\ channels A = channels B) /\ all_pixels (relative (1 / 1000000000000000)) A B.
Proof.
  intros F C1. rewrite equal_typed_iff. unfold all_pixels, pixel. rewrite F. destruct (Rlt_dec (-1) 0) as [_|N]; [|lra]. cbn [default_tolerance].
  replace (/ 10 ^ 15) with (1 / 1000000000000000) by lra.
  assert (OK : forall a b, value_ok F64 (1 / 1000000000000000) a b = true <-> relative (1 / 1000000000000000) a b) by (intros a b; apply (ok_float (1 / 1000000000000000) a b); lra). split.
  - intros [R [C [CH H]]]. repeat split; try assumption. intros r c ch Lr Lc Lch. rewrite <- CH, C1, Nat.mul_1_r. apply OK, H; assumption.
  - intros [[R [C CH]] H]. repeat split; try assumption. intros r c ch Lr Lc Lch. apply OK. specialize (H r c ch Lr Lc Lch). rewrite <- CH, C1, Nat.mul_1_r in H. exact H.
Qed.
Print Assumptions imx_double.
(** For float images with values between -1 and 1 success has the documented meaning. *)
Theorem imx_unit A B t : kind A = F32 -> channels A = 1%nat -> 0 <= t -> images_equal A B t = true ->
  all_pixels (fun a _ => forall x, a = Number x -> -1 <= x <= 1) A B -> all_pixels (near t) A B.
Proof.
  intros W C1 T H U. apply (imx_float A B t W C1 T) in H. destruct H as [_ H]. intros r c ch Lr Lc Lch.
  destruct (H r c ch Lr Lc Lch) as [x [y [X [Y [P Q]]]]]. exists x, y. split; [exact X|]. split; [exact Y|]. specialize (U r c ch Lr Lc Lch x X).
  assert (Rabs x <= 1) by (apply Rabs_le; lra). pose proof (Rabs_pos x). nra.
Qed.
Print Assumptions imx_unit.

(** Success does not depend on the order of the images. *)
Theorem imx_sym A B t : images_equal A B t = images_equal B A t.
Proof.
  assert (S : forall A B, images_equal A B t = true -> images_equal B A t = true).
  { clear. intros A B H. apply images_equal_iff in H. destruct H as [K [N H]]. apply equal_typed_iff in H. destruct H as [R [C [CH H]]].
    apply images_equal_iff. rewrite <- K. split; [reflexivity|]. split; [exact N|]. apply equal_typed_iff. rewrite <- R, <- C, <- CH, <- K. repeat split. intros r c ch Lr Lc Lch. specialize (H r c ch Lr Lc Lch).
    destruct (scalar A r (c + ch)) as [x|], (scalar B r (c + ch)) as [y|]; cbn in *; try discriminate. unfold is_approx in *. rewrite (Rabs_minus_sym y x), (Rmin_comm (Rabs y)).
    destruct (kind A); try exact H; destruct (Req_EM_T x y) as [->|]; try discriminate; destruct (Req_EM_T y y); congruence. }
  destruct (images_equal A B t) eqn:E; [symmetry; apply S; exact E|]. destruct (images_equal B A t) eqn:F; [|reflexivity]. rewrite (S _ _ F) in E. discriminate.
Qed.
Print Assumptions imx_sym.

(** An image of finite numbers equals itself and each image with the same pixels, for each tolerance and with the default
    one, and for any number of channels, unless its numbers are doubles. *)
Theorem imx_equal A B t : kind A <> F64 -> same_shape A B -> all_pixels same A B -> images_equal A B t = true.
Proof.
  intros K [R [C [CH KK]]] H. apply images_equal_iff. split; [exact KK|]. split; [exact K|]. apply equal_typed_iff. repeat split; try assumption. intros r c ch Lr Lc Lch.
  set (i := (c + ch)%nat). set (n := channels A) in *.
  assert (D : exists c' ch', (c' < cols A)%nat /\ (ch' < n)%nat /\ i = (c' * n + ch')%nat).
  { exists (i / n)%nat, (i mod n)%nat. assert (N0 : n <> 0%nat) by lia. split; [|split; [apply Nat.mod_upper_bound; exact N0|rewrite Nat.mul_comm; apply Nat.div_mod; exact N0]].
    apply Nat.div_lt_upper_bound; [exact N0|]. unfold i. nia. }
  destruct D as [c' [ch' [Lc' [Lch' E]]]]. specialize (H r c' ch' Lr Lc' Lch'). unfold pixel in H. rewrite <- CH in H. fold n in H. rewrite <- E in H.
  destruct H as [x [X Y]]. rewrite X, Y. cbn. unfold is_approx. rewrite Rminus_diag_eq, Rabs_R0 by reflexivity.
  assert (P : 0 <= Rmin (Rabs x) (Rabs x) * (if Rlt_dec t 0 then default_tolerance (kind A) else t)).
  { apply Rmult_le_pos; [rewrite Rmin_left by lra; apply Rabs_pos|]. destruct (Rlt_dec t 0); [|lra]. unfold default_tolerance. destruct (kind A); try lra; left; apply Rinv_0_lt_compat; lra. }
  destruct (kind A); try congruence; try (destruct (Req_EM_T x x); [reflexivity|congruence]). destruct (Rle_dec 0 _); [reflexivity|contradiction].
Qed.
Print Assumptions imx_equal.

(** A number that is not finite is never equal, not even to itself. *)
Theorem imx_finite A B t r c : channels A = 1%nat -> (r < rows A)%nat -> (c < cols A)%nat -> (pixel A r c 0 = NotFinite \/ pixel B r c 0 = NotFinite) -> images_equal A B t = false.
Proof.
  intros C1 Lr Lc N. destruct (images_equal A B t) eqn:E; [|reflexivity]. apply images_equal_iff in E. destruct E as [_ [_ E]]. apply equal_typed_iff in E. destruct E as [_ [_ [CH E]]].
  specialize (E r c 0%nat Lr Lc). rewrite C1 in E. specialize (E Nat.lt_0_1). unfold pixel in N. rewrite <- CH, C1, Nat.mul_1_r in N. destruct N as [N|N]; rewrite N in E; [discriminate E|destruct (scalar A r (c + 0)); discriminate E].
Qed.
Print Assumptions imx_finite.

(** ** What is wrong *)
(** With several channels only the first cols + channels - 1 scalars of each row are compared: of an image with three
    channels a third. Whatever the other pixels are, the images are equal. *)
Theorem imx_channels_refuted A B t : kind A <> F64 -> same_shape A B -> (0 < channels A)%nat ->
  (forall r i, (r < rows A)%nat -> (i + 1 < cols A + channels A)%nat -> same (scalar A r i) (scalar B r i)) -> images_equal A B t = true.
Proof.
  intros K [R [C [CH KK]]] P H. apply images_equal_iff. split; [exact KK|]. split; [exact K|]. apply equal_typed_iff. repeat split; try assumption. intros r c ch Lr Lc Lch.
  destruct (H r (c + ch)%nat Lr) as [x [X Y]]; [lia|]. rewrite X, Y. cbn. unfold is_approx. rewrite Rminus_diag_eq, Rabs_R0 by reflexivity.
  assert (Q : 0 <= Rmin (Rabs x) (Rabs x) * (if Rlt_dec t 0 then default_tolerance (kind A) else t)).
  { apply Rmult_le_pos; [rewrite Rmin_left by lra; apply Rabs_pos|]. destruct (Rlt_dec t 0); [|lra]. unfold default_tolerance. destruct (kind A); try lra; left; apply Rinv_0_lt_compat; lra. }
  destruct (kind A); try congruence; try (destruct (Req_EM_T x x); [reflexivity|congruence]). destruct (Rle_dec 0 _); [reflexivity|contradiction].
Qed.
Print Assumptions imx_channels_refuted.
(** A row of three colour pixels: black, and with a white third pixel. *)
Definition black : image := {| rows := 1; cols := 3; channels := 3; kind := U8; scalar := fun _ _ => Number 0 |}.
Definition black_white : image := {| rows := 1; cols := 3; channels := 3; kind := U8; scalar := fun _ i => if Nat.leb 6 i then Number 255 else Number 0 |}.
Example imx_colour : images_equal black black_white 0 = true /\ pixel black 0 2 0 = Number 0 /\ pixel black_white 0 2 0 = Number 255.
Proof.
  split; [|split; reflexivity]. apply imx_channels_refuted; [discriminate|repeat split|cbn; lia|]. cbn [rows cols channels scalar black black_white]. intros r i _ L.
  exists 0. split; [reflexivity|]. destruct (Nat.leb_spec 6 i); [lia|reflexivity].
Qed.
(** The tolerance is not an absolute one: whole numbers that differ by one are different for each tolerance, the float
    images 1000 and 1001 agree to 0.01, and 0 agrees with no other number. *)
Definition one (k : depth) (x : R) : image := {| rows := 1; cols := 1; channels := 1; kind := k; scalar := fun _ _ => Number x |}.
Lemma one_pixels P k x y : all_pixels P (one k x) (one k y) <-> P (Number x) (Number y).
Proof. unfold all_pixels, pixel, one; cbn. split; [intros H; apply (H 0 0 0)%nat; lia|intros H r c ch _ _ _; exact H]. Qed.
Theorem imx_absolute_refuted :
  (forall t, images_equal (one U8 1) (one U8 2) t = false) /\
  (images_equal (one F32 1000) (one F32 1001) (/ 100) = true /\ ~ all_pixels (near (/ 100)) (one F32 1000) (one F32 1001)) /\
  (forall t x, 0 <= t -> x <> 0 -> images_equal (one F32 0) (one F32 x) t = false).
Proof.
  split; [|split; [split|]].
  - intros t. destruct (images_equal _ _ t) eqn:E; [|reflexivity]. apply imx_whole in E; [|split; discriminate|reflexivity]. destruct E as [_ E]. apply one_pixels in E. destruct E as [x [E F]]. injection E as E. injection F as F. lra.
  - apply imx_float; [reflexivity|reflexivity|lra|]. split; [repeat split|]. apply one_pixels. exists 1000, 1001. split; [reflexivity|]. split; [reflexivity|].
    rewrite Rabs_minus_sym, !Rabs_right by lra. lra.
  - intros H. apply one_pixels in H. destruct H as [x [y [E [F H]]]]. injection E as <-. injection F as <-. rewrite Rabs_minus_sym, Rabs_right in H by lra. lra.
  - intros t x T X. destruct (images_equal _ _ t) eqn:E; [|reflexivity]. apply imx_float in E; [|reflexivity|reflexivity|exact T]. destruct E as [_ E]. apply one_pixels in E. destruct E as [a [b [E [F [G _]]]]]. injection E as <-. injection F as <-.
    rewrite Rabs_R0, Rmult_0_r in G. pose proof (Rabs_pos_lt (0 - x)) as P. assert (0 - x <> 0) by lra. specialize (P H). lra.
Qed.
Print Assumptions imx_absolute_refuted.
(** Images of doubles are never equal. *)
Theorem imx_double_refuted A B t : kind A = F64 -> images_equal A B t = false.
Proof. intros K. destruct (images_equal A B t) eqn:E; [|reflexivity]. apply images_equal_iff in E. destruct E as [_ [N _]]. contradiction. Qed.
Print Assumptions imx_double_refuted.

(** ** Concrete cases *)
Definition grey (x : R) : image := {| rows := 2; cols := 2; channels := 1; kind := U8; scalar := fun r c => if Nat.eqb (r + c) 2 then Number x else Number 7 |}.
Example imx_grey : images_equal_default (grey 1) (grey 1) = true /\ images_equal_default (grey 1) (grey 2) = false.
Proof.
  assert (W : whole_numbers (kind (grey 1))) by (split; discriminate). split.
  - apply imx_whole; [exact W|reflexivity|]. split; [repeat split|]. intros r c ch _ _ _. unfold pixel, grey, same; cbn. destruct (Nat.eqb _ 2); eexists; split; reflexivity.
  - destruct (images_equal_default (grey 1) (grey 2)) eqn:E; [|reflexivity]. apply imx_whole in E; [|exact W|reflexivity]. destruct E as [_ E].
    destruct (E 1 1 0)%nat as [x [X Y]]; [cbn; lia|cbn; lia|cbn; lia|]. cbn in X, Y. injection X as X. injection Y as Y. lra.
Qed.
