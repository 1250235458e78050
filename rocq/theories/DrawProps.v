(** C128: pictures of keypoints and matches. *)
From Coq Require Import ZArith Reals List Bool Lia Lra Strings.Byte.
From Verif Require Import OrientModel LsdFilterSpec LsdFilterProps SerializationModel SerializationSpec DescTextModel DescTextSpec DescTextProps DrawModel DrawSpec.
Import ListNotations.
Open Scope Z_scope.

Lemma cut_unique z z' r : cut_to z r -> cut_to z' r -> z = z'.
Proof.
  intros (A & P) (B & Q). assert (Rabs (IZR z) < Rabs (IZR z') + 1 /\ Rabs (IZR z') < Rabs (IZR z) + 1)%R as (X & Y) by lra.
  rewrite <- !abs_IZR, <- plus_IZR in X, Y. apply lt_IZR in X, Y. assert (Z.abs z = Z.abs z') as E by lia.
  destruct (Z.eq_dec z z') as [|N]; [assumption|exfalso]. assert (z' = - z) as -> by lia. rewrite opp_IZR in Q.
  assert (IZR z * r = 0)%R as W by lra. apply Rmult_integral in W as [W|W]; [apply eq_IZR in W; lia|]. subst r. rewrite Rabs_R0, <- abs_IZR in A. destruct A as (A & _). apply le_IZR in A. lia.
Qed.
Lemma point_ok kp : moderate kp -> exists p, point kp = Done p /\ pixel_of kp p.
Proof.
  intros (X & Y). exists (trunc (fst kp), trunc (snd kp)). split; [|split; apply trunc_cut].
  assert (forall r, (Rabs r < 2147483648)%R -> - 2 ^ 31 <= trunc r < 2 ^ 31) as H'.
  { intros r L. destruct (trunc_cut r) as (A & _). assert (Rabs (IZR (trunc r)) < 2147483648)%R as B by lra. rewrite <- abs_IZR in B. apply lt_IZR in B. lia. }
  unfold point. pose proof (H' _ X). pose proof (H' _ Y). cbv zeta.
  repeat match goal with |- context [(?a <=? ?b)%Z] => destruct (Z.leb_spec a b); [|lia] | |- context [(?a <? ?b)%Z] => destruct (Z.ltb_spec a b); [|lia] end. reflexivity.
Qed.
Lemma copy_ok f g : grey_image f g -> copy_raw f = Done {| ground := g; marks := [] |}.
Proof. intros (R & A & B & C). unfold copy_raw. rewrite R. cbn. apply Nat.eqb_neq in A, B. apply Nat.eqb_eq in C. rewrite A, B, C. reflexivity. Qed.
Lemma draw_all_ok kps : forall p, Forall moderate kps -> exists ms, dots kps ms /\ draw_all kps p = Done {| ground := ground p; marks := marks p ++ ms |}.
Proof.
  induction kps as [|kp kps IH]; intros p F; cbn [draw_all].
  - exists []. split; [constructor|]. rewrite app_nil_r. destruct p; reflexivity.
  - inversion F as [|? ? M F']; subst. destruct (point_ok kp M) as (c & -> & P). cbn [bind]. destruct (IH (draw (Circle c 1 Yellow) p) F') as (ms & D & ->). exists (Circle c 1 Yellow :: ms). split; [constructor; assumption|]. cbn. rewrite <- app_assoc. reflexivity.
Qed.

(** The raw image with one dot per keypoint of the type, whatever the picture was before. *)
Theorem drx_keypoints f g t kps image : grey_image f g -> keypoints_are (inner f) t kps -> kps <> [] -> Forall moderate kps ->
  exists q, draw_keypoints f image t = Done (Some q) /\ ground q = g /\ dots kps (marks q).
Proof.
  intros G (pre & m & post & a & b & B & L & M & A & C) N F. destruct (dsx_queries (inner f) pre m t post _ B L M) as (_ & H1 & _ & _ & _ & H2 & _).
  unfold draw_keypoints. rewrite H1. cbn [bind]. destruct (Z.eqb_spec (m_cols m) 0) as [E|_]. { destruct kps; [contradiction|]. rewrite <- C in E. unfold len in E. cbn in E. lia. }
  rewrite (copy_ok f g G), (H2 a kps b eq_refl A C). cbn [bind]. destruct (draw_all_ok kps {| ground := g; marks := [] |} F) as (ms & D & ->). cbn. eexists. split; [reflexivity|]. split; [reflexivity|exact D].
Qed.
Print Assumptions drx_keypoints.

Lemma block_ok f t kps : keypoints_are f t kps -> exists a b, block_of_type f t = Done (a ++ kps ++ b, len a, len kps).
Proof.
  intros (pre & m & post & a & b & B & L & M & A & C). destruct (dsx_queries f pre m t post _ B L M) as (_ & _ & H & _). exists a, b. unfold block_of_type. rewrite H, M, A, C. cbn [bind channel].
  rewrite <- A, <- C. unfold len. rewrite !app_length. destruct (Z.leb_spec (Z.of_nat (length a) + Z.of_nat (length kps)) (Z.of_nat (length a + (length kps + length b)))); [reflexivity|lia].
Qed.
Lemma coeff_ok a kps b i : (i < length kps)%nat -> exists kp, nth_error kps i = Some kp /\ coeff (a ++ kps ++ b, len a, len kps) (Z.of_nat i) = Done kp.
Proof.
  intros I. destruct (nth_error kps i) as [kp|] eqn:E; [|apply nth_error_None in E; lia]. exists kp. split; [reflexivity|]. unfold coeff, len. destruct (Z.leb_spec 0 (Z.of_nat (length a) + Z.of_nat i)); [|lia].
  replace (Z.to_nat _) with (length a + i)%nat by lia. rewrite nth_error_app2 by lia. replace (length a + i - length a)%nat with i by lia. rewrite nth_error_app1 by lia. rewrite E. reflexivity.
Qed.
(** Every match is a circle at the new keypoint and a line to it from the old one, over the new image; an index too large aborts. *)
Theorem drx_matches f f' g t new old matches : grey_image f g -> keypoints_are (inner f) t new -> keypoints_are (inner f') t old -> Forall moderate new -> Forall moderate old ->
  Forall (fun m => 0 <= fst m < len new /\ 0 <= snd m < len old) matches ->
  (exists q, draw_keypoint_matches f f' matches t = Done q /\ ground q = g /\ flow new old matches (marks q)) /\
  (forall i j more, len new <= i \/ (0 <= i < len new /\ len old <= j) -> draw_keypoint_matches f f' (matches ++ (i, j) :: more) t = Abort).
Proof.
  intros G Kn Ko Mn Mo F. destruct (block_ok _ _ _ Kn) as (a & b & En), (block_ok _ _ _ Ko) as (c & d & Eo). unfold draw_keypoint_matches. rewrite (copy_ok f g G), En, Eo. cbn [bind].
  assert (forall p, exists ms, flow new old matches ms /\ forall rest, draw_matches (a ++ new ++ b, len a, len new) (c ++ old ++ d, len c, len old) (matches ++ rest) p =
    draw_matches (a ++ new ++ b, len a, len new) (c ++ old ++ d, len c, len old) rest {| ground := ground p; marks := marks p ++ ms |}) as H.
  { clear -F Mn Mo. induction F as [|[i j] ms (I & J) F IH]; intros p; [exists []; split; [constructor|]; intros rest; rewrite app_nil_r; destruct p; reflexivity|].
    cbn [fst snd] in I, J. unfold len in I, J. destruct (coeff_ok a new b (Z.to_nat i)) as (kp & Np & Cp); [lia|]. destruct (coeff_ok c old d (Z.to_nat j)) as (kq & Nq & Cq); [lia|]. rewrite Z2Nat.id in Cp, Cq by lia.
    destruct (point_ok kp) as (x & Px & Xx). { apply nth_error_In in Np. rewrite Forall_forall in Mn. auto. }
    destruct (point_ok kq) as (y & Py & Yy). { apply nth_error_In in Nq. rewrite Forall_forall in Mo. auto. }
    destruct (IH (draw (Line y x Magenta) (draw (Circle x 4 Cyan) p))) as (l & Fl & El). exists (Circle x 4 Cyan :: Line y x Magenta :: l). split.
    - rewrite <- (Z2Nat.id i), <- (Z2Nat.id j) by lia. eapply flow_cons; eauto.
    - intros rest. cbn [app draw_matches snd]. destruct (Z.ltb_spec i (len new)); [|unfold len in *; lia]. destruct (Z.ltb_spec j (len old)); [|unfold len in *; lia]. cbn [negb]. rewrite Cp. cbn [bind]. rewrite Px. cbn [bind]. rewrite Cq. cbn [bind]. rewrite Py. cbn [bind]. rewrite El. cbn. rewrite <- !app_assoc. reflexivity. }
  destruct (H {| ground := g; marks := [] |}) as (ms & Fl & El). split.
  - specialize (El []). rewrite app_nil_r in El. rewrite El. cbn. eexists. split; [reflexivity|]. split; [reflexivity|exact Fl].
  - intros i j more B. rewrite El. cbn [draw_matches snd]. destruct (Z.ltb_spec i (len new)); [|reflexivity]. destruct B as [B|(_ & B)]; [lia|]. destruct (Z.ltb_spec j (len old)); [lia|reflexivity].
Qed.
Print Assumptions drx_matches.

(** A keypoint whose coordinates do not fit into an int: the conversion is undefined. *)
Lemma point_far kp : (2147483649 <= Rabs (fst kp) \/ 2147483649 <= Rabs (snd kp))%R -> point kp = UB.
Proof.
  intros H. assert (forall r, (2147483649 <= Rabs r)%R -> 2147483648 < Z.abs (trunc r)) as F.
  { intros r L. destruct (trunc_cut r) as (A & _). assert (2147483648 < Rabs (IZR (trunc r)))%R as B by lra. rewrite <- abs_IZR in B. apply lt_IZR in B. exact B. }
  unfold point. cbv zeta. destruct H as [H|H]; apply F in H.
  - destruct (Z.leb_spec (- 2 ^ 31) (trunc (fst kp))), (Z.ltb_spec (trunc (fst kp)) (2 ^ 31)); try lia; reflexivity.
  - destruct (Z.leb_spec (- 2 ^ 31) (trunc (snd kp))), (Z.ltb_spec (trunc (snd kp)) (2 ^ 31)); try lia; rewrite ?andb_false_r, ?andb_false_l; reflexivity.
Qed.
Theorem drx_far_refuted f g t image pre kp post : grey_image f g -> keypoints_are (inner f) t (pre ++ kp :: post) -> Forall moderate pre ->
  (2147483649 <= Rabs (fst kp) \/ 2147483649 <= Rabs (snd kp))%R -> draw_keypoints f image t = UB.
Proof.
  intros G (bs & m & rest & a & b & B & L & M & A & C) F Far. destruct (dsx_queries (inner f) bs m t rest _ B L M) as (_ & H1 & _ & _ & _ & H2 & _).
  unfold draw_keypoints. rewrite H1. cbn [bind]. destruct (Z.eqb_spec (m_cols m) 0) as [E|_]. { rewrite <- C in E. unfold len in E. rewrite app_length in E. cbn in E. lia. }
  rewrite (copy_ok f g G), (H2 a _ b eq_refl A C). cbn [bind].
  assert (forall p, draw_all (pre ++ kp :: post) p = UB) as ->; [|reflexivity].
  clear -F Far. induction F as [|q pre Q F IH]; intros p; cbn [app draw_all].
  - rewrite (point_far _ Far). reflexivity.
  - destruct (point_ok q Q) as (c & -> & _). cbn [bind]. apply IH.
Qed.
Print Assumptions drx_far_refuted.

(** Without a keypoint of the type the picture stays what it was before. *)
Theorem drx_stale_refuted f g t image : grey_image f g -> (keypoints_are (inner f) t [] \/ measurements (inner f) = None \/ exists bs, has_blocks (inner f) bs /\ lacks t bs) ->
  draw_keypoints f image t = Done image /\ exists other, draw_keypoints f (Some other) t <> Done (Some {| ground := g; marks := [] |}).
Proof.
  intros _ H. assert (num_of_type (inner f) t = Done 0) as E.
  { destruct H as [(pre & m & post & a & b & B & L & M & A & C)|[M|(bs & B & L)]].
    - destruct (dsx_queries _ _ _ _ _ _ B L M) as (_ & -> & _). f_equal. symmetry. exact C.
    - unfold num_of_type. rewrite M. reflexivity.
    - apply (dsx_absent _ _ _ B L). }
  assert (forall im, draw_keypoints f im t = Done im) as K. { intros im. unfold draw_keypoints. rewrite E. reflexivity. }
  split; [apply K|]. exists {| ground := g; marks := [Circle (0, 0) 1 Yellow] |}. rewrite K. intros [=].
Qed.
Print Assumptions drx_stale_refuted.

Definition two_types (kps : list (R * R)) : dframe := {| measurements := Some kps; descriptors := Some [Matrix 0 1 []; Matrix 0 1 []]; types := Some [0; 1] |}.
Definition dot : grey := {| g_rows := 1; g_cols := 1; g_channels := 1; g_pixels := fun _ _ => 0 |}.
Lemma point_int a b : - 2 ^ 31 < a < 2 ^ 31 -> - 2 ^ 31 < b < 2 ^ 31 -> point (IZR a, IZR b) = Done (a, b).
Proof.
  intros A B. destruct (point_ok (IZR a, IZR b)) as ([p q] & E & P & Q).
  { split; cbn [fst snd]; rewrite <- abs_IZR; apply IZR_lt; lia. }
  assert (forall z, cut_to z (IZR z)) as C. { intros z. split; [lra|]. pose proof (Rle_0_sqr (IZR z)). unfold Rsqr in *. lra. }
  rewrite E. cbn [fst snd] in P, Q. rewrite (cut_unique _ _ _ P (C a)), (cut_unique _ _ _ Q (C b)). reflexivity.
Qed.
(** The index -1 is drawn with the last keypoint of the type before, or reads outside of the memory. *)
Theorem drx_negative_refuted :
  (exists f f' q, draw_keypoint_matches f f' [(-1, 0)] 1 = Done q /\ keypoints_are (inner f) 1 [(7, 7)]%R /\ marks q = [Circle (5, 5) 4 Cyan; Line (7, 7) (5, 5) Magenta]) /\
  (exists f f', keypoints_are (inner f) 0 [(5, 5)]%R /\ keypoints_are (inner f') 0 [(5, 5)]%R /\ draw_keypoint_matches f f' [(-1, 0)] 0 = UB).
Proof.
  set (v := {| inner := two_types [(5, 5); (7, 7)]%R; raw_image := Some dot |}). assert (keypoints_are (inner v) 1 [(7, 7)]%R) as K1.
  { exists [(Matrix 0 1 [], 0)], (Matrix 0 1 []), [], [(5, 5)]%R, []. split; [split; reflexivity|]. split; [intros m [[=]|[]]|]. repeat split. }
  assert (keypoints_are (inner v) 0 [(5, 5)]%R) as K0. { exists [], (Matrix 0 1 []), [(Matrix 0 1 [], 1)], [], [(7, 7)]%R. split; [split; reflexivity|]. split; [intros m []|]. repeat split. }
  split; [|exists v, v; split; [exact K0|split; [exact K0|reflexivity]]]. exists v, v.
  assert (draw_keypoint_matches v v [(-1, 0)] 1 = bind (point (5, 5)%R) (fun a => bind (point (7, 7)%R) (fun b => Done {| ground := dot; marks := [Circle a 4 Cyan; Line b a Magenta] |}))) as E. { reflexivity. }
  rewrite (point_int 5 5), (point_int 7 7) in E by lia. eexists. split; [exact E|]. split; [exact K1|reflexivity].
Qed.
Print Assumptions drx_negative_refuted.

(** Two frames without the type: one picture is made, the other aborts although there is nothing to draw. *)
Theorem drx_missing_refuted f g f' t bs : grey_image f g -> has_blocks (inner f') bs -> lacks t bs ->
  draw_keypoint_matches f f' [] t = Abort /\ (forall image, draw_keypoints f' image t = Done image).
Proof.
  intros G B L. destruct (dsx_absent _ _ _ B L) as (_ & N & S' & _). split.
  - unfold draw_keypoint_matches, block_of_type. rewrite (copy_ok f g G), S'. reflexivity.
  - intros image. unfold draw_keypoints. rewrite N. reflexivity.
Qed.
Print Assumptions drx_missing_refuted.

(** The dot is not on the pixel nearest to the keypoint. *)
Theorem drx_nearest_refuted : exists kp p, moderate kp /\ point kp = Done p /\ (Rabs (IZR (fst p) - fst kp) > 1 / 2)%R /\ pixel_of kp (3, -3).
Proof.
  exists (39 / 10, - (39 / 10))%R. assert (pixel_of (39 / 10, - (39 / 10))%R (3, -3)) as P. { split; unfold cut_to; cbn [fst snd]; (split; [split|lra]); unfold Rabs; repeat destruct (Rcase_abs _); lra. }
  destruct (point_ok (39 / 10, - (39 / 10))%R) as (p & E & Q). { split; cbn [fst snd]; unfold Rabs; destruct (Rcase_abs _); lra. }
  exists p. split; [split; cbn [fst snd]; unfold Rabs; destruct (Rcase_abs _); lra|]. split; [exact E|]. split; [|exact P].
  rewrite (cut_unique _ _ _ (proj1 Q) (proj1 P)). cbn [fst snd]. unfold Rabs. destruct (Rcase_abs _); lra.
Qed.
Print Assumptions drx_nearest_refuted.

Example drx_ex : grey_image {| inner := two_types [(5, 5); (7, 7)]%R; raw_image := Some dot |} dot /\ keypoints_are (two_types [(5, 5); (7, 7)]%R) 1 [(7, 7)]%R /\ Forall moderate [(7, 7)]%R /\
  Forall (fun m => 0 <= fst m < len [(7, 7)]%R /\ 0 <= snd m < len [(7, 7)]%R) [(0, 0)] /\ lacks 4 [(Matrix 0 1 [], 0); (Matrix 0 1 [], 1)].
Proof.
  split; [repeat split; discriminate|]. split. { exists [(Matrix 0 1 [], 0)], (Matrix 0 1 []), [], [(5, 5)]%R, []. split; [split; reflexivity|]. split; [intros m [[=]|[]]|]. repeat split. }
  split. { constructor; [|constructor]. split; cbn [fst snd]; unfold Rabs; destruct (Rcase_abs _); lra. }
  split. { constructor; [|constructor]. cbn. lia. } intros m [[=]|[[=]|[]]].
Qed.
