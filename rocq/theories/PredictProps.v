(** C82, C83: predicted keypoints and bearing vectors of matches. *)
From Coq Require Import Reals List Bool Arith Lia Lra.
From Verif Require Import DistortionModel CameraModel CameraSpec CameraProofs CameraProps PredictModel PredictSpec.
Import ListNotations.
Local Open Scope R_scope.

(** ** Loops *)
Lemma set_nth_length {A} i (x : A) l : length (set_nth i x l) = length l.
Proof. revert i. induction l as [|y l IH]; intros [|i]; cbn; [reflexivity|reflexivity|reflexivity|]. rewrite IH. reflexivity. Qed.
Lemma set_nth_same {A} i (x : A) l : (i < length l)%nat -> nth_error (set_nth i x l) i = Some x.
Proof. revert i. induction l as [|y l IH]; intros [|i] H; cbn in *; [lia|lia|reflexivity|]. apply IH. lia. Qed.
Lemma set_nth_other {A} i j (x : A) l : i <> j -> nth_error (set_nth i x l) j = nth_error l j.
Proof. revert i j. induction l as [|y l IH]; intros [|i] [|j] H; cbn; try reflexivity; [lia|]. apply IH. lia. Qed.
Lemma resize_length {A} n (x : A) l : length (resize n x l) = n.
Proof. unfold resize. rewrite app_length, firstn_length, repeat_length. lia. Qed.
Lemma columns_spec {A B} (f : A -> B) xs : forall i out, length out = (i + length xs)%nat ->
  length (columns f i xs out) = length out /\ (forall j, (j < i)%nat -> nth_error (columns f i xs out) j = nth_error out j) /\
  (forall j, nth_error (columns f i xs out) (i + j) = option_map f (nth_error xs j)).
Proof.
  induction xs as [|x xs IH]; intros i out L; cbn [columns length] in *.
  - split; [reflexivity|]. split; [reflexivity|]. intros j. destruct (nth_error out (i + j)) eqn:E; [|destruct j; reflexivity].
    assert (i + j < length out)%nat by (apply nth_error_Some; congruence). lia.
  - destruct (IH (S i) (set_nth i (f x) out)) as (H1 & H2 & H3); [rewrite set_nth_length; lia|]. rewrite set_nth_length in H1. split; [exact H1|]. split.
    + intros j Hj. rewrite H2 by lia. apply set_nth_other. lia.
    + intros [|j].
      * rewrite Nat.add_0_r, H2 by lia. rewrite set_nth_same by lia. reflexivity.
      * replace (i + S j)%nat with (S i + j)%nat by lia. rewrite H3. reflexivity.
Qed.
Lemma nth_error_ext' {A} (l1 l2 : list A) : (forall i, nth_error l1 i = nth_error l2 i) -> l1 = l2.
Proof.
  revert l2. induction l1 as [|x l1 IH]; intros [|y l2] H; [reflexivity|discriminate (H 0%nat)|discriminate (H 0%nat)|].
  pose proof (H 0%nat) as E. cbn in E. injection E as ->. f_equal. apply IH. intros i. exact (H (S i)).
Qed.
Lemma columns_map {A B} (f : A -> B) xs out : length out = length xs -> columns f 0 xs out = map f xs.
Proof.
  intros L. destruct (columns_spec f xs 0 out L) as (_ & _ & H). apply nth_error_ext'. intros i. etransitivity; [exact (H i)|]. symmetry. apply nth_error_map.
Qed.
Lemma project_vectorized_map cam ps kps rs : project_vectorized cam ps kps rs = (map (fun p => fst (project3 cam p)) ps, map (fun p => snd (project3 cam p)) ps).
Proof. unfold project_vectorized. rewrite !columns_map by (rewrite resize_length; reflexivity). reflexivity. Qed.
Lemma back_project_vectorized_map cam ks ps ok : back_project_vectorized cam ks ps ok = (map (fun k => fst (back_project3 cam k)) ks, map (fun k => snd (back_project3 cam k)) ks).
Proof. unfold back_project_vectorized. rewrite !columns_map by (rewrite resize_length; reflexivity). reflexivity. Qed.

Lemma finish_spec kps_k rs : forall i kps ok, length kps = (i + length rs)%nat -> length ok = (i + length rs)%nat ->
  let '(kps', ok') := finish i rs kps_k kps ok in
  length kps' = length kps /\ length ok' = length ok /\
  (forall j, (j < i)%nat -> nth_error kps' j = nth_error kps j /\ nth_error ok' j = nth_error ok j) /\
  (forall j st, nth_error rs j = Some st -> let b := nth (i + j) ok false && is_visible st in
     nth_error ok' (i + j) = Some b /\ nth_error kps' (i + j) = if b then nth_error kps (i + j) else Some (Some (nth (i + j) kps_k (0, 0)))).
Proof.
  induction rs as [|st rs IH]; intros i kps ok L1 L2; cbn [finish length] in *.
  - split; [reflexivity|]. split; [reflexivity|]. split; [intros; split; reflexivity|]. intros [|j] st H; discriminate.
  - set (b := nth i ok false && is_visible st). set (kps1 := if b then kps else set_nth i (Some (nth i kps_k (0, 0))) kps).
    assert (length kps1 = length kps) as LK by (unfold kps1; destruct b; [reflexivity|apply set_nth_length]).
    specialize (IH (S i) kps1 (set_nth i b ok)). rewrite LK, set_nth_length in IH.
    destruct (finish (S i) rs kps_k kps1 (set_nth i b ok)) as [kps' ok']. destruct IH as (H1 & H2 & H3 & H4); [lia|lia|]. split; [lia|]. split; [lia|]. split.
    + intros j Hj. destruct (H3 j) as [E1 E2]; [lia|]. rewrite E1, E2. split; [unfold kps1; destruct b; [reflexivity|]|]; apply set_nth_other; lia.
    + intros [|j] st' H; cbn [nth_error] in H.
      * injection H as <-. rewrite Nat.add_0_r. fold b. destruct (H3 i) as [E1 E2]; [lia|]. rewrite E1, E2. split; [apply set_nth_same; lia|].
        unfold kps1. destruct b; [reflexivity|]. apply set_nth_same. lia.
      * destruct (H4 j st' H) as [E1 E2]. replace (i + S j)%nat with (S i + j)%nat by lia.
        assert (nth (S i + j) (set_nth i b ok) false = nth (S i + j) ok false) as EN.
        { pose proof (set_nth_other i (S i + j) b ok ltac:(lia)) as Q. destruct (nth_error ok (S i + j)) as [v|] eqn:EQ.
          - rewrite (nth_error_nth _ _ false Q), (nth_error_nth _ _ false EQ). reflexivity.
          - rewrite !nth_overflow; [reflexivity|apply nth_error_None; exact EQ|apply nth_error_None; exact Q]. }
        rewrite EN in E1, E2. split; [exact E1|]. cbn zeta. rewrite E2. destruct (nth (S i + j) ok false && is_visible st'); [|reflexivity].
        unfold kps1. destruct b; [reflexivity|]. apply set_nth_other. lia.
Qed.

(** ** Rotations *)
Lemma rotate_turn q v : unit_quaternion q -> rotate q v = turn q v.
Proof.
  unfold unit_quaternion. intros U. destruct v as [[a b] c]. destruct q as [w x y z]. unfold turn, rotate, qmul, qconj, pure. cbn [q_w q_x q_y q_z] in *.
  f_equal; [f_equal|].
  - transitivity ((w * w + x * x + y * y + z * z) * a - 2 * (y * y + z * z) * a + 2 * (x * y - w * z) * b + 2 * (x * z + w * y) * c); [rewrite U|]; ring.
  - transitivity (2 * (x * y + w * z) * a + (w * w + x * x + y * y + z * z) * b - 2 * (x * x + z * z) * b + 2 * (y * z - w * x) * c); [rewrite U|]; ring.
  - transitivity (2 * (x * z - w * y) * a + 2 * (y * z + w * x) * b + (w * w + x * x + y * y + z * z) * c - 2 * (x * x + y * y) * c); [rewrite U|]; ring.
Qed.
Lemma turn_mul p q v : turn (qmul p q) v = turn p (turn q v).
Proof. destruct v as [[a b] c], p as [pw px py pz], q as [w x y z]. unfold turn, qmul, qconj, pure. cbn [q_w q_x q_y q_z]. f_equal; [f_equal|]; ring. Qed.
Lemma turn_scale q l v : turn q (scale l v) = scale l (turn q v).
Proof. destruct v as [[a b] c], q as [w x y z]. unfold turn, qmul, qconj, pure, scale. cbn [q_w q_x q_y q_z]. f_equal; [f_equal|]; ring. Qed.
Lemma turn_inverse q v : unit_quaternion q -> turn (qmul (qconj q) q) v = v.
Proof.
  unfold unit_quaternion. intros U. destruct v as [[a b] c]. destruct q as [w x y z]. cbn [q_w q_x q_y q_z] in U.
  transitivity (scale ((w * w + x * x + y * y + z * z) * (w * w + x * x + y * y + z * z)) (a, b, c)).
  - unfold turn, qmul, qconj, pure, scale. cbn [q_w q_x q_y q_z]. f_equal; [f_equal|]; ring.
  - rewrite U. unfold scale. f_equal; [f_equal|]; ring.
Qed.
Lemma visible_iff st : is_visible st = true <-> st = KeypointVisible.
Proof. destruct st; cbn; split; congruence. Qed.

(** C82. For a frame with keypoints the outputs have one entry per keypoint, each being the prediction of that keypoint, whatever the output matrix
    contained before; no check fails. *)
Theorem prx_predict cam q kps_k kps : unit_quaternion q -> kps_k <> [] ->
  exists out ok, predict cam q kps_k kps = Some (out, ok) /\ length out = length kps_k /\ length ok = length kps_k /\
    forall i kp, nth_error kps_k i = Some kp -> exists o b, nth_error out i = Some o /\ nth_error ok i = Some b /\ prediction cam q kp o b.
Proof.
  intros U N. unfold predict. destruct (Nat.eqb_spec (length kps_k) 0) as [Z|_]; [destruct kps_k; [contradiction|discriminate]|].
  set (start := if Rlt_dec _ _ then _ else _). destruct start as [kps0 ok0]. rewrite back_project_vectorized_map, project_vectorized_map, !map_length, !Nat.eqb_refl. cbn [negb].
  set (rs := map (fun p => snd (project3 cam p)) (map (rotate q) (map (fun k => fst (back_project3 cam k)) kps_k))).
  set (ks := map (fun p => fst (project3 cam p)) (map (rotate q) (map (fun k => fst (back_project3 cam k)) kps_k))).
  set (ok1 := map (fun k => snd (back_project3 cam k)) kps_k).
  pose proof (finish_spec kps_k rs 0 ks ok1) as F. destruct (finish 0 rs kps_k ks ok1) as [out ok].
  destruct F as (L1 & L2 & _ & F); [unfold ks, rs; rewrite !map_length; reflexivity|unfold ok1, rs; rewrite !map_length; reflexivity|].
  exists out, ok. split; [reflexivity|]. split; [rewrite L1; unfold ks; rewrite !map_length; reflexivity|]. split; [rewrite L2; unfold ok1; rewrite map_length; reflexivity|].
  intros i kp E. specialize (F i (snd (project3 cam (rotate q (fst (back_project3 cam kp)))))). rewrite Nat.add_0_l in F.
  destruct F as [F1 F2]; [unfold rs; rewrite !nth_error_map, E; reflexivity|].
  assert (nth i ok1 false = snd (back_project3 cam kp)) as EN by (apply nth_error_nth; unfold ok1; rewrite nth_error_map, E; reflexivity).
  assert (nth i kps_k (0, 0) = kp) as EK by (apply nth_error_nth; exact E).
  rewrite EN in F1, F2. rewrite EK in F2. unfold prediction. rewrite <- rotate_turn by exact U. rewrite F1, F2.
  assert (nth_error ks i = Some (fst (project3 cam (rotate q (fst (back_project3 cam kp)))))) as Eks by (unfold ks; rewrite !nth_error_map, E; reflexivity).
  destruct (snd (back_project3 cam kp) && is_visible (snd (project3 cam (rotate q (fst (back_project3 cam kp)))))) eqn:B.
  - rewrite Eks. eexists _, true. split; [reflexivity|]. split; [reflexivity|]. apply andb_true_iff in B as [B1 B2]. apply visible_iff in B2.
    split; [tauto|]. split; [reflexivity|discriminate].
  - eexists _, false. split; [reflexivity|]. split; [reflexivity|]. split; [|split; [discriminate|reflexivity]]. split; [discriminate|]. intros [B1 B2].
    rewrite B1 in B. cbn in B. apply visible_iff in B2. congruence.
Qed.
Print Assumptions prx_predict.
(** With no keypoints in the frame the output keeps whatever it contained, so keypoints and flags do not fit together. *)
Theorem prx_empty_refuted cam q : exists kps, predict cam q [] kps = Some (kps, []) /\ length kps <> 0%nat.
Proof. exists [None]. split; [reflexivity|discriminate]. Qed.
Print Assumptions prx_empty_refuted.

(** C82, geometry, for the pinhole camera with a lens whose distort and undistort are inverse to each other. *)
Definition perfect (D : distortion) : Prop := forall q, distort D (undistort D q) = q /\ undistort D (distort D q) = q.
(** The identity (either quaternion of it) predicts every keypoint where it is, successfully if it is in the image. *)
Definition q_one (s : R) : quaternion := {| q_w := s; q_x := 0; q_y := 0; q_z := 0 |}.
Theorem prx_identity D c s sg kp out ok : perfect D -> pinhole_valid c -> sg = 1 \/ sg = -1 -> prediction (pinhole_camera D c s) (q_one sg) kp out ok ->
  out = Some kp /\ (ok = true <-> in_image (width s) (height s) kp).
Proof.
  intros P V Sg (Hok & Ht & Hf). cbn [pinhole_camera project3 back_project3] in *.
  assert (turn (q_one sg) (fst (pinhole_back_project D c kp)) = scale 1 (fst (pinhole_back_project D c kp))) as ET.
  { destruct (fst (pinhole_back_project D c kp)) as [[x y] z]. unfold turn, q_one, qmul, qconj, pure, scale. cbn [q_w q_x q_y q_z].
    assert (sg * sg = 1) as S2 by (destruct Sg; subst; lra). f_equal; [f_equal|].
    - transitivity (sg * sg * x); [ring|]. rewrite S2. reflexivity.
    - transitivity (sg * sg * y); [ring|]. rewrite S2. reflexivity.
    - transitivity (sg * sg * z); [ring|]. rewrite S2. reflexivity. }
  rewrite ET in *. destruct (px_project_back_projection D c s kp 1 V ltac:(lra) (proj1 (P _))) as (st & E & B & Q). rewrite E in *. cbn [fst snd] in *.
  pose proof min_depth_pos as M. split.
  - destruct ok; [apply Ht; reflexivity|apply Hf; reflexivity].
  - rewrite Hok, Q. tauto.
Qed.
Print Assumptions prx_identity.
(** The branch for the identity sets all flags, but goes on, and keypoints outside of the image fail. *)
Theorem prx_identity_all_succeed_refuted : exists kp, predict (pinhole_camera null_lens test_pinhole vga) (q_one 1) [kp] [] = Some ([Some kp], [false]).
Proof.
  exists (-1, 0). destruct (prx_predict (pinhole_camera null_lens test_pinhole vga) (q_one 1) [(-1, 0)] []) as (out & ok & E & L1 & L2 & F); [unfold unit_quaternion, q_one; cbn; ring|discriminate|].
  etransitivity; [exact E|]. destruct (F 0%nat (-1, 0) eq_refl) as (o & b & E1 & E2 & Pr).
  destruct (prx_identity null_lens test_pinhole vga 1 (-1, 0) o b) as [-> B]; [intros q; split; reflexivity|unfold pinhole_valid, test_pinhole; cbn; lra|left; reflexivity|exact Pr|].
  destruct out as [|o1 [|]], ok as [|b1 [|]]; cbn in L1, L2, E1, E2; try discriminate. injection E1 as ->. injection E2 as ->. f_equal. f_equal. f_equal.
  destruct b; [|reflexivity]. destruct (proj1 B eq_refl) as [[H _] _]. cbn in H. lra.
Qed.
Print Assumptions prx_identity_all_succeed_refuted.

Lemma project_visible D c s p : snd (pinhole_project D c s p) = KeypointVisible ->
  pinhole_project D c s p = (Some (pinhole_keypoint D c p), KeypointVisible) /\ minimum_depth < snd p /\ in_image (width s) (height s) (pinhole_keypoint D c p).
Proof.
  unfold pinhole_project. destruct (Req_EM_T (snd p) 0) as [|Z]; [discriminate|]. cbn [snd]. intros H.
  destruct (pinhole_status_spec s (pinhole_keypoint D c p) p) as (H1 & _). apply H1 in H as HH. rewrite H. tauto.
Qed.
Lemma snd_scale l p : snd (scale l p) = l * snd p.
Proof. destruct p as [[x y] z]. reflexivity. Qed.
(** Predicting by one rotation and then by another one finds the keypoint where the product of the rotations puts it. *)
Lemma chain D c s q1 q2 kp o1 o2 k1 : perfect D -> pinhole_valid c ->
  prediction (pinhole_camera D c s) q1 kp o1 true -> o1 = Some k1 -> prediction (pinhole_camera D c s) q2 k1 o2 true ->
  let p := turn (qmul q2 q1) (fst (pinhole_back_project D c kp)) in o2 = Some (pinhole_keypoint D c p) /\ in_image (width s) (height s) (pinhole_keypoint D c p) /\ 0 < snd p.
Proof.
  intros P V (A1 & B1 & _) E1 (A2 & B2 & _) p. destruct (proj1 A1 eq_refl) as [_ V1]. destruct (proj1 A2 eq_refl) as [_ V2]. specialize (B1 eq_refl). specialize (B2 eq_refl).
  cbn [pinhole_camera project3 back_project3] in *. set (r := fst (pinhole_back_project D c kp)) in *. set (r1 := fst (pinhole_back_project D c k1)) in *.
  destruct (project_visible _ _ _ _ V1) as (F1 & Z1 & I1). destruct (project_visible _ _ _ _ V2) as (F2 & Z2 & I2). rewrite F1 in B1. rewrite F2 in B2. cbn [fst] in *.
  pose proof min_depth_pos as M. assert (k1 = pinhole_keypoint D c (turn q1 r)) as EK by congruence.
  assert (scale (snd (turn q1 r)) r1 = turn q1 r) as ER.
  { unfold r1. rewrite EK. destruct V as (Vu & Vv & _). apply pinhole_back; [lra|lra|lra|apply P]. }
  assert (p = scale (snd (turn q1 r)) (turn q2 r1)) as EP by (unfold p; rewrite turn_mul, <- turn_scale, ER; reflexivity).
  rewrite EP, pinhole_keypoint_scale by lra. split; [exact B2|]. split; [exact I2|]. rewrite snd_scale. apply Rmult_lt_0_compat; lra.
Qed.
Theorem prx_compose D c s q1 q2 kp o1 o2 k1 o ok : perfect D -> pinhole_valid c -> 
  prediction (pinhole_camera D c s) q1 kp o1 true -> o1 = Some k1 -> prediction (pinhole_camera D c s) q2 k1 o2 true ->
  prediction (pinhole_camera D c s) (qmul q2 q1) kp o ok ->
  (ok = true <-> minimum_depth < snd (turn (qmul q2 q1) (fst (pinhole_back_project D c kp)))) /\ (ok = true -> o = o2).
Proof.
  intros P V H1 E1 H2 (A & B & _). destruct (chain D c s q1 q2 kp o1 o2 k1 P V H1 E1 H2) as (E & I & Z). cbn [pinhole_camera project3 back_project3] in *.
  split.
  - rewrite A. unfold pinhole_project. destruct (Req_EM_T _ 0) as [Q|_]; [lra|]. cbn [snd]. destruct (pinhole_status_spec s (pinhole_keypoint D c (turn (qmul q2 q1) (fst (pinhole_back_project D c kp)))) (turn (qmul q2 q1) (fst (pinhole_back_project D c kp)))) as (H & _).
    rewrite H. split; [tauto|]. intros L. split; [reflexivity|]. tauto.
  - intros T. specialize (B T). destruct (proj1 A T) as [_ Vis]. destruct (project_visible _ _ _ _ Vis) as (F & _). rewrite F in B. cbn [fst] in B. congruence.
Qed.
Print Assumptions prx_compose.
(** Predicting there and back again ends at the keypoint. *)
Theorem prx_inverse D c s q kp o1 o2 k1 : perfect D -> pinhole_valid c -> unit_quaternion q ->
  prediction (pinhole_camera D c s) q kp o1 true -> o1 = Some k1 -> prediction (pinhole_camera D c s) (qconj q) k1 o2 true -> o2 = Some kp.
Proof.
  intros P V U H1 E1 H2. destruct (chain D c s q (qconj q) kp o1 o2 k1 P V H1 E1 H2) as (E & _). rewrite turn_inverse in E by exact U. rewrite E. f_equal.
  destruct V as (Vu & Vv & _). apply pinhole_roundtrip; [lra|lra|apply P].
Qed.
Print Assumptions prx_inverse.
(** A turn of the camera about its axis by a quarter. *)
Definition quarter : quaternion := {| q_w := sqrt 2 / 2; q_x := 0; q_y := 0; q_z := sqrt 2 / 2 |}.
Example prx_predict_ex : unit_quaternion quarter /\ perfect null_lens /\ pinhole_valid test_pinhole /\
  prediction (pinhole_camera null_lens test_pinhole vga) quarter (360, 240) (Some (320, 270)) true /\
  prediction (pinhole_camera null_lens test_pinhole vga) (qconj quarter) (320, 270) (Some (360, 240)) true.
Proof.
  assert (S2 : sqrt 2 * sqrt 2 = 2) by (apply sqrt_sqrt; lra). split; [unfold unit_quaternion, quarter; cbn; lra|]. split; [intros q; split; reflexivity|].
  split; [unfold pinhole_valid, test_pinhole; cbn; lra|].
  assert (forall s kp x y kp', s * s = 1 -> fst (pinhole_back_project null_lens test_pinhole kp) = (x, y, 1) ->
    kp' = (400 * (- (s * y)) + 320, 300 * (s * x) + 240) -> in_image 640 480 kp' ->
    prediction (pinhole_camera null_lens test_pinhole vga) {| q_w := sqrt 2 / 2; q_x := 0; q_y := 0; q_z := s * (sqrt 2 / 2) |} kp (Some kp') true) as G.
  { intros s kp x y kp' Hs E EK I. unfold prediction. cbn [pinhole_camera project3 back_project3]. rewrite E.
    assert (turn {| q_w := sqrt 2 / 2; q_x := 0; q_y := 0; q_z := s * (sqrt 2 / 2) |} (x, y, 1) = (- (s * y), s * x, 1)) as T.
    { unfold turn, qmul, qconj, pure. cbn [q_w q_x q_y q_z]. f_equal; [f_equal|].
      - transitivity ((sqrt 2 * sqrt 2) * ((1 - s * s) * x / 4 - s * y / 2)); [field|rewrite S2, Hs; field].
      - transitivity ((sqrt 2 * sqrt 2) * ((1 - s * s) * y / 4 + s * x / 2)); [field|rewrite S2, Hs; field].
      - transitivity ((sqrt 2 * sqrt 2) * ((1 + s * s) / 4)); [field|rewrite S2, Hs; field]. }
    rewrite T. unfold pinhole_project. cbn [snd]. destruct (Req_EM_T 1 0); [lra|].
    assert (pinhole_keypoint null_lens test_pinhole (- (s * y), s * x, 1) = kp') as K by (rewrite EK; unfold pinhole_keypoint; cbn; f_equal; field).
    rewrite K. cbn [fst snd]. destruct (pinhole_status_spec vga kp' (- (s * y), s * x, 1)) as (H & _). pose proof min_depth_pos as M.
    assert (pinhole_status vga kp' (- (s * y), s * x, 1) = KeypointVisible) as -> by (apply H; split; [exact I|cbn; lra]).
    split; [tauto|]. split; [reflexivity|discriminate]. }
  split.
  - replace quarter with {| q_w := sqrt 2 / 2; q_x := 0; q_y := 0; q_z := 1 * (sqrt 2 / 2) |} by (unfold quarter; f_equal; ring).
    apply (G 1 (360, 240) (1 / 10) 0); [ring| | |].
    + unfold pinhole_back_project, test_pinhole. cbn. f_equal. f_equal; unfold null_undistort; cbn; field.
    + f_equal; field.
    + unfold in_image. cbn. lra.
  - replace (qconj quarter) with {| q_w := sqrt 2 / 2; q_x := 0; q_y := 0; q_z := -1 * (sqrt 2 / 2) |} by (unfold quarter, qconj; cbn; f_equal; ring).
    apply (G (-1) (320, 270) 0 (1 / 10)); [ring| | |].
    + unfold pinhole_back_project, test_pinhole. cbn. f_equal. f_equal; unfold null_undistort; cbn; field.
    + f_equal; field.
    + unfold in_image. cbn. lra.
Qed.
(** The same for the unified camera. *)
Theorem prx_inverse_unified D c s q kp o1 o2 k1 : perfect D -> unified_valid c -> unit_quaternion q ->
  (let p := undistort D ((fst kp - u_cu c) / u_fu c, (snd kp - u_cv c) / u_fv c) in u_xi c <= 1 \/ fst p * fst p + snd p * snd p < 1 / (u_xi c * u_xi c - 1)) ->
  prediction (unified_camera D c s) q kp o1 true -> o1 = Some k1 -> prediction (unified_camera D c s) (qconj q) k1 o2 true -> o2 = Some kp.
Proof.
  intros P (Vx & Vu & Vv & _) U Hr (A1 & B1 & _) E1 (A2 & B2 & _). destruct (proj1 A1 eq_refl) as [_ V1]. specialize (B1 eq_refl). specialize (B2 eq_refl).
  cbn [unified_camera project3 back_project3] in *. unfold unified_project in *. cbn [fst snd] in *.
  set (r := fst (unified_back_project D c kp)) in *. set (r1 := fst (unified_back_project D c k1)) in *.
  assert (unified_valid_proj (u_xi c) (turn q r) = true) as VP by (destruct (unified_valid_proj (u_xi c) (turn q r)); [reflexivity|discriminate]).
  assert (k1 = unified_keypoint D c (turn q r)) as EK by congruence.
  set (l := snd (turn q r) + u_xi c * norm3 (turn q r)). assert (0 < l) as Hl by apply (valid_proj_pos _ _ Vx VP).
  assert (scale l r1 = turn q r) as ER by (unfold r1; rewrite EK; apply unified_back; [exact Vx|lra|lra|exact VP|apply P]).
  rewrite B2. f_equal. rewrite <- (unified_keypoint_scale D c _ l Hl Vx), <- turn_scale, ER, <- turn_mul, turn_inverse by exact U.
  apply (unified_roundtrip D c kp Vx ltac:(lra) ltac:(lra)); [apply P|exact Hr].
Qed.
Print Assumptions prx_inverse_unified.
Example prx_inverse_unified_ex : let c := {| u_xi := 1; u_fu := 100; u_fv := 100; u_cu := 320; u_cv := 240 |} in unified_valid c /\
  prediction (unified_camera null_lens c vga) (q_one 1) (320, 240) (Some (320, 240)) true.
Proof.
  intros c. split; [unfold unified_valid, c; cbn; lra|].
  assert (turn (q_one 1) (fst (unified_back_project null_lens c (320, 240))) = scale 1 (fst (unified_back_project null_lens c (320, 240)))) as ET.
  { destruct (fst (unified_back_project null_lens c (320, 240))) as [[x y] z]. unfold turn, q_one, qmul, qconj, pure, scale. cbn [q_w q_x q_y q_z]. f_equal; [f_equal|]; ring. }
  destruct (ux_project_back_projection_partial null_lens c vga (320, 240) 1) as (st & E & B & Q); [unfold unified_valid, c; cbn; lra|lra|reflexivity|left; cbn; lra|].
  unfold prediction. cbn [unified_camera project3 back_project3]. rewrite ET, E. cbn [fst snd].
  assert (fst (unified_back_project null_lens c (320, 240)) = (0, 0, 1 / 2)) as EB.
  { unfold unified_back_project, c. cbn. unfold null_undistort. cbn. replace ((320 - 320) / 100) with 0 by field. replace ((240 - 240) / 100) with 0 by field.
    replace (1 + (1 - 1 * 1) * (0 * 0 + 0 * 0)) with 1 by ring. rewrite Rmax_left by lra. rewrite sqrt_1. f_equal. field. }
  assert (st = KeypointVisible) as ->.
  { apply Q. split; [unfold in_image; cbn; lra|]. rewrite EB. unfold scale, sqnorm. unfold minimum_depth. lra. }
  split; [tauto|]. split; [reflexivity|discriminate].
Qed.

(** ** C83. Bearing vectors of matches. *)
Lemma select_ok {A} (l : list A) is : Forall (fun i => (i < length l)%nat) is -> exists ks, select_columns l is = Some ks /\ length ks = length is /\
  forall n i, nth_error is n = Some i -> nth_error ks n = nth_error l i.
Proof.
  induction 1 as [|i is Hi _ (ks & E & L & N)].
  - exists []. split; [reflexivity|]. split; [reflexivity|]. intros [|n] i H; discriminate.
  - cbn [select_columns]. rewrite E. destruct (nth_error l i) as [k|] eqn:EN; [|apply nth_error_None in EN; lia]. exists (k :: ks). split; [reflexivity|]. split; [cbn; lia|].
    intros [|n] j H; cbn [nth_error] in *; [injection H as <-; congruence|exact (N n j H)].
Qed.
Lemma normalized_spec p : norm3 p <> 0 -> norm3 (normalized p) = 1 /\ exists l, 0 < l /\ normalized p = scale l p.
Proof.
  intros N. assert (0 < norm3 p) as P by (destruct p as [[x y] z]; unfold norm3 in *; pose proof (sqrt_pos (x * x + y * y + z * z)); lra).
  assert (normalized p = scale (/ norm3 p) p) as E.
  { destruct p as [[x y] z]. unfold normalized, scale. destruct (Rlt_dec 0 (norm3 (x, y, z))); [|contradiction]. f_equal; [f_equal|]; field; lra. }
  rewrite E. assert (0 < / norm3 p) as PI by (apply Rinv_0_lt_compat; exact P). split; [rewrite norm3_scale by lra; field; lra|]. exists (/ norm3 p). split; [exact PI|reflexivity].
Qed.
Lemma bearing_ok cam kps is ok : Forall (fun i => (i < length kps)%nat) is -> exists b ok', bearing_vectors cam kps is ok = Some (b, ok') /\ length b = length is /\ length ok' = length is /\
  forall n i kp, nth_error is n = Some i -> nth_error kps i = Some kp -> nth_error b n = Some (normalized (fst (back_project3 cam kp))) /\ nth_error ok' n = Some (snd (back_project3 cam kp)).
Proof.
  intros F. unfold bearing_vectors. destruct (Nat.eqb_spec (length is) 0) as [Z|Z].
  - destruct is; [|discriminate]. exists [], []. split; [reflexivity|]. split; [reflexivity|]. split; [reflexivity|]. intros [|n] i kp H; discriminate.
  - destruct (select_ok kps is F) as (ks & E & L & N). rewrite E, back_project_vectorized_map. eexists _, _. split; [reflexivity|]. rewrite !map_length. split; [exact L|]. split; [exact L|].
    intros n i kp H K. rewrite !nth_error_map, (N n i H), K. split; reflexivity.
Qed.
(** Two lists with one vector per match, in the order of the matches; each is the normalized ray of the keypoint of its frame. For the pinhole camera it is a unit vector and
    projects to that keypoint. *)
Theorem brx_bearings cam1 cam kps1 kps ms : Forall (fun m => (fst m < length kps1)%nat /\ (snd m < length kps)%nat) ms ->
  exists b1 b, bearings_from_matches cam1 cam kps1 kps ms = Some (b1, b) /\ length b1 = length ms /\ length b = length ms /\
    forall n m k1 k, nth_error ms n = Some m -> nth_error kps1 (fst m) = Some k1 -> nth_error kps (snd m) = Some k ->
      nth_error b1 n = Some (normalized (fst (back_project3 cam1 k1))) /\ nth_error b n = Some (normalized (fst (back_project3 cam k))).
Proof.
  intros F. assert (Forall (fun i => (i < length kps1)%nat) (map fst ms) /\ Forall (fun i => (i < length kps)%nat) (map snd ms)) as [F1 F2].
  { split; rewrite Forall_map; (eapply Forall_impl; [|exact F]); cbn; intros m H; tauto. }
  unfold bearings_from_matches. destruct (bearing_ok cam1 kps1 (map fst ms) [] F1) as (b1 & ok1 & E1 & L1 & _ & N1). rewrite E1.
  destruct (bearing_ok cam kps (map snd ms) ok1 F2) as (b & ok & E & L & _ & N). rewrite E. rewrite map_length in L1, L.
  exists b1, b. split; [reflexivity|]. split; [exact L1|]. split; [exact L|]. intros n m k1 k Hm H1 H2.
  split; [apply (N1 n (fst m) k1); [rewrite nth_error_map, Hm; reflexivity|exact H1]|apply (N n (snd m) k); [rewrite nth_error_map, Hm; reflexivity|exact H2]].
Qed.
Print Assumptions brx_bearings.
Theorem brx_bearing_pinhole D c s kp : perfect D -> pinhole_valid c -> let b := normalized (fst (back_project3 (pinhole_camera D c s) kp)) in
  norm3 b = 1 /\ fst (project3 (pinhole_camera D c s) b) = Some kp.
Proof.
  intros P V b. cbn [pinhole_camera back_project3 project3] in *. destruct (normalized_spec (fst (pinhole_back_project D c kp))) as (N & l & Hl & E).
  { unfold pinhole_back_project. cbn [fst]. unfold norm3. apply Rgt_not_eq, Rlt_gt, sqrt_lt_R0. set (q := undistort D _). pose proof (Rle_0_sqr (fst q)). pose proof (Rle_0_sqr (snd q)). unfold Rsqr in *. lra. }
  split; [exact N|]. unfold b. rewrite E. destruct (px_project_back_projection D c s kp l V Hl (proj1 (P _))) as (st & -> & _). reflexivity.
Qed.
Print Assumptions brx_bearing_pinhole.
Example brx_bearings_ex : let k1 := [(1, 2); (3, 4)] : list vec2 in let k := [(5, 6)] : list vec2 in
  Forall (fun m => (fst m < length k1)%nat /\ (snd m < length k)%nat) [(1%nat, 0%nat); (0%nat, 0%nat)].
Proof. intros k1 k. repeat constructor; cbn; lia. Qed.
(** The success flags are dropped: a match of a keypoint that has no ray gets a bearing vector like any other. *)
Theorem brx_failed_rays_refuted : exists c kp b, unified_valid c /\ snd (back_project3 (unified_camera null_lens c vga) kp) = false /\
  bearings_from_matches (unified_camera null_lens c vga) (unified_camera null_lens c vga) [kp] [kp] [(0%nat, 0%nat)] = Some ([b], [b]).
Proof.
  pose (c := {| u_xi := 2; u_fu := 100; u_fv := 100; u_cu := 320; u_cv := 240 |}). exists c, (0, 0).
  destruct (brx_bearings (unified_camera null_lens c vga) (unified_camera null_lens c vga) [(0, 0)] [(0, 0)] [(0%nat, 0%nat)]) as (b1 & b & E & L1 & L & N); [repeat constructor; cbn; lia|].
  destruct (N 0%nat (0%nat, 0%nat) (0, 0) (0, 0) eq_refl eq_refl eq_refl) as [H1 H2]. destruct b1 as [|w1 [|w2 ws]], b as [|b0 [|b2 bs]]; cbn in L1, L; try discriminate.
  exists b0. split; [unfold unified_valid, c; cbn; lra|]. split.
  - cbn [unified_camera back_project3]. unfold unified_back_project. cbn [snd]. unfold liftable. cbn [c u_xi u_fu u_fv u_cu u_cv fst snd null_lens undistort null_undistort].
    destruct (Rle_dec 2 1); [lra|]. cbn. repeat match goal with |- context [Rle_dec ?a ?b] => destruct (Rle_dec a b); try (exfalso; lra) end; try reflexivity; exfalso; lra.
  - etransitivity; [exact E|]. cbn in H1, H2. congruence.
Qed.
Print Assumptions brx_failed_rays_refuted.
