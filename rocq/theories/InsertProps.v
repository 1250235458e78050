(** C84: inserting keypoints and descriptors keeps a frame aligned. *)
From Coq Require Import ZArith Bool Arith Lia.
From stdpp Require Import list.
From Verif Require Import StlHelpersModel GyroTrackerModel InsertModel InsertSpec.
Local Open Scope nat_scope.

Lemma extend_channel_ok {A} (l v : list (option A)) : extend_channel l (length l) v = Ok (l ++ v).
Proof.
  unfold extend_channel, write_segment, conservative_resize. rewrite app_length, take_length, replicate_length.
  rewrite (proj2 (Nat.leb_le _ _)) by lia. f_equal. rewrite (take_ge l) by lia. rewrite take_app_alt by done. f_equal. rewrite drop_ge; [by rewrite app_nil_r|].
  rewrite app_length, replicate_length. lia.
Qed.
Lemma zip_fresh w n rows : length rows = n -> Forall (fun row => length row = w) rows ->
  zip_with (fun old row => ((Some <$> row) ++ drop (length row) old : list (option Z))) (replicate n (replicate w None)) rows = (fun row : list Z => Some <$> row) <$> rows.
Proof.
  revert n. induction rows as [|row rows IH]; intros [|n] L F; try done. apply Forall_cons in F as [Fr F]. cbn [replicate zip_with fmap list_fmap]. f_equal.
  - rewrite drop_ge; [apply app_nil_r|]. by rewrite replicate_length, Fr.
  - apply IH; [cbn in L; lia|done].
Qed.
Lemma write_block_ok w c m : proper m -> cv_cols m = w ->
  write_block (Descriptors w (conservative_resize (replicate w None) c (length c + length (cv_rows m)))) (length c) m =
  Ok (Descriptors w (c ++ ((fun row : list Z => Some <$> row) <$> cv_rows m))).
Proof.
  intros P W. unfold write_block, conservative_resize. cbn [d_rows d_cols]. rewrite W, Nat.leb_refl. rewrite (take_ge c) by lia.
  replace (length c + length (cv_rows m) - length c) with (length (cv_rows m)) by lia. rewrite app_length, replicate_length, Nat.leb_refl. cbn [andb]. f_equal. f_equal.
  rewrite take_app_alt by done. f_equal. rewrite drop_app_alt by done. rewrite take_ge by (rewrite replicate_length; lia).
  rewrite drop_ge by (rewrite app_length, replicate_length; lia). rewrite app_nil_r. apply zip_fresh; [done|]. unfold proper in P. by rewrite W in P.
Qed.
Lemma map_const {A B} (x : B) (l : list A) : replicate (length l) x = (fun _ => x) <$> l.
Proof. induction l as [|y l IH]; cbn; [done|]. by rewrite IH. Qed.

(** Inserting [new] keypoints with descriptors of the size of those in an aligned frame appends to every channel the values of the new keypoints, the given uncertainty and the
    track id -1, and keeps the frame aligned; the old entries are unchanged. Partial: descriptors of the same size, one block of descriptors, see below. *)
Theorem inx_additional_partial n w f new m u : aligned n w f -> proper m -> cv_cols m = w -> length new = length (cv_rows m) -> (0 < u)%Z ->
  exists f', insert_additional new m u f = Ok f' /\ aligned (n + length new) w f' /\
    appended (measurements f) (measurements f') (map pt new) /\ appended (orientations f) (orientations f') (map angle new) /\
    appended (scales f) (scales f') (map size new) /\ appended (scores f) (scores f') (map response new) /\
    appended (track_ids f) (track_ids f') (map (fun _ => (-1)%Z) new) /\ appended (uncertainties f) (uncertainties f') (map (fun _ => u) new) /\
    exists c, blocks f = Some [Descriptors w c] /\ blocks f' = Some [Descriptors w (c ++ map (map Some) (cv_rows m))].
Proof.
  intros [(kps & E1 & L1) (unc & E2 & L2) (ori & E3 & L3) (sca & E4 & L4) (sco & E5 & L5) (ids & E6 & L6) (c & E7 & L7 & F7)] P W L U.
  unfold insert_additional. rewrite E1, E2, E3, E4, E5, E6, E7. rewrite (proj2 (Z.ltb_lt _ _) U), L, Nat.eqb_refl. cbn [negb d_rows d_cols]. rewrite L6.
  assert (forall A (l v : list (option A)), length l = n -> extend_channel l n v = Ok (l ++ v)) as X by (intros A l v <-; apply extend_channel_ok).
  rewrite (X _ kps), (X _ ori), (X _ sca), (X _ sco), (X _ ids), (X _ unc) by done. cbn [rbind].
  pose proof (write_block_ok w c m P W) as WB. rewrite L7 in WB. rewrite WB. cbn [rbind]. eexists. split; [reflexivity|]. rewrite <- L. split.
  - split; cbn; (eexists; split; [reflexivity|]); rewrite ?app_length, ?fmap_length, ?replicate_length; try lia.
    split; [lia|]. apply Forall_app. split; [done|]. apply Forall_fmap. unfold proper in P. rewrite W in P. eapply Forall_impl; [exact P|]. cbn. intros row <-. by rewrite fmap_length.
  - unfold appended. cbn [measurements uncertainties orientations scales scores track_ids blocks]. rewrite !map_const.
    assert (forall A B (g : A -> B) (l : list A), Some ∘ g <$> l = map Some (map g l)) as MM by (intros; symmetry; apply map_map).
    split; [exists kps; by rewrite MM|]. split; [exists ori; by rewrite MM|]. split; [exists sca; by rewrite MM|]. split; [exists sco; by rewrite MM|].
    split; [exists ids; split; [done|]; by rewrite map_map|]. split; [exists unc; split; [done|]; by rewrite map_map|]. exists c. done.
Qed.
Print Assumptions inx_additional_partial.

(** Inserting into a frame without keypoints gives an aligned frame with exactly the new keypoints. *)
Theorem inx_empty f new m u : blank f -> proper m -> length new = length (cv_rows m) -> (0 < u)%Z ->
  exists f', insert_into_empty new m u f = Ok f' /\ aligned (length new) (cv_cols m) f' /\
    measurements f' = Some (map Some (map pt new)) /\ orientations f' = Some (map Some (map angle new)) /\ scales f' = Some (map Some (map size new)) /\
    scores f' = Some (map Some (map response new)) /\ track_ids f' = Some (map (fun _ => Some (-1)%Z) new) /\ uncertainties f' = Some (map (fun _ => Some u) new) /\
    blocks f' = Some [Descriptors (cv_cols m) (map (map Some) (cv_rows m))].
Proof.
  intros (B1 & B2 & B3 & B4 & B5 & B6 & B7) P L U. unfold insert_into_empty.
  assert (descriptors_empty (blocks f) = Ok true /\ set_descriptors (blocks f) (mapped m) = [mapped m]) as [-> S].
  { destruct B7 as [->|(w & ->)]; done. }
  assert (forall A (c : option (list A)), c = None \/ c = Some [] -> absent_or_empty c = true) as X by (intros A c [->| ->]; done).
  cbn [rbind]. rewrite !X by done. cbn [andb negb]. rewrite (proj2 (Z.ltb_lt _ _) U), L, Nat.eqb_refl. cbn [negb]. rewrite S. eexists. split; [reflexivity|]. rewrite <- L.
  assert (forall A B (g : A -> B) (l : list A), Some ∘ g <$> l = map Some (map g l)) as MM by (intros; symmetry; apply map_map). split.
  - split; cbn; (eexists; split; [reflexivity|]); rewrite ?fmap_length, ?replicate_length; try lia.
    split; [done|]. apply Forall_fmap. eapply Forall_impl; [exact P|]. cbn. intros row <-. by rewrite fmap_length.
  - cbn [measurements uncertainties orientations scales scores track_ids blocks]. rewrite !map_const. repeat split; try (f_equal; apply MM); done.
Qed.
Print Assumptions inx_empty.
(** A frame that already has keypoints is refused. *)
Theorem inx_empty_refuses f new m u l : measurements f = Some l -> l <> [] -> (exists b, descriptors_empty (blocks f) = Ok b) -> insert_into_empty new m u f = Abort.
Proof.
  intros E N (b & D). unfold insert_into_empty. rewrite D, E. cbn [rbind absent_or_empty]. destruct l as [|x l]; [done|]. done.
Qed.
Print Assumptions inx_empty_refuses.
(** A different number of keypoints and descriptors, and an uncertainty that is not positive, are refused in both functions whatever the frame contains (an
    empty list of descriptor blocks is refused as well). *)
Theorem inx_refuses f new m u : length new <> length (cv_rows m) \/ (u <= 0)%Z -> insert_into_empty new m u f = Abort /\ insert_additional new m u f = Abort.
Proof.
  intros H. unfold insert_into_empty, insert_additional. split.
  - assert (descriptors_empty (blocks f) = Abort \/ exists b, descriptors_empty (blocks f) = Ok b) as [->|(b & ->)]; [|reflexivity|].
    { destruct (blocks f) as [[|d l]|]; cbn; [by left|right; by eexists|right; by eexists]. }
    cbn [rbind]. destruct (negb _); [done|]. destruct (Z.ltb_spec 0 u); cbn [negb]; [|done]. destruct (Nat.eqb_spec (length new) (length (cv_rows m))); [|done]. destruct H; lia.
  - destruct (measurements f), (blocks f), (uncertainties f), (orientations f), (scales f), (scores f), (track_ids f); try done. destruct (Z.ltb_spec 0 u); cbn [negb]; [|done].
    destruct (Nat.eqb_spec (length new) (length (cv_rows m))); [|done]. destruct H; lia.
Qed.
Print Assumptions inx_refuses.
Example inx_refuses_ex : insert_additional [Keypoint (1, 2)%Z 3 4 5] (CvDescriptors 2 []) 1 (Frame None None None None None None None) = Abort.
Proof. apply inx_refuses. left. discriminate. Qed.
(** Inserting in two portions is inserting everything at once. *)
Theorem inx_additional_twice n w f new1 m1 new2 m2 u : aligned n w f -> proper m1 -> proper m2 -> cv_cols m1 = w -> cv_cols m2 = w ->
  length new1 = length (cv_rows m1) -> length new2 = length (cv_rows m2) -> (0 < u)%Z ->
  exists f1, insert_additional new1 m1 u f = Ok f1 /\
    insert_additional new2 m2 u f1 = insert_additional (new1 ++ new2) (CvDescriptors w (cv_rows m1 ++ cv_rows m2)) u f.
Proof.
  intros A P1 P2 W1 W2 L1 L2 U. destruct (inx_additional_partial n w f new1 m1 u A P1 W1 L1 U) as (f1 & E1 & A1 & (a1 & Ha & Ha1) & (b1 & Hb & Hb1) & (c1 & Hc & Hc1) & (d1 & Hd & Hd1) & (e1 & He & He1) & (g1 & Hg & Hg1) & k1 & Hk & Hk1).
  exists f1. split; [done|]. destruct (inx_additional_partial _ w f1 new2 m2 u A1 P2 W2 L2 U) as (f2 & E2 & A2 & (a2 & Ia & Ia1) & (b2 & Ib & Ib1) & (c2 & Ic & Ic1) & (d2 & Id & Id1) & (e2 & Ie & Ie1) & (g2 & Ig & Ig1) & k2 & Ik & Ik1).
  destruct (inx_additional_partial n w f (new1 ++ new2) (CvDescriptors w (cv_rows m1 ++ cv_rows m2)) u A) as (f3 & E3 & A3 & (a3 & Ja & Ja1) & (b3 & Jb & Jb1) & (c3 & Jc & Jc1) & (d3 & Jd & Jd1) & (e3 & Je & Je1) & (g3 & Jg & Jg1) & k3 & Jk & Jk1);
    [unfold proper in *; rewrite W1 in P1; rewrite W2 in P2; cbn; apply Forall_app; by split|done|cbn; rewrite !app_length; lia|done|].
  rewrite E2, E3. f_equal. destruct f2 as [p1 p2 p3 p4 p5 p6 p7], f3 as [q1 q2 q3 q4 q5 q6 q7]. cbn [measurements uncertainties orientations scales scores track_ids blocks cv_rows cv_cols] in *. rewrite !map_app in *. rewrite !app_assoc in *.
  assert (a2 = a3 ++ map Some (map pt new1)) by congruence. assert (b2 = b3 ++ map Some (map angle new1)) by congruence. assert (c2 = c3 ++ map Some (map size new1)) by congruence.
  assert (d2 = d3 ++ map Some (map response new1)) by congruence. assert (e2 = e3 ++ map Some (map (fun _ => (-1)%Z) new1)) by congruence.
  assert (g2 = g3 ++ map Some (map (fun _ => u) new1)) by congruence. assert (k2 = k3 ++ map (map Some) (cv_rows m1)) by congruence. subst. congruence.
Qed.
Print Assumptions inx_additional_twice.
Definition kp_a : keypoint := Keypoint (10, 20)%Z 5 7 90.
Definition kp_b : keypoint := Keypoint (11, 21)%Z 6 8 91.
Definition frame_none : frame := Frame None None None None None None None.
Definition frame_a : frame :=
  Frame (Some [Some (10, 20)%Z]) (Some [Some 2%Z]) (Some [Some 90%Z]) (Some [Some 7%Z]) (Some [Some 5%Z]) (Some [Some 3%Z]) (Some [Descriptors 2 [[Some 1%Z; Some 2%Z]]]).
Example inx_additional_ex : aligned 1 2 frame_a /\ proper (CvDescriptors 2 [[8; 9]%Z]) /\
  insert_additional [kp_b] (CvDescriptors 2 [[8; 9]%Z]) 2 frame_a =
  Ok (Frame (Some [Some (10, 20); Some (11, 21)]%Z) (Some [Some 2; Some 2]%Z) (Some [Some 90; Some 91]%Z) (Some [Some 7; Some 8]%Z) (Some [Some 5; Some 6]%Z) (Some [Some 3; Some (-1)]%Z)
        (Some [Descriptors 2 [[Some 1; Some 2]; [Some 8; Some 9]]%Z])) /\ blank frame_none /\
  insert_into_empty [kp_a] (CvDescriptors 2 [[1; 2]%Z]) 2 frame_none =
  Ok (Frame (Some [Some (10, 20)%Z]) (Some [Some 2%Z]) (Some [Some 90%Z]) (Some [Some 7%Z]) (Some [Some 5%Z]) (Some [Some (-1)%Z]) (Some [Descriptors 2 [[Some 1; Some 2]]%Z])).
Proof.
  split; [split; eexists; (split; [reflexivity|]); try done; split; [done|repeat constructor]|]. split; [repeat constructor|]. split; [done|]. split; [|done].
  unfold blank. cbn. repeat split; by left.
Qed.

(** Refutations. A frame cleared by clearKeypointChannels has descriptors without rows; inserting into it passes all checks and writes outside of the matrix. *)
Theorem inx_cleared_refuted : insert_additional [kp_a] (CvDescriptors 2 [[1; 2]%Z]) 2 (clear_channels frame_a) = Ub.
Proof. reflexivity. Qed.
Print Assumptions inx_cleared_refuted.
(** Descriptors that are shorter than those in the frame leave bytes uninitialised; longer ones are written outside of the matrix. *)
Theorem inx_descriptor_size_refuted : (exists f', insert_additional [kp_b] (CvDescriptors 1 [[8]%Z]) 2 frame_a = Ok f' /\ blocks f' = Some [Descriptors 2 [[Some 1; Some 2]; [Some 8; None]]%Z]) /\
  insert_additional [kp_b] (CvDescriptors 3 [[8; 9; 10]%Z]) 2 frame_a = Ub.
Proof. split; [eexists; split; reflexivity|reflexivity]. Qed.
Print Assumptions inx_descriptor_size_refuted.
(** With two blocks of descriptors the first one is resized to the number of all keypoints: it gets a column that nobody wrote. *)
Theorem inx_two_blocks_refuted : exists f f', length <$> track_ids f = Some 2 /\ blocks f = Some [Descriptors 1 [[Some 1%Z]]; Descriptors 1 [[Some 2%Z]]] /\
  insert_additional [kp_a] (CvDescriptors 1 [[9]%Z]) 2 f = Ok f' /\ blocks f' = Some [Descriptors 1 [[Some 1%Z]; [None]; [Some 9%Z]]; Descriptors 1 [[Some 2%Z]]].
Proof.
  exists (Frame (Some [Some (1, 1); Some (2, 2)]%Z) (Some [Some 1; Some 1]%Z) (Some [Some 0; Some 0]%Z) (Some [Some 0; Some 0]%Z) (Some [Some 0; Some 0]%Z) (Some [Some 0; Some 0]%Z)
    (Some [Descriptors 1 [[Some 1%Z]]; Descriptors 1 [[Some 2%Z]]])).
  eexists. split; [reflexivity|]. split; [reflexivity|]. split; reflexivity.
Qed.
Print Assumptions inx_two_blocks_refuted.
