(** Property C122: poses from keypoints and landmarks. *)
From Coq Require Import Reals ZArith List Bool Arith Lia Lra Psatz.
From Verif Require Import StlHelpersModel TriangulationModel TriangulationSpec TriangulationQr TriangulationProofs PnpModel PnpSpec PnpProofs.
Import ListNotations.
Local Open Scope R_scope.

Definition at_origin : transformation := {| rotation := identity3; position := zero3 |}.
(** A solver that always answers with one model, and the inliers of it. *)
Definition answers (T : transformation) (pb : problem) : ransac :=
  let ins := filter (fun i => if Rlt_dec (distance pb T i) (threshold pb) then true else false) (seq 0 (length (points pb))) in
  {| found := true; model := T; inliers := ins; distances := map (distance pb T) ins; iterations := 1 |}.
Lemma answers_sound T : sound (answers T).
Proof.
  intros pb _ i. cbn [answers inliers model]. rewrite filter_In, in_seq. destruct (Rlt_dec _ _) as [H|H]; split; intros [A B]; try (split; [lia|assumption]); try discriminate; try contradiction. split; [lia|reflexivity].
Qed.
(** A refinement that moves to a given model if that is better. *)
Definition moves (T' : transformation) (pb : problem) (ins : list nat) (T : transformation) : transformation := if Rle_dec (total pb ins T') (total pb ins T) then T' else T.
Lemma moves_improves T' : improves (moves T').
Proof. intros pb ins T. unfold moves. destruct (Rle_dec _ _); lra. Qed.

(** ** What the solver is given *)
(** One camera: the solver is given one problem with the threshold, number of iterations and seed flag of the call, and a pose fits a correspondence
    exactly if and only if the camera at that pose sees the landmark of that index at the keypoint of that index. *)
Theorem pnx_single e cam ms ls thr iters : length ms = length ls -> exists pb,
  (forall solve solve' is_rotation T0, solve pb = solve' pb -> absolute_pose solve is_rotation e cam ms ls thr iters T0 = absolute_pose solve' is_rotation e cam ms ls thr iters T0) /\
  length (points pb) = length ms /\ threshold pb = thr /\ max_iterations pb = iters /\ seed pb = random_seed e /\ method pb = KNEIP /\
  forall T i m p ray, nth_error ms i = Some m -> nth_error ls i = Some p -> back_project cam m = (ray, true) -> ray <> zero3 -> orthogonal (rotation T) -> p <> position T ->
    (distance pb T i = 0 <-> seen T at_origin cam m p).
Proof.
  intros L. exists (central_problem e cam ms ls thr iters). split; [intros solve solve' is_rotation T0 E; unfold absolute_pose; rewrite E; reflexivity|].
  split; [cbn; congruence|]. do 4 (split; [reflexivity|]). intros T i m p ray M P B NR O NP. pose proof (central_fits e cam ms ls thr iters T i m p L M P) as F. rewrite B in F.
  apply (distance_zero _ _ _ _ _ _ _ _ F B NR O identity_orthogonal). intros E. apply NP. rewrite E. change {| rotation := identity3; position := zero3 |} with at_origin. unfold at_origin. rewrite transform_identity.
  unfold transform. destruct T as [[[r1 r2] r3] t]. cbn [rotation position]. vec.
Qed.
Print Assumptions pnx_single.
(** A rig: the same, where every keypoint is seen by the camera it belongs to, mounted as the rig says. *)
Theorem pnx_rig e r ms is_ ls thr iters : length ms = length ls -> length ms = length is_ -> Forall (fun k => 0 <= k < Z.of_nat (length r))%Z is_ -> exists pb,
  (forall solve solve' refine is_rotation T0, solve pb = solve' pb -> absolute_multi_pose solve refine is_rotation e r ms is_ ls thr iters T0 = absolute_multi_pose solve' refine is_rotation e r ms is_ ls thr iters T0) /\
  length (points pb) = length ms /\ threshold pb = thr /\ max_iterations pb = iters /\ seed pb = random_seed e /\ method pb = GP3P /\
  forall T i m k cam T_C_B p ray, nth_error ms i = Some m -> nth_error is_ i = Some k -> nth_error r (Z.to_nat k) = Some (cam, T_C_B) -> nth_error ls i = Some p ->
    back_project cam m = (ray, true) -> ray <> zero3 -> orthogonal (rotation T) -> orthogonal (rotation T_C_B) -> p <> transform T (transform (inverse T_C_B) zero3) ->
    (distance pb T i = 0 <-> seen T (inverse T_C_B) cam m p).
Proof.
  intros L L2 F. destruct (proj2 (bearings_in_done r ms is_ L2) F) as [bs EB]. destruct (bearings_in_spec r ms is_ bs L2 EB) as [_ BS]. exists (rig_problem e r bs ls is_ thr iters).
  split; [intros solve solve' refine is_rotation T0 E; unfold absolute_multi_pose; rewrite EB, E; reflexivity|].
  split; [cbn; congruence|]. do 4 (split; [reflexivity|]). intros T i m k cam T_C_B p ray M K C P B NR O O2 NP. destruct (BS i m k M K) as (_ & cam' & T' & C' & E). rewrite C in C'. injection C' as <- <-. rewrite B in E. cbn [fst] in E.
  apply (distance_zero _ _ _ _ _ _ _ _ (rig_fits e r bs ls is_ thr iters T i k cam T_C_B ray p K C E P) B NR O); [apply transpose_orthogonal, O2|exact NP].
Qed.
Print Assumptions pnx_rig.

(** ** The result *)
(** The inliers of one camera are the correspondences whose ray and landmark, seen from the returned pose, differ by less than the angle of pixel_sigma. *)
Theorem pnx_inliers_single solve is_rotation e cam ms ls sigma iters T0 out : sound solve -> 0 <= sigma -> 0 < fu cam + fv cam ->
  absolute_pose_pinhole solve is_rotation e cam ms ls sigma iters T0 = Done out -> success out = true ->
  (forall i, In i (out_inliers out) -> (i < length ms)%nat) /\
  forall i m p theta, nth_error ms i = Some m -> nth_error ls i = Some p -> fst (back_project cam m) <> zero3 -> transform (inverse (pose out)) p <> zero3 ->
    angle_between (fst (back_project cam m)) (transform (inverse (pose out)) p) theta ->
    (In i (out_inliers out) <-> theta < atan (sigma / ((fu cam + fv cam) / 2))).
Proof.
  intros S SG F H SU. unfold absolute_pose_pinhole, absolute_pose in H. destruct (Nat.eqb (length ms) (length ls)) eqn:EL; [|discriminate]. apply Nat.eqb_eq in EL. cbn [negb] in H.
  set (thr := focal_threshold sigma ((fu cam + fv cam) / 2)) in *. set (pb := central_problem e cam ms ls thr iters) in *.
  assert (H' : found (solve pb) = true /\ pose out = model (solve pb) /\ out_inliers out = inliers (solve pb)).
  { destruct (ctype cam); try discriminate; (destruct (found (solve pb)); [|injection H as <-; discriminate]; destruct (is_rotation _); [|discriminate]; injection H as <-; cbn; destruct (model (solve pb)); auto). }
  destruct H' as (FO & EP & EI). rewrite EI. split.
  - intros i I. apply (S pb FO) in I. destruct I as [I _]. cbn in I. lia.
  - intros i m p theta M P NR NP A. rewrite EP in *. rewrite (S pb FO i).
    rewrite (distance_angle pb (model (solve pb)) i at_origin (fst (back_project cam m)) p theta).
    + change (threshold pb) with thr. unfold thr. rewrite threshold_angle; [|exact SG|lra|exact (proj1 A)]. split; [intros [_ B]; exact B|]. intros B. split; [|exact B]. change (i < length ls)%nat. apply nth_error_Some. congruence.
    + apply central_fits; assumption.
    + exact NR.
    + unfold at_origin. rewrite in_camera_identity. exact NP.
    + unfold at_origin. rewrite in_camera_identity. exact A.
Qed.
Print Assumptions pnx_inliers_single.
(** The same for a rig whose pose is not refined, with the mean focal length of its cameras. *)
Theorem pnx_inliers_rig solve refine is_rotation e r ms is_ ls sigma iters T0 out : sound solve -> 0 <= sigma -> 0 < mean_focal r -> run_nonlinear_refinement e = false ->
  absolute_multi_pose_pinhole solve refine is_rotation e r ms is_ ls sigma iters T0 = Done out -> success out = true ->
  (forall i, In i (out_inliers out) -> (i < length ms)%nat) /\ length (out_distances out) = length (out_inliers out) /\
  forall i m k cam T_C_B p theta, nth_error ms i = Some m -> nth_error is_ i = Some k -> nth_error r (Z.to_nat k) = Some (cam, T_C_B) -> nth_error ls i = Some p ->
    fst (back_project cam m) <> zero3 -> in_camera (pose out) (inverse T_C_B) p <> zero3 ->
    angle_between (fst (back_project cam m)) (in_camera (pose out) (inverse T_C_B) p) theta ->
    (In i (out_inliers out) <-> theta < atan (sigma / mean_focal r)).
Proof.
  intros S SG F NR H SU. unfold absolute_multi_pose_pinhole, absolute_multi_pose in H. destruct (Nat.eqb (length ms) (length ls)) eqn:EL; [|discriminate]. apply Nat.eqb_eq in EL. cbn [negb] in H.
  destruct (Nat.eqb (length ms) (length is_)) eqn:EK; [|discriminate]. apply Nat.eqb_eq in EK. cbn [negb] in H. destruct (focal_sum r) as [s|] eqn:EF; [|discriminate]. apply (proj2 (focal_sum_done r)) in EF.
  assert (NZ : INR (length r) <> 0). { intros Z. unfold mean_focal, Rdiv in F. rewrite Z, Rinv_0 in F. lra. }
  assert (EM : s / (2 * INR (length r)) = mean_focal r) by (unfold mean_focal; rewrite EF; field; exact NZ). rewrite EM in H.
  destruct (bearings_in r ms is_) as [bs|] eqn:EB; [|discriminate]. destruct (bearings_in_spec r ms is_ bs EK EB) as [_ BS]. rewrite NR in H.
  set (thr := focal_threshold sigma (mean_focal r)) in *. set (pb := rig_problem e r bs ls is_ thr iters) in *.
  destruct (Nat.eqb (length (inliers (solve pb))) (length (distances (solve pb)))) eqn:ED; [|discriminate]. apply Nat.eqb_eq in ED. cbn [negb] in H.
  destruct (found (solve pb)) eqn:FO; [|injection H as <-; discriminate]. destruct (is_rotation _); [|discriminate]. injection H as <-. cbn [out_inliers out_distances pose]. split; [|split].
  - intros i I. apply (S pb FO) in I. destruct I as [I _]. cbn in I. lia.
  - congruence.
  - intros i m k cam T_C_B p theta M K C P NRY NP A. rewrite (S pb FO i). destruct (BS i m k M K) as (_ & cam' & T' & C' & E). rewrite C in C'. injection C' as <- <-.
    rewrite (distance_angle pb (model (solve pb)) i (inverse T_C_B) (fst (back_project cam m)) p theta); [|eapply rig_fits; eassumption|exact NRY|exact NP|exact A].
    change (threshold pb) with thr. unfold thr. rewrite threshold_angle; [|exact SG|exact F|exact (proj1 A)]. split; [intros [_ B]; exact B|]. intros B. split; [|exact B]. change (i < length ls)%nat. apply nth_error_Some. congruence.
Qed.
Print Assumptions pnx_inliers_rig.
(** Without success the pose keeps its value; the calls abort only for keypoints without landmark or camera, cameras without focal length, and results that are no rotations. *)
Theorem pnx_failure solve refine is_rotation e cam r ms is_ ls x iters T0 out :
  (absolute_pose solve is_rotation e cam ms ls x iters T0 = Done out \/ absolute_pose_pinhole solve is_rotation e cam ms ls x iters T0 = Done out \/
   absolute_multi_pose solve refine is_rotation e r ms is_ ls x iters T0 = Done out \/ absolute_multi_pose_pinhole solve refine is_rotation e r ms is_ ls x iters T0 = Done out) ->
  success out = false -> pose out = T0.
Proof.
  assert (A1 : forall x, absolute_pose solve is_rotation e cam ms ls x iters T0 = Done out -> success out = false -> pose out = T0).
  { intros x' H S. unfold absolute_pose in H. destruct (Nat.eqb _ _); [|discriminate]. cbn [negb] in H. destruct (found _); [destruct (is_rotation _); [|discriminate]|]; injection H as <-; [discriminate S|reflexivity]. }
  assert (A2 : forall x, absolute_multi_pose solve refine is_rotation e r ms is_ ls x iters T0 = Done out -> success out = false -> pose out = T0).
  { intros x' H S. unfold absolute_multi_pose in H. destruct (Nat.eqb (length ms) (length ls)); [|discriminate]. cbn [negb] in H. destruct (Nat.eqb (length ms) (length is_)); [|discriminate]. cbn [negb] in H. destruct (bearings_in _ _ _); [|discriminate]. cbv zeta in H.
    destruct (Nat.eqb _ _); [|discriminate]. cbn [negb] in H. destruct (found _); [destruct (is_rotation _); [|discriminate]|]; injection H as <-; [discriminate S|reflexivity]. }
  intros [H|[H|[H|H]]] S.
  - exact (A1 _ H S).
  - unfold absolute_pose_pinhole in H. destruct (Nat.eqb _ _); [|discriminate]. cbn [negb] in H. destruct (ctype cam); [exact (A1 _ H S)|exact (A1 _ H S)|discriminate].
  - exact (A2 _ H S).
  - unfold absolute_multi_pose_pinhole in H. destruct (Nat.eqb (length ms) (length ls)); [|discriminate]. cbn [negb] in H. destruct (Nat.eqb (length ms) (length is_)); [|discriminate]. cbn [negb] in H. destruct (focal_sum _); [exact (A2 _ H S)|discriminate].
Qed.
Print Assumptions pnx_failure.
(** A solver whose results are proper rotations with one distance per inlier. *)
Definition regular (solve : problem -> ransac) (is_rotation : mat3 -> bool) : Prop :=
  forall pb, (found (solve pb) = true -> is_rotation (rotation (model (solve pb))) = true) /\ length (inliers (solve pb)) = length (distances (solve pb)).
Theorem pnx_defined solve refine is_rotation e cam r ms is_ ls sigma iters T0 : regular solve is_rotation -> (forall pb ins T, is_rotation (rotation (refine pb ins T)) = true) ->
  ((exists out, absolute_pose_pinhole solve is_rotation e cam ms ls sigma iters T0 = Done out) <-> length ms = length ls /\ has_focal cam) /\
  ((exists out, absolute_multi_pose_pinhole solve refine is_rotation e r ms is_ ls sigma iters T0 = Done out) <->
   length ms = length ls /\ length ms = length is_ /\ Forall (fun c => has_focal (fst c)) r /\ Forall (fun k => 0 <= k < Z.of_nat (length r))%Z is_).
Proof.
  intros RG RF. split.
  - unfold absolute_pose_pinhole, absolute_pose, has_focal. destruct (Nat.eqb_spec (length ms) (length ls)) as [L|L]; cbn [negb]; [|split; [intros [? ?]; discriminate|intros [? _]; contradiction]].
    destruct (ctype cam); [| |split; [intros [? ?]; discriminate|intros [_ C]; congruence]]; (match goal with |- context [solve ?pb] => destruct (RG pb) as [R1 _] end; split; [intros _; split; [exact L|discriminate]|intros _]; destruct (found _); [rewrite (R1 eq_refl)|]; eexists; reflexivity).
  - unfold absolute_multi_pose_pinhole, absolute_multi_pose. destruct (Nat.eqb_spec (length ms) (length ls)) as [L|L]; cbn [negb]; [|split; [intros [? ?]; discriminate|intros [? _]; contradiction]].
    destruct (Nat.eqb_spec (length ms) (length is_)) as [L2|L2]; cbn [negb]; [|split; [intros [? ?]; discriminate|intros (_ & ? & _); contradiction]].
    destruct (focal_sum_done r) as [FS _]. pose proof (bearings_in_done r ms is_ L2) as BD. destruct (focal_sum r) as [s|]; [|split; [intros [? ?]; discriminate|intros (_ & _ & F & _); destruct (proj2 FS F); discriminate]].
    destruct (bearings_in r ms is_) as [bs|]; [|split; [intros [? ?]; discriminate|intros (_ & _ & _ & F); destruct (proj2 BD F); discriminate]]. cbv zeta.
    match goal with |- context [solve ?pb] => destruct (RG pb) as [R1 R2] end. rewrite R2, Nat.eqb_refl. cbn [negb]. split.
    + intros _. split; [exact L|]. split; [exact L2|]. split; [apply FS|apply BD]; eauto.
    + intros _. destruct (found _); [|eexists; reflexivity]. destruct (run_nonlinear_refinement e); [rewrite RF|rewrite (R1 eq_refl)]; eexists; reflexivity.
Qed.
Print Assumptions pnx_defined.

(** ** Refinement *)
(** A rig that asks for it gets a pose that fits the inliers at least as well as the solver's. *)
Theorem pnx_refined solve refine is_rotation e r ms is_ ls thr iters T0 out : improves refine -> absolute_multi_pose solve refine is_rotation e r ms is_ ls thr iters T0 = Done out -> success out = true ->
  run_nonlinear_refinement e = true -> exists pb, threshold pb = thr /\ length (points pb) = length ls /\ found (solve pb) = true /\ out_inliers out = inliers (solve pb) /\
    pose out = refine pb (inliers (solve pb)) (model (solve pb)) /\ total pb (out_inliers out) (pose out) <= total pb (out_inliers out) (model (solve pb)).
Proof.
  intros I H S RN. unfold absolute_multi_pose in H. destruct (Nat.eqb (length ms) (length ls)); [|discriminate]. cbn [negb] in H. destruct (Nat.eqb (length ms) (length is_)); [|discriminate]. cbn [negb] in H. destruct (bearings_in _ _ _) as [bs|]; [|discriminate]. cbv zeta in H. rewrite RN in H.
  exists (rig_problem e r bs ls is_ thr iters). set (pb := rig_problem e r bs ls is_ thr iters) in *. destruct (Nat.eqb _ _); [|discriminate]. cbn [negb] in H. destruct (found _); [|injection H as <-; discriminate]. destruct (is_rotation _); [|discriminate]. injection H as <-. cbn.
  do 5 (split; [reflexivity|]). apply I.
Qed.
Print Assumptions pnx_refined.
(** The scene: three keypoints on the optical axis; two of the landmarks are on it, one is turned by six times the angle with cosine 12/13. *)
Definition turn (c s : R) : transformation := {| rotation := ((c, 0, s), (0, 1, 0), (- s, 0, c)); position := zero3 |}.
Definition ahead : camera := {| ctype := Pinhole; fu := 1; fv := 1; back_project := fun _ => ((0, 0, 1), true) |}.
Definition off : vec3 := (3369960/4826809, 0, -3455641/4826809).
Definition scene_landmarks : list vec3 := [(0, 0, 1); (0, 0, 1); off].
Definition scene_keypoints : list (R * R) := [(0, 0); (0, 0); (0, 0)].
(** Turned by three times the angle, and by two times. *)
Definition three : transformation := turn (828/2197) (2035/2197).
Definition two : transformation := turn (119/169) (120/169).
Lemma turn_proper c s : c * c + s * s = 1 -> proper (rotation (turn c s)).
Proof. intros H. split; [split; intros [[x y] z]; unfold turn; cbn [rotation transpose3]; unfold apply3, dot3; apply vec3_eq; first [ring | transitivity ((c * c + s * s) * x); [ring|rewrite H; ring] | transitivity ((c * c + s * s) * z); [ring|rewrite H; ring]]|]. unfold turn; cbn [rotation]. unfold dot3, cross3. lra. Qed.
Lemma distance_unit pb T i q : reprojection pb T i = q -> dot3 q q = 1 -> distance pb T i = 1 - dot3 q (nth i (bearings pb) zero3).
Proof. intros E D. unfold distance. rewrite E. unfold normalized. destruct (Req_EM_T _ _) as [Z|_]; [lra|]. rewrite D, sqrt_1, dot_scale_l. lra. Qed.
Ltac scene := match goal with |- distance _ _ _ = _ => erewrite distance_unit; [|reflexivity|]; unfold reprojection, transform, inverse, three, two, turn, off, identity3; cbn; unfold apply3, sub3, add3, scale3, dot3, zero3; cbn; lra end.
Lemma axis_normalized : normalized (0, 0, 1) = (0, 0, 1).
Proof. unfold normalized. destruct (Req_EM_T _ _) as [Z|_]; [unfold dot3 in Z; lra|]. replace (dot3 (0, 0, 1) (0, 0, 1)) with 1 by (unfold dot3; ring). rewrite sqrt_1. unfold scale3. apply vec3_eq; lra. Qed.
Definition scene_problem (a : algorithm) (thr : R) (iters : Z) (sd : bool) (t : vec3) (r : mat3) : problem :=
  {| bearings := [(0, 0, 1); (0, 0, 1); (0, 0, 1)]; points := scene_landmarks; camera_of := [0; 0; 0]%nat; offsets := [t]; rotations := [r]; method := a; threshold := thr; max_iterations := iters; seed := sd |}.
Lemma scene_three a thr iters sd i : (i < 3)%nat -> distance (scene_problem a thr iters sd zero3 identity3) three i = 1369/2197.
Proof. intros I. destruct i as [|[|[|i]]]; [scene..|lia]. Qed.
Lemma scene_two a thr iters sd : map (distance (scene_problem a thr iters sd zero3 identity3) two) [0; 1; 2]%nat = [50/169; 50/169; 28800/28561].
Proof. cbn [map]. f_equal; [scene|]. f_equal; [scene|]. f_equal. scene. Qed.
Lemma scene_inliers a thr iters sd : 1369/2197 < thr -> inliers (answers three (scene_problem a thr iters sd zero3 identity3)) = [0; 1; 2]%nat.
Proof.
  intros H. cbn [answers inliers]. change (length (points (scene_problem a thr iters sd zero3 identity3))) with 3%nat. cbn [seq filter]. rewrite !scene_three by lia. change (threshold (scene_problem a thr iters sd zero3 identity3)) with thr.
  destruct (Rlt_dec _ _) as [_|C]; [reflexivity|contradiction].
Qed.
Lemma scene_better a thr iters sd : total (scene_problem a thr iters sd zero3 identity3) [0; 1; 2]%nat two < total (scene_problem a thr iters sd zero3 identity3) [0; 1; 2]%nat three.
Proof. unfold total. rewrite scene_two. cbn [map]. rewrite !scene_three by lia. cbn [fold_right]. lra. Qed.
Lemma scene_central e thr iters : central_problem e ahead scene_keypoints scene_landmarks thr iters = scene_problem KNEIP thr iters (random_seed e) zero3 identity3.
Proof. unfold central_problem, scene_problem, scene_keypoints, ahead. cbn [map back_project fst]. rewrite axis_normalized. reflexivity. Qed.
Definition scene_rig : rig := [(ahead, at_origin)].
Lemma scene_rig_problem e thr iters : rig_problem e scene_rig [(0, 0, 1); (0, 0, 1); (0, 0, 1)] scene_landmarks [0; 0; 0]%Z thr iters = scene_problem GP3P thr iters (random_seed e) zero3 identity3.
Proof. unfold rig_problem, scene_problem, scene_rig, at_origin. cbn [map snd].
  replace (position (inverse {| rotation := identity3; position := zero3 |})) with zero3 by (unfold inverse, identity3; cbn [rotation position transpose3]; vec). reflexivity. Qed.
Lemma scene_rig_pose solve refine is_rotation thr iters T0 rn : absolute_multi_pose solve refine is_rotation {| run_nonlinear_refinement := rn; random_seed := true |} scene_rig scene_keypoints [0; 0; 0]%Z scene_landmarks thr iters T0 =
  let pb := scene_problem GP3P thr iters true zero3 identity3 in let s := solve pb in
  if negb (Nat.eqb (length (inliers s)) (length (distances s))) then Aborted
  else if found s then
    let final := if rn then refine pb (inliers s) (model s) else model s in
    if is_rotation (rotation final) then Done {| success := true; pose := final; out_inliers := inliers s; out_distances := distances s; out_iterations := iterations s |} else Aborted
  else Done {| success := false; pose := T0; out_inliers := inliers s; out_distances := distances s; out_iterations := iterations s |}.
Proof.
  unfold absolute_multi_pose. cbn [length scene_keypoints scene_landmarks Nat.eqb negb]. 
  change (bearings_in scene_rig ?a ?b) with (Done [normalized (0, 0, 1); normalized (0, 0, 1); normalized (0, 0, 1)]). cbv iota. rewrite axis_normalized.
  rewrite scene_rig_problem. cbn [random_seed run_nonlinear_refinement]. reflexivity.
Qed.
Lemma three_proper : proper (rotation three). Proof. apply turn_proper. lra. Qed.
Lemma two_proper : proper (rotation two). Proof. apply turn_proper. lra. Qed.
Lemma scene_moves a thr iters sd : moves two (scene_problem a thr iters sd zero3 identity3) [0; 1; 2]%nat three = two.
Proof. unfold moves. pose proof (scene_better a thr iters sd) as B. destruct (Rle_dec _ _) as [_|C]; [reflexivity|lra]. Qed.
(** After the refinement an inlier that is returned need not be one of the returned pose, even if the refinement improves the fit; the distances that are returned are not those of the returned pose either. *)
Theorem pnx_refined_refuted : exists solve refine is_rotation r ms is_ ls thr iters T0 out pb,
  sound solve /\ improves refine /\ accepts is_rotation /\
  absolute_multi_pose solve refine is_rotation {| run_nonlinear_refinement := true; random_seed := true |} r ms is_ ls thr iters T0 = Done out /\ success out = true /\ proper (rotation (pose out)) /\
  threshold pb = thr /\ (forall i, In i (inliers (solve pb)) <-> In i (out_inliers out)) /\ out_distances out = distances (solve pb) /\
  In 2%nat (out_inliers out) /\ thr < distance pb (pose out) 2 /\ nth 2 (out_distances out) 0 <> distance pb (pose out) 2.
Proof.
  set (thr := 4/5). exists (answers three), (moves two), (fun _ => true), scene_rig, scene_keypoints, [0; 0; 0]%Z, scene_landmarks, thr, 10%Z, at_origin. eexists. exists (scene_problem GP3P thr 10 true zero3 identity3).
  split; [apply answers_sound|]. split; [apply moves_improves|]. split; [intros m _; reflexivity|]. split; [rewrite scene_rig_pose; cbv zeta; cbn [answers found model distances]|].
  - rewrite map_length. change (inliers (answers three ?p)) with (inliers (answers three p)). unfold answers at 1. cbn [inliers]. rewrite Nat.eqb_refl. cbn [negb]. reflexivity.
  - cbn [success pose out_inliers out_distances]. rewrite scene_inliers by (unfold thr; lra). rewrite scene_moves. split; [reflexivity|]. split; [exact two_proper|]. split; [reflexivity|]. split; [intros i; reflexivity|]. split; [reflexivity|]. split; [cbn; auto|].
    pose proof (scene_two GP3P thr 10 true) as E. cbn [map] in E. injection E as _ _ E. rewrite E. split; [unfold thr; lra|].
    match goal with |- context [map ?f ?l] => change l with (inliers (answers three (scene_problem GP3P thr 10 true zero3 identity3))) end. rewrite scene_inliers by (unfold thr; lra). cbn [map nth]. rewrite scene_three by lia. lra.
Qed.
Print Assumptions pnx_refined_refuted.
(** One camera: the request to refine is ignored, so estimateTargetTransformation gives the same with and without. *)
Theorem pnx_flag solve is_rotation seed_ rn rn' cam ms ls sigma iters T0 :
  absolute_pose solve is_rotation {| run_nonlinear_refinement := rn; random_seed := seed_ |} cam ms ls sigma iters T0 = absolute_pose solve is_rotation {| run_nonlinear_refinement := rn'; random_seed := seed_ |} cam ms ls sigma iters T0 /\
  estimate_target solve is_rotation rn cam ms ls sigma iters T0 = estimate_target solve is_rotation rn' cam ms ls sigma iters T0.
Proof. split; reflexivity. Qed.
Print Assumptions pnx_flag.
(** In a scene in which the refinement would strictly improve the fit of the inliers, the target is returned unrefined. *)
Theorem pnx_target_refuted : exists solve refine is_rotation cam ms ls T0 out pb,
  sound solve /\ improves refine /\ accepts is_rotation /\ estimate_target solve is_rotation true cam ms ls 3 200 T0 = Done out /\ success out = true /\
  pose out = model (solve pb) /\ out_inliers out = inliers (solve pb) /\ total pb (out_inliers out) (refine pb (out_inliers out) (pose out)) < total pb (out_inliers out) (pose out).
Proof.
  set (thr := focal_threshold 3 ((fu ahead + fv ahead) / 2)).
  assert (TH : 1369/2197 < thr). { unfold thr, focal_threshold, ahead. cbn [fu fv]. rewrite cos_atan. replace (1 + Rsqr (3 / ((1 + 1) / 2))) with 10 by (unfold Rsqr; field). assert (3 < sqrt 10) by (rewrite <- (sqrt_square 3) by lra; apply sqrt_lt_1; lra). assert (1 / sqrt 10 < 1 / 3) by (apply Rmult_lt_compat_l; [lra|apply Rinv_lt_contravar; nra]). lra. }
  exists (answers three), (moves two), (fun _ => true), ahead, scene_keypoints, scene_landmarks, at_origin. eexists. exists (scene_problem KNEIP thr 200 true zero3 identity3).
  split; [apply answers_sound|]. split; [apply moves_improves|]. split; [intros m _; reflexivity|]. split.
  - unfold estimate_target. destruct (Rlt_dec 0 3) as [_|C]; [|exfalso; lra]. cbn [Z.ltb Z.compare]. unfold absolute_pose_pinhole, absolute_pose. cbn [length scene_keypoints scene_landmarks Nat.eqb negb ctype]. change (ctype ahead) with Pinhole. cbv iota.
    fold thr. change [(0, 0); (0, 0); (0, 0)] with scene_keypoints. fold scene_landmarks. rewrite scene_central. cbn [random_seed]. change (found (answers three ?p)) with true. cbv iota. reflexivity.
  - cbn [success pose out_inliers]. split; [reflexivity|]. split; [reflexivity|]. split; [reflexivity|].
    rewrite scene_inliers by exact TH. change {| rotation := rotation (model (answers three _)); position := _ |} with three. rewrite scene_moves. apply scene_better.
Qed.
Print Assumptions pnx_target_refuted.
(** Calibration targets are estimated like other landmarks, with a random seed, if there is a positive sigma and at least one iteration, and with any other arguments the program aborts. *)
Theorem pnx_target solve is_rotation f cam ms ls sigma iters T0 :
  (0 < sigma -> (1 <= iters)%Z -> estimate_target solve is_rotation f cam ms ls sigma iters T0 =
    absolute_pose_pinhole solve is_rotation {| run_nonlinear_refinement := f; random_seed := true |} cam ms ls sigma iters T0) /\
  (sigma <= 0 \/ (iters <= 0)%Z -> estimate_target solve is_rotation f cam ms ls sigma iters T0 = Aborted).
Proof.
  unfold estimate_target. destruct (Rlt_dec 0 sigma), (Z.ltb_spec 0 iters); split; intros; try reflexivity; try lra; try lia; destruct H0; lra || lia.
Qed.
Print Assumptions pnx_target.

(** ** Limits *)
(** Keypoints that cannot be back-projected take part, and can be inliers. *)
Theorem pnx_failed_refuted : exists solve is_rotation cam ms ls out, sound solve /\ accepts is_rotation /\
  absolute_pose solve is_rotation {| run_nonlinear_refinement := false; random_seed := true |} cam ms ls (1/2) 10 at_origin = Done out /\ success out = true /\
  (forall m, In m ms -> snd (back_project cam m) = false) /\ In 0%nat (out_inliers out).
Proof.
  exists (answers at_origin), (fun _ => true), {| ctype := UnifiedProjection; fu := 1; fv := 1; back_project := fun _ => ((0, 0, 1), false) |}, [(0, 0)], [(0, 0, 1)]. eexists.
  split; [apply answers_sound|]. split; [intros m _; reflexivity|]. split; [unfold absolute_pose; cbn [length Nat.eqb negb]; change (found (answers at_origin ?p)) with true; cbv iota; reflexivity|].
  cbn [success out_inliers]. split; [reflexivity|]. split; [intros m _; reflexivity|]. apply (answers_sound at_origin); [reflexivity|]. cbn [central_problem points threshold length]. split; [lia|].
  change (model (answers at_origin _)) with at_origin.
  erewrite distance_unit; [|reflexivity|].
  - cbn [bearings central_problem map back_project fst nth]. rewrite axis_normalized. unfold reprojection, transform, inverse, at_origin, identity3; cbn; unfold apply3, sub3, add3, scale3, dot3, zero3; cbn. lra.
  - unfold reprojection, transform, inverse, at_origin, identity3; cbn; unfold apply3, sub3, add3, scale3, dot3, zero3; cbn. lra.
Qed.
Print Assumptions pnx_failed_refuted.
(** In a rig with different focal lengths pixel_sigma has no meaning for a single camera: half a pixel can be too much although pixel_sigma is one. *)
Theorem pnx_mixed_refuted : exists solve refine is_rotation r p out, sound solve /\ accepts is_rotation /\ nth_error r 0 = Some (pinhole 100 0 0, at_origin) /\
  absolute_multi_pose_pinhole solve refine is_rotation {| run_nonlinear_refinement := false; random_seed := true |} r [(0, 0)] [0%Z] [p] 1 10 at_origin = Done out /\ success out = true /\
  pose out = at_origin /\ pinhole_pixel 100 0 0 p = (1/2, 0) /\ ~ In 0%nat (out_inliers out).
Proof.
  set (r := [(pinhole 100 0 0, at_origin); (pinhole 1900 0 0, at_origin)]). set (p := (1/200, 0, 1) : vec3).
  assert (RG : regular (answers at_origin) (fun _ => true)) by (intros pb; split; [reflexivity|cbn; rewrite map_length; reflexivity]).
  destruct (proj2 (proj2 (pnx_defined (answers at_origin) (moves two) (fun _ => true) {| run_nonlinear_refinement := false; random_seed := true |} ahead r [(0, 0)] [0%Z] [p] 1 10 at_origin RG (fun _ _ _ => eq_refl)))) as [out H].
  { split; [reflexivity|]. split; [reflexivity|]. split; [repeat constructor; discriminate|]. repeat constructor; cbn; lia. }
  assert (SP : success out = true /\ pose out = at_origin).
  { unfold absolute_multi_pose_pinhole, absolute_multi_pose in H. cbn [length Nat.eqb negb] in H. destruct (focal_sum r); [|discriminate]. destruct (bearings_in r _ _); [|discriminate]. cbv zeta in H. destruct (Nat.eqb _ _); [|discriminate]. cbn [negb] in H. change (found (answers at_origin ?q)) with true in H. cbv iota in H. injection H as <-. split; reflexivity. }
  destruct SP as [SU PO].
  exists (answers at_origin), (moves two), (fun _ => true), r, p, out. split; [apply answers_sound|]. split; [intros m _; reflexivity|]. split; [reflexivity|]. split; [exact H|]. split; [exact SU|]. split; [exact PO|]. split; [unfold pinhole_pixel, p; f_equal; field|].
  assert (MF : mean_focal r = 1000) by (unfold mean_focal, r, pinhole; cbn; field).
  assert (NZ : forall x y z : R, z = 1 -> (x, y, z) <> zero3) by (intros x y z Z E; apply (f_equal snd) in E; cbn in E; lra).
  assert (IC : in_camera at_origin (inverse at_origin) p = (1/200, 0, 1)) by (unfold in_camera, inverse, transform, at_origin, identity3, p; cbn; unfold add3, scale3, apply3, dot3, zero3; apply vec3_eq; lra).
  assert (S1 : 0 <= 1) by lra. assert (M1 : 0 < mean_focal r) by (rewrite MF; lra).
  destruct (pnx_inliers_rig _ _ _ {| run_nonlinear_refinement := false; random_seed := true |} _ _ _ _ _ _ _ _ (answers_sound at_origin) S1 M1 eq_refl H SU) as (_ & _ & G).
  specialize (G 0%nat (0, 0) 0%Z (pinhole 100 0 0) at_origin p (atan (1/200)) eq_refl eq_refl eq_refl eq_refl). rewrite PO, IC, MF in G.
  rewrite G.
  - intros C. pose proof (atan_increasing (1/1000) (1/200) ltac:(lra)). lra.
  - apply NZ. reflexivity.
  - apply NZ. reflexivity.
  - split; [pose proof (atan_bound (1/200)); pose proof PI_RGT_0; pose proof (atan_increasing 0 (1/200) ltac:(lra)) as A0; rewrite atan_0 in A0; lra|].
    rewrite cos_atan. unfold len. cbn [pinhole back_project fst snd]. unfold dot3. replace ((0 - 0) / 100 * ((0 - 0) / 100) + (0 - 0) / 100 * ((0 - 0) / 100) + 1 * 1) with 1 by field. rewrite sqrt_1.
    replace (1 / 200 * (1 / 200) + 0 * 0 + 1 * 1) with (1 + (1/200)²) by (unfold Rsqr; field). field. apply Rgt_not_eq, sqrt_lt_R0. unfold Rsqr. lra.
Qed.
Print Assumptions pnx_mixed_refuted.
(** The hypotheses are met: the scene is solved, and the first landmark is seen from the origin. *)
Example pnx_scene : (exists out, absolute_pose_pinhole (answers three) (fun _ => true) {| run_nonlinear_refinement := true; random_seed := true |} ahead scene_keypoints scene_landmarks 3 10 at_origin = Done out /\ success out = true) /\ seen at_origin at_origin ahead (0, 0) (0, 0, 2).
Proof.
  split; [eexists; split; [unfold absolute_pose_pinhole, absolute_pose; cbn [length scene_keypoints scene_landmarks Nat.eqb negb]; change (ctype ahead) with Pinhole; cbv iota; change (found (answers three ?p)) with true; cbv iota; reflexivity|reflexivity]|].
  exists (0, 0, 1), 2. split; [reflexivity|]. split; [intros E; apply (f_equal snd) in E; cbn in E; lra|]. split; [lra|]. unfold at_origin. rewrite !transform_identity. unfold scale3. apply vec3_eq; lra.
Qed.
