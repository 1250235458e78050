(** Lemmas for C122. *)
From Coq Require Import Reals ZArith List Bool Arith Lia Lra Psatz.
From Verif Require Import StlHelpersModel TriangulationModel TriangulationSpec TriangulationQr TriangulationProofs PnpModel PnpSpec.
Import ListNotations.
Local Open Scope R_scope.

Lemma dot_nonneg v : 0 <= dot3 v v. Proof. destruct v as [[a b] c]. unfold dot3. nra. Qed.
Lemma dot_pos v : v <> zero3 -> 0 < dot3 v v.
Proof. intros N. destruct (dot_nonneg v) as [H|H]; [exact H|]. exfalso. apply N, dot3_zero. symmetry. exact H. Qed.
Lemma len_pos v : v <> zero3 -> 0 < len v. Proof. intros N. apply sqrt_lt_R0, dot_pos, N. Qed.
Lemma len_square v : len v * len v = dot3 v v. Proof. apply sqrt_sqrt, dot_nonneg. Qed.
Lemma dot_scale_l k a b : dot3 (scale3 k a) b = k * dot3 a b. Proof. vec. Qed.
Lemma dot_scale_r k a b : dot3 a (scale3 k b) = k * dot3 a b. Proof. vec. Qed.
Lemma dot_comm a b : dot3 a b = dot3 b a. Proof. vec. Qed.
Lemma normalized_nonzero v : v <> zero3 -> normalized v = scale3 (/ len v) v.
Proof. intros N. unfold normalized, len. destruct (Req_EM_T (dot3 v v) 0) as [E|_]; [pose proof (dot_pos v N); lra|reflexivity]. Qed.
Lemma normalized_dot a b : a <> zero3 -> b <> zero3 -> dot3 (normalized a) (normalized b) = dot3 a b / (len a * len b).
Proof.
  intros NA NB. rewrite !normalized_nonzero, dot_scale_l, dot_scale_r by assumption. pose proof (len_pos a NA). pose proof (len_pos b NB). field. split; lra.
Qed.
(** OpenGV's view of a landmark is the landmark in the frame of the camera. *)
Lemma in_camera_eq T R_ t p : apply3 (transpose3 R_) (sub3 (transform (inverse T) p) t) = in_camera T {| rotation := R_; position := t |} p.
Proof. unfold in_camera, transform at 2, inverse at 1. cbn [rotation position]. unfold sub3. rewrite apply3_add, apply3_scale. reflexivity. Qed.
Lemma transform_inverse T p : orthogonal (rotation T) -> transform T (transform (inverse T) p) = p.
Proof. intros [_ O]. unfold transform, inverse. cbn [rotation position]. rewrite apply3_add, apply3_scale, !O. destruct (position T) as [[? ?] ?]. vec. Qed.
Lemma inverse_transform T p : orthogonal (rotation T) -> transform (inverse T) (transform T p) = p.
Proof. intros [O _]. unfold transform, inverse. cbn [rotation position]. rewrite apply3_add, O. generalize (apply3 (transpose3 (rotation T)) (position T)). intros. vec. Qed.
Lemma transpose_orthogonal m : orthogonal m -> orthogonal (transpose3 m).
Proof. intros [A B]. assert (T : transpose3 (transpose3 m) = m) by (destruct m as [[[[? ?] ?] [[? ?] ?]] [[? ?] ?]]; reflexivity). split; rewrite T; assumption. Qed.
(** Equality in the inequality of Cauchy and Schwarz. *)
Lemma aligned a b : a <> zero3 -> b <> zero3 -> dot3 a b = len a * len b -> b = scale3 (len b / len a) a.
Proof.
  intros NA NB E. pose proof (len_pos a NA) as LA. pose proof (len_pos b NB) as LB.
  assert (Z : dot3 (sub3 b (scale3 (len b / len a) a)) (sub3 b (scale3 (len b / len a) a)) = 0).
  { set (k := len b / len a). replace (dot3 (sub3 b (scale3 k a)) (sub3 b (scale3 k a))) with (dot3 b b - 2 * k * dot3 a b + k * k * dot3 a a) by vec.
    rewrite E, <- !len_square. unfold k. field. lra. }
  apply dot3_zero in Z. apply sub3_zero in Z. exact Z.
Qed.
(** The distance of a correspondence in terms of the geometry. *)
Definition fits (pb : problem) (T : transformation) (i : nat) (T_B_C : transformation) (ray p : vec3) : Prop :=
  reprojection pb T i = in_camera T T_B_C p /\ nth i (bearings pb) zero3 = normalized ray.
Lemma distance_angle pb T i U ray p theta : fits pb T i U ray p -> ray <> zero3 -> in_camera T U p <> zero3 -> angle_between ray (in_camera T U p) theta ->
  distance pb T i = 1 - cos theta.
Proof.
  intros [E1 E2] NR NP [_ A]. unfold distance. rewrite E1, E2, normalized_dot by assumption. rewrite dot_comm, A. pose proof (len_pos _ NR). pose proof (len_pos _ NP). field. split; lra.
Qed.
Lemma scale_zero k v : k <> 0 -> v <> zero3 -> scale3 k v <> zero3.
Proof. intros K N E. apply N. destruct v as [[a b] c]. unfold scale3, zero3 in *. injection E as E1 E2 E3. f_equal; [f_equal|]; nra. Qed.
Lemma distance_zero pb T i U cam m p ray : fits pb T i U ray p -> back_project cam m = (ray, true) -> ray <> zero3 -> orthogonal (rotation T) -> orthogonal (rotation U) ->
  p <> transform T (transform U zero3) -> (distance pb T i = 0 <-> seen T U cam m p).
Proof.
  intros [E1 E2] B NR OT OU NC. unfold distance. rewrite E1, E2.
  assert (NP : in_camera T U p <> zero3). { intros Z. apply NC. rewrite <- Z. unfold in_camera. rewrite !transform_inverse by assumption. reflexivity. }
  rewrite normalized_dot by assumption. pose proof (len_pos _ NR) as LR. pose proof (len_pos _ NP) as LP. split.
  - intros D. assert (D' : dot3 ray (in_camera T U p) = len ray * len (in_camera T U p)).
    { rewrite dot_comm. apply (Rmult_eq_reg_r (/ (len (in_camera T U p) * len ray))); [|apply Rinv_neq_0_compat; nra]. unfold Rdiv in D. replace (len ray * len (in_camera T U p) * / (len (in_camera T U p) * len ray)) with 1 by (field; lra). lra. }
    pose proof (aligned _ _ NR NP D') as AL. exists ray, (len (in_camera T U p) / len ray). split; [exact B|]. split; [exact NR|]. split; [apply Rdiv_lt_0_compat; assumption|].
    rewrite <- AL. unfold in_camera. rewrite !transform_inverse by assumption. reflexivity.
  - intros (ray' & d & B' & _ & D & EP). rewrite B in B'. injection B' as <-. assert (EC : in_camera T U p = scale3 d ray) by (unfold in_camera; rewrite EP, !inverse_transform by assumption; reflexivity).
    rewrite EC in *. assert (L : len (scale3 d ray) = d * len ray). { unfold len. rewrite dot_scale_l, dot_scale_r, <- Rmult_assoc, sqrt_mult_alt by nra. rewrite sqrt_square by lra. reflexivity. }
    rewrite L, dot_scale_l, <- len_square. field. lra.
Qed.
(** Angles and thresholds. *)
Lemma threshold_angle sigma f theta : 0 <= sigma -> 0 < f -> 0 <= theta <= PI -> (1 - cos theta < focal_threshold sigma f <-> theta < atan (sigma / f)).
Proof.
  intros S F TH. unfold focal_threshold. pose proof PI_RGT_0.
  assert (A : 0 <= atan (sigma / f) <= PI). { split; [|pose proof (atan_bound (sigma / f)); lra]. destruct (Rle_lt_or_eq_dec 0 (sigma / f)) as [L|E]; [apply Rmult_le_pos; [exact S|apply Rlt_le, Rinv_0_lt_compat, F]| |]. - rewrite <- atan_0. left. apply atan_increasing, L. - rewrite <- E, atan_0. lra. }
  split; intros H1.
  - apply cos_decreasing_0; try lra.
  - assert (cos (atan (sigma / f)) < cos theta) by (apply cos_decreasing_1; lra). lra.
Qed.
(** The problems, by index. *)
Lemma central_fits e cam ms ls thr iters T i m p : length ms = length ls -> nth_error ms i = Some m -> nth_error ls i = Some p ->
  fits (central_problem e cam ms ls thr iters) T i {| rotation := identity3; position := zero3 |} (fst (back_project cam m)) p.
Proof.
  intros L M P. split.
  - unfold reprojection, central_problem. cbn [points camera_of rotations offsets]. rewrite (nth_error_nth _ _ _ (map_nth_error (fun _ => 0%nat) _ _ M)).
    rewrite (nth_error_nth _ _ _ P). cbn [nth]. apply in_camera_eq.
  - cbn [bearings central_problem]. erewrite nth_error_nth; [reflexivity|]. apply (map_nth_error (fun m => normalized (fst (back_project cam m))) _ _ M).
Qed.
Lemma in_camera_identity T p : in_camera T {| rotation := identity3; position := zero3 |} p = transform (inverse T) p.
Proof. unfold in_camera. generalize (transform (inverse T) p). intros [[a b] c]. unfold transform, inverse, identity3. cbn [rotation position transpose3]. vec. Qed.
Lemma transform_identity p : transform {| rotation := identity3; position := zero3 |} p = p.
Proof. destruct p as [[a b] c]. unfold transform, identity3. cbn [rotation position]. vec. Qed.
Lemma identity_orthogonal : orthogonal identity3. Proof. split; intros [[a b] c]; unfold identity3; cbn [transpose3]; vec. Qed.
Lemma bearings_in_spec r ms is_ bs : length ms = length is_ -> bearings_in r ms is_ = Done bs ->
  length bs = length ms /\ forall i m k, nth_error ms i = Some m -> nth_error is_ i = Some k -> (0 <= k)%Z /\ exists cam T, nth_error r (Z.to_nat k) = Some (cam, T) /\ nth i bs zero3 = normalized (fst (back_project cam m)).
Proof.
  revert is_ bs. induction ms as [|m ms IH]; intros [|k is_] bs L H; try discriminate.
  - injection H as <-. split; [reflexivity|]. intros [|i]; discriminate.
  - cbn [bearings_in] in H. destruct (bearing_in r m k) as [b|] eqn:EB; [|discriminate]. destruct (bearings_in r ms is_) as [l|] eqn:EL; [|discriminate]. injection H as <-.
    destruct (IH is_ l) as [L1 IH']; [cbn in L; lia|exact EL|]. split; [cbn; congruence|]. intros [|i] m' k' M K.
    + injection M as <-. injection K as <-. unfold bearing_in in EB. destruct (k <? 0)%Z eqn:EK; [discriminate|]. apply Z.ltb_ge in EK. split; [exact EK|]. destruct (nth_error r (Z.to_nat k)) as [[cam T]|]; [|discriminate]. injection EB as <-. exists cam, T. split; reflexivity.
    + cbn [nth]. apply IH'; assumption.
Qed.
Lemma bearings_in_done r ms is_ : length ms = length is_ -> ((exists bs, bearings_in r ms is_ = Done bs) <-> Forall (fun k => 0 <= k < Z.of_nat (length r))%Z is_).
Proof.
  revert is_. induction ms as [|m ms IH]; intros [|k is_] L; try discriminate.
  - split; [constructor|]. exists []. reflexivity.
  - cbn [bearings_in]. specialize (IH is_ ltac:(cbn in L; lia)). unfold bearing_in. destruct (k <? 0)%Z eqn:EK.
    + apply Z.ltb_lt in EK. split; [intros [? ?]; discriminate|]. intros F. inversion F; subst. lia.
    + apply Z.ltb_ge in EK. destruct (nth_error r (Z.to_nat k)) as [[cam T]|] eqn:EN.
      * assert (K : (Z.to_nat k < length r)%nat) by (apply nth_error_Some; congruence). split.
        -- intros [bs E]. destruct (bearings_in r ms is_) as [l|]; [|discriminate]. constructor; [lia|]. apply IH. eauto.
        -- intros F. inversion F; subst. destruct (proj2 IH) as [l ->]; [assumption|]. eauto.
      * apply nth_error_None in EN. split; [intros [? ?]; discriminate|]. intros F. inversion F; subst. lia.
Qed.
Lemma rig_fits e r bs ls is_ thr iters T i k cam T_C_B ray p : nth_error is_ i = Some k -> nth_error r (Z.to_nat k) = Some (cam, T_C_B) -> nth i bs zero3 = normalized ray -> nth_error ls i = Some p ->
  fits (rig_problem e r bs ls is_ thr iters) T i (inverse T_C_B) ray p.
Proof.
  intros K C B P. split; [|exact B]. unfold reprojection, rig_problem. cbn [points camera_of rotations offsets].
  rewrite (nth_error_nth _ _ _ P), (nth_error_nth _ _ _ (map_nth_error Z.to_nat _ _ K)).
  rewrite (nth_error_nth _ _ _ (map_nth_error (fun c => rotation (inverse (snd c))) _ _ C)), (nth_error_nth _ _ _ (map_nth_error (fun c => position (inverse (snd c))) _ _ C)).
  cbn [snd]. rewrite in_camera_eq. reflexivity.
Qed.
Lemma focal_sum_done r : ((exists s, focal_sum r = Done s) <-> Forall (fun c => has_focal (fst c)) r) /\ forall s, focal_sum r = Done s -> s = 2 * fold_right (fun c s => (fu (fst c) + fv (fst c)) / 2 + s) 0 r.
Proof.
  induction r as [|[cam T] r [IH1 IH2]]; cbn [focal_sum fold_right fst].
  - split; [split; [constructor|eauto]|]. intros s E. injection E as <-. lra.
  - unfold has_focal in *. destruct (ctype cam) eqn:ET; (split; [split|]).
    1,4: intros [s E]; destruct (focal_sum r) as [s'|]; [|discriminate]; constructor; [cbn; congruence|apply IH1; eauto].
    1,3: intros F; inversion F; subst; destruct (proj2 IH1) as [s' ->]; [assumption|eauto].
    1,2: intros s E; destruct (focal_sum r) as [s'|]; [|discriminate]; injection E as <-; rewrite (IH2 s' eq_refl); lra.
    + intros [s E]; discriminate.
    + intros F. inversion F as [|? ? F1]; subst. cbn in F1. congruence.
    + discriminate.
Qed.
