(** C49 (linear triangulation reproduces the point), C76 (it is the least squares point), C77 (Gauss-Newton Jacobian). *)
From Coquelicot Require Import Coquelicot.
From Coq Require Import Reals ZArith List Bool Arith Lia Lra Psatz Permutation.
From Verif Require Import StlHelpersModel CalculusSpec CalculusFacts TriangulationModel TriangulationSpec TriangulationQr TriangulationProofs.
Import ListNotations.
Local Open Scope R_scope.

(** Inputs of the three functions from a list of views. *)
Definition linear_of (vs : list view) (U : transformation) : result answer := linear_triangulate (map view_measurement vs) (map view_T_G_B vs) U.
Definition same_camera (U : transformation) (vs : list view) : Prop := Forall (fun v => view_T_B_C v = U) vs.
Definition multi_of (vs : list view) (cams : list nat) (Us : list transformation) : result answer := multi_cam_triangulate (map view_measurement vs) cams (map view_T_G_B vs) Us.
Definition cameras_of (Us : list transformation) (vs : list view) (cams : list nat) : Prop := Forall2 (fun v k => nth_error Us k = Some (view_T_B_C v)) vs cams.

Lemma linear_views vs U : same_camera U vs -> (2 <= length vs)%nat -> linear_of vs U = Ok (triangulate_rays (map view_ray vs) (map view_centre vs)).
Proof.
  intros H L. unfold linear_of, linear_triangulate. rewrite !map_length, Nat.eqb_refl. cbn [negb]. destruct (Nat.ltb_spec (length vs) 2) as [C|_]; [lia|]. do 2 f_equal.
  - clear L. induction H as [|v vs Hv _ IH]; simpl; [reflexivity|]. f_equal; [unfold view_ray; rewrite Hv; reflexivity|exact IH].
  - clear L. induction H as [|v vs Hv _ IH]; simpl; [reflexivity|]. f_equal; [unfold view_centre; rewrite Hv; reflexivity|exact IH].
Qed.
Lemma forall2_length {A B} (P : A -> B -> Prop) l k : Forall2 P l k -> length l = length k.
Proof. induction 1; simpl; congruence. Qed.
Lemma multi_views vs cams Us : cameras_of Us vs cams -> (2 <= length vs)%nat -> multi_of vs cams Us = Ok (triangulate_rays (map view_ray vs) (map view_centre vs)).
Proof.
  intros H L. unfold multi_of, multi_cam_triangulate. pose proof (forall2_length _ _ _ H) as LC. rewrite !map_length, <- LC, Nat.eqb_refl. cbn [negb orb]. destruct (Nat.ltb_spec (length vs) 2) as [C|_]; [lia|].
  assert (E : multi_cam_views (map view_measurement vs) cams (map view_T_G_B vs) Us = Ok (combine (map view_ray vs) (map view_centre vs))).
  { clear L LC. induction H as [|v k vs cams Hv _ IH]; simpl; [reflexivity|]. rewrite Hv, IH. do 3 f_equal. unfold view_centre, centre_of, transform. generalize (apply3 (rotation (view_T_G_B v)) (position (view_T_B_C v))), (position (view_T_G_B v)). intros. vec. }
  rewrite E. do 2 f_equal; clear; induction vs as [|v vs IH]; simpl; try reflexivity; rewrite IH; reflexivity.
Qed.

(** ** Too few measurements *)
Theorem trx_too_few vs U cams Us bs cs ldlt : (length vs < 2)%nat -> length cams = length vs -> (length bs < 2)%nat ->
  linear_of vs U = Ok (TooFewMeasurements, None) /\ multi_of vs cams Us = Ok (TooFewMeasurements, None) /\
  bearing_triangulate bs cs = Ok (TooFewMeasurements, None) /\ newton_triangulate ldlt (map view_measurement vs) (map view_T_G_B vs) U = Ok (TooFewMeasurements, None).
Proof.
  intros L LC LB. unfold linear_of, multi_of, linear_triangulate, multi_cam_triangulate, newton_triangulate, bearing_triangulate. rewrite !map_length, !LC, !Nat.eqb_refl. cbn [negb orb].
  apply Nat.ltb_lt in L. apply Nat.ltb_lt in LB. rewrite L, LB. repeat split.
Qed.

(** ** Exact observations *)
Theorem trx_linear_exact_partial p U vs : (2 <= length vs)%nat -> same_camera U vs -> Forall rigid_view vs -> Forall (view_sees p) vs -> observable (map view_direction vs) ->
  linear_of vs U = Ok (Unobservable, None) \/ linear_of vs U = Ok (Successful, Some p).
Proof. intros L S R E O. rewrite linear_views by assumption. destruct (views_exact p vs R O E) as [H|H]; rewrite H; [left|right]; reflexivity. Qed.
Theorem trx_multi_cam_exact_partial p Us cams vs : (2 <= length vs)%nat -> cameras_of Us vs cams -> Forall rigid_view vs -> Forall (view_sees p) vs -> observable (map view_direction vs) ->
  multi_of vs cams Us = Ok (Unobservable, None) \/ multi_of vs cams Us = Ok (Successful, Some p).
Proof. intros L S R E O. rewrite multi_views by assumption. destruct (views_exact p vs R O E) as [H|H]; rewrite H; [left|right]; reflexivity. Qed.
(** Success in the bearing variant implies observability. *)
Lemma bearing_success bs cs q : bearing_triangulate bs cs = Ok (Successful, Some q) -> length bs = length cs /\ (2 <= length bs)%nat /\ independent 1 (normal_system bs) /\ q = solve_head3 (normal_system bs) [normal_rhs bs cs].
Proof.
  unfold bearing_triangulate. destruct (Nat.ltb_spec (length bs) 2) as [C|C]; [discriminate|]. destruct (Nat.eqb_spec (length bs) (length cs)) as [E|E]; [|discriminate]. cbn [negb]. destruct (Nat.ltb_spec (rank bearing_tolerance (normal_system bs)) 3) as [D|D]; [discriminate|].
  intros H. injection H as H. split; [exact E|]. split; [lia|]. split; [|congruence]. apply (rank_full 1 bearing_tolerance); [unfold bearing_tolerance; left; apply Rinv_0_lt_compat, pow_lt; lra|apply normal_wf|]. pose proof (rank_le bearing_tolerance (normal_system bs)). simpl length in *. lia.
Qed.
Lemma not_unobservable vs : ~ unobservable vs -> observable vs.
Proof.
  intros H. assert (D : forall a b : vec3, {parallel a b} + {~ parallel a b}).
  { intros a b. unfold parallel. destruct (cross3 a b) as [[x y] z]. destruct (Req_EM_T x 0); [|right; congruence]. destruct (Req_EM_T y 0); [|right; congruence]. destruct (Req_EM_T z 0); [left; congruence|right; congruence]. }
  destruct (Exists_dec (fun a => Exists (fun b => ~ parallel a b) vs) vs) as [E|N].
  - intros a. apply Exists_dec. intros b. destruct (D a b); [right; tauto|left; assumption].
  - apply Exists_exists in E. destruct E as (a & Ha & E). apply Exists_exists in E. destruct E as (b & Hb & NP). exists a, b. split; [exact Ha|]. split; assumption.
  - exfalso. apply H. intros a b Ha Hb. destruct (D a b) as [P|NP]; [exact P|]. exfalso. apply N, Exists_exists. exists a. split; [exact Ha|]. apply Exists_exists. exists b. split; assumption.
Qed.
Lemma combine_snd {A B} (a : list A) (b : list B) : length a = length b -> map snd (combine a b) = b.
Proof. revert b. induction a as [|x a IH]; intros [|y b] H; simpl in *; try lia; [reflexivity|]. rewrite IH by lia. reflexivity. Qed.
Lemma combine_nonzero (cs bs : list vec3) : length bs = length cs -> Forall (fun v => v <> zero3) bs -> Forall (fun l => snd l <> zero3) (combine cs bs).
Proof. intros L H. revert cs L. induction H as [|b bs Hb _ IH]; intros [|c cs] L; simpl in *; try lia; constructor; [exact Hb|apply IH; lia]. Qed.
(** ** C76: least squares *)
Theorem trx_linear_least_squares U vs q : (2 <= length vs)%nat -> same_camera U vs -> Forall rigid_view vs -> observable (map view_direction vs) ->
  linear_of vs U = Ok (Successful, Some q) -> best_point q (map line_of_sight vs).
Proof. intros L S R O. rewrite linear_views by assumption. destruct (views_best vs R O) as [H|(x & H & B)]; rewrite H; [discriminate|]. intros E. injection E as <-. exact B. Qed.
Theorem trx_multi_cam_least_squares Us cams vs q : (2 <= length vs)%nat -> cameras_of Us vs cams -> Forall rigid_view vs -> observable (map view_direction vs) ->
  multi_of vs cams Us = Ok (Successful, Some q) -> best_point q (map line_of_sight vs).
Proof. intros L S R O. rewrite multi_views by assumption. destruct (views_best vs R O) as [H|(x & H & B)]; rewrite H; [discriminate|]. intros E. injection E as <-. exact B. Qed.
Theorem trx_bearing_least_squares (bs cs : list vec3) q : Forall (fun v => v <> (0, 0, 0)) bs -> bearing_triangulate bs cs = Ok (Successful, Some q) -> best_point q (combine cs bs).
Proof.
  intros NZ H. apply bearing_success in H. destruct H as (L & L2 & I & ->). apply gradient_best.
  - apply combine_nonzero; assumption.
  - rewrite combine_snd by congruence. apply not_unobservable. intros U. apply (normal_dependent bs); [lia|exact NZ|exact U|exact I].
  - apply normal_solution; assumption.
Qed.
(** So the variants agree whenever they succeed. *)
Theorem trx_variants_agree U vs q r : (2 <= length vs)%nat -> same_camera U vs -> Forall rigid_view vs ->
  linear_of vs U = Ok (Successful, Some q) -> bearing_triangulate (map view_direction vs) (map (fun v => fst (line_of_sight v)) vs) = Ok (Successful, Some r) -> q = r.
Proof.
  intros L S R HQ HR. assert (NZ : Forall (fun v => v <> (0, 0, 0)) (map view_direction vs)) by (rewrite directions_rays; apply view_ray_nonzero, R).
  assert (O : observable (map view_direction vs)). { pose proof (bearing_success _ _ _ HR) as (L1 & L2 & I & _). apply not_unobservable. intros U'. apply (normal_dependent (map view_direction vs)); [lia|exact NZ|exact U'|exact I]. }
  pose proof (trx_linear_least_squares U vs q L S R O HQ) as B. pose proof (trx_bearing_least_squares _ _ _ NZ HR) as B'.
  apply (best_unique q r (map line_of_sight vs) B). replace (map line_of_sight vs) with (combine (map (fun v => fst (line_of_sight v)) vs) (map view_direction vs)); [exact B'|]. clear. induction vs as [|v vs IH]; cbn [map combine]; [reflexivity|]. rewrite IH. reflexivity.
Qed.
(** The specification: the squared distance is the smallest squared distance to a point of the line. *)
Theorem trx_line_distance (q c v : vec3) : v <> (0, 0, 0) ->
  (forall k, line_distance2 q c v <= dot3 (sub3 q (add3 c (scale3 k v))) (sub3 q (add3 c (scale3 k v)))) /\
  (exists k, line_distance2 q c v = dot3 (sub3 q (add3 c (scale3 k v))) (sub3 q (add3 c (scale3 k v)))).
Proof.
  intros N. assert (D : 0 < dot3 v v) by (pose proof (dot3_nonneg v); assert (dot3 v v <> 0) by (intros E; apply N, dot3_zero, E); lra).
  assert (E : forall k, dot3 (sub3 q (add3 c (scale3 k v))) (sub3 q (add3 c (scale3 k v))) = dot3 (sub3 q c) (sub3 q c) - 2 * k * dot3 (sub3 q c) v + k * k * dot3 v v) by (clear; intros k; vec).
  rewrite line_distance2_dot. set (f := sub3 q c) in *. split.
  - intros k. rewrite E. apply Rminus_le. replace (dot3 f f - dot3 f v * dot3 f v / dot3 v v - (dot3 f f - 2 * k * dot3 f v + k * k * dot3 v v)) with (- ((dot3 f v - k * dot3 v v) * (dot3 f v - k * dot3 v v) / dot3 v v)) by (field; lra).
    assert (0 <= (dot3 f v - k * dot3 v v) * (dot3 f v - k * dot3 v v) / dot3 v v); [|lra]. apply Rmult_le_pos; [apply Rle_0_sqr|]. left. apply Rinv_0_lt_compat, D.
  - exists (dot3 f v / dot3 v v). rewrite E. field. lra.
Qed.
(** Exact bearing vectors. *)
Theorem trx_bearing_exact_partial (p : vec3) (bs cs : list vec3) : (2 <= length bs)%nat -> length bs = length cs -> Forall (fun v => v <> (0, 0, 0)) bs -> Forall2 (on_line p) cs bs ->
  bearing_triangulate bs cs = Ok (Unobservable, None) \/ bearing_triangulate bs cs = Ok (Successful, Some p).
Proof.
  intros L LC NZ E. destruct (bearing_triangulate bs cs) as [a| |] eqn:H.
  - destruct a as [st o]. pose proof H as H'. unfold bearing_triangulate in H'. destruct (Nat.ltb_spec (length bs) 2) as [C|_]; [lia|]. rewrite LC, Nat.eqb_refl in H'. cbn [negb] in H'. destruct (rank bearing_tolerance (normal_system bs) <? 3)%nat; [left; congruence|].
    injection H' as <- <-. right. pose proof (trx_bearing_least_squares _ _ _ NZ H) as B. do 3 f_equal. apply (best_unique _ _ _ B). pose proof (bearing_success _ _ _ H) as (_ & _ & I & _). apply gradient_best.
    + apply combine_nonzero; assumption.
    + rewrite combine_snd by congruence. apply not_unobservable. intros U. apply (normal_dependent bs); [lia|exact NZ|exact U|exact I].
    + apply gradient_on_lines; [apply combine_nonzero; assumption|]. clear - E. induction E as [|c b cs bs Hb _ IH]; simpl; constructor; [exact Hb|exact IH].
  - exfalso. unfold bearing_triangulate in H. destruct (length bs <? 2)%nat; [discriminate|]. destruct (negb _); [discriminate|]. destruct (_ <? 3)%nat; discriminate.
  - exfalso. unfold bearing_triangulate in H. destruct (Nat.ltb_spec (length bs) 2); [lia|]. rewrite LC, Nat.eqb_refl in H. cbn [negb] in H. destruct (_ <? 3)%nat; discriminate.
Qed.

(** ** Unobservable configurations *)
Theorem trx_bearing_unobservable (bs cs : list vec3) : (2 <= length bs)%nat -> length bs = length cs -> Forall (fun v => v <> (0, 0, 0)) bs -> unobservable bs -> bearing_triangulate bs cs = Ok (Unobservable, None).
Proof.
  intros L LC NZ U. unfold bearing_triangulate. destruct (Nat.ltb_spec (length bs) 2) as [C|_]; [lia|]. rewrite LC, Nat.eqb_refl. cbn [negb]. destruct (Nat.ltb_spec (rank bearing_tolerance (normal_system bs)) 3) as [D|D]; [reflexivity|]. exfalso.
  apply (normal_dependent bs); [lia|exact NZ|exact U|]. apply (rank_full 1 bearing_tolerance); [unfold bearing_tolerance; left; apply Rinv_0_lt_compat, pow_lt; lra|apply normal_wf|]. pose proof (rank_le bearing_tolerance (normal_system bs)). simpl length in *. lia.
Qed.
(** The other variants: for fewer than 1000 views whose measurements are not too far from the optical axis. *)
Definition moderate (vs : list view) : Prop := (length vs < 1000)%nat /\
  forall v, In v vs -> (1 + fst (view_measurement v) * fst (view_measurement v) + snd (view_measurement v) * snd (view_measurement v)) * INR (length vs) < 1000000.
Theorem trx_linear_unobservable_partial U vs : (2 <= length vs)%nat -> same_camera U vs -> Forall rigid_view vs -> unobservable (map view_direction vs) -> moderate vs ->
  linear_of vs U = Ok (Unobservable, None).
Proof. intros L S R UN [M1 M2]. rewrite linear_views by assumption. rewrite views_unobservable; try assumption; [reflexivity|lia]. Qed.
Theorem trx_multi_cam_unobservable_partial Us cams vs : (2 <= length vs)%nat -> cameras_of Us vs cams -> Forall rigid_view vs -> unobservable (map view_direction vs) -> moderate vs ->
  multi_of vs cams Us = Ok (Unobservable, None).
Proof. intros L S R UN [M1 M2]. rewrite multi_views by assumption. rewrite views_unobservable; try assumption; [reflexivity|lia]. Qed.

(** ** Well-conditioned exact observations: the answer is the point *)
Definition conditioned_views (s2 : R) (vs : list view) : Prop := 0 <= s2 /\ well_conditioned s2 (map view_direction vs) /\ INR (length vs) < 1000000 * s2 /\
  forall v, In v vs -> 1 + fst (view_measurement v) * fst (view_measurement v) + snd (view_measurement v) * snd (view_measurement v) < 1000000 * s2.
Theorem trx_linear_exact_conditioned p U s2 vs : (2 <= length vs)%nat -> (Z.of_nat (length vs) < 2 ^ 60)%Z -> same_camera U vs -> Forall rigid_view vs -> Forall (view_sees p) vs -> conditioned_views s2 vs ->
  linear_of vs U = Ok (Successful, Some p).
Proof. intros L LZ S R E (C0 & C1 & C2 & C3). rewrite linear_views by assumption. rewrite (views_conditioned p s2); auto. Qed.
Theorem trx_multi_cam_exact_conditioned p Us cams s2 vs : (2 <= length vs)%nat -> (Z.of_nat (length vs) < 2 ^ 60)%Z -> cameras_of Us vs cams -> Forall rigid_view vs -> Forall (view_sees p) vs -> conditioned_views s2 vs ->
  multi_of vs cams Us = Ok (Successful, Some p).
Proof. intros L LZ S R E (C0 & C1 & C2 & C3). rewrite multi_views by assumption. rewrite (views_conditioned p s2); auto. Qed.
Theorem trx_bearing_exact_conditioned p (bs cs : list vec3) k : (2 <= length bs)%nat -> length bs = length cs -> Forall (fun v => v <> (0, 0, 0)) bs -> Forall2 (on_line p) cs bs ->
  bearing_conditioned k bs -> INR (length bs) < 100000 * k -> bearing_triangulate bs cs = Ok (Successful, Some p).
Proof.
  intros L LC NZ E C K. destruct (trx_bearing_exact_partial p bs cs L LC NZ E) as [H|H]; [|exact H]. exfalso. unfold bearing_triangulate in H. destruct (Nat.ltb_spec (length bs) 2) as [D|_]; [lia|]. rewrite LC, Nat.eqb_refl in H. cbn [negb] in H.
  pose proof (pos_INR (length bs)) as PI. assert (K0 : 0 <= k) by lra.
  assert (RK : rank bearing_tolerance (normal_system bs) = 3%nat).
  { apply (conditioned_rank 1 (k * k) bearing_tolerance (INR (length bs) * INR (length bs))).
    - unfold bearing_tolerance. left. apply Rinv_0_lt_compat, pow_lt. lra.
    - apply Rle_0_sqr.
    - apply normal_wf.
    - apply normal_nodup.
    - apply normal_conditioned; assumption.
    - unfold normal_system. apply Forall_map, Forall_forall. intros j Hj. cbn [snd dot]. rewrite normal_column_reject, Rplus_0_r. eapply Rle_trans; [apply (sum3_norm _ 1)|rewrite map_length; lra]. apply Forall_map. eapply Forall_impl; [|exact NZ]. intros v Hv. cbv beta.
      eapply Rle_trans; [apply reject_norm, Hv|]. destruct Hj as [<-|[<-|[<-|[]]]]; simpl; lra.
    - replace bearing_tolerance with (1 / 100000) by (unfold bearing_tolerance; simpl; lra). nra. }
  rewrite RK in H. discriminate H.
Qed.

(** ** Feature tracks *)
Definition track_views (track : list track_observation) (Ts : list transformation) : list view :=
  map (fun x => let '(a, b, c) := obs_ray (fst x) in {| view_T_G_B := snd x; view_T_B_C := inverse (obs_T_C_B (fst x)); view_measurement := (a / c, b / c) |}) (combine track Ts).
(** With the same camera in the body for all observations the function is the linear triangulation of the normalised rays. *)
Theorem trx_track_exact_partial p U s2 track Ts : (2 <= length track)%nat -> (Z.of_nat (length track) < 2 ^ 60)%Z -> length track = length Ts -> Forall (fun o => obs_T_C_B o = U) track ->
  let vs := track_views track Ts in Forall rigid_view vs -> Forall (view_sees p) vs -> conditioned_views s2 vs -> triangulate_track track Ts = Ok (Successful, Some p).
Proof.
  intros L LZ LE S vs R E C. assert (LV : length vs = length track) by (unfold vs, track_views; rewrite map_length, combine_length, LE, Nat.min_id; reflexivity).
  assert (SC : same_camera (inverse U) vs). { unfold vs, track_views, same_camera. apply Forall_map, Forall_forall. intros [o T] Hx. apply in_combine_l in Hx. rewrite Forall_forall in S. cbn [fst snd]. destruct (obs_ray o) as [[a b] c]. cbn [view_T_B_C]. rewrite (S o Hx). reflexivity. }
  rewrite <- (trx_linear_exact_conditioned p (inverse U) s2 vs); try assumption; [|lia|rewrite LV; exact LZ].
  unfold triangulate_track. destruct (Nat.ltb_spec 1 (length track)) as [_|D]; [|lia]. rewrite LE, Nat.eqb_refl. cbn [negb orb]. destruct track as [|o track]; [simpl in L; lia|]. replace (obs_T_C_B o) with U by (inversion S; congruence). unfold linear_of. f_equal.
  - unfold vs, track_views. clear - LE. revert LE. generalize (o :: track). clear. intros l. revert Ts. induction l as [|x l IH]; intros [|T Ts] LE; simpl in *; try lia; try reflexivity. f_equal; [destruct (obs_ray x) as [[a b] c]; reflexivity|apply IH; lia].
  - unfold vs, track_views. clear - LE. revert LE. generalize (o :: track). clear. intros l. revert Ts. induction l as [|x l IH]; intros [|T Ts] LE; simpl in *; try lia; try reflexivity. f_equal; [destruct (obs_ray x) as [[a b] c]; reflexivity|apply IH; lia].
Qed.
(** With different cameras it uses the extrinsics of the first: two scenes, with different points, get the same answer. *)
Definition move (t : vec3) : transformation := {| rotation := identity3; position := t |}.
Lemma orthogonal_identity : orthogonal identity3.
Proof. split; intros [[a b] c]; simpl; apply vec3_eq; ring. Qed.
Theorem trx_track_refuted : exists track1 track2 Ts p1 p2, p1 <> p2 /\ length track1 = length Ts /\ length track2 = length Ts /\
  Forall rigid_view (track_views track1 Ts) /\ Forall rigid_view (track_views track2 Ts) /\ observable (map view_direction (track_views track1 Ts)) /\ observable (map view_direction (track_views track2 Ts)) /\
  Forall (view_sees p1) (track_views track1 Ts) /\ Forall (view_sees p2) (track_views track2 Ts) /\ triangulate_track track1 Ts = triangulate_track track2 Ts.
Proof.
  exists [{| obs_T_C_B := move (0, 0, 0); obs_ray := (0, 0, 1) |}; {| obs_T_C_B := move (0, 0, 0); obs_ray := (-1, 0, 1) |}].
  exists [{| obs_T_C_B := move (0, 0, 0); obs_ray := (0, 0, 1) |}; {| obs_T_C_B := move (-1, 0, 0); obs_ray := (-1, 0, 1) |}].
  exists [move (0, 0, 0); move (1, 0, 0)], (0, 0, 1), (0, 0, 2).
  split; [intros E; injection E; lra|]. split; [reflexivity|]. split; [reflexivity|]. split; [|split; [|split; [|split; [|split; [|split]]]]].
  - repeat constructor; apply orthogonal_identity.
  - repeat constructor; apply orthogonal_identity.
  - exists (0, 0, 1), (-1, 0, 1). split; [left|split; [right; left|]]; try (cbn; apply vec3_eq; field). unfold parallel, cross3. intros E. injection E. lra.
  - exists (0, 0, 1), (-1, 0, 1). split; [left|split; [right; left|]]; try (cbn; apply vec3_eq; field). unfold parallel, cross3. intros E. injection E. lra.
  - constructor; [|constructor; [|constructor]]; exists 1; cbn; apply vec3_eq; field.
  - constructor; [|constructor; [|constructor]]; exists 2; cbn; apply vec3_eq; field.
  - reflexivity.
Qed.
(** The fast variant only fills the first column: it reads uninitialised entries for every track. *)
Theorem trx_fast_track_refuted track Ts : (2 <= length track)%nat -> length track = length Ts -> fast_triangulate_track track Ts = Ub.
Proof.
  intros L LE. unfold fast_triangulate_track. destruct (Nat.ltb_spec 1 (length track)) as [_|D]; [|lia]. rewrite LE, Nat.eqb_refl. cbn [negb orb]. rewrite <- LE.
  destruct Ts as [|T0 Ts]; [simpl in LE; lia|]. destruct track as [|o1 [|o2 track]]; simpl in L; try lia.
  assert (G : forall l cols, (exists c rest, cols = c :: None :: rest) -> exists c rest, fast_loop 0 l (T0 :: Ts) cols = Ok (c :: None :: rest)).
  { induction l as [|o l IH]; intros cols (c & rest & ->); cbn [fast_loop nth_error]; [exists c, rest; reflexivity|]. cbn [write_column]. apply IH. eexists; eexists; reflexivity. }
  destruct (G (o1 :: o2 :: track) (repeat None (length (o1 :: o2 :: track)))) as (c & rest & E); [cbn [length repeat]; eexists; eexists; reflexivity|]. rewrite E. destruct c; reflexivity.
Qed.

(** ** Gauss-Newton *)
Lemma apply3_mul m n v : apply3 (mul3 m n) v = apply3 m (apply3 n v).
Proof. destruct m as [[[[m1 m2] m3] [[m4 m5] m6]] [[m7 m8] m9]], n as [[[[n1 n2] n3] [[n4 n5] n6]] [[n7 n8] n9]], v as [[v1 v2] v3]. cbn. apply vec3_eq; ring. Qed.
Lemma transpose3_mul m n : transpose3 (mul3 m n) = mul3 (transpose3 n) (transpose3 m).
Proof. destruct m as [[[[m1 m2] m3] [[m4 m5] m6]] [[m7 m8] m9]], n as [[[[n1 n2] n3] [[n4 n5] n6]] [[n7 n8] n9]]. cbn. repeat (apply f_equal2; try ring). Qed.
Lemma transpose3_twice m : transpose3 (transpose3 m) = m.
Proof. destruct m as [[[[m1 m2] m3] [[m4 m5] m6]] [[m7 m8] m9]]. reflexivity. Qed.
Lemma orthogonal_transpose m : orthogonal m -> orthogonal (transpose3 m).
Proof. intros [A B]. split; intros v; rewrite transpose3_twice; auto. Qed.
Lemma orthogonal_mul m n : orthogonal m -> orthogonal n -> orthogonal (mul3 m n).
Proof. intros [A B] [C D]. split; intros v; rewrite transpose3_mul, !apply3_mul; [rewrite A, C|rewrite D, B]; reflexivity. Qed.
Lemma first_camera_rotation T U : rotation (first_camera T U) = mul3 (transpose3 (rotation U)) (transpose3 (rotation T)). Proof. reflexivity. Qed.
Lemma camera_position T U : orthogonal (rotation T) -> orthogonal (rotation U) -> position (inverse (first_camera T U)) = centre_of T U.
Proof.
  intros [A B] [C D]. unfold first_camera, compose, inverse, transform, centre_of. cbn [rotation position]. rewrite transpose3_mul, !transpose3_twice, !apply3_mul. rewrite !apply3_add, !apply3_scale. rewrite !D, !B. generalize (position T), (apply3 (rotation T) (position U)). intros. vec.
Qed.
(** If the residual of a view is zero the returned point lies on the ray of the view - whatever vector is used as anchor. *)
Lemma newton_on_ray T0 T U s m x : orthogonal (rotation T0) -> orthogonal (rotation T) -> orthogonal (rotation U) -> newton_point T0 U s = Some x ->
  snd (predicted (view_constants T0 U T) (alpha s) (beta s) (rho s)) <> 0 -> residual (view_constants T0 U T) m (alpha s) (beta s) (rho s) = (0, 0) -> sees x T U m.
Proof.
  intros O0 OT OU HX NZ HR. apply sees_ray. unfold newton_point in HX. destruct (Req_EM_T (rho s) 0) as [|NR]; [discriminate|]. match type of HX with Some ?e = Some _ => assert (EX : x = e) by congruence end. subst x. clear HX.
  set (a := (alpha s, beta s, 1) : vec3) in *. set (w := apply3 (transpose3 (rotation (first_camera T0 U))) a) in *. set (an := anchor T0 U) in *. set (Ri := rotation (first_camera T U)).
  assert (ORi : orthogonal Ri) by (apply orthogonal_mul; apply orthogonal_transpose; assumption).
  assert (P : predicted (view_constants T0 U T) (alpha s) (beta s) (rho s) = apply3 Ri (add3 w (scale3 (rho s) (sub3 an (centre_of T U))))).
  { unfold predicted, view_constants. cbn [fst snd]. fold a an Ri. rewrite apply3_mul. fold w. rewrite camera_position by assumption. rewrite apply3_add, apply3_scale. unfold sub3. rewrite !apply3_add, !apply3_scale. reflexivity. }
  unfold residual in HR. rewrite P in HR, NZ. set (y := add3 w (scale3 (rho s) (sub3 an (centre_of T U)))) in *. destruct (apply3 Ri y) as [[x1 x2] x3] eqn:EY. cbn [snd] in NZ. injection HR as H1 H2.
  assert (Y : y = scale3 x3 (ray_of T U m)).
  { destruct ORi as [OA OB]. rewrite <- (OA y), EY. replace (x1, x2, x3) with (scale3 x3 (fst m, snd m, 1)); [|unfold scale3; apply vec3_eq; [replace (fst m) with (x1 / x3) by lra; field; exact NZ|replace (snd m) with (x2 / x3) by lra; field; exact NZ|ring]].
    rewrite apply3_scale. f_equal. unfold Ri. rewrite first_camera_rotation, transpose3_mul, !transpose3_twice, apply3_mul. reflexivity. }
  exists (x3 / rho s). replace (scale3 (x3 / rho s) (ray_of T U m)) with (scale3 (/ rho s) y) by (rewrite Y; generalize (ray_of T U m); intros r; clear Y; destruct r as [[r1 r2] r3]; unfold scale3; apply vec3_eq; field; exact NR).
  unfold y. generalize (centre_of T U), w, an. clear -NR. intros c w an. destruct c as [[c1 c2] c3], w as [[w1 w2] w3], an as [[n1 n2] n3]. unfold sub3, add3, scale3. apply vec3_eq; field; exact NR.
Qed.
(** If the iteration reaches zero residuals the returned point has exactly the given observations; for observable views it is the point. *)
Definition newton_final (ldlt : list vec3 -> list R -> vec3) (ms : list (R * R)) (Ts : list transformation) (U : transformation) : newton_state :=
  match Ts with
  | [] => {| alpha := 0; beta := 0; rho := 0; norm_last := 0; norm_now := 0 |}
  | T0 :: _ => newton_loop 10 ldlt (map (view_constants T0 U) Ts) ms {| alpha := 0; beta := 0; rho := 0; norm_last := 1000; norm_now := 100 |}
  end.
Definition zero_residuals (s : newton_state) (T0 U : transformation) (vs : list view) : Prop := forall v, In v vs ->
  snd (predicted (view_constants T0 U (view_T_G_B v)) (alpha s) (beta s) (rho s)) <> 0 /\ residual (view_constants T0 U (view_T_G_B v)) (view_measurement v) (alpha s) (beta s) (rho s) = (0, 0).
Theorem trx_newton_exact_partial ldlt p q U v0 vs : (1 <= length vs)%nat -> same_camera U (v0 :: vs) -> Forall rigid_view (v0 :: vs) -> Forall (view_sees p) (v0 :: vs) -> observable (map view_direction (v0 :: vs)) ->
  zero_residuals (newton_final ldlt (map view_measurement (v0 :: vs)) (map view_T_G_B (v0 :: vs)) U) (view_T_G_B v0) U (v0 :: vs) ->
  newton_triangulate ldlt (map view_measurement (v0 :: vs)) (map view_T_G_B (v0 :: vs)) U = Ok (Successful, Some q) -> q = p.
Proof.
  intros L S R E O Z H. unfold newton_triangulate in H. rewrite !map_length, Nat.eqb_refl in H. cbn [negb] in H. destruct (Nat.ltb_spec (length (v0 :: vs)) 2) as [C|_]; [simpl in C; lia|]. cbn [map] in H. injection H as H.
  change (newton_point (view_T_G_B v0) U (newton_final ldlt (map view_measurement (v0 :: vs)) (map view_T_G_B (v0 :: vs)) U) = Some q) in H.
  apply (best_unique q p (map line_of_sight (v0 :: vs))); apply views_exact_best; try assumption. rewrite Forall_forall. intros v Hv. unfold view_sees. destruct (Z v Hv) as [Z1 Z2].
  pose proof (proj1 (Forall_forall _ _) R v Hv) as [R1 R2]. pose proof (proj1 (Forall_forall _ _) R v0 (or_introl eq_refl)) as [R3 _]. pose proof (proj1 (Forall_forall _ _) S v Hv) as SV. cbv beta in SV. rewrite SV in *.
  apply (newton_on_ray (view_T_G_B v0) (view_T_G_B v) U _ (view_measurement v) q R3 R1 R2 H Z1 Z2).
Qed.
(** The anchor is the position of T_Cn_G, not the position of the camera, so a point in the plane through the anchor is never found. *)
Definition newton_case : list view := [{| view_T_G_B := move (0, 0, -1); view_T_B_C := move (0, 0, 0); view_measurement := (1 / 2, 1 / 2) |}; {| view_T_G_B := move (1, 0, -1); view_T_B_C := move (0, 0, 0); view_measurement := (0, 1 / 2) |}].
Theorem trx_newton_refuted : exists U vs p, (2 <= length vs)%nat /\ same_camera U vs /\ Forall rigid_view vs /\ Forall (view_sees p) vs /\ observable (map view_direction vs) /\
  forall ldlt o, newton_triangulate ldlt (map view_measurement vs) (map view_T_G_B vs) U = Ok (Successful, o) -> o <> Some p.
Proof.
  exists (move (0, 0, 0)), newton_case, (1, 1, 1). split; [simpl; lia|]. split; [repeat constructor|]. split; [repeat constructor; apply orthogonal_identity|].
  split; [constructor; [|constructor; [|constructor]]; exists 2; cbn; apply vec3_eq; field|].
  split; [exists (1 / 2, 1 / 2, 1), (0, 1 / 2, 1); split; [left|split; [right; left|]]; try (cbn; apply vec3_eq; field); unfold parallel, cross3; intros E; injection E; lra|].
  intros ldlt o H. unfold newton_triangulate in H. cbn [newton_case map length Nat.eqb negb Nat.ltb Nat.leb] in H. injection H as <-. match goal with |- newton_point _ _ ?s <> _ => generalize s end. intros s. unfold newton_point. destruct (Req_EM_T (rho s) 0) as [|N]; [discriminate|].
  intros E. injection E as _ _ E. cbn in E. assert (I : 1 / rho s <> 0) by (unfold Rdiv; rewrite Rmult_1_l; apply Rinv_neq_0_compat, N). lra.
Qed.
(** It never reports an unobservable point. *)
Theorem trx_newton_unobservable_refuted ldlt ms Ts U : (2 <= length ms)%nat -> length ms = length Ts -> exists o, newton_triangulate ldlt ms Ts U = Ok (Successful, o).
Proof.
  intros L LE. unfold newton_triangulate. rewrite LE, Nat.eqb_refl. cbn [negb]. destruct (Nat.ltb_spec (length Ts) 2) as [C|_]; [lia|]. destruct Ts as [|T0 Ts]; [simpl in LE; lia|]. eexists. reflexivity.
Qed.
(** ** C77: the Jacobian of the residuals *)
Theorem trx_newton_jacobian c m a b r : snd (predicted c a b r) <> 0 ->
  let J := residual_jacobian c a b r in
  jac3 (fun a b r => fst (residual c m a b r)) a b r (fst (fst (fst J))) (snd (fst (fst J))) (snd (fst J)) /\
  jac3 (fun a b r => snd (residual c m a b r)) a b r (fst (fst (snd J))) (snd (fst (snd J))) (snd (snd J)).
Proof.
  destruct c as [[[[[m1 m2] m3] [[m4 m5] m6]] [[m7 m8] m9]] [[p1 p2] p3]]. unfold residual_jacobian, residual, predicted. cbn. intros NZ.
  split; intros X Y Z t dX dY dZ HX HY HZ EX EY EZ.
  - pose proof (der_plus (fun s => m1 * X s + m2 * Y s + m3 * 1) (fun s => Z s * p1) t _ _ (der_plus (fun s => m1 * X s + m2 * Y s) (fun _ => m3 * 1) t _ _ (der_plus _ _ t _ _ (der_mult (fun _ => m1) X t _ _ (der_const m1 t) HX) (der_mult (fun _ => m2) Y t _ _ (der_const m2 t) HY)) (der_const (m3 * 1) t)) (der_mult Z (fun _ => p1) t _ _ HZ (der_const p1 t))) as DN.
    pose proof (der_plus (fun s => m7 * X s + m8 * Y s + m9 * 1) (fun s => Z s * p3) t _ _ (der_plus (fun s => m7 * X s + m8 * Y s) (fun _ => m9 * 1) t _ _ (der_plus _ _ t _ _ (der_mult (fun _ => m7) X t _ _ (der_const m7 t) HX) (der_mult (fun _ => m8) Y t _ _ (der_const m8 t) HY)) (der_const (m9 * 1) t)) (der_mult Z (fun _ => p3) t _ _ HZ (der_const p3 t))) as DD.
    cbv beta in DN, DD. assert (NZ' : m7 * X t + m8 * Y t + m9 * 1 + Z t * p3 <> 0) by (rewrite EX, EY, EZ; exact NZ).
    pose proof (der_minus (fun _ => fst m) _ t _ _ (der_const (fst m) t) (der_div _ _ t _ _ DN DD NZ')) as D. eapply der_eq; [exact D|]. cbv beta. rewrite EX, EY, EZ. rewrite Rmult_1_r in NZ. field. exact NZ.
  - pose proof (der_plus (fun s => m4 * X s + m5 * Y s + m6 * 1) (fun s => Z s * p2) t _ _ (der_plus (fun s => m4 * X s + m5 * Y s) (fun _ => m6 * 1) t _ _ (der_plus _ _ t _ _ (der_mult (fun _ => m4) X t _ _ (der_const m4 t) HX) (der_mult (fun _ => m5) Y t _ _ (der_const m5 t) HY)) (der_const (m6 * 1) t)) (der_mult Z (fun _ => p2) t _ _ HZ (der_const p2 t))) as DN.
    pose proof (der_plus (fun s => m7 * X s + m8 * Y s + m9 * 1) (fun s => Z s * p3) t _ _ (der_plus (fun s => m7 * X s + m8 * Y s) (fun _ => m9 * 1) t _ _ (der_plus _ _ t _ _ (der_mult (fun _ => m7) X t _ _ (der_const m7 t) HX) (der_mult (fun _ => m8) Y t _ _ (der_const m8 t) HY)) (der_const (m9 * 1) t)) (der_mult Z (fun _ => p3) t _ _ HZ (der_const p3 t))) as DD.
    cbv beta in DN, DD. assert (NZ' : m7 * X t + m8 * Y t + m9 * 1 + Z t * p3 <> 0) by (rewrite EX, EY, EZ; exact NZ).
    pose proof (der_minus (fun _ => snd m) _ t _ _ (der_const (snd m) t) (der_div _ _ t _ _ DN DD NZ')) as D. eapply der_eq; [exact D|]. cbv beta. rewrite EX, EY, EZ. rewrite Rmult_1_r in NZ. field. exact NZ.
Qed.

(** One iteration goes to the least squares point of the linearised residuals, if [ldlt] solves the normal equations. *)
Definition minus3 (a b : vec3) : vec3 := let '(x, y, z) := a in let '(u, v, w) := b in (x - u, y - v, z - w).
Fixpoint rsum (l : list R) : R := match l with [] => 0 | x :: l => x + rsum l end.
Definition solves_normal_equations (ldlt : list vec3 -> list R -> vec3) : Prop := forall J r, length J = length r -> forall x,
  rsum (map (fun e => (snd e - dot3 (fst e) (ldlt J r)) * dot3 (fst e) x) (combine J r)) = 0.
Definition parameters (s : newton_state) : vec3 := (alpha s, beta s, rho s).
(** The squared residuals of all views at [x], linearised at the parameters of [s]. *)
Definition linearised_cost (cs : list (mat3 * vec3)) (ms : list (R * R)) (s : newton_state) (x : vec3) : R :=
  rsum (map (fun e => let r := residual (fst e) (snd e) (alpha s) (beta s) (rho s) in let J := residual_jacobian (fst e) (alpha s) (beta s) (rho s) in
    let d := minus3 x (parameters s) in (fst r + dot3 (fst J) d) * (fst r + dot3 (fst J) d) + (snd r + dot3 (snd J) d) * (snd r + dot3 (snd J) d)) (combine cs ms)).
Lemma normal_least J r d : (forall x, rsum (map (fun e => (snd e - dot3 (fst e) d) * dot3 (fst e) x) (combine J r)) = 0) ->
  forall x, rsum (map (fun e => (snd e - dot3 (fst e) d) * (snd e - dot3 (fst e) d)) (combine J r)) <= rsum (map (fun e => (snd e - dot3 (fst e) x) * (snd e - dot3 (fst e) x)) (combine J r)).
Proof.
  intros N x. specialize (N (minus3 d x)). assert (A : forall l : list (vec3 * R), rsum (map (fun e => (snd e - dot3 (fst e) x) * (snd e - dot3 (fst e) x)) l) =
    rsum (map (fun e => (snd e - dot3 (fst e) d) * (snd e - dot3 (fst e) d)) l) + 2 * rsum (map (fun e => (snd e - dot3 (fst e) d) * dot3 (fst e) (minus3 d x)) l)
    + rsum (map (fun e => dot3 (fst e) (minus3 d x) * dot3 (fst e) (minus3 d x)) l)).
  { induction l as [|[[[j1 j2] j3] q] l IH]; cbn [map rsum]; [ring|]. rewrite IH. destruct d as [[d1 d2] d3], x as [[x1 x2] x3]. cbn [fst snd]. unfold dot3, minus3. ring. }
  rewrite A, N. assert (B : forall l : list (vec3 * R), 0 <= rsum (map (fun e => dot3 (fst e) (minus3 d x) * dot3 (fst e) (minus3 d x)) l)).
  { induction l as [|e l IH]; cbn [map rsum]; [lra|]. pose proof (Rle_0_sqr (dot3 (fst e) (minus3 d x))) as Q. unfold Rsqr in Q. lra. }
  specialize (B (combine J r)). lra.
Qed.
Lemma linearised_stacked cs ms s x : length cs = length ms ->
  linearised_cost cs ms s x = rsum (map (fun e => (snd e - dot3 (fst e) (minus3 (parameters s) x)) * (snd e - dot3 (fst e) (minus3 (parameters s) x)))
    (combine (flat_map (fun c => let '(r0, r1) := residual_jacobian c (alpha s) (beta s) (rho s) in [r0; r1]) cs)
             (flat_map (fun r => [fst r; snd r]) (map (fun x => residual (fst x) (snd x) (alpha s) (beta s) (rho s)) (combine cs ms))))).
Proof.
  unfold linearised_cost. revert ms. induction cs as [|c cs IH]; intros [|m ms] L; try discriminate L; [reflexivity|]. cbn [combine map flat_map fst snd]. injection L as L. cbn [rsum].
  rewrite (IH ms L). destruct (residual_jacobian c (alpha s) (beta s) (rho s)) as [[[a1 a2] a3] [[b1 b2] b3]]. destruct (residual c m (alpha s) (beta s) (rho s)) as [q1 q2].
  cbn [combine map app flat_map rsum fst snd]. destruct x as [[x1 x2] x3]. unfold parameters, minus3, dot3. ring.
Qed.
Theorem trx_newton_step ldlt cs ms s : solves_normal_equations ldlt -> length cs = length ms -> let t := newton_step ldlt cs ms s in
  (forall x, linearised_cost cs ms s (parameters t) <= linearised_cost cs ms s x) /\ norm_last t = norm_now s /\ norm_now t = linearised_cost cs ms s (parameters s).
Proof.
  intros N L. cbv zeta. split; [|split].
  - intros x. rewrite !linearised_stacked by exact L. unfold newton_step.
    match goal with |- context [ldlt ?J ?r] => set (JJ := J); set (rr := r); destruct (ldlt JJ rr) as [[da db] dr] eqn:E end.
    match goal with |- context [minus3 (parameters s) (parameters ?t)] => replace (minus3 (parameters s) (parameters t)) with (ldlt JJ rr) by (rewrite E; unfold parameters, minus3; cbn [alpha beta rho]; f_equal; [f_equal|]; ring) end.
    apply normal_least. apply N. unfold JJ, rr. clear - L. revert ms L. induction cs as [|c cs IH]; intros [|m ms] L; try discriminate L; [reflexivity|]. injection L as L. cbn [combine map flat_map].
    destruct (residual_jacobian c _ _ _) as [r0 r1]. cbn [app length]. rewrite (IH ms L). reflexivity.
  - unfold newton_step. destruct (ldlt _ _) as [[da db] dr]. reflexivity.
  - rewrite linearised_stacked by exact L. unfold newton_step. destruct (ldlt _ _) as [[da db] dr]. cbn [norm_now].
    clear - L. revert ms L. induction cs as [|c cs IH]; intros [|m ms] L; try discriminate L; [reflexivity|]. injection L as L. cbn [combine map flat_map fst snd].
    destruct (residual_jacobian c _ _ _) as [[[a1 a2] a3] [[b1 b2] b3]]. destruct (residual c m _ _ _) as [q1 q2]. cbn [app fst snd fold_right combine map rsum]. rewrite (IH ms L). unfold parameters, minus3, dot3. ring.
Qed.
Print Assumptions trx_newton_step.
(** Such a solver exists: orthogonalise the columns one by one. *)
Definition over (l : list (vec3 * R)) (f g : vec3 * R -> R) : R := rsum (map (fun e => f e * g e) l).
Definition share l f q : R := if Req_EM_T (over l q q) 0 then 0 else over l f q / over l q q.
Definition orthogonal_solver (J : list vec3) (r : list R) : vec3 :=
  let l := combine J r in let c1 := fun e : vec3 * R => fst (fst (fst e)) in let c2 := fun e : vec3 * R => snd (fst (fst e)) in let c3 := fun e : vec3 * R => snd (fst e) in
  let a := share l c2 c1 in let q2 := fun e : vec3 * R => c2 e - a * c1 e in
  let b1 := share l c3 c1 in let b2 := share l c3 q2 in let q3 := fun e : vec3 * R => c3 e - b1 * c1 e - b2 * q2 e in
  let k1 := share l snd c1 in let k2 := share l snd q2 in let k3 := share l snd q3 in
  (k1 - k2 * a - k3 * (b1 - b2 * a), k2 - k3 * b2, k3).
Lemma over_sym l f g : over l f g = over l g f.
Proof. unfold over. f_equal. apply map_ext. intros e. ring. Qed.
Lemma over_sub l f g h k : over l (fun e => f e - k * g e) h = over l f h - k * over l g h.
Proof. unfold over. induction l as [|e l IH]; cbn [map rsum]; [ring|rewrite IH; ring]. Qed.
Lemma over_null l q f : over l q q = 0 -> over l f q = 0.
Proof.
  unfold over. induction l as [|e l IH]; cbn [map rsum]; [reflexivity|]. intros H.
  assert (P : forall l : list (vec3 * R), 0 <= rsum (map (fun e => q e * q e) l)). { clear. induction l as [|e l IH]; cbn [map rsum]; [lra|]. pose proof (Rle_0_sqr (q e)) as Q. unfold Rsqr in Q. lra. }
  specialize (P l). pose proof (Rle_0_sqr (q e)) as Q. unfold Rsqr in Q. assert (Z : q e * q e = 0) by lra. rewrite IH by lra. destruct (Rmult_integral _ _ Z) as [Z'|Z']; rewrite Z'; ring.
Qed.
Lemma share_orthogonal l f q : over l f q = share l f q * over l q q.
Proof. unfold share. destruct (Req_EM_T _ _) as [E|E]; [rewrite (over_null _ _ f E); ring|field; exact E]. Qed.
Example trx_newton_step_case : solves_normal_equations orthogonal_solver.
Proof.
  intros J r _ x. set (l := combine J r). set (c1 := fun e : vec3 * R => fst (fst (fst e))). set (c2 := fun e : vec3 * R => snd (fst (fst e))). set (c3 := fun e : vec3 * R => snd (fst e)).
  set (a := share l c2 c1). set (q2 := fun e => c2 e - a * c1 e). set (b1 := share l c3 c1). set (b2 := share l c3 q2). set (q3 := fun e => c3 e - b1 * c1 e - b2 * q2 e).
  set (k1 := share l snd c1). set (k2 := share l snd q2). set (k3 := share l snd q3).
  assert (O21 : over l q2 c1 = 0). { unfold q2. rewrite over_sub, (share_orthogonal l c2 c1). fold a. ring. }
  assert (O31 : over l q3 c1 = 0). { unfold q3. rewrite (over_sub l (fun e => c3 e - b1 * c1 e) q2 c1 b2), over_sub, O21, (share_orthogonal l c3 c1). fold b1. ring. }
  assert (O32 : over l q3 q2 = 0). { unfold q3. rewrite (over_sub l (fun e => c3 e - b1 * c1 e) q2 q2 b2), (over_sub l c3 c1 q2 b1), (over_sym l c1 q2), O21, (share_orthogonal l c3 q2). fold b2. ring. }
  replace (orthogonal_solver J r) with (k1 - k2 * a - k3 * (b1 - b2 * a), k2 - k3 * b2, k3) by reflexivity.
  set (u := fun e : vec3 * R => snd e - k1 * c1 e - k2 * q2 e - k3 * q3 e).
  assert (U : forall h, over l u h = over l snd h - k1 * over l c1 h - k2 * over l q2 h - k3 * over l q3 h).
  { intros h. unfold u. rewrite (over_sub l (fun e => snd e - k1 * c1 e - k2 * q2 e) q3 h k3), (over_sub l (fun e => snd e - k1 * c1 e) q2 h k2), (over_sub l snd c1 h k1). reflexivity. }
  assert (U1 : over l u c1 = 0). { rewrite U, O21, O31, (share_orthogonal l snd c1). fold k1. ring. }
  assert (U2 : over l u q2 = 0). { rewrite U, O32, (over_sym l c1 q2), O21, (share_orthogonal l snd q2). fold k2. ring. }
  assert (U3 : over l u q3 = 0). { rewrite U, (over_sym l c1 q3), O31, (over_sym l q2 q3), O32, (share_orthogonal l snd q3). fold k3. ring. }
  destruct x as [[x1 x2] x3].
  transitivity (x1 * over l u c1 + x2 * (over l u q2 + a * over l u c1) + x3 * (over l u q3 + b1 * over l u c1 + b2 * over l u q2)); [|rewrite U1, U2, U3; ring].
  unfold over. clear O21 O31 O32 U U1 U2 U3. clearbody k1 k2 k3. clearbody b1 b2. clearbody a. clearbody l. subst c1 c2 c3 q2 q3 u. cbv beta. induction l as [|[[[j1 j2] j3] q] l IH]; cbn [map rsum]; [ring|]. rewrite IH. unfold dot3. cbn [fst snd]. ring.
Qed.

(** ** Refutation: parallel rays reported as success *)
(** Two cameras at the same place; the first sees the point far from its axis, the second is turned towards it. The rank (1) is smaller
    than the number of views, and rank - 2 wraps around. *)
Definition far : R := 99999999 / 20000.
Definition turned : mat3 := ((20000 / 100000001, 0, 99999999 / 100000001), (0, 1, 0), (-99999999 / 100000001, 0, 20000 / 100000001)).
Definition wrap_case : list view :=
  [{| view_T_G_B := move (0, 0, 0); view_T_B_C := move (0, 0, 0); view_measurement := (far, 0) |};
   {| view_T_G_B := {| rotation := turned; position := (0, 0, 0) |}; view_T_B_C := move (0, 0, 0); view_measurement := (0, 0) |}].
Lemma orthogonal_turned : orthogonal turned.
Proof. split; intros [[a b] c]; unfold turned; cbn; apply vec3_eq; field. Qed.
Lemma wrap_rays : map view_ray wrap_case = [(far, 0, 1); (99999999 / 100000001, 0, 20000 / 100000001)].
Proof. unfold wrap_case, view_ray, ray_of, turned. cbn. apply f_equal2; [apply vec3_eq; ring|]. apply (f_equal (fun v : vec3 => [v])). apply vec3_eq; field. Qed.
Lemma wrap_rank : rank rank_loss_tolerance (system (map view_ray wrap_case)) = 1%nat.
Proof.
  rewrite wrap_rays. set (r1 := (far, 0, 1) : vec3). set (r2 := (99999999 / 100000001, 0, 20000 / 100000001) : vec3). set (A := system [r1; r2]).
  assert (EA : A = [(0%nat, [(1, 0, 0); (1, 0, 0)]); (1%nat, [(0, 1, 0); (0, 1, 0)]); (2%nat, [(0, 0, 1); (0, 0, 1)]); (3%nat, [scale3 (-1) r1; zero3]); (4%nat, [zero3; scale3 (-1) r2])]) by reflexivity.
  change (length (filter (fun p => if Rlt_dec (rank_loss_tolerance * fold_right Rmax 0 (pivots 5 A)) p then true else false) (pivots 5 A)) = 1%nat). remember (pivots 5 A) as ps eqn:EP. rewrite EA in EP. assert (STEP : forall f c cs, pivots (S f) (c :: cs) = let '(q, rest) := select c [] cs in norm (snd q) :: pivots f (reduce (snd q) rest)) by reflexivity. rewrite STEP in EP.
  destruct (select (0%nat, [(1, 0, 0); (1, 0, 0)]) [] [(1%nat, [(0, 1, 0); (0, 1, 0)]); (2%nat, [(0, 0, 1); (0, 0, 1)]); (3%nat, [scale3 (-1) r1; zero3]); (4%nat, [zero3; scale3 (-1) r2])]) as [q rest] eqn:S.
  pose proof (select_perm _ _ _ _ _ S) as PM. pose proof (select_max _ _ _ _ _ S (fun c F => match F with end)) as MX.
  change (Permutation (q :: rest) A) in PM.
  assert (N1 : dot [scale3 (-1) r1; zero3] [scale3 (-1) r1; zero3] = (100000001 / 20000) * (100000001 / 20000)) by (unfold r1, far; cbn; field).
  assert (NB : 100000001 / 20000 <= norm (snd q)).
  { assert (I : In (3%nat, [scale3 (-1) r1; zero3]) (q :: rest)) by (apply (Permutation_in _ (Permutation_sym PM)); rewrite EA; do 3 right; left; reflexivity). specialize (MX _ I). cbn [snd] in MX. unfold norm at 1 in MX. rewrite N1, sqrt_square in MX by lra. exact MX. }
  assert (small : forall c, In c A -> fst c <> 3%nat -> norm (snd c) <= 2).
  { intros c Hc N3. unfold norm. replace 2 with (sqrt 4) by (replace 4 with (2 * 2) by ring; apply sqrt_square; lra). apply sqrt_le_1; [apply dot_nonneg|lra|]. rewrite EA in Hc. destruct Hc as [<-|[<-|[<-|[<-|[<-|[]]]]]]; try (exfalso; apply N3; reflexivity); unfold r2; cbn; lra. }
  assert (ND : NoDup (map fst (q :: rest))) by (apply (Permutation_NoDup (Permutation_map fst (Permutation_sym PM))); rewrite EA; cbn; repeat constructor; cbn; intuition discriminate).
  assert (Q3 : fst q = 3%nat). { destruct (Nat.eq_dec (fst q) 3) as [E|N]; [exact E|]. exfalso. assert (Iq : In q A) by (apply (Permutation_in _ PM); left; reflexivity). pose proof (small q Iq N). lra. }
  assert (F : well_formed 2 A) by (rewrite EA; repeat constructor). pose proof (Permutation_Forall (Permutation_sym PM) F) as F'. inversion F' as [|? ? F1 F2]; subst x l.
  assert (PB : Forall (fun p => p <= 2) (pivots 4 (reduce (snd q) rest))).
  { apply (pivots_bound 2); [apply reduce_wf; assumption|]. unfold reduce. apply Forall_map, Forall_forall. intros c Hc. cbn [snd]. eapply Rle_trans; [apply norm_remove|].
    - rewrite F1. symmetry. apply (proj1 (Forall_forall _ _) F2 c Hc).
    - apply small; [apply (Permutation_in _ PM); right; exact Hc|]. intros E. cbn [map] in ND. inversion ND as [|? ? N _]. apply N. rewrite Q3, <- E. apply in_map, Hc. }
  assert (LG : fold_right Rmax 0 ps = norm (snd q)).
  { rewrite EP. cbn [fold_right]. apply Rmax_left. apply Rle_trans with 2; [|lra]. clear - PB. revert PB. generalize (pivots 4 (reduce (snd q) rest)). intros ps PB. induction PB as [|p l Hp _ IH]; cbn [fold_right]; [lra|]. apply Rmax_lub; assumption. }
  rewrite LG, EP. cbn [filter]. destruct (Rlt_dec (rank_loss_tolerance * norm (snd q)) (norm (snd q))) as [_|C]; [|exfalso; apply C; unfold rank_loss_tolerance; lra]. cbn [length]. f_equal.
  clear - PB NB. revert PB. generalize (pivots 4 (reduce (snd q) rest)). intros ps PB. induction PB as [|p l Hp _ IH]; [reflexivity|]. cbn [filter]. destruct (Rlt_dec (rank_loss_tolerance * norm (snd q)) p) as [C|_]; [unfold rank_loss_tolerance in C; lra|exact IH].
Qed.
Theorem trx_linear_unobservable_refuted : exists U vs, (2 <= length vs)%nat /\ same_camera U vs /\ Forall rigid_view vs /\ unobservable (map view_direction vs) /\
  exists q, linear_of vs U = Ok (Successful, Some q).
Proof.
  exists (move (0, 0, 0)), wrap_case. split; [simpl; lia|]. split; [repeat constructor|]. split; [repeat constructor; try apply orthogonal_identity; apply orthogonal_turned|]. split.
  - rewrite directions_rays, wrap_rays. unfold far. intros a b [<-|[<-|[]]] [<-|[<-|[]]]; unfold parallel, cross3; apply vec3_eq; field.
  - rewrite linear_views by (try (simpl; lia); repeat constructor). unfold triangulate_rays. rewrite wrap_rank. eexists. reflexivity.
Qed.

(** ** Examples *)
Definition sample : list view := [{| view_T_G_B := move (0, 0, 0); view_T_B_C := move (0, 0, 0); view_measurement := (0, 0) |}; {| view_T_G_B := move (1, 0, 0); view_T_B_C := move (0, 0, 0); view_measurement := (- 1 / 2, 0) |}].
Lemma sample_directions : map view_direction sample = [(0, 0, 1); (- 1 / 2, 0, 1)].
Proof. unfold sample. cbn. apply f_equal2; [apply vec3_eq; field|]. apply (f_equal (fun v : vec3 => [v])). apply vec3_eq; field. Qed.
Lemma sample_sees : Forall (view_sees (0, 0, 2)) sample.
Proof. constructor; [|constructor; [|constructor]]; exists 2; cbn; apply vec3_eq; field. Qed.
Lemma sample_rigid : Forall rigid_view sample. Proof. repeat constructor; apply orthogonal_identity. Qed.
Lemma sample_conditioned : conditioned_views (1 / 100) sample.
Proof.
  split; [lra|]. split; [|split; [simpl; lra|]].
  - rewrite sample_directions. intros [[x y] z] [|k [|l [|? ?]]] HL; try discriminate HL. cbn.
    assert (E : exists a b c d, x = a /\ l = 2 * (b - a) /\ z = d + 2 * (b - a) /\ k = d + 2 * (b - a) - c). { exists x, (x + l / 2), (z - k), (z - l). repeat split; field. }
    destruct E as (a & b & c & d & -> & -> & -> & ->). pose proof (Rle_0_sqr (a + b)). pose proof (Rle_0_sqr (a + d)). pose proof (Rle_0_sqr (b - d)). pose proof (Rle_0_sqr (a - c)). pose proof (Rle_0_sqr (b + c)). pose proof (Rle_0_sqr (d + c)). pose proof (Rle_0_sqr y). pose proof (Rle_0_sqr a). pose proof (Rle_0_sqr b). pose proof (Rle_0_sqr c). pose proof (Rle_0_sqr d). unfold Rsqr in *. nra.
  - intros v [<-|[<-|[]]]; cbn; lra.
Qed.
Example trx_linear_example : linear_of sample (move (0, 0, 0)) = Ok (Successful, Some (0, 0, 2)).
Proof. apply (trx_linear_exact_conditioned _ _ (1 / 100)); [simpl; lia|reflexivity|repeat constructor|apply sample_rigid|apply sample_sees|apply sample_conditioned]. Qed.
Example trx_multi_cam_example : multi_of sample [0; 0]%nat [move (0, 0, 0)] = Ok (Successful, Some (0, 0, 2)).
Proof. apply (trx_multi_cam_exact_conditioned _ _ _ (1 / 100)); [simpl; lia|reflexivity|repeat constructor|apply sample_rigid|apply sample_sees|apply sample_conditioned]. Qed.
Example trx_observable_example : observable (map view_direction sample) /\ best_point (0, 0, 2) (map line_of_sight sample).
Proof.
  assert (O : observable (map view_direction sample)). { rewrite sample_directions. exists (0, 0, 1), (- 1 / 2, 0, 1). split; [left; reflexivity|]. split; [right; left; reflexivity|]. unfold parallel, cross3. intros E. injection E. lra. }
  split; [exact O|]. apply (trx_linear_least_squares (move (0, 0, 0))); [simpl; lia|repeat constructor|apply sample_rigid|exact O|apply trx_linear_example].
Qed.
Example trx_bearing_example : bearing_triangulate [(0, 0, 1); (-1, 0, 2)] [(0, 0, 0); (1, 0, 0)] = Ok (Successful, Some (0, 0, 2)).
Proof.
  apply (trx_bearing_exact_conditioned _ _ _ (1 / 100)); [simpl; lia|reflexivity| | | |simpl; lra].
  - repeat constructor; intros E; injection E; lra.
  - constructor; [exists 2; apply vec3_eq; ring|constructor; [exists 1; apply vec3_eq; ring|constructor]].
  - intros [[x y] z]. unfold total_distance2. cbn. pose proof (Rle_0_sqr (x + z / 3)). pose proof (Rle_0_sqr x). pose proof (Rle_0_sqr y). pose proof (Rle_0_sqr z). unfold Rsqr in *. nra.
Qed.
Example trx_unobservable_example : let vs := [hd {| view_T_G_B := move (0, 0, 0); view_T_B_C := move (0, 0, 0); view_measurement := (0, 0) |} sample; {| view_T_G_B := move (0, 0, -1); view_T_B_C := move (0, 0, 0); view_measurement := (0, 0) |}] in
  linear_of vs (move (0, 0, 0)) = Ok (Unobservable, None) /\ bearing_triangulate (map view_direction vs) [(0, 0, 0); (0, 0, -1)] = Ok (Unobservable, None).
Proof.
  intros vs. assert (D : map view_direction vs = [(0, 0, 1); (0, 0, 1)]). { unfold vs, sample. cbn. apply f_equal2; [apply vec3_eq; field|]. apply (f_equal (fun v : vec3 => [v])). apply vec3_eq; field. }
  assert (U : unobservable (map view_direction vs)). { rewrite D. intros a b [<-|[<-|[]]] [<-|[<-|[]]]; unfold parallel, cross3; apply vec3_eq; ring. }
  split.
  - apply trx_linear_unobservable_partial; [simpl; lia|repeat constructor|repeat constructor; apply orthogonal_identity|exact U|]. split; [simpl; lia|]. intros v [<-|[<-|[]]]; cbn; lra.
  - apply trx_bearing_unobservable; [rewrite D; simpl; lia|rewrite D; reflexivity| |exact U]. rewrite D. repeat constructor; intros E; injection E; lra.
Qed.
Example trx_track_example : triangulate_track [{| obs_T_C_B := move (0, 0, 0); obs_ray := (0, 0, 2) |}; {| obs_T_C_B := move (0, 0, 0); obs_ray := (-1, 0, 2) |}] [move (0, 0, 0); move (1, 0, 0)] = Ok (Successful, Some (0, 0, 2)).
Proof.
  assert (D : map view_direction (track_views [{| obs_T_C_B := move (0, 0, 0); obs_ray := (0, 0, 2) |}; {| obs_T_C_B := move (0, 0, 0); obs_ray := (-1, 0, 2) |}] [move (0, 0, 0); move (1, 0, 0)]) = [(0, 0, 1); (- 1 / 2, 0, 1)]).
  { unfold track_views. cbn. apply f_equal2; [apply vec3_eq; field|]. apply (f_equal (fun v : vec3 => [v])). apply vec3_eq; field. }
  apply (trx_track_exact_partial _ (move (0, 0, 0)) (1 / 100)); [simpl; lia|reflexivity|reflexivity|repeat constructor|repeat constructor; apply orthogonal_identity| |].
  - constructor; [|constructor; [|constructor]]; exists 2; cbn; apply vec3_eq; field.
  - destruct sample_conditioned as (C0 & C1 & C2 & C3). split; [exact C0|]. split; [rewrite D, <- sample_directions; exact C1|]. split; [exact C2|]. intros v [<-|[<-|[]]]; cbn; lra.
Qed.
(** The Gauss-Newton hypotheses: a step function that jumps to the solution in the first iteration. *)
Example trx_newton_example : let jump := fun (_ : list vec3) (rs : list R) => if Req_EM_T (fold_right (fun r n => r * r + n) 0 rs) 0 then (0, 0, 0) else (0, 0, -1 / 2) in
  newton_triangulate jump (map view_measurement sample) (map view_T_G_B sample) (move (0, 0, 0)) = Ok (Successful, Some (0, 0, 2)) /\
  zero_residuals (newton_final jump (map view_measurement sample) (map view_T_G_B sample) (move (0, 0, 0))) (move (0, 0, 0)) (move (0, 0, 0)) sample.
Proof.
  intros jump.
  set (cs := map (view_constants (move (0, 0, 0)) (move (0, 0, 0))) (map view_T_G_B sample)). set (ms := map view_measurement sample).
  assert (EC : cs = [(identity3, (0, 0, 0)); (identity3, (-1, 0, 0))]).
  { assert (VC : forall x y z, view_constants (move (0, 0, 0)) (move (0, 0, 0)) (move (x, y, z)) = (identity3, (- x, - y, - z))).
    { intros x y z. unfold view_constants. cbv zeta. apply f_equal2; cbn; [unfold identity3; repeat apply f_equal2; ring|apply vec3_eq; ring]. }
    unfold cs, sample. cbn [map view_T_G_B]. rewrite !VC. rewrite Ropp_0. replace (- (1)) with (-1) by ring. reflexivity. }
  assert (ST1 : newton_step jump cs ms {| alpha := 0; beta := 0; rho := 0; norm_last := 1000; norm_now := 100 |} = {| alpha := 0; beta := 0; rho := 1 / 2; norm_last := 100; norm_now := 1 / 4 |}).
  { rewrite EC. unfold newton_step, ms, sample. cbn. unfold jump. cbn [fold_right]. destruct (Req_EM_T _ 0) as [E|_]; [exfalso; match type of E with ?t = 0 => assert (V : t = 1 / 4) by field; lra end|]. cbn. f_equal; field. }
  assert (ST2 : newton_step jump cs ms {| alpha := 0; beta := 0; rho := 1 / 2; norm_last := 100; norm_now := 1 / 4 |} = {| alpha := 0; beta := 0; rho := 1 / 2; norm_last := 1 / 4; norm_now := 0 |}).
  { rewrite EC. unfold newton_step, ms, sample. cbn. unfold jump. cbn [fold_right]. destruct (Req_EM_T _ 0) as [_|E]; [|exfalso; apply E; field]. cbn. f_equal; field. }
  assert (ST3 : newton_step jump cs ms {| alpha := 0; beta := 0; rho := 1 / 2; norm_last := 1 / 4; norm_now := 0 |} = {| alpha := 0; beta := 0; rho := 1 / 2; norm_last := 0; norm_now := 0 |}).
  { rewrite EC. unfold newton_step, ms, sample. cbn. unfold jump. cbn [fold_right]. destruct (Req_EM_T _ 0) as [_|E]; [|exfalso; apply E; field]. cbn. f_equal; field. }
  assert (FIN : newton_final jump (map view_measurement sample) (map view_T_G_B sample) (move (0, 0, 0)) = {| alpha := 0; beta := 0; rho := 1 / 2; norm_last := 0; norm_now := 0 |}).
  { change (newton_loop 10 jump cs ms {| alpha := 0; beta := 0; rho := 0; norm_last := 1000; norm_now := 100 |} = {| alpha := 0; beta := 0; rho := 1 / 2; norm_last := 0; norm_now := 0 |}).
    cbn [newton_loop norm_last norm_now]. destruct (Rlt_dec (/ 10 ^ 5) (1000 - 100)) as [_|C]; [|exfalso; apply C; simpl; lra]. rewrite ST1. cbn [newton_loop norm_last norm_now]. destruct (Rlt_dec (/ 10 ^ 5) (100 - 1 / 4)) as [_|C]; [|exfalso; apply C; simpl; lra].
    rewrite ST2. cbn [newton_loop norm_last norm_now]. destruct (Rlt_dec (/ 10 ^ 5) (1 / 4 - 0)) as [_|C]; [|exfalso; apply C; simpl; lra]. rewrite ST3. cbn [newton_loop norm_last norm_now]. destruct (Rlt_dec (/ 10 ^ 5) (0 - 0)) as [C|_]; [exfalso; assert (0 < / 10 ^ 5) by (apply Rinv_0_lt_compat, pow_lt; lra); lra|]. reflexivity. }
  split.
  - transitivity (Ok (Successful, newton_point (move (0, 0, 0)) (move (0, 0, 0)) (newton_final jump (map view_measurement sample) (map view_T_G_B sample) (move (0, 0, 0))))); [reflexivity|]. rewrite FIN. unfold newton_point. cbn [rho]. destruct (Req_EM_T (1 / 2) 0) as [E|_]; [lra|]. do 3 f_equal. cbn. apply vec3_eq; field.
  - unfold ms. rewrite FIN. intros v [<-|[<-|[]]]; (split; [cbn; lra|]); unfold residual; cbn; f_equal; field.
Qed.
Example trx_jacobian_example : snd (predicted (identity3, (1, 0, 0)) 0 0 1) <> 0.
Proof. cbn. lra. Qed.
Example trx_too_few_example : linear_of [hd {| view_T_G_B := move (0, 0, 0); view_T_B_C := move (0, 0, 0); view_measurement := (0, 0) |} sample] (move (0, 0, 0)) = Ok (TooFewMeasurements, None).
Proof. reflexivity. Qed.

Print Assumptions trx_too_few.
Print Assumptions trx_linear_exact_partial.
Print Assumptions trx_multi_cam_exact_partial.
Print Assumptions trx_bearing_exact_partial.
Print Assumptions trx_linear_exact_conditioned.
Print Assumptions trx_multi_cam_exact_conditioned.
Print Assumptions trx_bearing_exact_conditioned.
Print Assumptions trx_bearing_unobservable.
Print Assumptions trx_linear_unobservable_partial.
Print Assumptions trx_multi_cam_unobservable_partial.
Print Assumptions trx_linear_unobservable_refuted.
Print Assumptions trx_linear_least_squares.
Print Assumptions trx_multi_cam_least_squares.
Print Assumptions trx_bearing_least_squares.
Print Assumptions trx_variants_agree.
Print Assumptions trx_line_distance.
Print Assumptions trx_track_exact_partial.
Print Assumptions trx_track_refuted.
Print Assumptions trx_fast_track_refuted.
Print Assumptions trx_newton_exact_partial.
Print Assumptions trx_newton_refuted.
Print Assumptions trx_newton_unobservable_refuted.
Print Assumptions trx_newton_jacobian.
