(** C105: the filters of line segments and the intersection of lines. *)
From Coq Require Import ZArith Reals List Bool Lia Lra Permutation.
From Verif Require Import OrientModel OrientSpec OrientProps LsdFilterModel LsdFilterSpec.
Import ListNotations.
Local Open Scope R_scope.

(** ** The loop *)
Lemma loop_from (keep : vec4 -> bool) (l : list vec4) : forall f n, fold_left (fun '(f, num_filtered) v => if keep v then (f ++ [v], num_filtered) else (f, S num_filtered)) l (f, n) = (f ++ fst (loop keep l), (n + snd (loop keep l))%nat).
Proof.
  unfold loop. induction l as [|v l IH]; intros f n; cbn [fold_left].
  - cbn [fst snd]. rewrite app_nil_r, Nat.add_0_r. reflexivity.
  - destruct (keep v).
    + rewrite IH, (IH [v]). cbn [app fst snd]. rewrite <- app_assoc. reflexivity.
    + rewrite IH, (IH [] 1%nat). cbn [app fst snd]. rewrite Nat.add_succ_l, Nat.add_succ_r. reflexivity.
Qed.
Lemma loop_cons keep v l : loop keep (v :: l) = if keep v then (v :: fst (loop keep l), snd (loop keep l)) else (fst (loop keep l), S (snd (loop keep l))).
Proof. unfold loop at 1. cbn [fold_left]. destruct (keep v); rewrite loop_from; reflexivity. Qed.
Lemma loop_chosen keep (P : segment -> Prop) : (forall v, keep v = true <-> P v) -> forall l, chosen P l (fst (loop keep l)) (snd (loop keep l)).
Proof.
  intros K. induction l as [|v l IH]; [constructor|]. rewrite loop_cons. destruct (keep v) eqn:E; cbn [fst snd].
  - constructor; [apply K; exact E|exact IH].
  - constructor; [intros H; apply K in H; congruence|exact IH].
Qed.
Lemma run_eq keep vector lines : run keep vector lines = (copy_to vector (fst (loop keep (visited lines))), snd (loop keep (visited lines))).
Proof. unfold run. destruct (loop _ _). reflexivity. Qed.
Lemma elements_copy vector f : elements (copy_to vector f) = f.
Proof. destruct vector; reflexivity. Qed.
Lemma visited_vector l : visited (Vector l) = l.
Proof. unfold visited. cbn. apply firstn_all. Qed.
Lemma run_vector keep (P : segment -> Prop) vector l : (forall v, keep v = true <-> P v) -> chosen P l (elements (fst (run keep vector (Vector l)))) (snd (run keep vector (Vector l))).
Proof. intros K. rewrite run_eq. cbn [fst snd]. rewrite elements_copy, visited_vector. apply loop_chosen. exact K. Qed.

(** ** Lengths *)
Lemma len_has_length v : has_length v (len v).
Proof.
  destruct v as [[[x1 y1] x2] y2]. cbn. split; [apply sqrt_pos|]. rewrite sqrt_def; [|apply (IZR_le 0), Z.add_nonneg_nonneg; apply Z.square_nonneg]. rewrite plus_IZR, !mult_IZR, !minus_IZR. ring.
Qed.
Lemma has_length_unique v d : has_length v d -> d = len v.
Proof.
  intros H. pose proof (len_has_length v) as L. destruct v as [[[x1 y1] x2] y2]. cbn [has_length] in H, L. destruct H as [H E], L as [L F]. apply Rsqr_inj; [exact H|exact L|]. unfold Rsqr. congruence.
Qed.
(** A length limit; -1 is none. *)
Definition limit (r : R) : option R := if Req_EM_T r (-1) then None else Some r.
Lemma size_in_limits a b v : size_in a b v = true <-> within_limits (limit a) (limit b) v.
Proof.
  unfold size_in, within_limits, limit, eq, le, lt. split.
  - intros H. exists (len v). split; [apply len_has_length|]. apply andb_true_iff in H as [H1 H2]. split.
    + intros m. destruct (Req_EM_T a (-1)); [discriminate|]. intros [= <-]. cbn in H1. destruct (Rle_dec a (len v)); [assumption|discriminate].
    + intros m. destruct (Req_EM_T b (-1)); [discriminate|]. intros [= <-]. cbn in H2. destruct (Rlt_dec (len v) b); [assumption|discriminate].
  - intros (d & L & H1 & H2). apply has_length_unique in L as ->. apply andb_true_iff. split.
    + destruct (Req_EM_T a (-1)); [reflexivity|]. cbn. destruct (Rle_dec a (len v)) as [|N]; [reflexivity|]. exfalso. apply N, H1. reflexivity.
    + destruct (Req_EM_T b (-1)); [reflexivity|]. cbn. destruct (Rlt_dec (len v) b) as [|N]; [reflexivity|]. exfalso. apply N, H2. reflexivity.
Qed.

(** ** Angles *)
Definition halved (x y : R) : R := let a := fast_atan2 y x * (180 / PI) in if Rle_dec 180 a then a - 180 else a.
Lemma halved_direction x y : x <> 0 \/ y <> 0 -> 0 <= halved x y < 180 /\ exists t, t <> 0 /\ x = t * cos (halved x y * (PI / 180)) /\ y = t * sin (halved x y * (PI / 180)).
Proof.
  pose proof PI_RGT_0 as PP. intros N. unfold halved. destruct (fast_atan2_direction _ _ N) as ([B1 B2] & r & R & E1 & E2). set (D := fast_atan2 _ _) in *. cbv zeta.
  assert (D * (180 / PI) < 360) as U by (replace 360 with (2 * PI * (180 / PI)) by (field; lra); apply Rmult_lt_compat_r; [apply Rdiv_lt_0_compat; lra|exact B2]).
  assert (0 <= D * (180 / PI)) as L by (apply Rmult_le_pos; [exact B1|left; apply Rdiv_lt_0_compat; lra]).
  destruct (Rle_dec 180 (D * (180 / PI))); (split; [lra|]).
  - exists (- r). replace ((D * (180 / PI) - 180) * (PI / 180)) with (D - PI) by (field; lra). rewrite cos_minus, sin_minus, cos_PI, sin_PI. split; [lra|]. split; lra.
  - exists r. replace (D * (180 / PI) * (PI / 180)) with D by (field; lra). split; [lra|]. split; assumption.
Qed.
Lemma halved_unique x y a t : 0 <= a < 180 -> t <> 0 -> x = t * cos (a * (PI / 180)) -> y = t * sin (a * (PI / 180)) -> halved x y = a.
Proof.
  pose proof PI_RGT_0 as PP. intros A T X Y.
  assert (0 <= a * (PI / 180)) as L by (apply Rmult_le_pos; [lra|left; apply Rdiv_lt_0_compat; lra]).
  assert (a * (PI / 180) < PI) as U. { replace PI with (180 * (PI / 180)) at 2 by field. apply Rmult_lt_compat_r; [apply Rdiv_lt_0_compat; lra|lra]. }
  assert (x <> 0 \/ y <> 0) as N. { destruct (Req_dec x 0) as [X0|]; [|auto]. destruct (Req_dec y 0) as [Y0|]; [|auto]. exfalso. rewrite X0 in X. rewrite Y0 in Y. pose proof (sin2_cos2 (a * (PI / 180))) as S. unfold Rsqr in S. destruct (Rmult_integral _ _ (eq_sym X)) as [|C]; [contradiction|]. destruct (Rmult_integral _ _ (eq_sym Y)) as [|Sn]; [contradiction|]. rewrite C, Sn in S. lra. }
  pose proof (fast_atan2_direction _ _ N) as D. unfold halved. destruct (Rlt_dec 0 t) as [P|P].
  - rewrite (direction_unique x y (fast_atan2 y x) (a * (PI / 180)) D); [|split; [lra|exists t; auto]]. replace (a * (PI / 180) * (180 / PI)) with a by (field; lra). cbv zeta. destruct (Rle_dec 180 a); lra.
  - rewrite (direction_unique x y (fast_atan2 y x) (a * (PI / 180) + PI) D); [|split; [lra|exists (- t); rewrite neg_cos, neg_sin; split; [lra|split; lra]]]. replace ((a * (PI / 180) + PI) * (180 / PI)) with (a + 180) by (field; lra). cbv zeta. destruct (Rle_dec 180 (a + 180)); lra.
Qed.
Lemma angle_of_eq x1 y1 x2 y2 : angle_of (x1, y1, x2, y2) = halved (IZR x2 - IZR x1) (IZR y2 - IZR y1).
Proof. unfold angle_of. rewrite !minus_IZR. reflexivity. Qed.
Lemma halved_zero : halved 0 0 = 0.
Proof. unfold halved. rewrite fast_atan2_zero, Rmult_0_l. cbv zeta. destruct (Rle_dec 180 0); lra. Qed.
Lemma angle_of_spec v a : has_angle v a <-> a = angle_of v.
Proof.
  destruct v as [[[x1 y1] x2] y2]. rewrite angle_of_eq. unfold has_angle. split.
  - intros (A & [(<- & <- & ->) | (t & T & X & Y)]); [|symmetry; apply (halved_unique _ _ a t); assumption]. rewrite !Rminus_diag_eq by reflexivity. symmetry. exact halved_zero.
  - intros ->. destruct (Req_dec (IZR x2 - IZR x1) 0) as [X|X]; [destruct (Req_dec (IZR y2 - IZR y1) 0) as [Y|Y]|].
    + rewrite X, Y, halved_zero. split; [lra|]. left. split; [|split; [|reflexivity]]; apply eq_IZR; lra.
    + destruct (halved_direction (IZR x2 - IZR x1) _ (or_intror Y)) as (A & t & T & E1 & E2). split; [exact A|]. right. exists t. auto.
    + destruct (halved_direction _ (IZR y2 - IZR y1) (or_introl X)) as (A & t & T & E1 & E2). split; [exact A|]. right. exists t. auto.
Qed.
Lemma angle_in_between a b v : angle_in a b v = true <-> angle_between a b v.
Proof.
  unfold angle_in, angle_between, le. rewrite andb_true_iff. split.
  - intros [H1 H2]. exists (angle_of v). split; [apply angle_of_spec; reflexivity|]. destruct (Rle_dec a (angle_of v)); [|discriminate]. destruct (Rle_dec (angle_of v) b); [|discriminate]. lra.
  - intros (d & D & B). apply angle_of_spec in D as ->. destruct (Rle_dec a (angle_of v)); [|lra]. destruct (Rle_dec (angle_of v) b); [auto|lra].
Qed.

(** ** The filters of vectors *)
(** filterSize keeps the segments within the limits, in order, and returns the number of the others. *)
Theorem lax_size vector lines min max :
  let r := filter_size vector (Vector lines) min max in chosen (within_limits (limit min) (limit max)) lines (elements (fst r)) (snd r).
Proof. apply run_vector. apply size_in_limits. Qed.
Theorem lax_angle vector lines min max :
  (let r := retain_angle vector (Vector lines) min max in chosen (angle_between min max) lines (elements (fst r)) (snd r)) /\
  (let r := filter_out_angle vector (Vector lines) min max in chosen (fun s => ~ angle_between min max s) lines (elements (fst r)) (snd r)).
Proof.
  split; apply run_vector; intros v; [apply angle_in_between|]. rewrite negb_true_iff, <- angle_in_between. destruct (angle_in min max v); split; congruence.
Qed.
(** The two filters by angle share out the segments. *)
Theorem lax_opposite vector lines min max :
  let i := retain_angle vector (Vector lines) min max in
  let o := filter_out_angle vector (Vector lines) min max in
  Permutation lines (elements (fst i) ++ elements (fst o)) /\ snd i = length (elements (fst o)) /\ snd o = length (elements (fst i)).
Proof.
  unfold retain_angle, filter_out_angle. rewrite !run_eq. cbn [fst snd]. rewrite !elements_copy, visited_vector. induction lines as [|v l (IH & I1 & I2)]; [repeat split; constructor|]. rewrite !loop_cons. destruct (angle_in min max v); cbn [negb fst snd length app].
  - split; [constructor; exact IH|]. split; [exact I1|]. rewrite I2. reflexivity.
  - split; [apply Permutation_cons_app; exact IH|]. split; [rewrite I1; reflexivity|exact I2].
Qed.
(** The direction of the segments does not matter. *)
Lemma has_length_reversed s d : has_length (reversed s) d <-> has_length s d.
Proof. destruct s as [[[xa ya] xb] yb]. cbn [reversed has_length]. replace ((IZR xa - IZR xb) ^ 2 + (IZR ya - IZR yb) ^ 2) with ((IZR xb - IZR xa) ^ 2 + (IZR yb - IZR ya) ^ 2) by ring. reflexivity. Qed.
Lemma has_angle_reversed s a : has_angle s a -> has_angle (reversed s) a.
Proof.
  destruct s as [[[xa ya] xb] yb]. cbn [reversed has_angle]. intros (A & [(E1 & E2 & E3) | (t & T & X & Y)]); (split; [exact A|]); [left; auto|right]. exists (- t). split; [lra|]. split; lra.
Qed.
Lemma reversed_twice s : reversed (reversed s) = s.
Proof. destruct s as [[[xa ya] xb] yb]. reflexivity. Qed.
Lemma chosen_map (f : segment -> segment) (P : segment -> Prop) l out n : (forall v, P (f v) <-> P v) -> chosen P l out n -> chosen P (map f l) (map f out) n.
Proof. intros F C. induction C as [|v l out n Pv C IH|v l out n Pv C IH]; cbn [map]; constructor; auto; rewrite F; exact Pv. Qed.
Lemma chosen_unique (P : segment -> Prop) l out n : chosen P l out n -> forall out' n', chosen P l out' n' -> out' = out /\ n' = n.
Proof.
  intros C. induction C as [|v l out n Pv C IH|v l out n Pv C IH]; intros out' n' C'; inversion C' as [|v' l' out'' n'' Pv' C'' E1 E2|v' l' out'' n'' Pv' C'' E1 E2]; subst; auto; try contradiction; destruct (IH _ _ C'') as [-> ->]; auto.
Qed.
Theorem lax_reverse vector lines a b :
  (elements (fst (filter_size vector (Vector (map reversed lines)) a b)) = map reversed (elements (fst (filter_size vector (Vector lines) a b)))) /\
  (elements (fst (retain_angle vector (Vector (map reversed lines)) a b)) = map reversed (elements (fst (retain_angle vector (Vector lines) a b)))) /\
  (elements (fst (filter_out_angle vector (Vector (map reversed lines)) a b)) = map reversed (elements (fst (filter_out_angle vector (Vector lines) a b)))).
Proof.
  assert (forall v, within_limits (limit a) (limit b) (reversed v) <-> within_limits (limit a) (limit b) v) as S. { intros v. unfold within_limits. split; intros (d & D & H); exists d; (split; [apply has_length_reversed; exact D|exact H]). }
  assert (forall v, angle_between a b (reversed v) <-> angle_between a b v) as T. { intros v. unfold angle_between. split; intros (d & D & H); exists d; (split; [|exact H]); [rewrite <- (reversed_twice v)|]; apply has_angle_reversed; exact D. }
  split; [|split].
  - exact (proj1 (chosen_unique _ _ _ _ (chosen_map reversed _ _ _ _ S (lax_size vector lines a b)) _ _ (lax_size vector (map reversed lines) a b))).
  - exact (proj1 (chosen_unique _ _ _ _ (chosen_map reversed _ _ _ _ T (proj1 (lax_angle vector lines a b))) _ _ (proj1 (lax_angle vector (map reversed lines) a b)))).
  - apply (proj1 (chosen_unique _ _ _ _ (chosen_map reversed _ _ _ _ (fun v => not_iff_compat (T v)) (proj2 (lax_angle vector lines a b))) _ _ (proj2 (lax_angle vector (map reversed lines) a b)))).
Qed.
(** The detector of the library returns exactly the segments of the minimal length, as the integers they were, in order, and nothing of what was in [lines] before. *)
Theorem lax_detect px raw before :
  exists kept n, chosen (fun s => exists d, has_length s d /\ INR px <= d) raw kept n /\
  detect px raw before = map (fun '(xa, ya, xb, yb) => ((IZR xa, IZR ya), (IZR xb, IZR yb))) kept.
Proof.
  exists (elements (fst (filter_size true (Vector raw) (INR px) (-1)))), (snd (filter_size true (Vector raw) (INR px) (-1))). split; [|reflexivity]. apply run_vector. intros v. rewrite size_in_limits. unfold within_limits, limit. pose proof (pos_INR px). destruct (Req_EM_T (INR px) (-1)); [lra|]. destruct (Req_EM_T (-1) (-1)); [|contradiction]. split; intros (d & D & H'); exists d; (split; [exact D|]).
  - apply H'. reflexivity.
  - split; intros m; [|discriminate]. intros [= <-]. exact H'.
Qed.
(** With a matrix of one column, which is what detect and the filters store into a cv::Mat, only the first segment is looked at: all others are dropped and not counted. *)
Theorem lax_matrix_refuted : forall s others,
  filter_size false (copy_to false (s :: others)) (-1) (-1) = (Matrix 1 [s], 0%nat) /\
  exists lines, length lines = 2%nat /\ ~ (let r := filter_size false (copy_to false lines) 0 (-1) in chosen (within_limits (Some 0) None) lines (elements (fst r)) (snd r)).
Proof.
  assert (forall s others m, m <= 0 -> filter_size false (copy_to false (s :: others)) m (-1) = (Matrix 1 [s], 0%nat)) as H.
  { intros s others m M. unfold filter_size, run, visited. cbn [copy_to width elements firstn]. unfold loop. cbn [fold_left]. replace (size_in m (-1) s) with true; [reflexivity|]. symmetry. apply size_in_limits. exists (len s). pose proof (len_has_length s) as L. split; [exact L|]. split; [|unfold limit; destruct (Req_EM_T (-1) (-1)); [discriminate|contradiction]]. intros k. unfold limit. destruct (Req_EM_T m (-1)); [discriminate|]. intros [= <-]. destruct s as [[[x1 y1] x2] y2]. destruct L. lra. }
  intros s others. split; [apply H; lra|]. exists [(0, 0, 30, 0); (0, 9, 40, 9)]%Z. split; [reflexivity|]. rewrite H by lra. cbn [elements fst snd]. intros C. inversion C as [|v l out n Pv C' E1 E2|v l out n Pv C' E1 E2]; subst. inversion C'.
Qed.
(** A horizontal segment has the angle 0 and not 180: ranges up to 180 do not contain it. *)
Theorem lax_horizontal vector xa xb y min : 0 < min -> elements (fst (retain_angle vector (Vector [(xa, y, xb, y)]) min 180)) = [].
Proof.
  intros M. pose proof (proj1 (lax_angle vector [(xa, y, xb, y)] min 180)) as C. cbv zeta in C. inversion C as [|v l out n Pv C' E1 E2|v l out n Pv C' E1 E2]; subst.
  - exfalso. destruct Pv as (a & A & B). assert (has_angle (xa, y, xb, y) 0) as Z. { split; [lra|]. destruct (Z.eq_dec xa xb) as [-> | N]; [left; auto|right]. exists (IZR xb - IZR xa). rewrite Rmult_0_l, cos_0, sin_0. split; [|split; ring]. intros E. apply N. apply eq_IZR. lra. } apply angle_of_spec in A, Z. lra.
  - inversion C'. reflexivity.
Qed.

(** ** Intersections *)
Lemma trunc_cut r : cut_to (trunc r) r.
Proof.
  unfold cut_to, trunc. destruct (Rle_dec 0 r) as [P|P].
  - destruct (base_Int_part r) as [A B]. assert (0 <= IZR (Int_part r)) as N. { apply (IZR_le 0). apply Z.lt_succ_r, lt_IZR. rewrite succ_IZR. lra. } rewrite !Rabs_right by lra. split; [lra|]. apply Rmult_le_pos; assumption.
  - destruct (base_Int_part (- r)) as [A B]. assert (0 <= IZR (Int_part (- r))) as N. { apply (IZR_le 0). apply Z.lt_succ_r, lt_IZR. rewrite succ_IZR. lra. } rewrite opp_IZR, Rabs_Ropp, (Rabs_right (IZR _)), (Rabs_left r) by lra. split; [lra|]. replace (- IZR (Int_part (- r)) * r) with (IZR (Int_part (- r)) * - r) by ring. apply Rmult_le_pos; lra.
Qed.
Lemma on_line_eq s x y : is_line s -> on_line s x y <-> (let '(a, b, c) := find_eq_params s in IZR a * x + IZR b * y = IZR c).
Proof.
  destruct s as [[[xa ya] xb] yb]. unfold is_line, on_line, find_eq_params. intros N. rewrite plus_IZR, !mult_IZR, !minus_IZR. split.
  - intros (t & -> & ->). ring.
  - intros E. destruct (Z.eq_dec xa xb) as [<- | NX].
    + assert (IZR yb - IZR ya <> 0) as D by (intros D; apply N; f_equal; apply eq_IZR; lra). exists ((y - IZR ya) / (IZR yb - IZR ya)). split; [|field; exact D]. apply Rmult_eq_reg_l with (IZR yb - IZR ya); [|exact D]. lra.
    + assert (IZR xb - IZR xa <> 0) as D by (intros D; apply NX; apply eq_IZR; lra). exists ((x - IZR xa) / (IZR xb - IZR xa)). split; [field; exact D|]. apply Rmult_eq_reg_l with (IZR xb - IZR xa); [|exact D]. replace ((IZR xb - IZR xa) * (IZR ya + (x - IZR xa) / (IZR xb - IZR xa) * (IZR yb - IZR ya))) with ((IZR xb - IZR xa) * IZR ya + (x - IZR xa) * (IZR yb - IZR ya)) by (field; exact D). lra.
Qed.
(** intersection returns true exactly for two lines, neither of them a mere point, with a single common point; the coordinates stored are those of this point without their fractions. *)
Theorem lax_meet s u :
  (intersection s u <> None <-> is_line s /\ is_line u /\ exists x y, meet_at s u x y) /\
  (forall px py, intersection s u = Some (px, py) -> exists x y, meet_at s u x y /\ cut_to px x /\ cut_to py y).
Proof.
  assert (forall px py, intersection s u = Some (px, py) -> is_line s /\ is_line u /\ exists x y, meet_at s u x y /\ cut_to px x /\ cut_to py y) as F.
  { intros px py H. unfold intersection in H. destruct (find_eq_params s) as [[a1 b1] c1] eqn:E1, (find_eq_params u) as [[a2 b2] c2] eqn:E2. destruct (Z.eqb_spec (a1 * b2 - a2 * b1) 0) as [|D]; [discriminate|]. injection H as <- <-.
    assert (is_line s) as L1. { destruct s as [[[xa ya] xb] yb]. cbn in E1 |- *. injection E1 as <- <- <-. intros [= -> ->]. apply D. ring. }
    assert (is_line u) as L2. { destruct u as [[[xa ya] xb] yb]. cbn in E2 |- *. injection E2 as <- <- <-. intros [= -> ->]. apply D. ring. }
    assert (IZR (a1 * b2 - a2 * b1) <> 0) as DR by (intros E; apply D; apply eq_IZR; exact E).
    split; [exact L1|]. split; [exact L2|]. exists (IZR (b2 * c1 - b1 * c2) / IZR (a1 * b2 - a2 * b1)), (IZR (a1 * c2 - a2 * c1) / IZR (a1 * b2 - a2 * b1)).
    split; [|split; apply trunc_cut]. unfold meet_at. rewrite (on_line_eq s _ _ L1), (on_line_eq u _ _ L2), E1, E2. rewrite !minus_IZR, !mult_IZR in *. split; [field; exact DR|]. split; [field; exact DR|]. intros x' y' H1 H2. rewrite (on_line_eq s _ _ L1), E1 in H1. rewrite (on_line_eq u _ _ L2), E2 in H2. split; (apply Rmult_eq_reg_l with (IZR a1 * IZR b2 - IZR a2 * IZR b1); [|exact DR]); rewrite <- H1, <- H2; field; exact DR. }
  split; [|intros px py H; destruct (F px py H) as (_ & _ & M); exact M]. split.
  - destruct (intersection s u) as [[px py]|] eqn:E; [intros _|contradiction]. destruct (F px py eq_refl) as (L1 & L2 & x & y & M & _). split; [exact L1|]. split; [exact L2|]. exists x, y. exact M.
  - intros (L1 & L2 & x & y & O1 & O2 & M) E. unfold intersection in E. destruct (find_eq_params s) as [[a1 b1] c1] eqn:E1, (find_eq_params u) as [[a2 b2] c2] eqn:E2. destruct (Z.eqb_spec (a1 * b2 - a2 * b1) 0) as [D|]; [|discriminate].
    rewrite (on_line_eq s _ _ L1), E1 in O1. rewrite (on_line_eq u _ _ L2), E2 in O2. apply (f_equal IZR) in D. rewrite minus_IZR, !mult_IZR in D.
    assert (IZR a1 <> 0 \/ IZR b1 <> 0) as N. { destruct s as [[[xa ya] xb] yb]. cbn in E1, L1. injection E1 as <- <- <-. rewrite !minus_IZR. destruct (Z.eq_dec ya yb) as [-> | Y]; [|left; intros Q; apply Y; apply eq_IZR; lra]. right. intros Q. apply L1. f_equal. apply eq_IZR. lra. }
    assert (x + IZR b1 = x /\ y - IZR a1 = y) as [Q1 Q2]; [|lra].
    apply M; [rewrite (on_line_eq s _ _ L1), E1; lra|rewrite (on_line_eq u _ _ L2), E2; lra].
Qed.
(** The point stored may be almost a pixel off and not on the lines. *)
Theorem lax_meet_refuted : exists s u px py x y, intersection s u = Some (px, py) /\ meet_at s u x y /\ / 2 < Rabs (IZR py - y) /\ ~ on_line s (IZR px) (IZR py).
Proof.
  exists (0, 0, 10, 9)%Z, (1, 0, 1, 5)%Z. destruct (intersection (0, 0, 10, 9)%Z (1, 0, 1, 5)%Z) as [[px py]|] eqn:E; [|discriminate]. destruct (proj2 (lax_meet _ _) _ _ E) as (x & y & M & C1 & C2). exists px, py, x, y. split; [reflexivity|]. split; [exact M|].
  destruct M as ((t & X1 & Y1) & (r & X2 & Y2) & _). assert (t = / 10) by lra. assert (x = 1) as -> by lra. assert (y = 9 / 10) as -> by lra.
  destruct C1 as [[A1 B1] S1], C2 as [[A2 B2] S2]. rewrite Rabs_R1 in A1, B1. rewrite (Rabs_right (9 / 10)) in A2, B2 by lra.
  assert (py = 0)%Z as ->. { rewrite <- abs_IZR in A2. assert (Z.abs py < 1)%Z by (apply lt_IZR; lra). lia. }
  assert (px = 1)%Z as ->. { rewrite <- abs_IZR in A1, B1. assert (Z.abs px <= 1)%Z by (apply le_IZR; lra). assert (0 < Z.abs px)%Z by (apply lt_IZR; lra). assert (0 <= px)%Z by (apply le_IZR; lra). lia. }
  split; [rewrite Rabs_left; lra|]. intros (q & Q1 & Q2). lra.
Qed.
(** A point on a line is reported as parallel to it. *)
Theorem lax_point s xa ya : intersection s (xa, ya, xa, ya) = None /\ intersection (xa, ya, xa, ya) s = None.
Proof.
  assert (forall o : option (Z * Z), ~ (o <> None) -> o = None) as D by (intros [o|] H; [exfalso; apply H; discriminate|reflexivity]).
  split; apply D; intros H; apply (proj1 (lax_meet _ _)) in H as (L1 & L2 & _); [apply L2|apply L1]; reflexivity.
Qed.

(** Examples *)
Example lax_size_ex : chosen (within_limits (Some 20) None) [(0, 0, 30, 0); (0, 0, 3, 4)]%Z [(0, 0, 30, 0)]%Z 1.
Proof.
  constructor; [exists 30; split; [cbn; lra|]; split; intros m; [intros [= <-]; lra|discriminate]|]. constructor; [|constructor]. intros (d & [D E] & H & _). specialize (H 20 eq_refl). cbn in E. assert (d * d = 25) by lra. assert (20 * 20 <= d * d) by (apply Rmult_le_compat; lra). lra.
Qed.
Example lax_angle_ex : angle_between 80 100 (5, 9, 5, 2)%Z /\ ~ angle_between 80 100 (2, 5, 9, 5)%Z.
Proof.
  split.
  - exists 90. split; [|lra]. split; [lra|]. right. exists (-7). replace (90 * (PI / 180)) with (PI / 2) by lra. rewrite cos_PI2, sin_PI2. split; [lra|]. split; lra.
  - intros (a & A & B). apply angle_of_spec in A. assert (has_angle (2, 5, 9, 5)%Z 0) as Z. { split; [lra|]. right. exists 7. rewrite Rmult_0_l, cos_0, sin_0. split; [lra|]. split; lra. } apply angle_of_spec in Z. lra.
Qed.
Example lax_meet_ex : is_line (0, 0, 10, 9)%Z /\ is_line (1, 0, 1, 5)%Z /\ intersection (0, 0, 10, 9)%Z (1, 0, 1, 5)%Z <> None /\ intersection (0, 0, 10, 9)%Z (1, 1, 11, 10)%Z = None.
Proof. split; [discriminate|]. split; [discriminate|]. split; [discriminate|]. reflexivity. Qed.
Print Assumptions lax_size.
Print Assumptions lax_angle.
Print Assumptions lax_opposite.
Print Assumptions lax_reverse.
Print Assumptions lax_detect.
Print Assumptions lax_matrix_refuted.
Print Assumptions lax_horizontal.
Print Assumptions lax_meet.
Print Assumptions lax_meet_refuted.
Print Assumptions lax_point.
