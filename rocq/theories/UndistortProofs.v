(** Lemmas for the undistortion of images. *)
From Coq Require Import Reals ZArith List Bool Lia Lra Arith.
From Flocq Require Import Core.
From Verif Require Import DistortionModel CameraModel PredictModel UndistortModel UndistortSpec.
Import ListNotations.
Local Open Scope R_scope.

(** ** Bounds *)
Lemma fold_max {A} (get : bounds -> R) (sel : A -> bool) (val : A -> R) (step : bounds -> A -> bounds) :
  (forall b q, get (step b q) = if sel q then Rmax (get b) (val q) else get b) -> forall l b,
  get b <= get (fold_left step l b) /\ (forall q, In q l -> sel q = true -> val q <= get (fold_left step l b)) /\
  (get (fold_left step l b) = get b \/ exists q, In q l /\ sel q = true /\ get (fold_left step l b) = val q).
Proof.
  intros H l. induction l as [|q l IH]; intros b; cbn [fold_left]; [split; [lra|split; [intros q []|left; reflexivity]]|].
  destruct (IH (step b q)) as (H1 & H2 & H3). rewrite (H b q) in H1, H3. split; [|split].
  - destruct (sel q); [|exact H1]. pose proof (Rmax_l (get b) (val q)). lra.
  - intros q' [<-|Hq] S; [|apply H2; assumption]. rewrite S in H1. pose proof (Rmax_r (get b) (val q)). lra.
  - destruct H3 as [H3|(q' & Hq & S & E)]; [|right; exists q'; split; [right; exact Hq|split; assumption]]. destruct (sel q) eqn:S; [|left; exact H3].
    unfold Rmax in H3. destruct (Rle_dec (get b) (val q)); [right; exists q; split; [left; reflexivity|split; assumption]|left; exact H3].
Qed.
Lemma fold_min {A} (get : bounds -> R) (sel : A -> bool) (val : A -> R) (step : bounds -> A -> bounds) :
  (forall b q, get (step b q) = if sel q then Rmin (get b) (val q) else get b) -> forall l b,
  get (fold_left step l b) <= get b /\ (forall q, In q l -> sel q = true -> get (fold_left step l b) <= val q) /\
  (get (fold_left step l b) = get b \/ exists q, In q l /\ sel q = true /\ get (fold_left step l b) = val q).
Proof.
  intros H l. induction l as [|q l IH]; intros b; cbn [fold_left]; [split; [lra|split; [intros q []|left; reflexivity]]|].
  destruct (IH (step b q)) as (H1 & H2 & H3). rewrite (H b q) in H1, H3. split; [|split].
  - destruct (sel q); [|exact H1]. pose proof (Rmin_l (get b) (val q)). lra.
  - intros q' [<-|Hq] S; [|apply H2; assumption]. rewrite S in H1. pose proof (Rmin_r (get b) (val q)). lra.
  - destruct H3 as [H3|(q' & Hq & S & E)]; [|right; exists q'; split; [right; exact Hq|split; assumption]]. destruct (sel q) eqn:S; [|left; exact H3].
    unfold Rmin in H3. destruct (Rle_dec (get b) (val q)); [left; exact H3|right; exists q; split; [left; reflexivity|split; assumption]].
Qed.
Lemma In_samples norm s x y p : In (x, y, p) (samples norm s) <-> (x <= 8 /\ y <= 8)%nat /\ p = norm (sample s x y).
Proof.
  unfold samples. rewrite in_flat_map. split.
  - intros (y' & Hy & H). apply in_map_iff in H as (x' & E & Hx). injection E as <- <- <-. apply in_seq in Hy. apply in_seq in Hx. split; [lia|reflexivity].
  - intros [[Hx Hy] ->]. exists y. split; [apply in_seq; lia|]. apply in_map_iff. exists x. split; [reflexivity|]. apply in_seq. lia.
Qed.
Lemma flt_max_value : flt_max = greatest.
Proof. unfold flt_max, greatest. replace (2 ^ 127) with (2 ^ 23 * 2 ^ 104) by (rewrite <- pow_add; reflexivity). replace ((2 - / 2 ^ 23) * (2 ^ 23 * 2 ^ 104)) with ((2 * 2 ^ 23 - 1) * 2 ^ 104) by (field; apply pow_nonzero; lra). rewrite !pow_IZR. rewrite <- mult_IZR, <- minus_IZR, <- mult_IZR. f_equal. Qed.
Lemma flt_max_pos : 0 < flt_max.
Proof.
  unfold flt_max. apply Rmult_lt_0_compat; [|apply pow_lt; lra]. assert (/ 2 ^ 23 <= 1); [|lra]. rewrite <- Rinv_1. apply Rinv_le_contravar; [lra|]. apply pow_R1_Rle. lra.
Qed.
Lemma sample_grid s x y : sample s x y = grid_point s x y.
Proof.
  unfold sample, grid_point. rewrite !INR_IZR_INZ, <- !mult_IZR. rewrite !(Zfloor_div _ 8) by lia. reflexivity.
Qed.
Lemma abs_bound a m : Rabs a <= m -> - m <= a <= m.
Proof. unfold Rabs. destruct (Rcase_abs a); lra. Qed.

Section Bounds.
Variables (norm : vec2 -> vec2) (s : image_size).
Let b := fold_left bounds_step (samples norm s) no_bounds.
Lemma max_of (get : bounds -> R) (sel : nat * nat * vec2 -> bool) (val : nat * nat * vec2 -> R) : (forall (b : bounds) (q : nat * nat * vec2), get (bounds_step b q) = if sel q then Rmax (get b) (val q) else get b) -> get no_bounds = - flt_max ->
  (forall x y, (x <= 8 /\ y <= 8)%nat -> - flt_max <= val (x, y, norm (sample s x y))) ->
  (exists x y, (x <= 8 /\ y <= 8)%nat /\ sel (x, y, norm (sample s x y)) = true) ->
  is_max (fun a => exists x y, (x <= 8 /\ y <= 8)%nat /\ sel (x, y, norm (sample s x y)) = true /\ a = val (x, y, norm (sample s x y))) (get b).
Proof.
  intros H H0 HV (x0 & y0 & B0 & S0). destruct (fold_max get sel val bounds_step H (samples norm s) no_bounds) as (H1 & H2 & H3). fold b in H1, H2, H3. split.
  - destruct H3 as [E|([[x y] p] & I & S & E)].
    + exists x0, y0. split; [exact B0|]. split; [exact S0|]. pose proof (H2 (x0, y0, norm (sample s x0 y0))) as Q. specialize (HV x0 y0 B0). rewrite E, H0 in *.
      apply Rle_antisym; [exact HV|]. apply Q; [|exact S0]. apply In_samples. split; [exact B0|reflexivity].
    + apply In_samples in I as [B ->]. exists x, y. repeat split; try lia; assumption.
  - intros a (x & y & B & S & ->). apply H2; [|exact S]. apply In_samples. split; [exact B|reflexivity].
Qed.
Lemma min_of (get : bounds -> R) (sel : nat * nat * vec2 -> bool) (val : nat * nat * vec2 -> R) : (forall (b : bounds) (q : nat * nat * vec2), get (bounds_step b q) = if sel q then Rmin (get b) (val q) else get b) -> get no_bounds = flt_max ->
  (forall x y, (x <= 8 /\ y <= 8)%nat -> val (x, y, norm (sample s x y)) <= flt_max) ->
  (exists x y, (x <= 8 /\ y <= 8)%nat /\ sel (x, y, norm (sample s x y)) = true) ->
  is_min (fun a => exists x y, (x <= 8 /\ y <= 8)%nat /\ sel (x, y, norm (sample s x y)) = true /\ a = val (x, y, norm (sample s x y))) (get b).
Proof.
  intros H H0 HV (x0 & y0 & B0 & S0). destruct (fold_min get sel val bounds_step H (samples norm s) no_bounds) as (H1 & H2 & H3). fold b in H1, H2, H3. split.
  - destruct H3 as [E|([[x y] p] & I & S & E)].
    + exists x0, y0. split; [exact B0|]. split; [exact S0|]. pose proof (H2 (x0, y0, norm (sample s x0 y0))) as Q. specialize (HV x0 y0 B0). rewrite E, H0 in *.
      apply Rle_antisym; [|exact HV]. apply Q; [|exact S0]. apply In_samples. split; [exact B0|reflexivity].
    + apply In_samples in I as [B ->]. exists x, y. repeat split; try lia; assumption.
  - intros a (x & y & B & S & ->). apply H2; [|exact S]. apply In_samples. split; [exact B|reflexivity].
Qed.
End Bounds.

(** The eight bounds, each the extreme of the samples of the grid, of one of its columns or of one of its rows. *)
Lemma is_max_ext P Q a : (forall x, P x <-> Q x) -> is_max P a -> is_max Q a.
Proof. intros H [H1 H2]. split; [apply H; exact H1|]. intros x Hx. apply H2, H. exact Hx. Qed.
Lemma is_min_ext P Q a : (forall x, P x <-> Q x) -> is_min P a -> is_min Q a.
Proof. intros H [H1 H2]. split; [apply H; exact H1|]. intros x Hx. apply H2, H. exact Hx. Qed.
Definition px (q : nat * nat * vec2) : R := fst (snd q).
Definition py (q : nat * nat * vec2) : R := snd (snd q).
Definition at_x (k : nat) (q : nat * nat * vec2) : bool := (fst (fst q) =? k)%nat.
Definition at_y (k : nat) (q : nat * nat * vec2) : bool := (snd (fst q) =? k)%nat.
Lemma bounds_ok norm s : moderate norm s -> let b := fold_left bounds_step (samples norm s) no_bounds in
  is_min (xs_of norm s (fun _ => True)) (o_x0 b) /\ is_max (xs_of norm s (fun _ => True)) (o_x1 b) /\
  is_min (ys_of norm s (fun _ => True)) (o_y0 b) /\ is_max (ys_of norm s (fun _ => True)) (o_y1 b) /\
  is_max (xs_of norm s (fun x => x = 0%nat)) (i_x0 b) /\ is_min (xs_of norm s (fun x => x = 8%nat)) (i_x1 b) /\
  is_max (ys_of norm s (fun y => y = 0%nat)) (i_y0 b) /\ is_min (ys_of norm s (fun y => y = 8%nat)) (i_y1 b).
Proof.
  intros M b.
  assert (forall x y, (x <= 8 /\ y <= 8)%nat -> - flt_max <= px (x, y, norm (sample s x y)) <= flt_max) as BX by (intros x y B; rewrite sample_grid, flt_max_value; apply abs_bound, M, B).
  assert (forall x y, (x <= 8 /\ y <= 8)%nat -> - flt_max <= py (x, y, norm (sample s x y)) <= flt_max) as BY by (intros x y B; rewrite sample_grid, flt_max_value; apply abs_bound, M, B).
  split; [|split; [|split; [|split; [|split; [|split; [|split]]]]]].
  - eapply is_min_ext; [|apply (min_of norm s o_x0 (fun _ => true) px); [intros ? [[x y] [u v]]; reflexivity|reflexivity|intros x y B; apply BX, B|exists 0%nat, 0%nat; split; [lia|reflexivity]]].
    intros a. unfold xs_of. split; intros (x & y & B & _ & ->); exists x, y; rewrite ?sample_grid; repeat split; lia.
  - eapply is_max_ext; [|apply (max_of norm s o_x1 (fun _ => true) px); [intros ? [[x y] [u v]]; reflexivity|reflexivity|intros x y B; apply BX, B|exists 0%nat, 0%nat; split; [lia|reflexivity]]].
    intros a. unfold xs_of. split; intros (x & y & B & _ & ->); exists x, y; rewrite ?sample_grid; repeat split; lia.
  - eapply is_min_ext; [|apply (min_of norm s o_y0 (fun _ => true) py); [intros ? [[x y] [u v]]; reflexivity|reflexivity|intros x y B; apply BY, B|exists 0%nat, 0%nat; split; [lia|reflexivity]]].
    intros a. unfold ys_of. split; intros (x & y & B & _ & ->); exists x, y; rewrite ?sample_grid; repeat split; lia.
  - eapply is_max_ext; [|apply (max_of norm s o_y1 (fun _ => true) py); [intros ? [[x y] [u v]]; reflexivity|reflexivity|intros x y B; apply BY, B|exists 0%nat, 0%nat; split; [lia|reflexivity]]].
    intros a. unfold ys_of. split; intros (x & y & B & _ & ->); exists x, y; rewrite ?sample_grid; repeat split; lia.
  - eapply is_max_ext; [|apply (max_of norm s i_x0 (at_x 0) px); [intros ? [[x y] [u v]]; reflexivity|reflexivity|intros x y B; apply BX, B|exists 0%nat, 0%nat; split; [lia|reflexivity]]].
    intros a. unfold xs_of, at_x. cbn [fst]. split; intros (x & y & B & S & ->); exists x, y; (split; [exact B|]); (split; [apply Nat.eqb_eq; exact S|rewrite sample_grid; reflexivity]).
  - eapply is_min_ext; [|apply (min_of norm s i_x1 (at_x 8) px); [intros ? [[x y] [u v]]; reflexivity|reflexivity|intros x y B; apply BX, B|exists 8%nat, 0%nat; split; [lia|reflexivity]]].
    intros a. unfold xs_of, at_x. cbn [fst]. split; intros (x & y & B & S & ->); exists x, y; (split; [exact B|]); (split; [apply Nat.eqb_eq; exact S|rewrite sample_grid; reflexivity]).
  - eapply is_max_ext; [|apply (max_of norm s i_y0 (at_y 0) py); [intros ? [[x y] [u v]]; reflexivity|reflexivity|intros x y B; apply BY, B|exists 0%nat, 0%nat; split; [lia|reflexivity]]].
    intros a. unfold ys_of, at_y. cbn [fst snd]. split; intros (x & y & B & S & ->); exists x, y; (split; [exact B|]); (split; [apply Nat.eqb_eq; exact S|rewrite sample_grid; reflexivity]).
  - eapply is_min_ext; [|apply (min_of norm s i_y1 (at_y 8) py); [intros ? [[x y] [u v]]; reflexivity|reflexivity|intros x y B; apply BY, B|exists 0%nat, 8%nat; split; [lia|reflexivity]]].
    intros a. unfold ys_of, at_y. cbn [fst snd]. split; intros (x & y & B & S & ->); exists x, y; (split; [exact B|]); (split; [apply Nat.eqb_eq; exact S|rewrite sample_grid; reflexivity]).
Qed.

(** ** One direction of the interpolated matrix *)
Section Axis.
Variables (n i0 i1 o0 o1 alpha : R).
Hypotheses (N : 1 < n) (O0 : o0 <= i0) (I : i0 < i1) (O1 : i1 <= o1) (A : 0 <= alpha <= 1).
Let f0 := (n - 1) / (i1 - i0).
Let f1 := (n - 1) / (o1 - o0).
Let f := f0 * (1 - alpha) + f1 * alpha.
Let c := (- f0 * i0) * (1 - alpha) + (- f1 * o0) * alpha.
Lemma axis_value x : f * x + c = (1 - alpha) * ((n - 1) * ((x - i0) / (i1 - i0))) + alpha * ((n - 1) * ((x - o0) / (o1 - o0))).
Proof. unfold f, c, f0, f1. field. lra. Qed.
Lemma ratio_pos a b : 0 < b -> 0 <= a -> 0 <= a / b.
Proof. intros. apply Rmult_le_pos; [assumption|]. left. apply Rinv_0_lt_compat. assumption. Qed.
Lemma ratio_le a b : 0 < b -> a <= b -> a / b <= 1.
Proof. intros. apply (Rmult_le_reg_r b); [assumption|]. unfold Rdiv. rewrite Rmult_assoc, Rinv_l by lra. lra. Qed.
Lemma ratio_neg a b : 0 < b -> a <= 0 -> a / b <= 0.
Proof. intros Hb Ha. pose proof (ratio_pos (- a) b Hb ltac:(lra)). unfold Rdiv in *. lra. Qed.
Lemma ratio_ge a b : 0 < b -> b <= a -> 1 <= a / b.
Proof. intros. apply (Rmult_le_reg_r b); [assumption|]. unfold Rdiv. rewrite Rmult_assoc, Rinv_l by lra. lra. Qed.
Lemma axis_focal : 0 < f.
Proof.
  assert (0 < f0) by (apply Rdiv_lt_0_compat; lra). assert (0 < f1) by (apply Rdiv_lt_0_compat; lra). unfold f.
  destruct (Rle_lt_dec alpha (1 / 2)); nra.
Qed.
Lemma axis_inner x : i0 <= x <= i1 -> 0 <= f * x + c <= n - 1.
Proof.
  intros H. rewrite axis_value. pose proof (ratio_pos (x - i0) (i1 - i0) ltac:(lra) ltac:(lra)). pose proof (ratio_le (x - i0) (i1 - i0) ltac:(lra) ltac:(lra)).
  pose proof (ratio_pos (x - o0) (o1 - o0) ltac:(lra) ltac:(lra)). pose proof (ratio_le (x - o0) (o1 - o0) ltac:(lra) ltac:(lra)).
  set (r := (x - i0) / (i1 - i0)) in *. set (q := (x - o0) / (o1 - o0)) in *.
  assert (0 <= (1 - alpha) * r + alpha * q <= 1) by nra. replace ((1 - alpha) * ((n - 1) * r) + alpha * ((n - 1) * q)) with ((n - 1) * ((1 - alpha) * r + alpha * q)) by ring. nra.
Qed.
Lemma axis_outer x : 0 <= f * x + c <= n - 1 -> o0 <= x <= o1.
Proof.
  intros H. assert (f * o0 + c <= 0) as L.
  { rewrite axis_value. pose proof (ratio_neg (o0 - i0) (i1 - i0) ltac:(lra) ltac:(lra)). replace ((o0 - o0) / (o1 - o0)) with 0 by (unfold Rdiv; ring).
    set (r := (o0 - i0) / (i1 - i0)) in *. assert ((n - 1) * r <= 0) by nra. nra. }
  assert (n - 1 <= f * o1 + c) as U.
  { rewrite axis_value. pose proof (ratio_ge (o1 - i0) (i1 - i0) ltac:(lra) ltac:(lra)). replace ((o1 - o0) / (o1 - o0)) with 1 by (field; lra).
    set (r := (o1 - i0) / (i1 - i0)) in *. assert (n - 1 <= (n - 1) * r) by nra. nra. }
  pose proof axis_focal. nra.
Qed.
End Axis.
Lemma axis_inner_exact n i0 i1 o0 o1 x : 1 < n -> i0 < i1 -> o0 <= i0 -> i1 <= o1 ->
  0 <= ((n - 1) / (i1 - i0) * (1 - 0) + (n - 1) / (o1 - o0) * 0) * x + ((- ((n - 1) / (i1 - i0)) * i0) * (1 - 0) + (- ((n - 1) / (o1 - o0)) * o0) * 0) <= n - 1 -> i0 <= x <= i1.
Proof.
  intros N I O0 O1 H.
  replace (((n - 1) / (i1 - i0) * (1 - 0) + (n - 1) / (o1 - o0) * 0) * x + ((- ((n - 1) / (i1 - i0)) * i0) * (1 - 0) + (- ((n - 1) / (o1 - o0)) * o0) * 0)) with ((n - 1) / (i1 - i0) * (x - i0)) in H by ring.
  assert (0 < (n - 1) / (i1 - i0)) as F by (apply Rdiv_lt_0_compat; lra). assert ((n - 1) / (i1 - i0) * (i1 - i0) = n - 1) by (field; lra). nra.
Qed.
Lemma axis_outer_exact n i0 i1 o0 o1 x : 1 < n -> o0 < o1 -> o0 <= x <= o1 ->
  0 <= ((n - 1) / (i1 - i0) * (1 - 1) + (n - 1) / (o1 - o0) * 1) * x + ((- ((n - 1) / (i1 - i0)) * i0) * (1 - 1) + (- ((n - 1) / (o1 - o0)) * o0) * 1) <= n - 1.
Proof.
  intros N O H.
  replace (((n - 1) / (i1 - i0) * (1 - 1) + (n - 1) / (o1 - o0) * 1) * x + ((- ((n - 1) / (i1 - i0)) * i0) * (1 - 1) + (- ((n - 1) / (o1 - o0)) * o0) * 1)) with ((n - 1) / (o1 - o0) * (x - o0)) by ring.
  assert (0 < (n - 1) / (o1 - o0)) as F by (apply Rdiv_lt_0_compat; lra). assert ((n - 1) / (o1 - o0) * (o1 - o0) = n - 1) by (field; lra). nra.
Qed.

(** ** Fixed point *)
Lemma cv_round_near x : - 2 ^ 31 <= x <= 2 ^ 31 - 1 -> Rabs (IZR (cv_round x) - x) <= / 2 /\ cv_round x = ZnearestE x.
Proof.
  intros H. pose proof (Znearest_half (fun n => negb (Z.even n)) x) as N. assert (- 2 ^ 31 <= ZnearestE x < 2 ^ 31)%Z as [B1 B2].
  { apply Rabs_le_inv in N. split.
    - apply le_IZR. apply Rnot_lt_le. intros C. apply lt_IZR in C. assert (ZnearestE x <= - 2 ^ 31 - 1)%Z as C2 by lia. apply IZR_le in C2. rewrite minus_IZR in C2. replace (IZR (- 2 ^ 31)) with (- 2 ^ 31) in C2 by (cbn; lra). lra.
    - apply lt_IZR. apply Rnot_le_lt. intros C. replace (IZR (2 ^ 31)) with (2 ^ 31) in C by (cbn; lra). lra. }
  unfold cv_round. rewrite (proj2 (Z.leb_le _ _) B1), (proj2 (Z.ltb_lt _ _) B2). cbn [andb]. split; [|reflexivity]. rewrite Rabs_minus_sym. exact N.
Qed.
Lemma to_short_id z : (- 2 ^ 15 <= z < 2 ^ 15)%Z -> to_short z = z.
Proof. intros H. unfold to_short. rewrite Z.mod_small by lia. lia. Qed.
Lemma land31 z : Z.land z 31 = (z mod 32)%Z.
Proof. change 31%Z with (Z.ones 5). rewrite Z.land_ones by lia. reflexivity. Qed.
Lemma shiftr5 z : Z.shiftr z 5 = (z / 32)%Z.
Proof. rewrite Z.shiftr_div_pow2 by lia. reflexivity. Qed.
Lemma fixed_split iu iv : (- 2 ^ 20 <= iu < 2 ^ 20)%Z -> (- 2 ^ 20 <= iv < 2 ^ 20)%Z ->
  fixed_position (to_short (Z.shiftr iu 5), to_short (Z.shiftr iv 5), to_ushort (Z.land iv 31 * 32 + Z.land iu 31)) = (IZR iu / 32, IZR iv / 32).
Proof.
  intros HU HV. rewrite !land31, !shiftr5. pose proof (Z.div_mod iu 32 ltac:(lia)). pose proof (Z.div_mod iv 32 ltac:(lia)).
  pose proof (Z.mod_pos_bound iu 32 ltac:(lia)). pose proof (Z.mod_pos_bound iv 32 ltac:(lia)).
  rewrite !to_short_id by lia. unfold to_ushort. rewrite Z.mod_small by lia. unfold fixed_position.
  assert ((iv mod 32 * 32 + iu mod 32) mod 32 = iu mod 32)%Z as -> by (rewrite Z.add_comm, Z.mod_add by lia; apply Z.mod_mod; lia).
  assert ((iv mod 32 * 32 + iu mod 32) / 32 = iv mod 32)%Z as -> by (rewrite Z.div_add_l by lia; rewrite Z.div_small by lia; lia).
  f_equal; [rewrite H at 3|rewrite H0 at 3]; rewrite plus_IZR, mult_IZR; field.
Qed.
