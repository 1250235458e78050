(** A level of the scale space made with fast explicit diffusion can leave the range of the level before it.

    The model is that of the steps of a level ([FedTimeModel]) and of one step ([DiffusionModel]). *)
From Coq Require Import Reals List Bool Arith ZArith Lia Lra Permutation.
From Verif Require Import StlHelpersModel FedModel FedProps DiffusionModel DiffusionSpec DiffusionProps FedTimeModel FedTimeSpec FedTimeProofs FedTimeProps.
Import ListNotations.
Local Open Scope R_scope.

(** ** The steps of a cycle of four *)
Lemma cos_triple t : cos (3 * t) = cos t * (4 * (cos t * cos t) - 3).
Proof.
  replace (3 * t) with (t + 2 * t) by ring. rewrite cos_plus, cos_2a_cos, sin_2a. pose proof (sin2_cos2 t) as E. unfold Rsqr in E.
  replace (sin t * (2 * sin t * cos t)) with (2 * cos t * (sin t * sin t)) by ring. replace (sin t * sin t) with (1 - cos t * cos t) by lra. ring.
Qed.
(** The inverse of the squared cosine of an angle whose threefold has the squared cosine 3/4. *)
Lemma cubic t : cos (3 * t) * cos (3 * t) = 3 / 4 -> 0 < cos t -> let y := / (cos t * cos t) in y * y * y - 12 * (y * y) + 32 * y - 64 / 3 = 0.
Proof.
  intros E P y. rewrite cos_triple in E. set (z := cos t * cos t) in *. assert (0 < z) as Z by (apply Rmult_lt_0_compat; assumption).
  assert (z * ((4 * z - 3) * (4 * z - 3)) = 3 / 4) as Q by (rewrite <- E; unfold z; ring).
  assert (16 * (z * z * z) - 24 * (z * z) + 9 * z = 3 / 4) as Q2 by (rewrite <- Q; ring).
  apply Rmult_eq_reg_r with (z * z * z); [|nra]. unfold y. rewrite Rmult_0_l. field_simplify; [|lra]. nra.
Qed.
Lemma vieta a b c : a * a * a - 12 * (a * a) + 32 * a - 64 / 3 = 0 -> b * b * b - 12 * (b * b) + 32 * b - 64 / 3 = 0 -> c * c * c - 12 * (c * c) + 32 * c - 64 / 3 = 0 ->
  a <> b -> b <> c -> a <> c -> a + b + c = 12 /\ a * b + b * c + a * c = 32 /\ a * b * c = 64 / 3.
Proof.
  intros A B C AB BC AC.
  assert (a * a + a * b + b * b - 12 * (a + b) + 32 = 0) as E1 by (apply Rmult_eq_reg_l with (a - b); [lra|lra]).
  assert (a * a + a * c + c * c - 12 * (a + c) + 32 = 0) as E2 by (apply Rmult_eq_reg_l with (a - c); [lra|lra]).
  assert (a + b + c - 12 = 0) as S by (apply Rmult_eq_reg_l with (b - c); [lra|lra]).
  assert (c = 12 - a - b) as -> by lra. split; [lra|]. assert (a * b + b * (12 - a - b) + a * (12 - a - b) = 32) as T by lra. split; [exact T|]. 
  replace (a * b * (12 - a - b)) with (a * a * a - 12 * (a * a) + a * (a * b + b * (12 - a - b) + a * (12 - a - b))) by ring. rewrite T. lra.
Qed.

Lemma cos_pi6_sq : cos (PI / 6) * cos (PI / 6) = 3 / 4.
Proof. rewrite cos_PI6. pose proof (sqrt_sqrt 3 ltac:(lra)). lra. Qed.
(** Sums of products of the four step sizes for a cycle with scale 1 and tau_max = 1/4. *)
Lemma four_steps : exists a b c, map (step_size 4 (/ 8)) (seq 0 4) = [a / 8; / 6; b / 8; c / 8] /\
  a + b + c = 12 /\ a * b + b * c + a * c = 32 /\ a * b * c = 64 / 3.
Proof.
  pose proof PI_RGT_0 as PP. pose proof cos_pi6_sq as C6.
  set (u := PI / 18). set (v := 5 * u). set (w := 7 * u).
  assert (0 < u) as U by (unfold u; lra).
  assert (PI = 18 * u) as PU by (unfold u; lra).
  assert (0 < cos u /\ 0 < cos v /\ 0 < cos w) as (CU & CV & CW) by (repeat split; apply cos_gt_0; unfold v, w; lra).
  assert (cos v < cos u) as O1 by (apply cos_decreasing_1; unfold v; lra).
  assert (cos w < cos v) as O2 by (apply cos_decreasing_1; unfold v, w; lra).
  assert (cos (3 * u) * cos (3 * u) = 3 / 4) as TU. { rewrite <- C6. replace (3 * u) with (PI / 6) by lra. reflexivity. }
  assert (cos (3 * v) * cos (3 * v) = 3 / 4) as TV. { rewrite <- C6. replace (3 * v) with (- (PI / 6) + PI) by (unfold v; lra). rewrite neg_cos, cos_neg. ring. }
  assert (cos (3 * w) * cos (3 * w) = 3 / 4) as TW. { rewrite <- C6. replace (3 * w) with (PI / 6 + PI) by (unfold w; lra). rewrite neg_cos. ring. }
  pose proof (cubic u TU CU) as EU. pose proof (cubic v TV CV) as EV. pose proof (cubic w TW CW) as EW. cbv zeta in EU, EV, EW.
  assert (/ (cos u * cos u) < / (cos v * cos v)) as I1 by (apply Rinv_lt_contravar; [repeat apply Rmult_lt_0_compat; lra|apply Rmult_le_0_lt_compat; lra]).
  assert (/ (cos v * cos v) < / (cos w * cos w)) as I2 by (apply Rinv_lt_contravar; [repeat apply Rmult_lt_0_compat; lra|apply Rmult_le_0_lt_compat; lra]).
  exists (/ (cos u * cos u)), (/ (cos v * cos v)), (/ (cos w * cos w)). split; [|apply vieta; try assumption; lra].
  cbn [seq map]. unfold step_size. apply f_equal2; [|apply f_equal2; [|apply f_equal2; [|apply f_equal2; [|reflexivity]]]]; cbn [INR].
  - replace (PI * (2 * 0 + 1) * (1 / (4 * (1 + 1 + 1 + 1) + 2))) with u by (unfold u; field). field. lra.
  - replace (PI * (2 * 1 + 1) * (1 / (4 * (1 + 1 + 1 + 1) + 2))) with (PI / 6) by field. rewrite C6. field.
  - replace (PI * (2 * (1 + 1) + 1) * (1 / (4 * (1 + 1 + 1 + 1) + 2))) with v by (unfold v, u; field). field. lra.
  - replace (PI * (2 * (1 + 1 + 1) + 1) * (1 / (4 * (1 + 1 + 1 + 1) + 2))) with w by (unfold w, u; field). field. lra.
Qed.

(** ** Images with one value in the centre, one beside it and one in the corners *)
Definition ring_image (s : R * R * R) : image := fun y x =>
  match y, x with
  | 1%nat, 1%nat => fst (fst s)
  | 1%nat, _ | _, 1%nat => snd (fst s)
  | _, _ => snd s
  end.
Definition ring_step (t : R) (s : R * R * R) : R * R * R :=
  let '(a, b, d) := s in (a + t * (11 / 5 * (b - a)), b + t * (11 / 20 * (a - b) + 2 * (d - b)), d + t * (2 * (b - d))).
Definition ring_flow : image := ring_image (/ 10, 1, 1).
Lemma ring_value s t y x : (y < 3)%nat -> (x < 3)%nat -> ring_image s y x + t * inflow 3 3 (ring_image s) ring_flow y x = ring_image (ring_step t s) y x.
Proof.
  destruct s as [[a b] d]. intros Y X. destruct y as [|[|[|]]], x as [|[|[|]]]; try lia; cbn [inflow neighbours Nat.ltb Nat.leb Nat.add Nat.sub app map fold_right fst snd ring_image ring_flow ring_step]; lra.
Qed.
Lemma inflow_pixels rows cols L L' c y x : (y < rows)%nat -> (x < cols)%nat -> (forall y x, (y < rows)%nat -> (x < cols)%nat -> L' y x = L y x) -> inflow rows cols L' c y x = inflow rows cols L c y x.
Proof. intros Y X E. rewrite (inflow_ext rows cols L L' c y x 1 Y X); [ring|]. intros. rewrite E by assumption. ring. Qed.
Lemma ring_run order steps : Permutation order (seq 1 1) -> forall L s, (forall y x, (y < 3)%nat -> (x < 3)%nat -> L y x = ring_image s y x) ->
  exists L', run_steps 3 3 ring_flow order steps L = Some L' /\ forall y x, (y < 3)%nat -> (x < 3)%nat -> L' y x = ring_image (fold_left (fun s t => ring_step t s) steps s) y x.
Proof.
  intros P. induction steps as [|t steps IH]; intros L s E; cbn [run_steps fold_left]; [eauto|].
  destruct (nlx_divergence 3 3 L ring_flow t order ltac:(lia) ltac:(lia) P) as (L1 & E1 & V). rewrite E1. apply IH. intros y x Y X.
  rewrite V, E, (inflow_pixels 3 3 (ring_image s)) by assumption. apply ring_value; assumption.
Qed.
Lemma ring_step_swap t u s : ring_step t (ring_step u s) = ring_step u (ring_step t s).
Proof. destruct s as [[a b] d]. cbn [ring_step]. apply f_equal2; [apply f_equal2|]; ring. Qed.
Lemma ring_perm l l' : Permutation l l' -> forall s, fold_left (fun s t => ring_step t s) l s = fold_left (fun s t => ring_step t s) l' s.
Proof.
  induction 1 as [|t l l' _ IH|t u l|l1 l2 l3 _ IH1 _ IH2]; intros s; cbn [fold_left]; [reflexivity|apply IH|now rewrite ring_step_swap|now rewrite IH1, IH2].
Qed.
Lemma ring_four t1 t2 t3 t4 : fst (fst (fold_left (fun s t => ring_step t s) [t1; t2; t3; t4] (1, 0, 0))) =
  1 - 11 / 5 * (t1 + t2 + t3 + t4) + 121 / 20 * (t1 * t2 + t1 * t3 + t1 * t4 + t2 * t3 + t2 * t4 + t3 * t4)
  - 7623 / 400 * (t1 * t2 * t3 + t1 * t2 * t4 + t1 * t3 * t4 + t2 * t3 * t4) + 109989 / 1600 * (t1 * t2 * t3 * t4).
Proof. cbn [fold_left ring_step fst]. field. Qed.

(** The image is black with a white pixel in the middle.  All conductivities are from 0 to 1, all steps are those of the code; after the four steps of the level the middle is blacker than black. *)
Theorem ssx_overshoot_refuted : exists c L, within 3 3 (/ 10) 1 c /\ within 3 3 0 1 L /\ cycle_steps (5 / 3) (/ 4) = 4%Z /\
  forall order, Permutation order (seq 1 (3 - 2)) -> forall reordering, exists taus fuel0,
    (forall fuel, (fuel0 <= fuel)%nat -> process_time fuel (5 / 3) 1 (/ 4) reordering [] = Some (Ok (4%Z, taus))) /\
    exists L', run_steps 3 3 c order taus L = Some L' /\ L' 1%nat 1%nat < 0.
Proof.
  assert (cycle_steps (5 / 3) (/ 4) = 4%Z) as N by (pose proof eps_bound; apply (cycle_steps_value (5 / 3) (/ 4) 4); lra).
  exists ring_flow, (ring_image (1, 0, 0)). split; [|split; [|split; [exact N|]]].
  { intros y x Y X. destruct y as [|[|[|]]], x as [|[|[|]]]; try lia; cbn [ring_flow ring_image fst snd]; lra. }
  { intros y x Y X. destruct y as [|[|[|]]], x as [|[|[|]]]; try lia; cbn [ring_image fst snd]; lra. }
  intros order P reordering.
  assert (G : forall taus, Permutation taus (map (step_size 4 (/ 8)) (seq 0 4)) -> exists L', run_steps 3 3 ring_flow order taus (ring_image (1, 0, 0)) = Some L' /\ L' 1%nat 1%nat < 0).
  { intros taus PM. destruct (ring_run order taus P (ring_image (1, 0, 0)) (1, 0, 0)) as (L' & E & V); [reflexivity|]. exists L'. split; [exact E|].
    rewrite V by lia. rewrite (ring_perm _ _ PM). destruct four_steps as (a & b & c & -> & E1 & E2 & E3). unfold ring_image. rewrite ring_four.
    replace (a / 8 + / 6 + b / 8 + c / 8) with ((a + b + c) / 8 + / 6) by field.
    replace (a / 8 * / 6 + a / 8 * (b / 8) + a / 8 * (c / 8) + / 6 * (b / 8) + / 6 * (c / 8) + b / 8 * (c / 8)) with ((a * b + b * c + a * c) / 64 + (a + b + c) / 48) by field.
    replace (a / 8 * / 6 * (b / 8) + a / 8 * / 6 * (c / 8) + a / 8 * (b / 8) * (c / 8) + / 6 * (b / 8) * (c / 8)) with (a * b * c / 512 + (a * b + b * c + a * c) / 384) by field.
    replace (a / 8 * / 6 * (b / 8) * (c / 8)) with (a * b * c / 3072) by field. rewrite E1, E2, E3. lra. }
  assert (D : 3 * (5 / 3 / 1) / (/ 4 * IZR (4 * (4 + 1))) * / 4 / 2 = / 8) by (change (4 * (4 + 1))%Z with 20%Z; field).
  unfold process_time, cycle_time. replace (5 / 3 / IZR 1) with (5 / 3 / 1) by reflexivity. assert (cycle_steps (5 / 3 / 1) (/ 4) = 4%Z) as -> by (replace (5 / 3 / 1) with (5 / 3) by field; exact N).
  unfold tau_internal. change ((4 <=? 0)%Z) with false. cbv iota. change (Z.to_nat 4) with 4%nat. rewrite D. destruct reordering.
  - destruct (fx_reorder_permutation (map (step_size 4 (/ 8)) (seq 0 4))) as (l & fuel0 & PM & E); [cbn; lia|cbn; lia|]. exists l, fuel0. split; [intros fuel F; now rewrite (E fuel F)|apply G, PM].
  - exists (map (step_size 4 (/ 8)) (seq 0 4)), 0%nat. split; [reflexivity|apply G, Permutation_refl].
Qed.
Print Assumptions ssx_overshoot_refuted.
