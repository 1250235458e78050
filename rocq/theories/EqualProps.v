(** C112: equality of cameras, rigs, frames and multi-frames. *)
From Coq Require Import Reals ZArith List Bool Lia Lra.
From Verif Require Import EqualModel EqualSpec.
Import ListNotations.
Local Open Scope R_scope.

Section props.
(** The number of parameters of each class of distortions. *)
Variable parameters : Z -> nat.
Definition parameter_count (k : class) : nat := match k with Pinhole => 4 | Unified => 5 | Lidar => 4 end.
Definition proper_camera (c : camera) : Prop := length (intrinsics c) = parameter_count (cam_class c) /\ length (distortion c) = parameters (distortion_class c).
Definition proper_shared (c : option camera) : Prop := match c with Some c => proper_camera c | None => True end.
Definition proper_rig (r : rig) : Prop := Forall (fun p => proper_shared (fst p)) (cameras r).
Definition proper_frame (f : frame) : Prop := proper_shared (geometry f).
Definition proper_nframe (n : nframe) : Prop := match nframe_rig n with Some r => proper_rig r | None => True end /\ Forall (fun f => match f with Some f => proper_frame f | None => False end) (frames n).

(** ** Vectors *)
Lemma sq_nonneg v : 0 <= squared_norm v.
Proof. induction v as [|x v IH]; cbn; [lra|]. change (fold_right _ 0 v) with (squared_norm v). nra. Qed.
Lemma sq_fold v : fold_right (fun x s => x ^ 2 + s) 0 v = squared_norm v.
Proof. induction v as [|x v IH]; cbn; [reflexivity|]. change (fold_right (fun x s => x * x + s) 0 v) with (squared_norm v). rewrite <- IH. cbn. ring. Qed.
Lemma sq_minus_sym a b : squared_norm (minus a b) = squared_norm (minus b a).
Proof. revert b. induction a as [|x a IH]; intros [|y b]; try reflexivity. change (minus (x :: a) (y :: b)) with ((x - y) :: minus a b). change (minus (y :: b) (x :: a)) with ((y - x) :: minus b a). unfold squared_norm in *. cbn [fold_right]. rewrite IH. ring. Qed.
Lemma sq_minus_self a : squared_norm (minus a a) = 0.
Proof. induction a as [|x a IH]; [reflexivity|]. change (minus (x :: a) (x :: a)) with ((x - x) :: minus a a). unfold squared_norm in *. cbn [fold_right]. rewrite IH. ring. Qed.
Lemma minus_length a b : length a = length b -> length (minus b a) = length a.
Proof. intros L. unfold minus. rewrite map_length, combine_length. lia. Qed.
Lemma plus_minus a b : length a = length b -> b = map (fun p => fst p + snd p) (combine a (minus b a)).
Proof. revert b. induction a as [|x a IH]; intros [|y b] L; try discriminate; [reflexivity|]. change (minus (y :: b) (x :: a)) with ((y - x) :: minus b a). cbn [combine map fst snd]. rewrite <- IH by (cbn in L; lia). f_equal. ring. Qed.
Lemma minus_plus a d : length d = length a -> minus (map (fun p => fst p + snd p) (combine a d)) a = d.
Proof. revert d. induction a as [|x a IH]; intros [|y d] L; try discriminate; [reflexivity|]. cbn [combine map fst snd]. change (minus (x + y :: ?l) (x :: a)) with ((x + y - x) :: minus l a). unfold minus in *. cbn [combine map fst snd]. rewrite IH by (cbn in L; lia). f_equal. ring. Qed.
Lemma norm_le a b e : 0 <= e -> (norm a <= e * norm b <-> squared_norm a <= e * e * squared_norm b).
Proof.
  intros E. unfold norm. rewrite !sq_fold. pose proof (sq_nonneg a) as A. pose proof (sq_nonneg b) as B. pose proof (sqrt_pos (squared_norm a)) as P. pose proof (sqrt_pos (squared_norm b)) as Q. pose proof (sqrt_sqrt _ A) as SA. pose proof (sqrt_sqrt _ B) as SB. set (s := sqrt (squared_norm a)) in *. set (t := sqrt (squared_norm b)) in *. split; intros H.
  - assert (s * s <= e * t * (e * t)) by (apply Rmult_le_compat; try assumption). rewrite <- SA, <- SB. nra.
  - apply Rsqr_incr_0_var; [unfold Rsqr; rewrite <- SA, <- SB in H; nra|apply Rmult_le_pos; assumption].
Qed.
Lemma close_spec a b e : 0 <= e -> length a = length b -> (relatively_close a b e <-> squared_norm (minus a b) <= e * e * squared_norm a).
Proof.
  intros E L. split.
  - intros (d & LD & -> & N). apply (norm_le d a e E) in N. rewrite sq_minus_sym, minus_plus by exact LD. exact N.
  - intros N. exists (minus b a). split; [apply minus_length, L|]. split; [apply plus_minus, L|]. apply (norm_le _ _ e E). rewrite sq_minus_sym. exact N.
Qed.
Lemma eps_pos : 0 < kEpsilon.
Proof. unfold kEpsilon. apply Rinv_0_lt_compat, pow_lt. lra. Qed.
Lemma approx_spec a b : length a = length b -> (is_approx a b kEpsilon = true <-> relatively_close a b kEpsilon /\ relatively_close b a kEpsilon).
Proof.
  intros L. pose proof eps_pos as E. rewrite (close_spec a b), (close_spec b a) by (lra || congruence). rewrite (sq_minus_sym b a). unfold is_approx, leb. set (m := squared_norm (minus a b)). set (x := squared_norm a). set (y := squared_norm b). assert (0 < kEpsilon * kEpsilon) as EE by nra. set (k := kEpsilon * kEpsilon) in *.
  destruct (Rle_dec m (k * Rmin x y)) as [H|H]; split; try discriminate; try (intros _; reflexivity).
  - intros _. pose proof (Rmin_l x y). pose proof (Rmin_r x y). split; nra.
  - intros [H1 H2]. exfalso. apply H. unfold Rmin. destruct (Rle_dec x y); assumption.
Qed.
Lemma approx_sym a b e : is_approx a b e = is_approx b a e.
Proof. unfold is_approx. rewrite sq_minus_sym, Rmin_comm. reflexivity. Qed.
Lemma approx_refl a : is_approx a a kEpsilon = true.
Proof. unfold is_approx, leb. rewrite sq_minus_self. destruct (Rle_dec _ _) as [|N]; [reflexivity|]. exfalso. apply N. pose proof eps_pos. pose proof (sq_nonneg a). unfold Rmin. destruct (Rle_dec _ _); repeat apply Rmult_le_pos; lra. Qed.
Lemma same_vector_spec a b : length a = length b -> (same_vector a b = true <-> a = b).
Proof.
  unfold same_vector. revert b. induction a as [|x a IH]; intros [|y b] L; try discriminate; [split; reflexivity|]. cbn [combine forallb fst snd]. rewrite andb_true_iff, IH by (cbn in L; lia). unfold eqb. destruct (Req_EM_T x y); split; intros H; try (destruct H; congruence); [split; congruence|injection H; intros; contradiction].
Qed.
Lemma eqb_eq_iff (x y : bool) : (x = true <-> y = true) -> x = y.
Proof. destruct x, y; intros []; auto; symmetry; auto. Qed.
Lemma same_vector_sym a b : length a = length b -> same_vector a b = same_vector b a.
Proof. intros L. apply eqb_eq_iff. rewrite (same_vector_spec a b), (same_vector_spec b a) by congruence. split; congruence. Qed.
Lemma class_eqb_spec a b : class_eqb a b = true <-> a = b.
Proof. destruct a, b; cbn; split; congruence. Qed.
Lemma class_eqb_sym a b : class_eqb a b = class_eqb b a.
Proof. destruct a, b; reflexivity. Qed.
Lemma header_sym a b : equal_header a b = equal_header b a.
Proof. unfold equal_header. rewrite (Z.eqb_sym (id a)), (Z.eqb_sym (topic a)), (Z.eqb_sym (description a)). reflexivity. Qed.
Lemma header_spec a b : equal_header a b = true <-> a = b.
Proof. unfold equal_header. rewrite !andb_true_iff, !Z.eqb_eq. destruct a, b; cbn. split; [intros [[-> ->] ->]; reflexivity|intros E; injection E; auto]. Qed.

(** ** Cameras *)
Definition shows (c : camera) : header * class * (Z * Z * Z) * bool * (Z * list R) := (cam_header c, cam_class c, (line_delay c, width c, height c), compressed c, (distortion_class c, distortion c)).
(** Two cameras are equal exactly if everything but the intrinsics and the mask is the same, and the intrinsics are up to a relative error of 1e-8. *)
Theorem eqx_meaning a b : proper_camera a -> proper_camera b -> exists r, equal_camera a b = Some r /\
  (r = true <-> shows a = shows b /\ relatively_close (intrinsics a) (intrinsics b) (/ 10 ^ 8) /\ relatively_close (intrinsics b) (intrinsics a) (/ 10 ^ 8)).
Proof.
  intros [IA DA] [IB DB]. unfold equal_camera, equal_impl, shows. destruct (equal_header (cam_header a) (cam_header b)) eqn:H.
  2: { exists false. split; [reflexivity|]. split; [discriminate|]. intros [E _]. injection E. intros. rewrite (proj2 (header_spec _ _)) in H by assumption. discriminate. }
  apply header_spec in H. destruct (class_eqb (cam_class a) (cam_class b)) eqn:C.
  2: { exists false. split; [reflexivity|]. split; [discriminate|]. intros [E _]. injection E. intros. rewrite (proj2 (class_eqb_spec _ _)) in C by assumption. discriminate. }
  apply class_eqb_spec in C. assert (length (intrinsics a) = length (intrinsics b)) as L by congruence. pose proof (approx_spec _ _ L) as AP. unfold kEpsilon in AP. unfold equal_base. rewrite L, Nat.eqb_refl. fold kEpsilon in AP.
  destruct (is_approx (intrinsics a) (intrinsics b) kEpsilon && _ && _ && _ && _)%bool eqn:B.
  - rewrite !andb_true_iff, !Z.eqb_eq, eqb_true_iff in B. destruct B as [[[[B1 B2] B3] B4] B5]. unfold equal_distortion. destruct (Z.eqb_spec (distortion_class a) (distortion_class b)) as [E|E].
    + assert (length (distortion a) = length (distortion b)) as LD by congruence. rewrite LD, Nat.eqb_refl. eexists. split; [reflexivity|]. rewrite (same_vector_spec _ _ LD). split; [intros ->; split; [congruence|apply AP, B1]|]. intros [G _]. injection G. auto.
    + exists false. split; [reflexivity|]. split; [discriminate|]. intros [G _]. injection G. intros. contradiction.
  - exists false. split; [reflexivity|]. split; [discriminate|]. intros [G R]. exfalso. apply AP in R. injection G. intros G1 G2 G3 G4 G5 G6 G7 G8. rewrite R, G3, G4, G5, G6, !Z.eqb_refl, eqb_reflx in B. discriminate.
Qed.
Theorem eqx_refl c : proper_camera c -> equal_camera c c = Some true /\ equal_camera c (clone_camera c) = Some true.
Proof.
  intros P. assert (clone_camera c = c) as -> by (destruct c; reflexivity). assert (equal_camera c c = Some true) as E; [|split; exact E]. destruct (eqx_meaning c c P P) as (r & -> & M). f_equal. apply M. split; [reflexivity|]. apply (proj1 (approx_spec _ _ eq_refl)), approx_refl.
Qed.
Theorem eqx_sym a b : proper_camera a -> proper_camera b -> equal_camera a b = equal_camera b a.
Proof.
  intros PA PB. destruct (eqx_meaning a b PA PB) as (r & -> & M). destruct (eqx_meaning b a PB PA) as (q & -> & N). f_equal. apply eqb_eq_iff. rewrite M, N. split; intros (E & X & Y); (split; [congruence|split; assumption]).
Qed.
(** Equal pinhole cameras without distortion see a point at nearly the same place. *)
Lemma entry_le v : norm v >= 0 /\ Forall (fun x => Rabs x <= norm v) v.
Proof.
  unfold norm. rewrite sq_fold. split; [apply Rle_ge, sqrt_pos|]. rewrite Forall_forall. intros x I. rewrite <- sqrt_Rsqr_abs. apply sqrt_le_1_alt. unfold Rsqr. induction v as [|y v IH]; [destruct I|]. unfold squared_norm in *. cbn [fold_right]. pose proof (sq_nonneg v) as S. unfold squared_norm in S. destruct I as [-> | I]; [nra|]. specialize (IH I). nra.
Qed.
Theorem eqx_projection a b x y z u v u' v' : proper_camera a -> proper_camera b -> cam_class a = Pinhole -> equal_camera a b = Some true -> sees (intrinsics a) x y z u v -> sees (intrinsics b) x y z u' v' ->
  Rabs (u' - u) <= / 10 ^ 8 * norm (intrinsics a) * (Rabs (x / z) + 1) /\ Rabs (v' - v) <= / 10 ^ 8 * norm (intrinsics a) * (Rabs (y / z) + 1).
Proof.
  intros PA PB _ E SA SB. destruct (eqx_meaning a b PA PB) as (r & E' & M). rewrite E in E'. injection E' as <-. destruct (proj1 M eq_refl) as (_ & (d & LD & EB & N) & _). set (k := / 10 ^ 8 * norm (intrinsics a)) in *. destruct (entry_le d) as [_ F]. unfold sees in SA, SB.
  destruct (intrinsics a) as [|fu [|fv [|cu [|cv [|? ?]]]]]; try contradiction. destruct d as [|d1 [|d2 [|d3 [|d4 [|? ?]]]]]; try discriminate. cbn [combine map fst snd] in EB. rewrite EB in SB. destruct SA as [-> ->]. destruct SB as [-> ->].
  inversion F as [|? ? F1 F']; subst. inversion F' as [|? ? F2 F'']; subst. inversion F'' as [|? ? F3 F''']; subst. inversion F''' as [|? ? F4 _]; subst.
  assert (forall s e t, Rabs s <= norm [d1; d2; d3; d4] -> Rabs e <= norm [d1; d2; d3; d4] -> Rabs (s * t + e) <= k * (Rabs t + 1)) as G. { intros s e t S1 S2. eapply Rle_trans; [apply Rabs_triang|]. rewrite Rabs_mult. pose proof (Rabs_pos t). nra. }
  split; [replace ((fu + d1) * (x / z) + (cu + d3) - (fu * (x / z) + cu)) with (d1 * (x / z) + d3) by ring|replace ((fv + d2) * (y / z) + (cv + d4) - (fv * (y / z) + cv)) with (d2 * (y / z) + d4) by ring]; apply G; assumption.
Qed.

(** ** Rigs *)
(** Pointers are equal if both are null, or neither is and what they point to is equal. *)
Definition same_shared {A} (same : A -> A -> Prop) (a b : option A) : Prop := match a, b with Some x, Some y => same x y | None, None => True | _, _ => False end.
Definition same_camera (a b : camera) : Prop := equal_camera a b = Some true.
Lemma shared_spec {A} (eq : A -> A -> option bool) a b : equal_shared eq a b = Some true <-> same_shared (fun x y => eq x y = Some true) a b.
Proof. destruct a, b; cbn; split; try tauto; try discriminate; reflexivity. Qed.
Lemma shared_total a b : proper_shared a -> proper_shared b -> exists r, equal_shared equal_camera a b = Some r /\ equal_shared equal_camera b a = Some r.
Proof.
  destruct a as [a|], b as [b|]; cbn [proper_shared equal_shared]; intros PA PB; eauto. destruct (eqx_meaning a b PA PB) as (r & E & _). exists r. split; [exact E|]. rewrite eqx_sym by assumption. exact E.
Qed.
Lemma shared_refl a : proper_shared a -> equal_shared equal_camera a a = Some true.
Proof. destruct a as [a|]; cbn; [|reflexivity]. intros P. apply (eqx_refl a P). Qed.
Lemma close_sym a b : close a b = close b a.
Proof.
  unfold close. replace (fold_right (fun x s => Rmax (Rabs x) s) 0 (minus a b)) with (fold_right (fun x s => Rmax (Rabs x) s) 0 (minus b a)); [reflexivity|]. revert b. induction a as [|x a IH]; intros [|y b]; try reflexivity. change (minus (x :: a) (y :: b)) with ((x - y) :: minus a b). change (minus (y :: b) (x :: a)) with ((y - x) :: minus b a). cbn [fold_right]. rewrite IH, (Rabs_minus_sym y x). reflexivity.
Qed.
Lemma close_refl a : close a a = true.
Proof.
  unfold close, ltb. replace (fold_right _ 0 (minus a a)) with 0; [pose proof eps_pos; destruct (Rlt_dec 0 kEpsilon); [reflexivity|contradiction]|]. induction a as [|x a IH]; [reflexivity|]. change (minus (x :: a) (x :: a)) with ((x - x) :: minus a a). cbn [fold_right]. rewrite <- IH, Rminus_diag_eq, Rabs_R0 by reflexivity. unfold Rmax. destruct (Rle_dec 0 0); reflexivity.
Qed.
Lemma close_lt a b : close a b = true <-> forall i, (i < length a)%nat -> (i < length b)%nat -> Rabs (nth i a 0 - nth i b 0) < kEpsilon.
Proof.
  unfold close, ltb. destruct (Rlt_dec _ _) as [L|L]; split; try discriminate; try reflexivity; intros H.
  - clear H. revert b L. induction a as [|x a IH]; intros [|y b] L i Ia Ib; cbn in Ia, Ib; try lia. change (minus (x :: a) (y :: b)) with ((x - y) :: minus a b) in L. cbn [fold_right] in L. apply Rmax_Rlt in L. destruct L as [L1 L2]. destruct i as [|i]; cbn [nth]; [exact L1|]. apply IH; [exact L2|lia|lia].
  - exfalso. apply L. clear L. revert b H. induction a as [|x a IH]; intros [|y b] H; try (cbn; apply eps_pos). change (minus (x :: a) (y :: b)) with ((x - y) :: minus a b). cbn [fold_right]. apply Rmax_lub_lt; [apply (H 0%nat); cbn; lia|]. apply IH. intros i Ia Ib. apply (H (S i)); cbn; lia.
Qed.
Lemma cameras_total a b : length a = length b -> Forall (fun p => proper_shared (fst p)) a -> Forall (fun p => proper_shared (fst p)) b -> exists r, equal_cameras a b = Some r /\ equal_cameras b a = Some r.
Proof.
  revert b. induction a as [|[c t] a IH]; intros [|[d u] b] L PA PB; try discriminate; [exists true; split; reflexivity|]. inversion PA as [|? ? PC PA']; subst. inversion PB as [|? ? PD PB']; subst. cbn [fst] in *. cbn [equal_cameras]. destruct (shared_total c d PC PD) as (r & -> & ->). rewrite (close_sym u t). destruct (r && close t u)%bool; [|exists false; split; reflexivity]. apply IH; [cbn in L; lia|assumption|assumption].
Qed.
Lemma cameras_refl a : Forall (fun p => proper_shared (fst p)) a -> equal_cameras a a = Some true.
Proof. induction 1 as [|[c t] a P PA IH]; [reflexivity|]. cbn [equal_cameras fst] in *. rewrite (shared_refl c P), close_refl. exact IH. Qed.
(** The equality of rigs is reflexive and symmetric, a clone is equal to the original, and the cameras of equal rigs are equal and their transformations differ by less than 1e-8 in each coefficient. *)
Theorem eqx_rig a b : proper_rig a -> proper_rig b -> exists r, equal_rig a b = Some r /\ equal_rig b a = Some r /\
  (r = true <-> rig_header a = rig_header b /\ length (cameras a) = length (cameras b) /\
    forall i, (i < length (cameras a))%nat -> let p := nth i (cameras a) (None, []) in let q := nth i (cameras b) (None, []) in
      same_shared same_camera (fst p) (fst q) /\ forall j, (j < length (snd p))%nat -> (j < length (snd q))%nat -> Rabs (nth j (snd p) 0 - nth j (snd q) 0) < / 10 ^ 8).
Proof.
  intros PA PB. unfold equal_rig. rewrite (header_sym (rig_header b)). destruct (equal_header (rig_header a) (rig_header b)) eqn:H.
  2: { exists false. split; [reflexivity|]. split; [reflexivity|]. split; [discriminate|]. intros [E _]. apply header_spec in E. congruence. }
  apply header_spec in H. rewrite (Nat.eqb_sym (length (cameras b))). destruct (Nat.eqb_spec (length (cameras a)) (length (cameras b))) as [L|L].
  2: { exists false. split; [reflexivity|]. split; [reflexivity|]. split; [discriminate|]. intros (_ & E & _). contradiction. }
  destruct (cameras_total _ _ L PA PB) as (r & E1 & E2). exists r. split; [exact E1|]. split; [exact E2|]. unfold proper_rig in *. fold kEpsilon. cut (r = true <-> forall i, (i < length (cameras a))%nat -> equal_shared equal_camera (fst (nth i (cameras a) (None, []))) (fst (nth i (cameras b) (None, []))) = Some true /\ close (snd (nth i (cameras a) (None, []))) (snd (nth i (cameras b) (None, []))) = true).
  { intros ->. split; [intros G; split; [exact H|split; [exact L|]]; intros i I; destruct (G i I) as [G1 G2]; split; [apply shared_spec, G1|apply close_lt, G2]|]. intros (_ & _ & G) i I. destruct (G i I) as [G1 G2]. split; [apply shared_spec, G1|]. apply close_lt, G2. }
  clear E2 H. revert r E1. generalize dependent (cameras b). intros lb. generalize dependent (cameras a). intros la PA. revert lb. induction PA as [|[c t] la PC PA IH]; intros [|[d u] lb] PB L r E; try discriminate.
  - injection E as <-. split; [intros _ i I; cbn in I; lia|reflexivity].
  - inversion PB as [|? ? PD PB']; subst. cbn [fst equal_cameras] in *. destruct (shared_total c d PC PD) as (q & Q & _). rewrite Q in E. destruct (q && close t u)%bool eqn:B.
    + apply andb_true_iff in B. destruct B as [-> B]. rewrite (IH lb PB' ltac:(cbn in L; lia) r E). split; intros G.
      * intros [|i] I; cbn [nth fst snd]; [split; assumption|]. apply G. cbn in I. lia.
      * intros i I. apply (G (S i)). cbn. lia.
    + injection E as <-. split; [discriminate|]. intros G. destruct (G 0%nat ltac:(cbn; lia)) as [G1 G2]. cbn [nth fst snd] in *. rewrite Q in G1. injection G1 as ->. rewrite G2 in B. discriminate.
Qed.
Lemma clone_cameras_id l l' : clone_cameras l = Some l' -> l' = l.
Proof.
  revert l'. induction l as [|[[c|] t] l IH]; intros l' E; cbn [clone_cameras] in E; [injection E as <-; reflexivity| |discriminate]. destruct (clone_cameras l) as [r|]; [|discriminate]. injection E as <-. rewrite (IH r eq_refl). destruct c; reflexivity.
Qed.
Theorem eqx_rig_refl r : proper_rig r -> equal_rig r r = Some true /\ forall r', clone_rig r = Some r' -> equal_rig r r' = Some true /\ equal_rig r' r = Some true.
Proof.
  intros P. assert (equal_rig r r = Some true) as E. { unfold equal_rig. rewrite (proj2 (header_spec _ _) eq_refl), Nat.eqb_refl. apply cameras_refl, P. } split; [exact E|]. intros r' C. unfold clone_rig in C. destruct (clone_cameras (cameras r)) as [l|] eqn:CC; [|discriminate]. injection C as <-. apply clone_cameras_id in CC. subst l. destruct r as [h l v]; cbn [rig_header cameras covariance] in *. split; exact E.
Qed.

(** ** Frames *)
Lemma without_sym a b : equal_without_geometry a b = equal_without_geometry b a.
Proof. unfold equal_without_geometry. rewrite (Z.eqb_sym (timestamp a)), (Z.eqb_sym (channels a)). destruct (is_valid a), (is_valid b); reflexivity. Qed.
Lemma without_refl a : equal_without_geometry a a = true.
Proof. unfold equal_without_geometry. rewrite !Z.eqb_refl, eqb_reflx. reflexivity. Qed.
Theorem eqx_frame a b : proper_frame a -> proper_frame b -> equal_frame a a = Some true /\ exists r, equal_frame a b = Some r /\ equal_frame b a = Some r /\
  (r = true <-> timestamp a = timestamp b /\ channels a = channels b /\ is_valid a = is_valid b /\ same_shared same_camera (geometry a) (geometry b)).
Proof.
  intros PA PB. unfold equal_frame. rewrite (shared_refl _ PA), without_refl. split; [reflexivity|]. destruct (shared_total _ _ PA PB) as (r & E1 & E2). rewrite E1, E2, (without_sym b a). eexists. split; [reflexivity|]. split; [reflexivity|]. unfold equal_without_geometry. rewrite !andb_true_iff, !Z.eqb_eq, eqb_true_iff. pose proof (shared_spec equal_camera (geometry a) (geometry b)) as S. rewrite E1 in S. split; [intros [[[? ?] ?] ->]; repeat (split; [assumption|]); apply S; reflexivity|intros (? & ? & ? & G); apply S in G; injection G; auto].
Qed.
(** The equality of multi-frames without null frames does not fail, and is reflexive and symmetric; they are equal exactly if their ids, rigs and frames are. *)
Lemma frames_total a b : length a = length b -> Forall (fun f => match f with Some f => proper_frame f | None => False end) a -> Forall (fun f => match f with Some f => proper_frame f | None => False end) b ->
  exists r, equal_frames equal_frame a b = Some r /\ equal_frames equal_frame b a = Some r /\ (r = true <-> Forall2 (same_shared (fun f g => equal_frame f g = Some true)) a b).
Proof.
  revert b. induction a as [|[f|] a IH]; intros [|[g|] b] L PA PB; try discriminate; try (exists true; split; [reflexivity|split; [reflexivity|split; [constructor|reflexivity]]]); inversion PA as [|? ? PF PA']; subst; inversion PB as [|? ? PG PB']; subst; try contradiction. cbn [equal_frames]. destruct (eqx_frame f g PF PG) as (_ & r & E1 & -> & _). destruct (IH b ltac:(cbn in L; lia) PA' PB') as (q & -> & -> & M). exists (r && q)%bool. rewrite E1. split; [reflexivity|]. split; [reflexivity|]. rewrite andb_true_iff, M. split; [intros [-> F]; constructor; [exact E1|exact F]|]. intros F. inversion F as [|? ? ? ? F1 F2]; subst. cbn [same_shared] in F1. rewrite E1 in F1. injection F1 as ->. split; [reflexivity|exact F2].
Qed.
Lemma frames_refl a : Forall (fun f => match f with Some f => proper_frame f | None => False end) a -> equal_frames equal_frame a a = Some true.
Proof. induction 1 as [|[f|] a P PA IH]; [reflexivity| |contradiction]. cbn [equal_frames]. rewrite (proj1 (eqx_frame f f P P)), IH. reflexivity. Qed.
Theorem eqx_nframe a b : proper_nframe a -> proper_nframe b -> equal_nframe a a = Some true /\ exists r, equal_nframe a b = Some r /\ equal_nframe b a = Some r /\
  (r = true <-> nframe_id a = nframe_id b /\ same_shared (fun x y => equal_rig x y = Some true) (nframe_rig a) (nframe_rig b) /\ Forall2 (same_shared (fun f g => equal_frame f g = Some true)) (frames a) (frames b)).
Proof.
  intros [RA FA] [RB FB]. assert (equal_shared equal_rig (nframe_rig a) (nframe_rig a) = Some true) as S. { destruct (nframe_rig a) as [r|]; [|reflexivity]. exact (proj1 (eqx_rig_refl r RA)). }
  assert (exists r, equal_shared equal_rig (nframe_rig a) (nframe_rig b) = Some r /\ equal_shared equal_rig (nframe_rig b) (nframe_rig a) = Some r) as (q & Q1 & Q2). { destruct (nframe_rig a) as [x|], (nframe_rig b) as [y|]; cbn [equal_shared]; eauto. destruct (eqx_rig x y RA RB) as (r & E1 & E2 & _). eauto. }
  unfold equal_nframe. rewrite S, Q1, Q2, Z.eqb_refl, Nat.eqb_refl. split; [apply frames_refl, FA|]. rewrite (Z.eqb_sym (nframe_id b)), (Nat.eqb_sym (length (frames b))). pose proof (shared_spec equal_rig (nframe_rig a) (nframe_rig b)) as SP. rewrite Q1 in SP. destruct (Z.eqb_spec (nframe_id a) (nframe_id b)) as [I|I]; cbn [andb].
  2: { exists false. split; [reflexivity|]. split; [reflexivity|]. split; [discriminate|]. intros [E _]. contradiction. }
  destruct q; cbn [andb].
  2: { exists false. split; [reflexivity|]. split; [reflexivity|]. split; [discriminate|]. intros (_ & E & _). apply SP in E. discriminate. }
  destruct (Nat.eqb_spec (length (frames a)) (length (frames b))) as [L|L].
  2: { exists false. split; [reflexivity|]. split; [reflexivity|]. split; [discriminate|]. intros (_ & _ & F). exfalso. apply L. clear - F. induction F; cbn; congruence. }
  destruct (frames_total _ _ L FA FB) as (r & E1 & E2 & M). exists r. split; [exact E1|]. split; [exact E2|]. rewrite M. pose proof (proj1 SP eq_refl). tauto.
Qed.
(** Without the rigs: the multi-frames are equal exactly if id, timestamps, channels and validities are. *)
Definition content (f : option frame) : option (Z * Z * bool) := match f with Some f => Some (timestamp f, channels f, is_valid f) | None => None end.
Theorem eqx_without_system a b : Forall (fun f => f <> None) (frames a) -> Forall (fun f => f <> None) (frames b) -> exists r, equal_without_system a b = Some r /\ (r = true <-> nframe_id a = nframe_id b /\ map content (frames a) = map content (frames b)).
Proof.
  intros FA FB. unfold equal_without_system. destruct (Z.eqb_spec (nframe_id a) (nframe_id b)) as [I|I].
  2: { exists false. split; [reflexivity|]. split; [discriminate|]. intros [E _]. contradiction. }
  cbn [andb]. destruct (Nat.eqb_spec (length (frames a)) (length (frames b))) as [L|L].
  2: { exists false. split; [reflexivity|]. split; [discriminate|]. intros [_ E]. apply (f_equal (@length _)) in E. rewrite !map_length in E. contradiction. }
  assert (exists r, equal_frames (fun f g => Some (equal_without_geometry f g)) (frames a) (frames b) = Some r /\ (r = true <-> map content (frames a) = map content (frames b))) as (r & E & M); [|exists r; split; [exact E|rewrite M; tauto]]. clear I. revert L FB. generalize (frames b). induction FA as [|f la NF FA IH]; intros [|g lb] L FB; try discriminate; [exists true; split; [reflexivity|split; reflexivity]|]. inversion FB as [|? ? NG FB']; subst. destruct f as [f|]; [|contradiction]. destruct g as [g|]; [|contradiction]. destruct (IH lb ltac:(cbn in L; lia) FB') as (r & E & M). cbn [equal_frames map content]. rewrite E. cbn [both]. eexists. split; [reflexivity|]. unfold equal_without_geometry. rewrite !andb_true_iff, !Z.eqb_eq, eqb_true_iff, M. split; [intros [[[-> ->] ->] ->]; reflexivity|intros G; injection G; auto].
Qed.

(** ** Refutations *)
Definition a_camera (t : R) (m : Z) : camera := Camera (Header 7 0 0) Pinhole [t; t; t; t] 0 640 480 false 0 (repeat 0 (parameters 0)) m.
Lemma a_camera_proper t m : proper_camera (a_camera t m).
Proof. split; [reflexivity|]. cbn. apply repeat_length. Qed.
Lemma a_camera_equal t u m n : 0 < t <= u -> equal_camera (a_camera t m) (a_camera u n) = Some (leb (u - t) (kEpsilon * t)).
Proof.
  intros T. destruct (eqx_meaning _ _ (a_camera_proper t m) (a_camera_proper u n)) as (r & -> & M). f_equal. apply eqb_eq_iff. rewrite M. fold kEpsilon. pose proof eps_pos as E. cbn [intrinsics a_camera]. rewrite !close_spec by (lra || reflexivity). cbn. unfold leb. destruct (Rle_dec (u - t) (kEpsilon * t)) as [L|L].
  - split; [reflexivity|intros _]. split; [reflexivity|]. assert ((u - t) * (u - t) <= (kEpsilon * t) * (kEpsilon * t)) by (apply Rmult_le_compat; lra). assert ((kEpsilon * t) * (kEpsilon * t) <= (kEpsilon * u) * (kEpsilon * u)) by (apply Rmult_le_compat; nra). split; nra.
  - split; [|discriminate]. intros (_ & S & _). exfalso. apply L. apply Rsqr_incr_0_var; [unfold Rsqr; nra|nra].
Qed.
(** Equality is not transitive. *)
Theorem eqx_transitive_refuted : exists a b c, proper_camera a /\ proper_camera b /\ proper_camera c /\ equal_camera a b = Some true /\ equal_camera b c = Some true /\ equal_camera a c = Some false.
Proof.
  pose proof eps_pos as E. exists (a_camera 400 0), (a_camera (400 * (1 + kEpsilon)) 0), (a_camera (400 * (1 + kEpsilon) * (1 + kEpsilon)) 0). do 3 (split; [apply a_camera_proper|]). rewrite !a_camera_equal by nra. unfold leb. split; [|split]; match goal with |- context [Rle_dec ?x ?y] => destruct (Rle_dec x y) as [L|L] end; try reflexivity; exfalso; nra.
Qed.
(** Cameras with different masks, rigs with different covariances and frames with different ids or raw cameras are equal. *)
Theorem eqx_ignored_refuted : (forall t m n, 0 < t -> equal_camera (a_camera t m) (a_camera t n) = Some true) /\
  (forall h l c d, Forall (fun p => proper_shared (fst p)) l -> equal_rig (Rig h l c) (Rig h l d) = Some true) /\
  (forall i j t ch g r s v, proper_shared g -> equal_frame (Frame i t ch g r v) (Frame j t ch g s v) = Some true).
Proof.
  split; [|split].
  - intros t m n T. rewrite a_camera_equal by lra. unfold leb. destruct (Rle_dec _ _) as [L|L]; [reflexivity|]. exfalso. pose proof eps_pos. nra.
  - intros h l c d P. unfold equal_rig. cbn [rig_header cameras]. rewrite (proj2 (header_spec _ _) eq_refl), Nat.eqb_refl. apply cameras_refl, P.
  - intros. unfold equal_frame, equal_without_geometry. cbn [timestamp channels is_valid geometry]. rewrite !Z.eqb_refl, eqb_reflx, shared_refl by assumption. reflexivity.
Qed.
(** A multi-frame as it is constructed, with frames that are null, cannot be compared with itself. *)
Theorem eqx_null_refuted i r n : match r with Some r => proper_rig r | None => True end -> (0 < n)%nat -> equal_nframe (NFrame i r (repeat None n)) (NFrame i r (repeat None n)) = None.
Proof.
  intros P N. unfold equal_nframe. cbn [nframe_rig nframe_id frames]. assert (equal_shared equal_rig r r = Some true) as ->. { destruct r as [r|]; [|reflexivity]. exact (proj1 (eqx_rig_refl r P)). } rewrite Z.eqb_refl, Nat.eqb_refl. destruct n; [lia|]. reflexivity.
Qed.
Example eqx_ex : let c := a_camera 400 3 in let r := Rig (Header 1 2 3) [(Some c, [1; 0; 0; 0; 0; 1; 0; 0; 0; 0; 1; 0; 0; 0; 0; 1])] None in let f := Frame 5 1000 17 (Some c) None true in
  proper_rig r /\ proper_frame f /\ proper_nframe (NFrame 2 (Some r) [Some f]) /\ clone_rig r <> None /\ sees (intrinsics c) 1 2 4 500 600.
Proof. cbn zeta. pose proof (a_camera_proper 400 3) as P. split; [repeat constructor; apply P|]. split; [apply P|]. split; [split; repeat constructor; apply P|]. split; [discriminate|]. cbn. split; lra. Qed.
End props.
Print Assumptions eqx_meaning.
Print Assumptions eqx_refl.
Print Assumptions eqx_sym.
Print Assumptions eqx_projection.
Print Assumptions eqx_rig.
Print Assumptions eqx_rig_refl.
Print Assumptions eqx_frame.
Print Assumptions eqx_nframe.
Print Assumptions eqx_without_system.
Print Assumptions eqx_transitive_refuted.
Print Assumptions eqx_ignored_refuted.
Print Assumptions eqx_null_refuted.
