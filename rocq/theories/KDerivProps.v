(** C117: derivatives and detector response of KAZE. *)
From Coq Require Import Reals ZArith List Lra Lia.
From Verif Require Import KDerivModel KDerivSpec.
Import ListNotations.
Local Open Scope R_scope.

(** ** Reflection *)
Lemma reflect_range len p : (1 <= len)%Z -> (0 <= reflect len p < len)%Z.
Proof.
  intros H. unfold reflect. destruct (Z.eqb_spec len 1) as [L1|L1]; [lia|]. cbv zeta. pose proof (Z.mod_pos_bound p (2 * (len - 1)) ltac:(lia)). destruct (Z.ltb_spec (p mod (2 * (len - 1))) len); lia.
Qed.
Lemma reflect_in len p : (0 <= p < len)%Z -> reflect len p = p.
Proof.
  intros H. unfold reflect. destruct (Z.eqb_spec len 1) as [L1|L1]; [lia|]. cbv zeta. rewrite Z.mod_small by lia. destruct (Z.ltb_spec p len); lia.
Qed.
Lemma reflect_opp len p : (1 <= len)%Z -> reflect len (- p) = reflect len p.
Proof.
  intros H. unfold reflect. destruct (Z.eqb_spec len 1) as [L1|L1]; [reflexivity|]. cbv zeta. set (n := (2 * (len - 1))%Z). assert (N : (0 < n)%Z) by (unfold n; lia).
  pose proof (Z.mod_pos_bound p n N). destruct (Z.eq_dec (p mod n) 0) as [E|E].
  - rewrite (Z.mod_opp_l_z p n) by (try lia; exact E). rewrite E. reflexivity.
  - rewrite (Z.mod_opp_l_nz p n) by (try lia; exact E). destruct (Z.ltb_spec (n - p mod n) len), (Z.ltb_spec (p mod n) len); unfold n in *; lia.
Qed.
Lemma reflect_end len p : (1 <= len)%Z -> reflect len (len - 1 - p) = (len - 1 - reflect len p)%Z.
Proof.
  intros H. unfold reflect. destruct (Z.eqb_spec len 1) as [L1|L1]; [lia|]. cbv zeta. set (n := (2 * (len - 1))%Z). assert (N : (0 < n)%Z) by (unfold n; lia).
  pose proof (Z.mod_pos_bound p n N) as B. pose proof (Z.div_mod p n ltac:(lia)) as D. set (q := (p / n)%Z) in *. set (m := (p mod n)%Z) in *.
  assert (E : ((len - 1 - p) mod n = if (m <? len)%Z then len - 1 - m else 3 * (len - 1) - m)%Z).
  { symmetry. destruct (Z.ltb_spec m len).
    - apply (Z.mod_unique _ _ (- q)%Z); [left; unfold n in *; lia|]. unfold n in *. lia.
    - apply (Z.mod_unique _ _ (- q - 1)%Z); [left; unfold n in *; lia|]. unfold n in *. lia. }
  rewrite E. destruct (Z.ltb_spec m len).
  - destruct (Z.ltb_spec (len - 1 - m) len); unfold n in *; lia.
  - destruct (Z.ltb_spec (3 * (len - 1) - m) len); unfold n in *; lia.
Qed.

(** ** Kernels *)
Lemma sum_zero (f : nat -> R) a n : (forall t, (a <= t < a + n)%nat -> f t = 0) -> fold_right Rplus 0 (map f (seq a n)) = 0.
Proof. revert a. induction n as [|n IH]; intros a H; cbn; [reflexivity|]. rewrite (H a) by lia. rewrite IH; [lra|]. intros t T. apply H. lia. Qed.
Lemma sum_app (f : nat -> R) l m : fold_right Rplus 0 (map f (l ++ m)) = fold_right Rplus 0 (map f l) + fold_right Rplus 0 (map f m).
Proof. induction l as [|x l IH]; cbn; [lra|]. rewrite IH. lra. Qed.
Lemma sum_three (f : nat -> R) s : (1 <= s)%nat -> (forall t, t <> 0%nat -> t <> s -> t <> (2 * s)%nat -> f t = 0) ->
  fold_right Rplus 0 (map f (seq 0 (2 * s + 1))) = f 0%nat + f s + f (2 * s)%nat.
Proof.
  intros S Z. replace (2 * s + 1)%nat with (1 + ((s - 1) + (1 + ((s - 1) + 1))))%nat by lia. rewrite !seq_app, !sum_app.
  rewrite (sum_zero f _ (s - 1)); [|intros; apply Z; lia]. rewrite (sum_zero f _ (s - 1)); [|intros; apply Z; lia]. cbn [seq map fold_right].
  replace (0 + 1 + (s - 1))%nat with s by lia. replace (s + 1 + (s - 1))%nat with (2 * s)%nat by lia. lra.
Qed.
Definition w : R := 10 / 3.
(** The closed forms of both kernels. *)
Lemma half_odd s : ((2 * s + 1) / 2 = s)%nat.
Proof. replace (2 * s + 1)%nat with (1 + s * 2)%nat by lia. rewrite Nat.div_add by lia. reflexivity. Qed.
Lemma nth_map_seq (f : nat -> R) n t : (t < n)%nat -> nth t (map f (seq 0 n)) 0 = f t.
Proof.
  intros H. rewrite (nth_indep _ 0 (f 0%nat)) by (rewrite map_length, seq_length; exact H). rewrite map_nth, seq_nth by exact H. reflexivity.
Qed.
Lemma correlate_map (g : nat -> R) s f : (1 <= s)%nat -> (forall t, t <> 0%nat -> t <> s -> t <> (2 * s)%nat -> g t = 0) ->
  correlate (map g (seq 0 (2 * s + 1))) f = g 0%nat * f (- Z.of_nat s)%Z + g s * f 0%Z + g (2 * s)%nat * f (Z.of_nat s).
Proof.
  intros S Z. unfold correlate. rewrite map_length, seq_length, half_odd.
  rewrite (map_ext_in _ (fun t => g t * f (Z.of_nat t - Z.of_nat s)%Z)).
  2:{ intros t T. apply in_seq in T. rewrite nth_map_seq by lia. reflexivity. }
  rewrite sum_three; [|exact S|intros t A B C; rewrite Z by assumption; ring].
  replace (Z.of_nat 0 - Z.of_nat s)%Z with (- Z.of_nat s)%Z by lia. replace (Z.of_nat s - Z.of_nat s)%Z with 0%Z by lia. replace (Z.of_nat (2 * s) - Z.of_nat s)%Z with (Z.of_nat s) by lia. reflexivity.
Qed.
Lemma kernel_diff s f : (1 <= s)%nat -> correlate (kernel s 1) f = f (Z.of_nat s) - f (- Z.of_nat s)%Z.
Proof.
  intros S. unfold kernel. cbv zeta. rewrite half_odd. rewrite correlate_map; [|exact S|].
  - replace (2 * s + 1 - 1)%nat with (2 * s)%nat by lia. rewrite !Nat.eqb_refl. destruct (Nat.eqb_spec 0 (2 * s)); [lia|]. destruct (Nat.eqb_spec 0 s); [lia|]. destruct (Nat.eqb_spec s (2 * s)); [lia|]. ring.
  - intros t A B C. replace (2 * s + 1 - 1)%nat with (2 * s)%nat by lia. destruct (Nat.eqb_spec t (2 * s)); [contradiction|]. destruct (Nat.eqb_spec t s); [contradiction|]. destruct (Nat.eqb_spec t 0); [contradiction|]. reflexivity.
Qed.
Lemma kernel_smooth s f : (1 <= s)%nat -> correlate (kernel s 0) f = 3 / (32 * INR s) * (f (- Z.of_nat s)%Z + w * f 0%Z + f (Z.of_nat s)).
Proof.
  intros S. assert (P : INR s <> 0) by (apply not_0_INR; lia). unfold kernel. cbv zeta. rewrite half_odd. rewrite correlate_map; [|exact S|].
  - replace (2 * s + 1 - 1)%nat with (2 * s)%nat by lia. rewrite !Nat.eqb_refl. destruct (Nat.eqb_spec 0 (2 * s)); [lia|]. destruct (Nat.eqb_spec 0 s); [lia|]. destruct (Nat.eqb_spec s (2 * s)); [lia|]. unfold w. field. exact P.
  - intros t A B C. replace (2 * s + 1 - 1)%nat with (2 * s)%nat by lia. destruct (Nat.eqb_spec t (2 * s)); [contradiction|]. destruct (Nat.eqb_spec t s); [contradiction|]. destruct (Nat.eqb_spec t 0); [contradiction|]. reflexivity.
Qed.
Lemma scharr_diff f : correlate (scharr 1) f = f 1%Z - f (-1)%Z.
Proof. unfold correlate, scharr. cbn. ring. Qed.
Lemma scharr_smooth f : correlate (scharr 0) f = 3 / 32 * (f (-1)%Z + w * f 0%Z + f 1%Z).
Proof. unfold correlate, scharr, w. cbn. field. Qed.

(** ** Closed form of the derivatives *)
Definition valid (s : nat) : Prop := (1 <= s < 500)%nat.
Definition smooth (s : Z) (f : Z -> R) : R := f (- s)%Z + w * f 0%Z + f s.
Definition dx (rows cols s : Z) (a : image) : image := fun y x =>
  3 / (32 * IZR s) * smooth s (fun j => a (reflect rows (y + j)) (reflect cols (x + s)) - a (reflect rows (y + j)) (reflect cols (x - s))).
Definition dy (rows cols s : Z) (a : image) : image := fun y x =>
  3 / (32 * IZR s) * smooth s (fun i => a (reflect rows (y + s)) (reflect cols (x + i)) - a (reflect rows (y - s)) (reflect cols (x + i))).
Lemma derivative_x rows cols a s : valid s -> exists d, scharr_derivative rows cols a 1 0 s = Fine d /\ forall y x, d y x = dx rows cols (Z.of_nat s) a y x.
Proof.
  intros [S1 S2]. unfold scharr_derivative, derivative_kernels, dx, smooth. destruct s as [|[|s]]; [lia| |].
  - cbn [Nat.add Nat.eqb]. eexists. split; [reflexivity|]. intros y x. unfold sep_filter. rewrite scharr_smooth, !scharr_diff. replace (Z.of_nat 1) with 1%Z by reflexivity. change (x + -1)%Z with (x - 1)%Z. replace (x + -1)%Z with (x - 1)%Z by lia. change (- (1))%Z with (-1)%Z. field.
  - destruct (Nat.ltb_spec 1000 (2 * S (S s) + 1)); [lia|]. eexists. split; [reflexivity|]. intros y x. unfold sep_filter. rewrite kernel_smooth, !kernel_diff by lia. rewrite <- INR_IZR_INZ. replace (x + - Z.of_nat (S (S s)))%Z with (x - Z.of_nat (S (S s)))%Z by lia. reflexivity.
Qed.
Lemma derivative_y rows cols a s : valid s -> exists d, scharr_derivative rows cols a 0 1 s = Fine d /\ forall y x, d y x = dy rows cols (Z.of_nat s) a y x.
Proof.
  intros [S1 S2]. unfold scharr_derivative, derivative_kernels, dy, smooth. destruct s as [|[|s]]; [lia| |].
  - cbn [Nat.add Nat.eqb]. eexists. split; [reflexivity|]. intros y x. unfold sep_filter. rewrite scharr_diff, !scharr_smooth. replace (Z.of_nat 1) with 1%Z by reflexivity. replace (y + -1)%Z with (y - 1)%Z by lia. change (- (1))%Z with (-1)%Z. field.
  - destruct (Nat.ltb_spec 1000 (2 * S (S s) + 1)); [lia|]. eexists. split; [reflexivity|]. intros y x. unfold sep_filter. rewrite kernel_diff, !kernel_smooth by lia. rewrite <- INR_IZR_INZ. replace (y + - Z.of_nat (S (S s)))%Z with (y - Z.of_nat (S (S s)))%Z by lia. ring.
Qed.
Lemma dx_ext rows cols s a b : (forall y x, a y x = b y x) -> forall y x, dx rows cols s a y x = dx rows cols s b y x.
Proof. intros H y x. unfold dx, smooth. rewrite !H. reflexivity. Qed.
Lemma dy_ext rows cols s a b : (forall y x, a y x = b y x) -> forall y x, dy rows cols s a y x = dy rows cols s b y x.
Proof. intros H y x. unfold dy, smooth. rewrite !H. reflexivity. Qed.
Lemma level rows cols a s : valid s -> exists d, multiscale_derivatives rows cols a s = Fine d /\
  let z := Z.of_nat s in let k := IZR z in
  (forall y x, Lx d y x = k * dx rows cols z a y x) /\ (forall y x, Ly d y x = k * dy rows cols z a y x) /\
  (forall y x, Lxx d y x = k * k * dx rows cols z (dx rows cols z a) y x) /\ (forall y x, Lyy d y x = k * k * dy rows cols z (dy rows cols z a) y x) /\
  (forall y x, Lxy d y x = k * k * dy rows cols z (dx rows cols z a) y x).
Proof.
  intros V. destruct (derivative_x rows cols a s V) as [lx [E1 H1]]. destruct (derivative_y rows cols a s V) as [ly [E2 H2]].
  destruct (derivative_x rows cols lx s V) as [lxx [E3 H3]]. destruct (derivative_y rows cols ly s V) as [lyy [E4 H4]]. destruct (derivative_y rows cols lx s V) as [lxy [E5 H5]].
  unfold multiscale_derivatives. rewrite E1, E2. cbn [bind]. rewrite E3, E4, E5. cbn [bind]. eexists. split; [reflexivity|]. cbv zeta. cbn [Lx Ly Lxx Lyy Lxy]. unfold scale_image. rewrite <- INR_IZR_INZ.
  repeat split; intros y x.
  - rewrite H1. reflexivity.
  - rewrite H2. reflexivity.
  - rewrite H3, (dx_ext _ _ _ _ _ H1). reflexivity.
  - rewrite H4, (dy_ext _ _ _ _ _ H2). reflexivity.
  - rewrite H5, (dy_ext _ _ _ _ _ H1). reflexivity.
Qed.
Lemma pos_scale s : valid s -> IZR (Z.of_nat s) <> 0.
Proof. intros [A B]. apply not_0_IZR. lia. Qed.
Lemma inside_reflect len p s : (0 <= s <= p)%Z -> (p < len - s)%Z -> reflect len (p + s) = (p + s)%Z /\ reflect len (p - s) = (p - s)%Z /\ reflect len (p + - s) = (p - s)%Z /\ reflect len (p + 0) = p.
Proof. intros A B. repeat split; rewrite reflect_in; lia. Qed.
Lemma dx_inside rows cols s a y x : (0 <= s)%Z -> inside rows cols s y x ->
  dx rows cols s a y x = 3 / (32 * IZR s) * ((a (y - s)%Z (x + s)%Z - a (y - s)%Z (x - s)%Z) + w * (a y (x + s)%Z - a y (x - s)%Z) + (a (y + s)%Z (x + s)%Z - a (y + s)%Z (x - s)%Z)).
Proof.
  intros S [Y X]. destruct (inside_reflect rows y s) as [Y1 [Y2 [Y3 Y4]]]; [lia|lia|]. destruct (inside_reflect cols x s) as [X1 [X2 [X3 X4]]]; [lia|lia|].
  unfold dx, smooth. rewrite Y1, Y3, Y4, X1, X2. reflexivity.
Qed.
Lemma dy_inside rows cols s a y x : (0 <= s)%Z -> inside rows cols s y x ->
  dy rows cols s a y x = 3 / (32 * IZR s) * ((a (y + s)%Z (x - s)%Z - a (y - s)%Z (x - s)%Z) + w * (a (y + s)%Z x - a (y - s)%Z x) + (a (y + s)%Z (x + s)%Z - a (y - s)%Z (x + s)%Z)).
Proof.
  intros S [Y X]. destruct (inside_reflect rows y s) as [Y1 [Y2 [Y3 Y4]]]; [lia|lia|]. destruct (inside_reflect cols x s) as [X1 [X2 [X3 X4]]]; [lia|lia|].
  unfold dy, smooth. rewrite Y1, Y2, X1, X3, X4. reflexivity.
Qed.

(** ** C117 *)
(** The first derivatives of polynomials of degree two are exact, times the scale, at the pixels further than the scale from
    the border. The image needs to be that polynomial only around the pixel. *)
Theorem kdx_gradient rows cols a s y x c cx cy cxx cxy cyy : valid s -> inside rows cols (Z.of_nat s) y x ->
  (forall j i, (Z.abs (j - y) <= Z.of_nat s)%Z -> (Z.abs (i - x) <= Z.of_nat s)%Z -> a j i = quadratic c cx cy cxx cxy cyy j i) ->
  exists d, multiscale_derivatives rows cols a s = Fine d /\
    Lx d y x = INR s * (cx + 2 * cxx * IZR x + cxy * IZR y) /\ Ly d y x = INR s * (cy + 2 * cyy * IZR y + cxy * IZR x).
Proof.
  intros V I Q. destruct (level rows cols a s V) as [d [E H]]. exists d. split; [exact E|]. cbv zeta in H. destruct H as [HX [HY _]]. pose proof (pos_scale s V) as P. rewrite HX, HY, INR_IZR_INZ. set (z := Z.of_nat s) in *. assert (Z0 : (0 <= z)%Z) by (unfold z; lia).
  rewrite (dx_inside rows cols z a y x Z0 I), (dy_inside rows cols z a y x Z0 I). rewrite !Q by lia. unfold quadratic, w. rewrite !plus_IZR, !minus_IZR. split; field; exact P.
Qed.
Print Assumptions kdx_gradient.

Lemma quadratic_dx rows cols a s y x c cx cy cxx cxy cyy : (0 < s)%Z -> inside rows cols s y x ->
  (forall j i, (Z.abs (j - y) <= s)%Z -> (Z.abs (i - x) <= s)%Z -> a j i = quadratic c cx cy cxx cxy cyy j i) ->
  dx rows cols s a y x = quadratic cx (2 * cxx) cxy 0 0 0 y x.
Proof.
  intros S I Q. assert (P : IZR s <> 0) by (apply not_0_IZR; lia). rewrite dx_inside; [|lia|exact I]. rewrite !Q by lia. unfold quadratic, w. rewrite !plus_IZR, !minus_IZR. field. exact P.
Qed.
Lemma quadratic_dy rows cols a s y x c cx cy cxx cxy cyy : (0 < s)%Z -> inside rows cols s y x ->
  (forall j i, (Z.abs (j - y) <= s)%Z -> (Z.abs (i - x) <= s)%Z -> a j i = quadratic c cx cy cxx cxy cyy j i) ->
  dy rows cols s a y x = quadratic cy cxy (2 * cyy) 0 0 0 y x.
Proof.
  intros S I Q. assert (P : IZR s <> 0) by (apply not_0_IZR; lia). rewrite dy_inside; [|lia|exact I]. rewrite !Q by lia. unfold quadratic, w. rewrite !plus_IZR, !minus_IZR. field. exact P.
Qed.
(** The second derivatives, times the square of the scale, and the response, the determinant of the Hessian times the fourth
    power of the scale, at the pixels further than twice the scale from the border. *)
Theorem kdx_hessian rows cols a s y x c cx cy cxx cxy cyy : valid s -> inside rows cols (2 * Z.of_nat s) y x ->
  (forall j i, (Z.abs (j - y) <= 2 * Z.of_nat s)%Z -> (Z.abs (i - x) <= 2 * Z.of_nat s)%Z -> a j i = quadratic c cx cy cxx cxy cyy j i) ->
  exists d, multiscale_derivatives rows cols a s = Fine d /\
    Lxx d y x = INR s ^ 2 * (2 * cxx) /\ Lyy d y x = INR s ^ 2 * (2 * cyy) /\ Lxy d y x = INR s ^ 2 * cxy /\
    response d y x = INR s ^ 4 * (2 * cxx * (2 * cyy) - cxy * cxy).
Proof.
  intros V I Q. destruct (level rows cols a s V) as [d [E H]]. exists d. split; [exact E|]. cbv zeta in H. destruct H as [_ [_ [HXX [HYY HXY]]]]. rewrite INR_IZR_INZ. set (z := Z.of_nat s) in *. assert (Z0 : (0 < z)%Z) by (destruct V; unfold z; lia).
  unfold inside in I. assert (I1 : inside rows cols z y x) by (unfold inside; lia).
  assert (DX : forall j i, (Z.abs (j - y) <= z)%Z -> (Z.abs (i - x) <= z)%Z -> dx rows cols z a j i = quadratic cx (2 * cxx) cxy 0 0 0 j i).
  { intros j i J K. apply (quadratic_dx rows cols a z j i c cx cy cxx cxy cyy Z0); [unfold inside; lia|]. intros j' i' J' K'. apply Q; lia. }
  assert (DY : forall j i, (Z.abs (j - y) <= z)%Z -> (Z.abs (i - x) <= z)%Z -> dy rows cols z a j i = quadratic cy cxy (2 * cyy) 0 0 0 j i).
  { intros j i J K. apply (quadratic_dy rows cols a z j i c cx cy cxx cxy cyy Z0); [unfold inside; lia|]. intros j' i' J' K'. apply Q; lia. }
  assert (XX : Lxx d y x = IZR z ^ 2 * (2 * cxx)). { rewrite HXX, (quadratic_dx rows cols _ z y x _ _ _ _ _ _ Z0 I1 DX). unfold quadratic. ring. }
  assert (YY : Lyy d y x = IZR z ^ 2 * (2 * cyy)). { rewrite HYY, (quadratic_dy rows cols _ z y x _ _ _ _ _ _ Z0 I1 DY). unfold quadratic. ring. }
  assert (XY : Lxy d y x = IZR z ^ 2 * cxy). { rewrite HXY, (quadratic_dy rows cols _ z y x _ _ _ _ _ _ Z0 I1 DX). unfold quadratic. ring. }
  split; [exact XX|]. split; [exact YY|]. split; [exact XY|]. unfold response. rewrite XX, YY, XY. ring.
Qed.
Print Assumptions kdx_hessian.

(** Brightness has no influence anywhere in the image, and contrast is squared. *)
Theorem kdx_contrast rows cols a s k b : valid s -> exists d e, multiscale_derivatives rows cols a s = Fine d /\ multiscale_derivatives rows cols (adjusted k b a) s = Fine e /\
  forall y x, Lx e y x = k * Lx d y x /\ Ly e y x = k * Ly d y x /\ response e y x = k * k * response d y x.
Proof.
  intros V. destruct (level rows cols a s V) as [d [E H]]. destruct (level rows cols (adjusted k b a) s V) as [e [F G]]. exists d, e. split; [exact E|]. split; [exact F|]. cbv zeta in H, G.
  destruct H as [H1 [H2 [H3 [H4 H5]]]], G as [G1 [G2 [G3 [G4 G5]]]]. intros y x.
  rewrite H1, H2, G1, G2. unfold response. rewrite H3, H4, H5, G3, G4, G5. unfold dx, dy, smooth, adjusted. repeat split; ring.
Qed.
Print Assumptions kdx_contrast.

(** Mirrored images have mirrored derivatives and responses, also at the border. *)
Lemma reflect_mirror cols x s : (1 <= cols)%Z -> (cols - 1 - reflect cols (x + s) = reflect cols (cols - 1 - x - s))%Z.
Proof. intros C. rewrite <- reflect_end by exact C. f_equal. lia. Qed.
Lemma dx_mirror rows cols s a y x : (1 <= cols)%Z -> dx rows cols s (mirrored cols a) y x = - dx rows cols s a y (cols - 1 - x)%Z.
Proof.
  intros C. unfold dx, smooth, mirrored. rewrite (reflect_mirror cols x s C). replace (x - s)%Z with (x + - s)%Z by lia. rewrite (reflect_mirror cols x (- s) C). replace (cols - 1 - x - - s)%Z with (cols - 1 - x + s)%Z by lia. ring.
Qed.
Lemma dy_mirror rows cols s a y x : (1 <= cols)%Z -> dy rows cols s (mirrored cols a) y x = dy rows cols s a y (cols - 1 - x)%Z.
Proof.
  intros C. unfold dy, smooth, mirrored. rewrite !(reflect_mirror cols x _ C). replace (cols - 1 - x - - s)%Z with (cols - 1 - x + s)%Z by lia. replace (cols - 1 - x - s)%Z with (cols - 1 - x + - s)%Z by lia. replace (cols - 1 - x - 0)%Z with (cols - 1 - x + 0)%Z by lia. ring.
Qed.
Lemma dx_mirror_neg rows cols s a b y x : (forall y x, a y x = - b y x) -> dx rows cols s a y x = - dx rows cols s b y x.
Proof. intros H. unfold dx, smooth. rewrite !H. ring. Qed.
Lemma dy_mirror_neg rows cols s a b y x : (forall y x, a y x = - b y x) -> dy rows cols s a y x = - dy rows cols s b y x.
Proof. intros H. unfold dy, smooth. rewrite !H. ring. Qed.
Theorem kdx_mirror rows cols a s : valid s -> (1 <= cols)%Z -> exists d e, multiscale_derivatives rows cols a s = Fine d /\ multiscale_derivatives rows cols (mirrored cols a) s = Fine e /\
  forall y x, Lx e y x = - Lx d y (cols - 1 - x)%Z /\ Ly e y x = Ly d y (cols - 1 - x)%Z /\ response e y x = response d y (cols - 1 - x)%Z.
Proof.
  intros V C. destruct (level rows cols a s V) as [d [E H]]. destruct (level rows cols (mirrored cols a) s V) as [e [F G]]. exists d, e. split; [exact E|]. split; [exact F|]. cbv zeta in H, G.
  destruct H as [H1 [H2 [H3 [H4 H5]]]], G as [G1 [G2 [G3 [G4 G5]]]]. intros y x. set (z := Z.of_nat s) in *.
  assert (XX : dx rows cols z (dx rows cols z (mirrored cols a)) y x = dx rows cols z (dx rows cols z a) y (cols - 1 - x)%Z).
  { rewrite (dx_mirror_neg _ _ _ _ (mirrored cols (dx rows cols z a))) by (intros; apply dx_mirror; exact C). rewrite dx_mirror by exact C. ring. }
  assert (XY : dy rows cols z (dx rows cols z (mirrored cols a)) y x = - dy rows cols z (dx rows cols z a) y (cols - 1 - x)%Z).
  { rewrite (dy_mirror_neg _ _ _ _ (mirrored cols (dx rows cols z a))) by (intros; apply dx_mirror; exact C). rewrite dy_mirror by exact C. ring. }
  assert (YY : dy rows cols z (dy rows cols z (mirrored cols a)) y x = dy rows cols z (dy rows cols z a) y (cols - 1 - x)%Z).
  { rewrite (dy_ext _ _ _ _ (mirrored cols (dy rows cols z a))) by (intros; apply dy_mirror; exact C). apply dy_mirror; exact C. }
  rewrite H1, H2, G1, G2. unfold response. rewrite H3, H4, H5, G3, G4, G5, XX, XY, YY, dx_mirror, dy_mirror by exact C. repeat split; ring.
Qed.
Print Assumptions kdx_mirror.

(** Exchange of rows and columns: first derivatives everywhere, the response inside. *)
Lemma dx_transposed rows cols s a y x : dx rows cols s (transposed a) y x = dy cols rows s a x y.
Proof. unfold dx, dy, smooth, transposed. reflexivity. Qed.
Theorem kdx_transpose rows cols a s : valid s -> exists d e, multiscale_derivatives rows cols a s = Fine d /\ multiscale_derivatives cols rows (transposed a) s = Fine e /\
  (forall y x, Lx e x y = Ly d y x /\ Ly e x y = Lx d y x /\ Lxx e x y = Lyy d y x /\ Lyy e x y = Lxx d y x) /\
  (forall y x, inside rows cols (2 * Z.of_nat s) y x -> response e x y = response d y x).
Proof.
  intros V. destruct (level rows cols a s V) as [d [E H]]. destruct (level cols rows (transposed a) s V) as [e [F G]]. exists d, e. split; [exact E|]. split; [exact F|]. cbv zeta in H, G.
  destruct H as [H1 [H2 [H3 [H4 H5]]]], G as [G1 [G2 [G3 [G4 G5]]]]. pose proof (pos_scale s V) as P. set (z := Z.of_nat s) in *. assert (Z0 : (0 < z)%Z) by (destruct V; unfold z; lia).
  assert (T1 : forall r c y x b, dx r c z (transposed b) y x = dy c r z b x y) by (intros; reflexivity).
  assert (T2 : forall r c y x b, dy r c z (transposed b) y x = dx c r z b x y) by (intros; reflexivity).
  assert (A : forall y x, Lx e x y = Ly d y x /\ Ly e x y = Lx d y x /\ Lxx e x y = Lyy d y x /\ Lyy e x y = Lxx d y x).
  { intros y x. rewrite G1, G2, G3, G4, H1, H2, H3, H4. repeat split; reflexivity. }
  split; [exact A|]. intros y x I. destruct (A y x) as [_ [_ [A1 A2]]]. unfold response. rewrite A1, A2, H5, G5.
  assert (X : dy cols rows z (dx cols rows z (transposed a)) x y = dx rows cols z (dy rows cols z a) y x) by reflexivity. rewrite X.
  unfold inside in I.
  assert (XY : dx rows cols z (dy rows cols z a) y x = dy rows cols z (dx rows cols z a) y x).
  { rewrite dx_inside by (unfold inside; lia). rewrite dy_inside by (unfold inside; lia). rewrite !dy_inside by (unfold inside; lia). rewrite !dx_inside by (unfold inside; lia).
    repeat (rewrite <- !Z.add_sub_assoc || rewrite <- !Z.add_assoc). replace (y + (z - z))%Z with y by lia. replace (x + (z - z))%Z with x by lia. replace (y - z + z)%Z with y by lia. replace (x - z + z)%Z with x by lia. ring. }
  rewrite XY. ring.
Qed.
Print Assumptions kdx_transpose.

(** ** What is wrong *)
(** At the border the derivatives across it are zero, whatever the image is, e.g. for a ramp. *)
Theorem kdx_border_refuted rows cols a s : valid s -> (1 <= rows)%Z -> (1 <= cols)%Z -> exists d, multiscale_derivatives rows cols a s = Fine d /\
  (forall y, Lx d y 0%Z = 0 /\ Lx d y (cols - 1)%Z = 0) /\ (forall x, Ly d 0%Z x = 0 /\ Ly d (rows - 1)%Z x = 0).
Proof.
  intros V R C. destruct (level rows cols a s V) as [d [E H]]. exists d. split; [exact E|]. cbv zeta in H. destruct H as [H1 [H2 _]]. set (z := Z.of_nat s) in *.
  assert (Z0 : forall l, (1 <= l)%Z -> reflect l (0 - z) = reflect l (0 + z)). { intros l L. replace (0 - z)%Z with (- (0 + z))%Z by lia. apply reflect_opp, L. }
  assert (Z1 : forall l, (1 <= l)%Z -> reflect l (l - 1 - z) = reflect l (l - 1 + z)).
  { intros l L. replace (l - 1 + z)%Z with (l - 1 - - z)%Z by lia. rewrite !reflect_end, reflect_opp by exact L. reflexivity. }
  split; intros p; rewrite ?H1, ?H2; unfold dx, dy, smooth; rewrite ?Z0, ?Z1 by assumption; split; ring.
Qed.
Print Assumptions kdx_border_refuted.
Example kdx_ramp : valid 2 /\ exists d, multiscale_derivatives 9 9 (quadratic 0 1 0 0 0 0) 2 = Fine d /\ Lx d 4%Z 4%Z = 2 /\ Lx d 4%Z 0%Z = 0.
Proof.
  assert (V : valid 2) by (unfold valid; lia). split; [exact V|].
  destruct (kdx_gradient 9 9 (quadratic 0 1 0 0 0 0) 2 4 4 0 1 0 0 0 0 V) as [d [E [X _]]]; [unfold inside; lia|reflexivity|].
  destruct (kdx_border_refuted 9 9 (quadratic 0 1 0 0 0 0) 2 V) as [d' [E' [B _]]]; [lia|lia|]. rewrite E in E'. injection E' as <-.
  exists d. split; [exact E|]. split; [rewrite X; cbn; ring|]. apply B.
Qed.

(** Next to the border the response is not the same after an exchange of rows and columns, since Lxy is the vertical
    derivative of the horizontal one, and the border is reflected in between. *)
Ltac reflections := repeat match goal with |- context [reflect ?l ?p] => let v := eval vm_compute in (reflect l p) in change (reflect l p) with v end.
Theorem kdx_transpose_refuted : exists rows cols a s y x d e, valid s /\ inside rows cols 0 y x /\
  multiscale_derivatives rows cols a s = Fine d /\ multiscale_derivatives cols rows (transposed a) s = Fine e /\ response d y x < 0 /\ response e x y = 0.
Proof.
  exists 5%Z, 3%Z, (quadratic 0 0 0 0 1 0), 1%nat, 2%Z, 0%Z. assert (V : valid 1) by (unfold valid; lia).
  destruct (level 5 3 (quadratic 0 0 0 0 1 0) 1 V) as [d [E H]]. destruct (level 3 5 (transposed (quadratic 0 0 0 0 1 0)) 1 V) as [e [F G]]. exists d, e.
  split; [exact V|]. split; [unfold inside; lia|]. split; [exact E|]. split; [exact F|]. cbv zeta in H, G. destruct H as [_ [_ [H3 [H4 H5]]]], G as [_ [_ [G3 [G4 G5]]]].
  unfold response. rewrite H3, H4, H5, G3, G4, G5. change (Z.of_nat 1) with 1%Z. unfold dx, dy, smooth, transposed, quadratic, w. reflections. split; lra.
Qed.
Print Assumptions kdx_transpose_refuted.

(** From a scale of 500 pixels on the buffer of the kernel overflows; at scale 0 (a base scale below one half) the kernel is infinite. *)
Theorem kdx_scale_refuted rows cols a s : ((500 <= s)%nat -> multiscale_derivatives rows cols a s = Overflow) /\ multiscale_derivatives rows cols a 0 = Infinite.
Proof.
  split; [|reflexivity]. intros L. unfold multiscale_derivatives, scharr_derivative, derivative_kernels. destruct s as [|[|s]]; [lia|lia|].
  destruct (Nat.ltb_spec 1000 (2 * S (S s) + 1)); [reflexivity|lia].
Qed.
Print Assumptions kdx_scale_refuted.
(** A blob x^2 + y^2 in a large image at scale 3: the response is 81 times 4. *)
Example kdx_blob : exists d, multiscale_derivatives 100 100 (quadratic 0 0 0 1 0 1) 3 = Fine d /\ response d 50%Z 40%Z = 324.
Proof.
  destruct (kdx_hessian 100 100 (quadratic 0 0 0 1 0 1) 3 50 40 0 0 0 1 0 1) as [d [E [_ [_ [_ R]]]]]; [unfold valid; lia|unfold inside; lia|reflexivity|].
  exists d. split; [exact E|]. rewrite R. cbn. ring.
Qed.
