(** C108: initialization of the focal length by the absolute conic. *)
From Coq Require Import Reals List Lia Lra.
From Verif Require Import FocalModel FocalSpec.
Import ListNotations.
Local Open Scope R_scope.

(** ** Least squares *)
Lemma total_cons f r m : total f (r :: m) = f r + total f m.
Proof. reflexivity. Qed.
Lemma total_nil f : total f [] = 0.
Proof. reflexivity. Qed.
Section Solve.
Variable l : list (R * R * R).
Notation saa := (total (fun '(a, b, c) => a * a) l).
Notation sab := (total (fun '(a, b, c) => a * b) l).
Notation sbb := (total (fun '(a, b, c) => b * b) l).
Notation sac := (total (fun '(a, b, c) => a * c) l).
Notation sbc := (total (fun '(a, b, c) => b * c) l).
Lemma total_nonneg f (m : list (R * R * R)) : (forall r, 0 <= f r) -> 0 <= total f m.
Proof. intros F. induction m as [|r m IH]; [rewrite total_nil; lra|]. rewrite total_cons. specialize (F r). lra. Qed.
Lemma total_zero f (m : list (R * R * R)) : (forall r, 0 <= f r) -> total f m = 0 -> forall r, In r m -> f r = 0.
Proof. intros F. induction m as [|q m IH]; intros E r []; rewrite total_cons in E; pose proof (F q); pose proof (total_nonneg f m F); [subst q; lra|apply IH; [lra|assumption]]. Qed.
Lemma residue x y : total (fun '(a, b, c) => (a * x - b * y) * (a * x - b * y)) l = saa * (x * x) - 2 * sab * (x * y) + sbb * (y * y).
Proof. induction l as [|[[a b] c] m IH]; [cbn; ring|]. rewrite !total_cons, IH. ring. Qed.
Lemma square_nonneg (r : R) : 0 <= r * r.
Proof. apply Rle_0_sqr. Qed.
Lemma sbb_zero r : sbb = 0 -> In r l -> snd (fst r) = 0.
Proof. intros E I. apply (total_zero (fun '(a, b, c) => b * b)) with (r := r) in E; [|intros [[a b] c]; apply square_nonneg|exact I]. destruct r as [[a b] c]. cbn. apply Rmult_integral in E. tauto. Qed.
Lemma sab_zero : sbb = 0 -> sab = 0.
Proof.
  intros E. assert (forall r, In r l -> snd (fst r) = 0) as H by (intros r I; apply sbb_zero; assumption). clear E. induction l as [|[[a b] c] m IH]; [reflexivity|]. pose proof (H (a, b, c) (or_introl eq_refl)) as B. cbn in B. rewrite total_cons, B, IH; [ring|]. intros r I. apply H. right. exact I.
Qed.
Lemma det_nonneg : 0 <= saa * sbb - sab * sab.
Proof.
  assert (0 <= sbb) as [P|E] by (apply total_nonneg; intros [[a b] c]; apply square_nonneg).
  - pose proof (residue sbb sab) as Q. assert (0 <= total (fun '(a, b, c) => (a * sbb - b * sab) * (a * sbb - b * sab)) l) as N by (apply total_nonneg; intros [[a b] c]; apply square_nonneg). rewrite Q in N. replace (saa * (sbb * sbb) - 2 * sab * (sbb * sab) + sbb * (sab * sab)) with (sbb * (saa * sbb - sab * sab)) in N by ring. apply Rmult_le_reg_l with sbb; lra.
  - rewrite <- E, (sab_zero (eq_sym E)). lra.
Qed.
(** The determinant does not vanish if two rows are independent. *)
Lemma det_pos a b c a' b' c' : In (a, b, c) l -> In (a', b', c') l -> a * b' - a' * b <> 0 -> saa * sbb - sab * sab <> 0.
Proof.
  intros I I' D E. destruct (Req_dec sbb 0) as [Z|N].
  - pose proof (sbb_zero _ Z I) as B. pose proof (sbb_zero _ Z I') as B'. cbn in B, B'. apply D. rewrite B, B'. ring.
  - pose proof (residue sbb sab) as Q. replace (saa * (sbb * sbb) - 2 * sab * (sbb * sab) + sbb * (sab * sab)) with (sbb * (saa * sbb - sab * sab)) in Q by ring. rewrite E, Rmult_0_r in Q.
    assert (forall r : R * R * R, 0 <= (fun '(a, b, c) => (a * sbb - b * sab) * (a * sbb - b * sab)) r) as P by (intros [[u v] w]; apply square_nonneg).
    pose proof (total_zero _ l P Q _ I) as H1. pose proof (total_zero _ l P Q _ I') as H2. cbn beta iota in H1, H2. apply Rmult_integral in H1, H2. assert (a * sbb - b * sab = 0) as G1 by tauto. assert (a' * sbb - b' * sab = 0) as G2 by tauto. apply D. apply Rmult_eq_reg_r with sbb; [|exact N]. replace ((a * b' - a' * b) * sbb) with (b' * (a * sbb - b * sab) - b * (a' * sbb - b' * sab)) by ring. rewrite G1, G2. ring.
Qed.
Lemma normal_equations x y : (forall a b c, In (a, b, c) l -> a * x + b * y = c) -> sac = saa * x + sab * y /\ sbc = sab * x + sbb * y.
Proof.
  intros H. induction l as [|[[a b] c] m IH]; [rewrite !total_nil; lra|]. destruct IH as [I1 I2]; [intros a' b' c' I; apply H; right; exact I|]. specialize (H a b c (or_introl eq_refl)). rewrite !total_cons, I1, I2, <- H. split; ring.
Qed.
Lemma solve_unique x y : sac = saa * x + sab * y -> sbc = sab * x + sbb * y -> saa * sbb - sab * sab <> 0 -> solve l = (x, y).
Proof. intros E1 E2 D. unfold solve. destruct (Req_EM_T _ 0); [contradiction|]. rewrite E1, E2. f_equal; field; exact D. Qed.
End Solve.

(** ** The rows of a view *)
Lemma norm_pos (v : nat -> R) : v 0%nat <> 0 \/ v 1%nat <> 0 \/ v 2%nat <> 0 -> 0 < scale_of v.
Proof.
  intros N. unfold scale_of. assert (forall r, r <> 0 -> 0 < r * r) as S by (intros r Hr; apply Rsqr_pos_lt; exact Hr). pose proof (square_nonneg (v 0%nat)). pose proof (square_nonneg (v 1%nat)). pose proof (square_nonneg (v 2%nat)). apply Rdiv_lt_0_compat; [lra|]. apply sqrt_lt_R0. destruct N as [N|[N|N]]; apply S in N; lra.
Qed.
Section View.
Variables (fu fv cu cv : R) (v : view) (H : hom).
Hypothesis (FU : fu <> 0) (FV : fv <> 0) (RV : rigid v) (MV : maps_to_image fu fv cu cv v H).
Lemma columns : exists k, k <> 0 /\
  centre cu cv H 0%nat 0%nat = k * (fu * r11 v) /\ centre cu cv H 1%nat 0%nat = k * (fv * r21 v) /\ centre cu cv H 2%nat 0%nat = k * r31 v /\
  centre cu cv H 0%nat 1%nat = k * (fu * r12 v) /\ centre cu cv H 1%nat 1%nat = k * (fv * r22 v) /\ centre cu cv H 2%nat 1%nat = k * r32 v.
Proof.
  destruct MV as (k & K & M). exists k. split; [exact K|]. destruct (M 0 0) as (u0 & w0 & s0 & (-> & -> & ->) & A0 & B0 & C0). destruct (M 1 0) as (u1 & w1 & s1 & (-> & -> & ->) & A1 & B1 & C1). destruct (M 0 1) as (u2 & w2 & s2 & (-> & -> & ->) & A2 & B2 & C2). cbn [centre].
  assert (H 2%nat 0%nat = k * r31 v) as E1 by lra. assert (H 2%nat 1%nat = k * r32 v) as E2 by lra. rewrite E1, E2.
  split; [lra|]. split; [lra|]. split; [lra|]. split; [lra|]. split; lra.
Qed.
(** The rows up to positive factors. *)
Lemma rows_of_view : exists s1 s2, 0 < s1 /\ 0 < s2 /\ rows_of cu cv H =
  [(s1 * (fu * fu * (r11 v * r12 v)), s1 * (fv * fv * (r21 v * r22 v)), - (s1 * (r31 v * r32 v)));
   (s2 * (fu * fu * (r11 v * r11 v - r12 v * r12 v)), s2 * (fv * fv * (r21 v * r21 v - r22 v * r22 v)), - (s2 * (r31 v * r31 v - r32 v * r32 v)))].
Proof.
  destruct columns as (k & K & A0 & A1 & A2 & B0 & B1 & B2). destruct RV as (N1 & N2 & N3).
  assert (forall r, k * r <> 0 <-> r <> 0) as KR by (intros r; split; [intros E ->; apply E; ring|intros E; apply Rmult_integral_contrapositive_currified; assumption]).
  assert (forall r f, f <> 0 -> (f * r <> 0 <-> r <> 0)) as FR by (intros r f F; split; [intros E ->; apply E; ring|intros E; apply Rmult_integral_contrapositive_currified; assumption]).
  assert (forall a b c : R, a ^ 2 + b ^ 2 + c ^ 2 <> 0 -> a <> 0 \/ b <> 0 \/ c <> 0) as NZ. { intros a b c E. destruct (Req_dec a 0) as [-> | ]; [|auto]. destruct (Req_dec b 0) as [-> | ]; [|auto]. destruct (Req_dec c 0) as [-> | ]; [|auto]. exfalso. apply E. ring. }
  set (t0 := fun j => centre cu cv H j 0%nat). set (t1 := fun j => centre cu cv H j 1%nat).
  assert (0 < scale_of t0) as S0. { apply norm_pos. unfold t0. rewrite A0, A1, A2, !KR, !FR by assumption. apply NZ. lra. }
  assert (0 < scale_of t1) as S1. { apply norm_pos. unfold t1. rewrite B0, B1, B2, !KR, !FR by assumption. apply NZ. lra. }
  assert (0 < scale_of (fun j => (t0 j + t1 j) * / 2)) as S2.
  { apply norm_pos. unfold t0, t1. rewrite A0, A1, A2, B0, B1, B2. replace ((k * (fu * r11 v) + k * (fu * r12 v)) * / 2) with (k * (fu * ((r11 v + r12 v) / 2))) by field. replace ((k * (fv * r21 v) + k * (fv * r22 v)) * / 2) with (k * (fv * ((r21 v + r22 v) / 2))) by field. replace ((k * r31 v + k * r32 v) * / 2) with (k * ((r31 v + r32 v) / 2)) by field. rewrite !KR, !FR by assumption. apply NZ. replace (((r11 v + r12 v) / 2) ^ 2 + ((r21 v + r22 v) / 2) ^ 2 + ((r31 v + r32 v) / 2) ^ 2) with ((r11 v ^ 2 + r21 v ^ 2 + r31 v ^ 2 + (r12 v ^ 2 + r22 v ^ 2 + r32 v ^ 2) + 2 * (r11 v * r12 v + r21 v * r22 v + r31 v * r32 v)) / 4) by field. rewrite N1, N2, N3. lra. }
  assert (0 < scale_of (fun j => (t0 j - t1 j) * / 2)) as S3.
  { apply norm_pos. unfold t0, t1. rewrite A0, A1, A2, B0, B1, B2. replace ((k * (fu * r11 v) - k * (fu * r12 v)) * / 2) with (k * (fu * ((r11 v - r12 v) / 2))) by field. replace ((k * (fv * r21 v) - k * (fv * r22 v)) * / 2) with (k * (fv * ((r21 v - r22 v) / 2))) by field. replace ((k * r31 v - k * r32 v) * / 2) with (k * ((r31 v - r32 v) / 2)) by field. rewrite !KR, !FR by assumption. apply NZ. replace (((r11 v - r12 v) / 2) ^ 2 + ((r21 v - r22 v) / 2) ^ 2 + ((r31 v - r32 v) / 2) ^ 2) with ((r11 v ^ 2 + r21 v ^ 2 + r31 v ^ 2 + (r12 v ^ 2 + r22 v ^ 2 + r32 v ^ 2) - 2 * (r11 v * r12 v + r21 v * r22 v + r31 v * r32 v)) / 4) by field. rewrite N1, N2, N3. lra. }
  assert (0 < k * k) as KK by (apply Rsqr_pos_lt; exact K).
  exists (k * k * (scale_of t0 * scale_of t1)), (k * k / 4 * (scale_of (fun j => (t0 j + t1 j) * / 2) * scale_of (fun j => (t0 j - t1 j) * / 2))).
  split; [apply Rmult_lt_0_compat; [|apply Rmult_lt_0_compat]; assumption|]. split; [apply Rmult_lt_0_compat; [lra|apply Rmult_lt_0_compat; assumption]|].
  unfold rows_of. cbv zeta. fold t0 t1. unfold row_of, normalized. set (a0 := scale_of t0) in *. set (a1 := scale_of t1) in *. set (a2 := scale_of (fun j => (t0 j + t1 j) * / 2)) in *. set (a3 := scale_of (fun j => (t0 j - t1 j) * / 2)) in *. unfold t0, t1. cbv beta. rewrite A0, A1, A2, B0, B1, B2.
  change (scale_of (fun j : nat => (centre cu cv H j 0%nat + centre cu cv H j 1%nat) * / 2)) with a2. change (scale_of (fun j : nat => (centre cu cv H j 0%nat - centre cu cv H j 1%nat) * / 2)) with a3.
  assert (forall a b c a' b' c' : R, a = a' -> b = b' -> c = c' -> (a, b, c) = (a', b', c')) as TR by (intros; congruence).
  apply f_equal2; [apply TR; field|]. apply f_equal2; [apply TR; field|reflexivity].
Qed.
Lemma rows_of_view_exact a b c : In (a, b, c) (rows_of cu cv H) -> a * (/ (fu * fu)) + b * (/ (fv * fv)) = c.
Proof.
  destruct rows_of_view as (s1 & s2 & P1 & P2 & ->). destruct RV as (N1 & N2 & N3). intros [E|[E|[]]]; injection E as <- <- <-.
  - replace (r31 v * r32 v) with (- (r11 v * r12 v) - r21 v * r22 v) by lra. field. split; assumption.
  - replace (r31 v * r31 v - r32 v * r32 v) with (- (r11 v * r11 v - r12 v * r12 v) - (r21 v * r21 v - r22 v * r22 v)) by lra. field. split; assumption.
Qed.
Lemma rows_of_view_tilted : tilted v -> exists a b c a' b' c', rows_of cu cv H = [(a, b, c); (a', b', c')] /\ a * b' - a' * b <> 0.
Proof.
  intros T. destruct rows_of_view as (s1 & s2 & P1 & P2 & ->). do 6 eexists. split; [reflexivity|]. destruct RV as (N1 & N2 & N3). unfold tilted, normal in T. destruct T as (NX & NY & NZ).
  set (nx := r21 v * r32 v - r31 v * r22 v) in *. set (ny := r31 v * r12 v - r11 v * r32 v) in *. set (nz := r11 v * r22 v - r21 v * r12 v) in *.
  assert (nx * ny + (r11 v * r21 v + r12 v * r22 v) = 0) as Q. { replace (nx * ny + (r11 v * r21 v + r12 v * r22 v)) with ((r11 v * r12 v + r21 v * r22 v + r31 v * r32 v) * (r21 v * r12 v + r22 v * r11 v) - r21 v * r11 v * (r12 v ^ 2 + r22 v ^ 2 + r32 v ^ 2 - 1) - r22 v * r12 v * (r11 v ^ 2 + r21 v ^ 2 + r31 v ^ 2 - 1)) by (unfold nx, ny; ring). rewrite N1, N2, N3. ring. }
  replace (s1 * (fu * fu * (r11 v * r12 v)) * (s2 * (fv * fv * (r21 v * r21 v - r22 v * r22 v))) - s2 * (fu * fu * (r11 v * r11 v - r12 v * r12 v)) * (s1 * (fv * fv * (r21 v * r22 v)))) with (s1 * s2 * (fu * fu) * (fv * fv) * (- nz * (r11 v * r21 v + r12 v * r22 v))) by (unfold nz; ring).
  replace (r11 v * r21 v + r12 v * r22 v) with (- (nx * ny)) by lra. replace (- nz * - (nx * ny)) with (nx * ny * nz) by ring.
  repeat (apply Rmult_integral_contrapositive_currified); try assumption; lra.
Qed.
End View.

(** ** The initialization *)
Lemma rows_in garbage cu cv r : forall obs i, In r (rows garbage cu cv i obs) -> (exists H, In (Some H) obs /\ In r (rows_of cu cv H)) \/ (In None obs /\ exists j, r = garbage j).
Proof.
  induction obs as [|[H|] obs IH]; intros i I; cbn [rows] in I; [destruct I| |]; apply in_app_iff in I as [I|I].
  - left. exists H. split; [left; reflexivity|exact I].
  - destruct (IH _ I) as [(G & G1 & G2)|(G1 & G2)]; [left; exists G; split; [right; exact G1|exact G2]|right; split; [right; exact G1|exact G2]].
  - right. split; [left; reflexivity|]. destruct I as [<- | [<- | []]]; eauto.
  - destruct (IH _ I) as [(G & G1 & G2)|(G1 & G2)]; [left; exists G; split; [right; exact G1|exact G2]|right; split; [right; exact G1|exact G2]].
Qed.
Lemma rows_some garbage cu cv H r : In r (rows_of cu cv H) -> forall obs i, In (Some H) obs -> In r (rows garbage cu cv i obs).
Proof.
  intros I. induction obs as [|o obs IH]; intros i []; cbn [rows]; apply in_app_iff; [subst o; left; exact I|right; apply IH; assumption].
Qed.
Lemma focal_square f : f <> 0 -> focal (/ (f * f)) = Some (Rabs f).
Proof.
  intros F. unfold focal. assert (0 < f * f) as P by (apply Rsqr_pos_lt; exact F). destruct (Req_EM_T (/ (f * f)) 0) as [E|_]; [pose proof (Rinv_0_lt_compat _ P); lra|]. f_equal. replace (1 / / (f * f)) with (f * f) by (field; exact F). rewrite Rabs_right by lra. change (f * f) with (Rsqr f). apply sqrt_Rsqr_abs.
Qed.
(** From views of a pinhole camera whose principal point is the centre of the image, all corners observed in all of them, the focal lengths are recovered exactly if one of the planes is tilted: its normal is in none of the planes of the camera axes. *)
Theorem flx_conic garbage fu fv width height obs :
  fu <> 0 -> fv <> 0 ->
  (forall o, In o obs -> exists H v, o = Some H /\ rigid v /\ maps_to_image fu fv ((width - 1) / 2) ((height - 1) / 2) v H) ->
  (exists H v, In (Some H) obs /\ rigid v /\ maps_to_image fu fv ((width - 1) / 2) ((height - 1) / 2) v H /\ tilted v) ->
  init_absolute_conic garbage width height obs = Some ((Some (Rabs fu), Some (Rabs fv), (width - 1) / 2, (height - 1) / 2), true).
Proof.
  intros FU FV ALL (H & v & I & RV & M & T). unfold init_absolute_conic. destruct obs as [|o obs]; [destruct I|]. set (cu := (width - 1) / 2) in *. set (cv := (height - 1) / 2) in *. cbv zeta. set (l := rows garbage cu cv 0 (o :: obs)).
  assert (forall a b c, In (a, b, c) l -> a * (/ (fu * fu)) + b * (/ (fv * fv)) = c) as EX. { intros a b c J. apply rows_in in J as [(G & G1 & G2)|(G1 & _)]; destruct (ALL _ G1) as (G' & v' & E & RV' & M'); [|discriminate]. injection E as <-. exact (rows_of_view_exact fu fv cu cv v' G FU FV RV' M' a b c G2). }
  destruct (normal_equations l _ _ EX) as [E1 E2]. destruct (rows_of_view_tilted fu fv cu cv v H FU FV RV M T) as (a & b & c & a' & b' & c' & RO & D).
  assert (In (a, b, c) l) as J1 by (apply (rows_some _ _ _ H); [rewrite RO; left; reflexivity|exact I]). assert (In (a', b', c') l) as J2 by (apply (rows_some _ _ _ H); [rewrite RO; right; left; reflexivity|exact I]).
  rewrite (solve_unique l _ _ E1 E2 (det_pos l _ _ _ _ _ _ J1 J2 D)). rewrite !focal_square by assumption. reflexivity.
Qed.
(** Views straight from the front: the result is infinite, and still true is returned. *)
Theorem flx_frontal_refuted garbage fu fv width height obs : fu <> 0 -> fv <> 0 -> obs <> [] ->
  (forall o, In o obs -> exists H v, o = Some H /\ rigid v /\ maps_to_image fu fv ((width - 1) / 2) ((height - 1) / 2) v H /\ r31 v = 0 /\ r32 v = 0) ->
  init_absolute_conic garbage width height obs = Some ((None, None, (width - 1) / 2, (height - 1) / 2), true).
Proof.
  intros FU FV NE ALL. unfold init_absolute_conic. destruct obs as [|o obs]; [contradiction|]. set (cu := (width - 1) / 2) in *. set (cv := (height - 1) / 2) in *. cbv zeta. set (l := rows garbage cu cv 0 (o :: obs)).
  assert (forall a b c, In (a, b, c) l -> a * (/ (fu * fu)) + b * (/ (fv * fv)) = 0) as EX.
  { intros a b c J. apply rows_in in J as [(G & G1 & G2)|(G1 & _)]; destruct (ALL _ G1) as (G' & v' & E & RV' & M' & Z1 & Z2); [|discriminate]. injection E as <-. rewrite (rows_of_view_exact fu fv cu cv v' G FU FV RV' M' a b c G2). destruct (rows_of_view fu fv cu cv v' G FU FV RV' M') as (s1 & s2 & _ & _ & RO). rewrite RO in G2. destruct G2 as [E|[E|[]]]; injection E as <- <- <-; rewrite Z1, Z2; ring. }
  assert (forall (m : list (R * R * R)), (forall a b c, In (a, b, c) m -> a * (/ (fu * fu)) + b * (/ (fv * fv)) = 0) -> total (fun '(a, b, c) => a * a) m * (/ (fu * fu)) + total (fun '(a, b, c) => a * b) m * (/ (fv * fv)) = 0 /\ total (fun '(a, b, c) => a * b) m * (/ (fu * fu)) + total (fun '(a, b, c) => b * b) m * (/ (fv * fv)) = 0) as TT.
  { clear. induction m as [|[[a b] c] m IH]; intros Hm; [rewrite !total_nil; lra|]. destruct IH as [I1 I2]; [intros a' b' c' J; apply (Hm a' b' c'); right; exact J|]. specialize (Hm a b c (or_introl eq_refl)). rewrite !total_cons. set (x := / (fu * fu)) in *. set (y := / (fv * fv)) in *. split.
    - transitivity (a * (a * x + b * y) + (total (fun '(a, b, c) => a * a) m * x + total (fun '(a, b, c) => a * b) m * y)); [ring|]. rewrite Hm, I1. ring.
    - transitivity (b * (a * x + b * y) + (total (fun '(a, b, c) => a * b) m * x + total (fun '(a, b, c) => b * b) m * y)); [ring|]. rewrite Hm, I2. ring. }
  destruct (TT l EX) as [T1 T2]. unfold solve. set (saa := total (fun '(a, b, c) => a * a) l) in *. set (sab := total (fun '(a, b, c) => a * b) l) in *. set (sbb := total (fun '(a, b, c) => b * b) l) in *.
  assert (saa * sbb - sab * sab = 0) as D. { assert (0 < fu * fu) as PU by (apply Rsqr_pos_lt; exact FU). pose proof (Rinv_0_lt_compat _ PU) as PU'. apply Rmult_eq_reg_r with (/ (fu * fu)); [|lra]. replace ((saa * sbb - sab * sab) * / (fu * fu)) with (sbb * (saa * / (fu * fu) + sab * / (fv * fv)) - sab * (sab * / (fu * fu) + sbb * / (fv * fv))) by ring. rewrite T1, T2. ring. }
  destruct (Req_EM_T _ 0) as [_|N]; [|contradiction]. unfold focal. destruct (Req_EM_T 0 0); [reflexivity|contradiction].
Qed.
(** An observation that is not complete leaves two rows of the equations as they are in memory: they can make the result anything, whatever the other observations are. *)
Lemma rows_app garbage cu cv obs2 : forall obs1 i, rows garbage cu cv i (obs1 ++ obs2) = rows garbage cu cv i obs1 ++ rows garbage cu cv (length obs1 + i) obs2.
Proof. induction obs1 as [|o obs1 IH]; intros i; cbn [rows app length Nat.add]; [reflexivity|]. rewrite IH, <- app_assoc. do 3 f_equal. lia. Qed.
Lemma rows_garbage g g' cu cv : forall obs i, ~ In None obs -> rows g cu cv i obs = rows g' cu cv i obs.
Proof. induction obs as [|[H|] obs IH]; intros i N; cbn [rows]; [reflexivity| |exfalso; apply N; left; reflexivity]. f_equal. apply IH. intros I. apply N. right. exact I. Qed.
Lemma total_app f l m : total f (l ++ m) = total f l + total f m.
Proof. induction l as [|r l IH]; [cbn [app]; rewrite total_nil; lra|]. cbn [app]. rewrite !total_cons, IH. lra. Qed.
Theorem flx_incomplete_refuted width height obs fu fv : ~ In None obs -> 0 < fu -> 0 < fv ->
  exists garbage, init_absolute_conic garbage width height (obs ++ [None]) = Some ((Some fu, Some fv, (width - 1) / 2, (height - 1) / 2), true).
Proof.
  intros N FU FV. set (cu := (width - 1) / 2). set (cv := (height - 1) / 2). set (l := rows (fun _ => (0, 0, 0)) cu cv 0 obs).
  set (saa := total (fun '(a, b, c) => a * a) l). set (sab := total (fun '(a, b, c) => a * b) l). set (sbb := total (fun '(a, b, c) => b * b) l). set (sac := total (fun '(a, b, c) => a * c) l). set (sbc := total (fun '(a, b, c) => b * c) l).
  set (x := / (fu * fu)). set (y := / (fv * fv)). set (n := length obs).
  exists (fun j => if Nat.eqb j (n * 2) then (1, 0, (saa + 1) * x + sab * y - sac) else (0, 1, sab * x + (sbb + 1) * y - sbc)).
  unfold init_absolute_conic. destruct (obs ++ [None]) as [|o r] eqn:E; [destruct obs; discriminate|]. rewrite <- E. clear E o r. fold cu cv. cbv zeta.
  rewrite rows_app, Nat.add_0_r. fold n. cbn [rows app]. rewrite Nat.eqb_refl. replace (Nat.eqb (n * 2 + 1) (n * 2)) with false by (symmetry; apply Nat.eqb_neq; lia). rewrite (rows_garbage _ (fun _ => (0, 0, 0)) cu cv obs 0 N). fold l.
  rewrite (solve_unique _ x y).
  - unfold x, y. rewrite !focal_square by lra. rewrite !Rabs_right by lra. reflexivity.
  - rewrite !total_app, !total_cons, !total_nil. fold saa sab sac. ring.
  - rewrite !total_app, !total_cons, !total_nil. fold sab sbb sbc. ring.
  - rewrite !total_app, !total_cons, !total_nil. fold saa sab sbb. pose proof (det_nonneg l) as D. fold saa sab sbb in D. assert (0 <= saa) by (apply total_nonneg; intros [[a b] c]; apply square_nonneg). assert (0 <= sbb) by (apply total_nonneg; intros [[a b] c]; apply square_nonneg). replace ((saa + (1 * 1 + (0 * 0 + 0))) * (sbb + (0 * 0 + (1 * 1 + 0))) - (sab + (1 * 0 + (0 * 1 + 0))) * (sab + (1 * 0 + (0 * 1 + 0)))) with (saa * sbb - sab * sab + saa + sbb + 1) by ring. lra.
Qed.

(** Example: a tilted plane seen with the focal lengths 500 and 400 in an image of 641 x 481. *)
Definition view_ex : view := View (2 / 3) (1 / 3) (2 / 3) (- (2 / 3)) (2 / 3) (1 / 3) 0 0 1.
Definition hom_ex : hom := fun i j => let c k := match j with 0%nat => match k with 0%nat => 2 / 3 | 1%nat => 1 / 3 | _ => 2 / 3 end | 1%nat => match k with 0%nat => - (2 / 3) | 1%nat => 2 / 3 | _ => 1 / 3 end | _ => match k with 2%nat => 1 | _ => 0 end end in
  match i with 0%nat => 500 * c 0%nat + 320 * c 2%nat | 1%nat => 400 * c 1%nat + 240 * c 2%nat | _ => c 2%nat end.
Example flx_conic_ex : rigid view_ex /\ maps_to_image 500 400 ((641 - 1) / 2) ((481 - 1) / 2) view_ex hom_ex /\ tilted view_ex.
Proof.
  split; [unfold rigid, view_ex; cbn [r11 r21 r31 r12 r22 r32]; lra|]. split; [|unfold tilted, normal, view_ex; cbn [r11 r21 r31 r12 r22 r32]; repeat split; lra].
  exists 1. split; [lra|]. intros x y. unfold seen, view_ex, hom_ex. cbn [r11 r21 r31 r12 r22 r32 FocalSpec.t1 FocalSpec.t2 t3]. do 3 eexists. split; [split; [reflexivity|split; reflexivity]|]. split; [lra|]. split; lra.
Qed.
Definition frontal_ex : view := View 1 0 0 0 1 0 0 0 2.
Example flx_frontal_ex : rigid frontal_ex /\ r31 frontal_ex = 0 /\ r32 frontal_ex = 0 /\ maps_to_image 500 400 0 0 frontal_ex (fun i j => match i, j with 0%nat, 0%nat => 500 | 1%nat, 1%nat => 400 | 2%nat, 2%nat => 2 | _, _ => 0 end).
Proof.
  split; [unfold rigid, frontal_ex; cbn [r11 r21 r31 r12 r22 r32]; lra|]. split; [reflexivity|]. split; [reflexivity|]. exists 1. split; [lra|]. intros x y. unfold seen, frontal_ex. cbn [r11 r21 r31 r12 r22 r32 FocalSpec.t1 FocalSpec.t2 t3]. do 3 eexists. split; [split; [reflexivity|split; reflexivity]|]. split; [lra|]. split; lra.
Qed.
Print Assumptions flx_conic.
Print Assumptions flx_frontal_refuted.
Print Assumptions flx_incomplete_refuted.
