(** C109: accuracy of the numerical Jacobian. *)
From Coq Require Import Reals List Bool Arith Lia Lra.
From Verif Require Import NumDiffModel NumDiffSpec.
Import ListNotations.
Local Open Scope R_scope.

(** ** Differences and derivatives *)
Lemma growth u u' v v' a b : a <= b -> (forall t, a <= t <= b -> derivable_pt_lim u t (u' t)) -> (forall t, a <= t <= b -> derivable_pt_lim v t (v' t)) -> (forall t, a <= t <= b -> Rabs (u' t) <= v' t) -> Rabs (u b - u a) <= v b - v a.
Proof.
  intros [L|<-] U V B; [|rewrite !Rminus_eq_0, Rabs_R0; lra].
  destruct (MVT_cor2 (fun t => v t - u t) (fun t => v' t - u' t) a b L) as (c & E & C). { intros t T. apply derivable_pt_lim_minus; [apply V|apply U]; exact T. }
  destruct (MVT_cor2 (fun t => v t + u t) (fun t => v' t + u' t) a b L) as (c' & E' & C'). { intros t T. apply derivable_pt_lim_plus; [apply V|apply U]; exact T. }
  assert (0 <= (v' c - u' c) * (b - a)) by (apply Rmult_le_pos; [pose proof (B c ltac:(lra)) as Q; pose proof (Rle_abs (u' c)); lra|lra]).
  assert (0 <= (v' c' + u' c') * (b - a)) by (apply Rmult_le_pos; [pose proof (B c' ltac:(lra)) as Q; pose proof (Rle_abs (- u' c')) as Q'; rewrite Rabs_Ropp in Q'; lra|lra]).
  apply Rabs_le. lra.
Qed.
Lemma lim_scale g c t l : derivable_pt_lim g (c * t) l -> derivable_pt_lim (fun s => g (c * s)) t (c * l).
Proof.
  intros D. replace (c * l) with (l * (c * 1)) by ring. apply (derivable_pt_lim_comp (fun s => c * s) g t (c * 1) l); [|exact D]. apply (derivable_pt_lim_scal (fun s => s) c t 1). apply derivable_pt_lim_id.
Qed.
Lemma lim_power c n t : derivable_pt_lim (fun s => c * s ^ n) t (c * (INR n * t ^ pred n)).
Proof. apply (derivable_pt_lim_scal (fun s => s ^ n)). apply derivable_pt_lim_pow. Qed.
Lemma lim_ext u v t l : (forall s, u s = v s) -> derivable_pt_lim u t l -> derivable_pt_lim v t l.
Proof. intros E D e P. destruct (D e P) as [d H]. exists d. intros h N L. rewrite <- !E. apply H; assumption. Qed.
Lemma lim_affine p q t : derivable_pt_lim (fun s => p * s + q) t p.
Proof. cut (derivable_pt_lim (fun s => p * s + q) t (p * 1 + 0)); [replace (p * 1 + 0) with p by ring; tauto|]. apply (derivable_pt_lim_plus (fun s => p * s) (fun _ => q)); [apply (derivable_pt_lim_scal (fun s => s)), derivable_pt_lim_id|apply derivable_pt_lim_const]. Qed.
Definition pair_of (p q : R) (g : R -> R) (s : R) : R := p * g s + q * g (- s).
Lemma pair_lim p q g g' t : derivable_pt_lim g t (g' t) -> derivable_pt_lim g (- t) (g' (- t)) -> derivable_pt_lim (pair_of p q g) t (pair_of p (- q) g' t).
Proof.
  intros D1 D2. unfold pair_of. apply derivable_pt_lim_plus; [apply derivable_pt_lim_scal; exact D1|]. replace (- q * g' (- t)) with (q * (-1 * g' (- t))) by ring. apply (derivable_pt_lim_scal (fun s => g (- s)) q t). apply (lim_ext (fun s => g (-1 * s))); [intros s; f_equal; ring|]. apply lim_scale. replace (-1 * t) with (- t) by ring. exact D2.
Qed.
Lemma double_lim p q g g' t : derivable_pt_lim g (2 * t) (g' (2 * t)) -> derivable_pt_lim g (- (2 * t)) (g' (- (2 * t))) -> derivable_pt_lim (fun s => pair_of p q g (2 * s)) t (2 * pair_of p (- q) g' (2 * t)).
Proof. intros D1 D2. apply (lim_scale (pair_of p q g)). apply pair_lim; assumption. Qed.
Section Line.
Variables (d : nat -> R -> R) (n : nat) (a h M : R).
Hypothesis H0 : 0 < h.
Hypothesis D : forall k t, (k < n)%nat -> - a <= t <= a -> derivable_pt_lim (d k) t (d (S k) t).
Hypothesis B : forall t, - a <= t <= a -> Rabs (d n t) <= M.
Lemma forward_error : n = 2%nat -> h <= a -> Rabs ((d 0%nat h - d 0%nat 0) / h - d 1%nat 0) <= h * M / 2.
Proof.
  intros N A. assert (forall t, 0 <= t <= h -> Rabs (d 1%nat t - d 1%nat 0) <= M * t) as S1.
  { intros t T. assert (Rabs (d 1%nat t - d 1%nat 0) <= M * t - M * 0) as Q; [|lra]. apply (growth (d 1%nat) (d 2%nat) (fun s => M * s) (fun _ => M) 0 t); [lra| | |].
    - intros s S. apply D; [lia|lra].
    - intros s S. apply (lim_ext (fun s => M * s + 0)); [intros; ring|]. apply lim_affine.
    - intros s S. rewrite <- N. apply B. lra. }
  assert (Rabs ((d 0%nat h + (- d 1%nat 0 * h + 0)) - (d 0%nat 0 + (- d 1%nat 0 * 0 + 0))) <= M / 2 * h ^ 2 - M / 2 * 0 ^ 2) as S0.
  { apply (growth (fun s => d 0%nat s + (- d 1%nat 0 * s + 0)) (fun s => d 1%nat s + - d 1%nat 0) (fun s => M / 2 * s ^ 2) (fun s => M / 2 * (INR 2 * s ^ pred 2)) 0 h); [lra| | |].
    - intros s S. apply derivable_pt_lim_plus; [apply D; [lia|lra]|apply lim_affine].
    - intros s S. apply lim_power.
    - intros s S. eapply Rle_trans; [apply S1; exact S|]. cbn. lra. }
  replace ((d 0%nat h - d 0%nat 0) / h - d 1%nat 0) with ((d 0%nat h + (- d 1%nat 0 * h + 0) - (d 0%nat 0 + (- d 1%nat 0 * 0 + 0))) / h) by (field; lra). unfold Rdiv at 1. rewrite Rabs_mult, (Rabs_right (/ h)) by (apply Rle_ge, Rlt_le, Rinv_0_lt_compat; lra).
  apply Rmult_le_reg_r with h; [exact H0|]. rewrite Rmult_assoc, Rinv_l, Rmult_1_r by lra. cbn in S0. lra.
Qed.
Lemma central_error : n = 3%nat -> h <= a -> Rabs ((d 0%nat h - d 0%nat (- h)) / (2 * h) - d 1%nat 0) <= h ^ 2 * M / 6.
Proof.
  intros N A. assert (forall t, 0 <= t <= h -> Rabs (pair_of 1 (-1) (d 2%nat) t) <= 2 * M * t) as S2.
  { intros t T. assert (Rabs (d 2%nat t - d 2%nat (- t)) <= M * t - M * - t) as Q; [|unfold pair_of; replace (1 * d 2%nat t + -1 * d 2%nat (- t)) with (d 2%nat t - d 2%nat (- t)) by ring; lra]. apply (growth (d 2%nat) (d 3%nat) (fun s => M * s) (fun _ => M) (- t) t); [lra| | |].
    - intros s S. apply D; [lia|lra].
    - intros s S. apply (lim_ext (fun s => M * s + 0)); [intros; ring|]. apply lim_affine.
    - intros s S. rewrite <- N. apply B. lra. }
  assert (forall t, 0 <= t <= h -> Rabs (pair_of 1 1 (d 1%nat) t - 2 * d 1%nat 0) <= M * t ^ 2) as S1.
  { intros t T. assert (Rabs (pair_of 1 1 (d 1%nat) t - pair_of 1 1 (d 1%nat) 0) <= M * t ^ 2 - M * 0 ^ 2) as Q. { apply (growth (pair_of 1 1 (d 1%nat)) (pair_of 1 (-1) (d 2%nat)) (fun s => M * s ^ 2) (fun s => M * (INR 2 * s ^ pred 2)) 0 t); [lra| | |].
      - intros s S. apply pair_lim; apply D; (lia || lra).
      - intros s S. apply lim_power.
      - intros s S. eapply Rle_trans; [apply S2; lra|]. cbn. lra. }
    replace (pair_of 1 1 (d 1%nat) 0) with (2 * d 1%nat 0) in Q by (unfold pair_of; rewrite Ropp_0; ring). cbn in Q |- *. lra. }
  assert (Rabs ((pair_of 1 (-1) (d 0%nat) h + (- (2 * d 1%nat 0) * h + 0)) - (pair_of 1 (-1) (d 0%nat) 0 + (- (2 * d 1%nat 0) * 0 + 0))) <= M / 3 * h ^ 3 - M / 3 * 0 ^ 3) as S0.
  { apply (growth (fun s => pair_of 1 (-1) (d 0%nat) s + (- (2 * d 1%nat 0) * s + 0)) (fun s => pair_of 1 (- -1) (d 1%nat) s + - (2 * d 1%nat 0)) (fun s => M / 3 * s ^ 3) (fun s => M / 3 * (INR 3 * s ^ pred 3)) 0 h); [lra| | |].
    - intros s S. apply derivable_pt_lim_plus; [apply pair_lim; apply D; (lia || lra)|apply lim_affine].
    - intros s S. apply lim_power.
    - intros s S. replace (- -1) with 1 by ring. eapply Rle_trans; [apply S1; exact S|]. cbn. lra. }
  replace ((d 0%nat h - d 0%nat (- h)) / (2 * h) - d 1%nat 0) with ((pair_of 1 (-1) (d 0%nat) h + (- (2 * d 1%nat 0) * h + 0) - (pair_of 1 (-1) (d 0%nat) 0 + (- (2 * d 1%nat 0) * 0 + 0))) * / (2 * h)) by (unfold pair_of; rewrite Ropp_0; field; lra). rewrite Rabs_mult, (Rabs_right (/ (2 * h))) by (apply Rle_ge, Rlt_le, Rinv_0_lt_compat; lra).
  apply Rmult_le_reg_r with (2 * h); [lra|]. rewrite Rmult_assoc, Rinv_l, Rmult_1_r by lra. eapply Rle_trans; [exact S0|]. right. field.
Qed.
Lemma second_error : n = 5%nat -> 2 * h <= a -> Rabs ((8 * d 0%nat h + d 0%nat (- (2 * h)) - d 0%nat (2 * h) - 8 * d 0%nat (- h)) / (h * 12) - d 1%nat 0) <= h ^ 4 * M / 30.
Proof.
  intros N A. assert (forall t, 0 <= t <= 2 * h -> Rabs (pair_of 1 (-1) (d 4%nat) t) <= 2 * M * t) as S4.
  { intros t T. assert (Rabs (d 4%nat t - d 4%nat (- t)) <= M * t - M * - t) as Q; [|unfold pair_of; replace (1 * d 4%nat t + -1 * d 4%nat (- t)) with (d 4%nat t - d 4%nat (- t)) by ring; lra]. apply (growth (d 4%nat) (d 5%nat) (fun s => M * s) (fun _ => M) (- t) t); [lra| | |].
    - intros s S. apply D; [lia|lra].
    - intros s S. apply (lim_ext (fun s => M * s + 0)); [intros; ring|]. apply lim_affine.
    - intros s S. rewrite <- N. apply B. lra. }
  assert (forall t, 0 <= t <= h -> Rabs (pair_of 1 1 (d 3%nat) (2 * t) - pair_of 1 1 (d 3%nat) t) <= 3 * M * t ^ 2) as S3.
  { intros t T. assert (Rabs (pair_of 1 1 (d 3%nat) (2 * t) - pair_of 1 1 (d 3%nat) t) <= M * (2 * t) ^ 2 - M * t ^ 2) as Q. { apply (growth (pair_of 1 1 (d 3%nat)) (pair_of 1 (-1) (d 4%nat)) (fun s => M * s ^ 2) (fun s => M * (INR 2 * s ^ pred 2)) t (2 * t)); [lra| | |].
      - intros s S. apply pair_lim; apply D; (lia || lra).
      - intros s S. apply lim_power.
      - intros s S. eapply Rle_trans; [apply S4; lra|]. cbn. lra. }
    eapply Rle_trans; [exact Q|]. right. ring. }
  assert (forall t, 0 <= t <= h -> Rabs (pair_of 8 (-8) (d 2%nat) t + pair_of (-4) 4 (d 2%nat) (2 * t)) <= 8 * M * t ^ 3) as S2.
  { intros t T. assert (Rabs ((pair_of 8 (-8) (d 2%nat) t + pair_of (-4) 4 (d 2%nat) (2 * t)) - (pair_of 8 (-8) (d 2%nat) 0 + pair_of (-4) 4 (d 2%nat) (2 * 0))) <= 8 * M * t ^ 3 - 8 * M * 0 ^ 3) as Q. { apply (growth (fun t => pair_of 8 (-8) (d 2%nat) t + pair_of (-4) 4 (d 2%nat) (2 * t)) (fun t => pair_of 8 (- -8) (d 3%nat) t + 2 * pair_of (-4) (- (4)) (d 3%nat) (2 * t)) (fun s => 8 * M * s ^ 3) (fun s => 8 * M * (INR 3 * s ^ pred 3)) 0 t); [lra| | |].
      - intros s S. apply derivable_pt_lim_plus; [apply pair_lim|apply double_lim]; apply D; (lia || lra).
      - intros s S. apply lim_power.
      - intros s S. replace (pair_of 8 (- -8) (d 3%nat) s + 2 * pair_of (-4) (- (4)) (d 3%nat) (2 * s)) with (- 8 * (pair_of 1 1 (d 3%nat) (2 * s) - pair_of 1 1 (d 3%nat) s)) by (unfold pair_of; ring). rewrite Rabs_mult, (Rabs_left (- 8)) by lra. pose proof (S3 s ltac:(lra)). cbn in *. lra. }
    replace (pair_of 8 (-8) (d 2%nat) 0 + pair_of (-4) 4 (d 2%nat) (2 * 0)) with 0 in Q by (unfold pair_of; rewrite Rmult_0_r, Ropp_0; ring). rewrite Rminus_0_r in Q. eapply Rle_trans; [exact Q|]. right. ring. }
  assert (forall t, 0 <= t <= h -> Rabs (pair_of 8 8 (d 1%nat) t + pair_of (-2) (-2) (d 1%nat) (2 * t) - 12 * d 1%nat 0) <= 2 * M * t ^ 4) as S1.
  { intros t T. assert (Rabs ((pair_of 8 8 (d 1%nat) t + pair_of (-2) (-2) (d 1%nat) (2 * t)) - (pair_of 8 8 (d 1%nat) 0 + pair_of (-2) (-2) (d 1%nat) (2 * 0))) <= 2 * M * t ^ 4 - 2 * M * 0 ^ 4) as Q. { apply (growth (fun t => pair_of 8 8 (d 1%nat) t + pair_of (-2) (-2) (d 1%nat) (2 * t)) (fun t => pair_of 8 (- (8)) (d 2%nat) t + 2 * pair_of (-2) (- -2) (d 2%nat) (2 * t)) (fun s => 2 * M * s ^ 4) (fun s => 2 * M * (INR 4 * s ^ pred 4)) 0 t); [lra| | |].
      - intros s S. apply derivable_pt_lim_plus; [apply pair_lim|apply double_lim]; apply D; (lia || lra).
      - intros s S. apply lim_power.
      - intros s S. replace (pair_of 8 (- (8)) (d 2%nat) s + 2 * pair_of (-2) (- -2) (d 2%nat) (2 * s)) with (pair_of 8 (-8) (d 2%nat) s + pair_of (-4) 4 (d 2%nat) (2 * s)) by (unfold pair_of; ring). pose proof (S2 s ltac:(lra)). replace (INR 4) with 4 by (cbn; ring). cbn in *. lra. }
    replace (pair_of 8 8 (d 1%nat) 0 + pair_of (-2) (-2) (d 1%nat) (2 * 0)) with (12 * d 1%nat 0) in Q by (unfold pair_of; rewrite Rmult_0_r, Ropp_0; ring). eapply Rle_trans; [exact Q|]. right. ring. }
  assert (Rabs ((pair_of 8 (-8) (d 0%nat) h + pair_of (-1) 1 (d 0%nat) (2 * h) + (- (12 * d 1%nat 0) * h + 0)) - (pair_of 8 (-8) (d 0%nat) 0 + pair_of (-1) 1 (d 0%nat) (2 * 0) + (- (12 * d 1%nat 0) * 0 + 0))) <= 2 / 5 * M * h ^ 5 - 2 / 5 * M * 0 ^ 5) as S0.
  { apply (growth (fun t => pair_of 8 (-8) (d 0%nat) t + pair_of (-1) 1 (d 0%nat) (2 * t) + (- (12 * d 1%nat 0) * t + 0)) (fun t => pair_of 8 (- -8) (d 1%nat) t + 2 * pair_of (-1) (- (1)) (d 1%nat) (2 * t) + - (12 * d 1%nat 0)) (fun s => 2 / 5 * M * s ^ 5) (fun s => 2 / 5 * M * (INR 5 * s ^ pred 5)) 0 h); [lra| | |].
    - intros s S. apply derivable_pt_lim_plus; [apply derivable_pt_lim_plus; [apply pair_lim|apply double_lim]; apply D; (lia || lra)|apply lim_affine].
    - intros s S. apply lim_power.
    - intros s S. replace (pair_of 8 (- -8) (d 1%nat) s + 2 * pair_of (-1) (- (1)) (d 1%nat) (2 * s) + - (12 * d 1%nat 0)) with (pair_of 8 8 (d 1%nat) s + pair_of (-2) (-2) (d 1%nat) (2 * s) - 12 * d 1%nat 0) by (unfold pair_of; ring). eapply Rle_trans; [apply S1; exact S|]. right. cbn. field. }
  replace ((8 * d 0%nat h + d 0%nat (- (2 * h)) - d 0%nat (2 * h) - 8 * d 0%nat (- h)) / (h * 12) - d 1%nat 0) with (((pair_of 8 (-8) (d 0%nat) h + pair_of (-1) 1 (d 0%nat) (2 * h) + (- (12 * d 1%nat 0) * h + 0)) - (pair_of 8 (-8) (d 0%nat) 0 + pair_of (-1) 1 (d 0%nat) (2 * 0) + (- (12 * d 1%nat 0) * 0 + 0))) * / (h * 12)) by (unfold pair_of; rewrite Rmult_0_r, Ropp_0; field; lra). rewrite Rabs_mult, (Rabs_right (/ (h * 12))) by (apply Rle_ge, Rlt_le, Rinv_0_lt_compat; lra).
  apply Rmult_le_reg_r with (h * 12); [lra|]. rewrite Rmult_assoc, Rinv_l, Rmult_1_r by lra. eapply Rle_trans; [exact S0|]. right. field.
Qed.
End Line.

(** ** Points of evaluation *)
Lemma put_length x : forall j v, length (put x j v) = length x.
Proof. induction x as [|a x IH]; intros [|j] v; cbn; try reflexivity. f_equal. apply IH. Qed.
Lemma get_put x : forall j k v, (j < length x)%nat -> get (put x j v) k = if Nat.eqb k j then v else get x k.
Proof. unfold get. induction x as [|a x IH]; intros [|j] [|k] v L; cbn in *; try lia; try reflexivity. rewrite IH by lia. reflexivity. Qed.
Lemma put_put x : forall j v w, put (put x j v) j w = put x j w.
Proof. induction x as [|a x IH]; intros [|j] v w; cbn; try reflexivity. f_equal. apply IH. Qed.
Lemma put_get x : forall j, put x j (get x j) = x.
Proof. unfold get. induction x as [|a x IH]; intros [|j]; cbn; try reflexivity. f_equal. apply IH. Qed.
Lemma moved_put x j t : (j < length x)%nat -> moved x j t = put x j (get x j + t).
Proof.
  intros L. unfold moved. apply (nth_ext _ _ 0 0).
  - rewrite map_length, seq_length, put_length. reflexivity.
  - intros k K. rewrite map_length, seq_length in K. change (nth k (put x j (get x j + t)) 0) with (get (put x j (get x j + t)) k). rewrite get_put by exact L. rewrite (nth_indep _ 0 ((fun k => if Nat.eqb k j then nth k x 0 + t else nth k x 0) 0%nat)) by (rewrite map_length, seq_length; exact K). rewrite (map_nth (fun k => if Nat.eqb k j then nth k x 0 + t else nth k x 0)), seq_nth by exact K. cbn [Nat.add]. destruct (Nat.eqb_spec k j) as [-> | ]; reflexivity.
Qed.
Lemma step_distance epsfcn xj : step (eps_of epsfcn) xj = distance epsfcn xj /\ 0 < distance epsfcn xj.
Proof.
  unfold step, distance, eps_of, epsilon. set (e := sqrt (Rmax epsfcn (/ 2 ^ 52))). assert (0 < e) as P. { apply sqrt_lt_R0. eapply Rlt_le_trans; [|apply Rmax_r]. apply Rinv_0_lt_compat. apply pow_lt. lra. }
  destruct (Req_EM_T xj 0) as [-> | N].
  - rewrite Rabs_R0, Rmult_0_r, Rmult_1_r. destruct (Req_EM_T 0 0); [split; [reflexivity|exact P]|contradiction].
  - pose proof (Rabs_pos_lt _ N) as Q. assert (0 < e * Rabs xj) by (apply Rmult_lt_0_compat; assumption). destruct (Req_EM_T (e * Rabs xj) 0); [lra|]. split; [reflexivity|assumption].
Qed.
(** Multiples of the distance at which the schemes evaluate, and their difference quotients. *)
Definition points (m : mode) : list R := match m with Forward => [0; 1] | Central => [1; -1] | CentralSecond => [2; 1; -1; -2] end.
Definition quotient (m : mode) (g : R -> R) (h : R) : R :=
  match m with Forward => (g h - g 0) / h | Central => (g h - g (- h)) / (2 * h) | CentralSecond => (8 * g h + g (- (2 * h)) - g (2 * h) - 8 * g (- h)) / (h * 12) end.
Section Loop.
Variables (f : list R -> nat -> R) (ok : list R -> bool) (m : mode) (epsfcn : R) (x : list R).
Definition all_ok (j : nat) : bool := forallb (fun c => ok (moved x j (c * distance epsfcn (get x j)))) (points m).
Lemma body_spec jac s j : (j < length x)%nat -> body f ok m x (eps_of epsfcn) (x, jac, s) j = (x, put_column jac j (fun i => quotient m (fun t => f (moved x j t) i) (distance epsfcn (get x j))), s && all_ok j).
Proof.
  intros L. unfold body, all_ok. destruct (step_distance epsfcn (get x j)) as [-> P]. set (h := distance epsfcn (get x j)) in *.
  assert (forall t, moved x j t = put x j (get x j + t)) as MV by (intros t; apply moved_put; exact L). destruct m; cbn [points forallb quotient].
  - rewrite !MV, put_put, put_get, !andb_true_r, !Rmult_0_l, Rplus_0_r, Rmult_1_l, put_get, andb_assoc. reflexivity.
  - rewrite get_put, Nat.eqb_refl, !put_put, put_get by exact L. rewrite !MV, andb_true_r, Rmult_1_l. replace (get x j + h - 2 * h) with (get x j + -1 * h) by ring. rewrite andb_assoc. replace (get x j + -1 * h) with (get x j + - h) by ring. reflexivity.
  - rewrite get_put, Nat.eqb_refl, !put_put, get_put, Nat.eqb_refl, get_put, Nat.eqb_refl, put_get by exact L. rewrite !MV, andb_true_r, Rmult_1_l. replace (get x j + 2 * h - h - 2 * h - h) with (get x j + -2 * h) by ring. replace (get x j + 2 * h - h - 2 * h) with (get x j + -1 * h) by ring. replace (get x j + 2 * h - h) with (get x j + h) by ring. rewrite !andb_assoc. replace (get x j + - (2 * h)) with (get x j + -2 * h) by ring. replace (get x j + - h) with (get x j + -1 * h) by ring. reflexivity.
Qed.
Lemma loop_spec n : (n <= length x)%nat -> forall jac, exists jac', fold_left (body f ok m x (eps_of epsfcn)) (seq 0 n) (x, jac, true) = (x, jac', forallb all_ok (seq 0 n)) /\ forall i j, jac' i j = if (j <? n)%nat then quotient m (fun t => f (moved x j t) i) (distance epsfcn (get x j)) else jac i j.
Proof.
  induction n as [|n IH]; intros L jac; [exists jac; split; reflexivity|]. destruct (IH ltac:(lia) jac) as (jac' & E & J). rewrite seq_S, fold_left_app, E. cbn [fold_left Nat.add]. rewrite body_spec by lia. eexists. split; [f_equal; rewrite forallb_app; cbn [forallb]; rewrite andb_true_r; reflexivity|]. intros i j. unfold put_column. destruct (Nat.eqb_spec j n) as [-> | N].
  - replace (n <? S n)%nat with true by (symmetry; apply Nat.ltb_lt; lia). reflexivity.
  - rewrite J. destruct (Nat.ltb_spec j n), (Nat.ltb_spec j (S n)); try lia; reflexivity.
Qed.
Lemma jacobian_spec jac : exists jac', jacobian_numerical f ok m epsfcn x jac = (jac', forallb all_ok (seq 0 (length x))) /\ forall i j, (j < length x)%nat -> jac' i j = quotient m (fun t => f (moved x j t) i) (distance epsfcn (get x j)).
Proof.
  unfold jacobian_numerical. destruct (loop_spec (length x) ltac:(lia) jac) as (jac' & E & J). rewrite E. exists jac'. split; [reflexivity|]. intros i j L. rewrite J. replace (j <? length x)%nat with true by (symmetry; apply Nat.ltb_lt; exact L). reflexivity.
Qed.
End Loop.

(** ** Theorems *)
(** Order of the first derivative that is not exact, distance needed, and the error of a scheme. *)
Definition order (m : mode) : nat := match m with Forward => 2%nat | Central => 3%nat | CentralSecond => 5%nat end.
Definition reach (m : mode) (h : R) : R := match m with CentralSecond => 2 * h | _ => h end.
Definition error (m : mode) (h M : R) : R := match m with Forward => h * M / 2 | Central => h ^ 2 * M / 6 | CentralSecond => h ^ 4 * M / 30 end.
(** Every element of the numerical Jacobian is the derivative up to an error of the order of the scheme, whatever the matrix contained before. *)
Theorem nux_accuracy f ok m epsfcn x garbage jac success i j d M : jacobian_numerical f ok m epsfcn x garbage = (jac, success) -> (j < length x)%nat ->
  let h := distance epsfcn (nth j x 0) in
  derivatives f x i j (order m) (reach m h) d -> bounded d (order m) (reach m h) M ->
  Rabs (jac i j - d 1%nat 0) <= error m h M.
Proof.
  intros E L h [D0 D1] B. destruct (jacobian_spec f ok m epsfcn x garbage) as (jac' & E' & J). rewrite E in E'. injection E' as <- _. rewrite (J i j L). change (get x j) with (nth j x 0). fold h. destruct (step_distance epsfcn (nth j x 0)) as [_ P]. fold h in P.
  destruct m; cbn [quotient order reach error] in *.
  - rewrite <- !D0 by lra. apply (forward_error d 2 h); auto with real; lra.
  - rewrite <- !D0 by lra. apply (central_error d 3 h); auto with real; lra.
  - rewrite <- !D0 by lra. apply (second_error d 5 (2 * h)); auto with real; lra.
Qed.
(** Along a coordinate in which the function is a polynomial of degree four the default scheme is exact. *)
Theorem nux_exact f ok epsfcn x garbage jac success i j c0 c1 c2 c3 c4 : jacobian_numerical f ok CentralSecond epsfcn x garbage = (jac, success) -> (j < length x)%nat ->
  (forall t, f (moved x j t) i = c0 + c1 * t + c2 * t ^ 2 + c3 * t ^ 3 + c4 * t ^ 4) -> jac i j = c1.
Proof.
  intros E L F. destruct (jacobian_spec f ok CentralSecond epsfcn x garbage) as (jac' & E' & J). rewrite E in E'. injection E' as <- _. rewrite (J i j L). destruct (step_distance epsfcn (get x j)) as [_ P]. cbn [quotient]. rewrite !F. field. lra.
Qed.
(** Success: the functor succeeds at all points that are needed, and only those are asked for. *)
Theorem nux_success f ok m epsfcn x garbage jac success : jacobian_numerical f ok m epsfcn x garbage = (jac, success) ->
  (success = true <-> forall j c, (j < length x)%nat -> In c (points m) -> ok (moved x j (c * distance epsfcn (nth j x 0))) = true).
Proof.
  intros E. destruct (jacobian_spec f ok m epsfcn x garbage) as (jac' & E' & _). rewrite E in E'. injection E' as _ ->. rewrite forallb_forall. unfold all_ok. setoid_rewrite forallb_forall. split.
  - intros H j c L I. apply (H j); [apply in_seq; lia|exact I].
  - intros H j I c C. apply in_seq in I. apply H; [lia|exact C].
Qed.
(** The test separates right from wrong Jacobians, up to the error of the scheme: [d i j] are the derivatives, bounded by [M i j]. *)
Theorem nux_test f ok epsfcn tolerance rows x garbage symbolic (d : nat -> nat -> nat -> R -> R) (M : nat -> nat -> R) :
  (forall i j, (i < rows)%nat -> (j < length x)%nat -> derivatives f x i j 5 (2 * distance epsfcn (nth j x 0)) (d i j) /\ bounded (d i j) 5 (2 * distance epsfcn (nth j x 0)) (M i j)) ->
  (test_passes f ok epsfcn tolerance rows x garbage symbolic ->
   forall i j, (i < rows)%nat -> (j < length x)%nat -> Rabs (symbolic i j - d i j 1%nat 0) <= tolerance + distance epsfcn (nth j x 0) ^ 4 * M i j / 30) /\
  ((forall y, ok y = true) -> (forall i j, (i < rows)%nat -> (j < length x)%nat -> Rabs (symbolic i j - d i j 1%nat 0) + distance epsfcn (nth j x 0) ^ 4 * M i j / 30 <= tolerance) ->
   test_passes f ok epsfcn tolerance rows x garbage symbolic).
Proof.
  intros H. unfold test_passes. destruct (jacobian_numerical f ok CentralSecond epsfcn x garbage) as [jac success] eqn:E.
  assert (forall i j, (i < rows)%nat -> (j < length x)%nat -> Rabs (jac i j - d i j 1%nat 0) <= distance epsfcn (nth j x 0) ^ 4 * M i j / 30) as A.
  { intros i j I J. destruct (H i j I J) as [D B]. exact (nux_accuracy f ok CentralSecond epsfcn x garbage jac success i j (d i j) (M i j) E J D B). }
  split.
  - intros (_ & _ & T) i j I J. specialize (T i j I J). specialize (A i j I J). replace (symbolic i j - d i j 1%nat 0) with ((jac i j - d i j 1%nat 0) - (jac i j - symbolic i j)) by ring. eapply Rle_trans; [apply Rabs_triang|]. rewrite Rabs_Ropp. lra.
  - intros OK T. split; [apply (nux_success f ok _ _ _ _ _ _ E); intros; apply OK|]. split; [apply OK|]. intros i j I J. specialize (T i j I J). specialize (A i j I J). replace (jac i j - symbolic i j) with ((jac i j - d i j 1%nat 0) - (symbolic i j - d i j 1%nat 0)) by ring. eapply Rle_trans; [apply Rabs_triang|]. rewrite Rabs_Ropp. lra.
Qed.
(** The argument STEP is documented as the step size; coordinates of magnitude one or more are moved further for every step size below one. *)
Theorem nux_step_refuted step_size xj : 0 < step_size < 1 -> 1 <= Rabs xj -> step_size < step (eps_of step_size) xj.
Proof.
  intros S X. rewrite (proj1 (step_distance step_size xj)). unfold distance. destruct (Req_EM_T xj 0) as [-> | N]; [rewrite Rabs_R0 in X; lra|]. apply Rlt_le_trans with (sqrt (Rmax step_size (/ 2 ^ 52))).
  - apply Rlt_le_trans with (sqrt step_size); [|apply sqrt_le_1_alt, Rmax_l]. rewrite <- (sqrt_Rsqr step_size) at 1 by lra. apply sqrt_lt_1_alt. unfold Rsqr. split; [apply Rmult_le_pos; lra|]. rewrite <- (Rmult_1_r step_size) at 3. apply Rmult_lt_compat_l; lra.
  - rewrite <- (Rmult_1_r (sqrt (Rmax step_size (/ 2 ^ 52)))) at 1. apply Rmult_le_compat_l; [apply sqrt_pos|exact X].
Qed.

(** Example: x * y at (2, 3); the derivatives along both coordinates. *)
Definition product_ex (x : list R) (i : nat) : R := get x 0 * get x 1.
Example nux_ex : derivatives product_ex [2; 3] 0 0 5 1 (fun k t => match k with 0%nat => 3 * t + 6 | 1%nat => 3 | _ => 0 end) /\ bounded (fun k t => match k with 0%nat => 3 * t + 6 | 1%nat => 3 | _ => 0 end) 5 1 0.
Proof.
  split; [split|].
  - intros t _. unfold product_ex, moved, get. cbn. ring.
  - intros [|[|k]] t _ _; [apply lim_affine|apply derivable_pt_lim_const|apply derivable_pt_lim_const].
  - intros t _. rewrite Rabs_R0. lra.
Qed.
Example nux_exact_ex t : product_ex (moved [2; 3] 0 t) 0 = 6 + 3 * t + 0 * t ^ 2 + 0 * t ^ 3 + 0 * t ^ 4.
Proof. unfold product_ex, moved, get. cbn. ring. Qed.
Print Assumptions nux_accuracy.
Print Assumptions nux_exact.
Print Assumptions nux_success.
Print Assumptions nux_test.
Print Assumptions nux_step_refuted.
