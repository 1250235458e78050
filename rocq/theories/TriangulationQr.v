(** Lemmas for C49: the column-pivoting QR decomposition in exact arithmetic. *)
From Coq Require Import Reals ZArith List Bool Arith Lia Lra Psatz Permutation.
From Verif Require Import TriangulationModel.
Import ListNotations.
Local Open Scope R_scope.

(** ** Long vectors *)
Definition zeros (n : nat) : long := repeat zero3 n.
Lemma dot3_comm a b : dot3 a b = dot3 b a.
Proof. destruct a as [[a1 a2] a3], b as [[b1 b2] b3]. simpl. ring. Qed.
Lemma dot3_add a b c : dot3 (add3 a b) c = dot3 a c + dot3 b c.
Proof. destruct a as [[a1 a2] a3], b as [[b1 b2] b3], c as [[c1 c2] c3]. simpl. ring. Qed.
Lemma dot3_scale k a c : dot3 (scale3 k a) c = k * dot3 a c.
Proof. destruct a as [[a1 a2] a3], c as [[c1 c2] c3]. simpl. ring. Qed.
Lemma dot3_nonneg a : 0 <= dot3 a a.
Proof. destruct a as [[a1 a2] a3]. simpl. nra. Qed.
Lemma dot3_zero a : dot3 a a = 0 -> a = zero3.
Proof. destruct a as [[a1 a2] a3]. simpl. intros H. unfold zero3. assert (a1 = 0) by nra. assert (a2 = 0) by nra. assert (a3 = 0) by nra. congruence. Qed.
Lemma dot_comm a b : dot a b = dot b a.
Proof. revert b. induction a as [|x a IH]; intros [|y b]; simpl; try reflexivity. rewrite dot3_comm, IH. reflexivity. Qed.
Lemma length_add a b : length a = length b -> length (add_long a b) = length a.
Proof. revert b. induction a as [|x a IH]; intros [|y b] H; simpl in *; try lia. rewrite IH by lia. reflexivity. Qed.
Lemma length_scale k a : length (scale_long k a) = length a.
Proof. apply map_length. Qed.
Lemma dot_add a b c : length a = length b -> dot (add_long a b) c = dot a c + dot b c.
Proof. revert b c. induction a as [|x a IH]; intros [|y b] [|z c] H; simpl in *; try lia; try ring. rewrite dot3_add, IH by lia. ring. Qed.
Lemma dot_scale k a c : dot (scale_long k a) c = k * dot a c.
Proof. revert c. induction a as [|x a IH]; intros [|z c]; simpl; try ring. rewrite dot3_scale, IH. ring. Qed.
Lemma dot_zeros n c : dot (zeros n) c = 0.
Proof. unfold zeros. revert c. induction n as [|n IH]; intros [|z c]; simpl; try reflexivity. rewrite IH. destruct z as [[z1 z2] z3]. simpl. ring. Qed.
Lemma dot_nonneg a : 0 <= dot a a.
Proof. induction a as [|x a IH]; simpl; [lra|]. pose proof (dot3_nonneg x). lra. Qed.
Lemma dot_zero a : dot a a = 0 -> a = zeros (length a).
Proof.
  induction a as [|x a IH]; simpl; intros H; [reflexivity|]. pose proof (dot3_nonneg x). pose proof (dot_nonneg a). unfold zeros in *. simpl. rewrite <- IH by lra. rewrite (dot3_zero x) at 1 by lra. reflexivity.
Qed.
Lemma norm_pos a : dot a a <> 0 -> 0 < norm a.
Proof. intros H. pose proof (dot_nonneg a). apply sqrt_lt_R0. lra. Qed.

(** ** Linear combinations *)
Definition comb (n : nat) (x : nat -> R) (cs : list column) : long := fold_right (fun c acc => add_long (scale_long (x (fst c)) (snd c)) acc) (zeros n) cs.
Definition well_formed (n : nat) (cs : list column) : Prop := Forall (fun c => length (snd c) = n) cs.
Lemma length_comb n x cs : well_formed n cs -> length (comb n x cs) = n.
Proof. induction 1 as [|c cs Hc _ IH]; simpl; [apply repeat_length|]. rewrite length_add; rewrite length_scale; [exact Hc|]. rewrite IH. exact Hc. Qed.
Definition sum_over (f : column -> R) (cs : list column) : R := fold_right (fun c s => f c + s) 0 cs.
Lemma dot_comb n x cs w : well_formed n cs -> dot (comb n x cs) w = sum_over (fun c => x (fst c) * dot (snd c) w) cs.
Proof.
  induction 1 as [|c cs Hc F IH]; simpl; [apply dot_zeros|]. rewrite dot_add by (rewrite length_scale, length_comb by exact F; exact Hc). rewrite dot_scale, IH. reflexivity.
Qed.
Lemma sum_over_ext f g cs : (forall c, In c cs -> f c = g c) -> sum_over f cs = sum_over g cs.
Proof. induction cs as [|c cs IH]; intros H; simpl; [reflexivity|]. rewrite (H c), IH; [reflexivity| |left; reflexivity]. intros d Hd. apply H. right. exact Hd. Qed.
Lemma sum_over_zero f cs : (forall c, In c cs -> f c = 0) -> sum_over f cs = 0.
Proof. induction cs as [|c cs IH]; intros H; simpl; [reflexivity|]. rewrite (H c), IH; [ring| |left; reflexivity]. intros d Hd. apply H. right. exact Hd. Qed.
Lemma sum_over_perm f cs cs' : Permutation cs cs' -> sum_over f cs = sum_over f cs'.
Proof. induction 1; simpl; try reflexivity; try lra. Qed.
Lemma sum_over_plus f g cs : sum_over (fun c => f c + g c) cs = sum_over f cs + sum_over g cs.
Proof. induction cs as [|c cs IH]; simpl; [ring|]. rewrite IH. ring. Qed.
Lemma sum_over_mult k f cs : sum_over (fun c => k * f c) cs = k * sum_over f cs.
Proof. induction cs as [|c cs IH]; simpl; [ring|]. rewrite IH. ring. Qed.
(** Vanishing combinations, in terms of scalar products. *)
Definition vanishes (n : nat) (x : nat -> R) (cs : list column) : Prop := forall w, length w = n -> sum_over (fun c => x (fst c) * dot (snd c) w) cs = 0.
Definition independent (n : nat) (cs : list column) : Prop := forall x, vanishes n x cs -> forall c, In c cs -> x (fst c) = 0.
Lemma vanishes_comb n x cs : well_formed n cs -> vanishes n x cs <-> comb n x cs = zeros n.
Proof.
  intros F. split.
  - intros H. rewrite <- (length_comb n x cs F) at 2. apply dot_zero. rewrite dot_comb by exact F. apply H, length_comb, F.
  - intros E w Hw. rewrite <- dot_comb with (n := n) by exact F. rewrite E. apply dot_zeros.
Qed.
Lemma independent_perm n cs cs' : Permutation cs cs' -> independent n cs -> independent n cs'.
Proof.
  intros P H x V c Hc. apply (H x); [|apply (Permutation_in _ (Permutation_sym P)); exact Hc]. intros w Hw. rewrite (sum_over_perm _ _ _ P). apply V, Hw.
Qed.

(** ** One step *)
Lemma select_perm best seen rest q others : select best seen rest = (q, others) -> Permutation (q :: others) (best :: seen ++ rest).
Proof.
  revert best seen. induction rest as [|c rest IH]; intros best seen H; simpl in H.
  - injection H as <- <-. rewrite app_nil_r. apply perm_skip. symmetry. apply Permutation_rev.
  - destruct (Rlt_dec _ _) as [A|A]; apply IH in H; rewrite H.
    + transitivity (best :: c :: seen ++ rest); [apply perm_swap|]. apply perm_skip, Permutation_middle.
    + simpl. apply perm_skip. apply Permutation_middle.
Qed.
Lemma select_max best seen rest q others : select best seen rest = (q, others) -> (forall c, In c seen -> norm (snd c) <= norm (snd best)) -> forall c, In c (q :: others) -> norm (snd c) <= norm (snd q).
Proof.
  revert best seen. induction rest as [|d rest IH]; intros best seen H HS; simpl in H.
  - injection H as <- <-. intros c [<-|Hc]; [lra|]. apply HS, in_rev, Hc.
  - destruct (Rlt_dec _ _) as [A|A]; (eapply IH; [exact H|]); intros c [<-|Hc]; try lra; specialize (HS c Hc); lra.
Qed.
Lemma length_remove q c : length q = length c -> length (remove q c) = length c.
Proof. intros H. unfold remove. apply length_add. rewrite length_scale. congruence. Qed.
Lemma dot_remove q c w : length q = length c -> dot (remove q c) w = dot c w - dot c q / dot q q * dot q w.
Proof. intros H. unfold remove. rewrite dot_add by (rewrite length_scale; congruence). rewrite dot_scale. ring. Qed.
Lemma remove_orth q c : length q = length c -> dot q q <> 0 -> dot (remove q c) q = 0.
Proof. intros H N. rewrite dot_remove by exact H. field. exact N. Qed.
Lemma norm_remove q c : length q = length c -> norm (remove q c) <= norm c.
Proof.
  intros H. unfold norm. apply sqrt_le_1; [apply dot_nonneg|apply dot_nonneg|]. rewrite dot_remove by exact H. rewrite dot_comm, dot_remove by exact H.
  rewrite (dot_comm q (remove q c)), dot_remove by exact H. destruct (Req_dec (dot q q) 0) as [Z|N].
  - assert (Q : forall w, dot q w = 0). { intros w. rewrite (dot_zero q Z). apply dot_zeros. } rewrite (dot_comm c q), !Q. unfold Rdiv. rewrite !Rmult_0_l. lra.
  - replace (dot c c - dot c q / dot q q * dot q c - dot c q / dot q q * (dot c q - dot c q / dot q q * dot q q)) with (dot c c - dot c q * dot c q / dot q q) by (rewrite (dot_comm q c); field; exact N).
    pose proof (dot_nonneg q). assert (0 <= dot c q * dot c q / dot q q); [|lra]. apply Rmult_le_pos; [nra|]. left. apply Rinv_0_lt_compat. lra.
Qed.
Lemma reduce_wf n q cs : length q = n -> well_formed n cs -> well_formed n (reduce q cs).
Proof. intros Hq F. unfold reduce, well_formed. apply Forall_map. eapply Forall_impl; [|exact F]. intros c Hc. cbv beta in *. cbn [snd]. etransitivity; [apply length_remove; transitivity n; [exact Hq|symmetry; exact Hc]|exact Hc]. Qed.
Lemma reduce_fst q cs : map fst (reduce q cs) = map fst cs.
Proof. unfold reduce. rewrite map_map. reflexivity. Qed.
Lemma reduce_length q cs : length (reduce q cs) = length cs. Proof. apply map_length. Qed.
Lemma sum_reduce x q cs w n : length q = n -> well_formed n cs ->
  sum_over (fun c => x (fst c) * dot (snd c) w) (reduce q cs) = sum_over (fun c => x (fst c) * dot (snd c) w) cs - sum_over (fun c => x (fst c) * dot (snd c) q) cs / dot q q * dot q w.
Proof.
  intros Hq. induction 1 as [|c cs Hc F IH]; simpl; [unfold Rdiv; ring|]. rewrite IH. cbn [fst snd]. rewrite dot_remove by congruence. unfold Rdiv. ring.
Qed.
(** Independence before and after the step. *)
Lemma independent_pivot n q cs : well_formed n (q :: cs) -> NoDup (map fst (q :: cs)) -> independent n (q :: cs) -> dot (snd q) (snd q) <> 0.
Proof.
  intros F N H Z. cbn [map] in N. inversion N as [|? ? N1 N2]; subst. assert (E : 1 = 0); [|lra].
  specialize (H (fun i => if (i =? fst q)%nat then 1 else 0)). cbv beta in H. specialize (fun V => H V q (or_introl eq_refl)). rewrite Nat.eqb_refl in H. apply H.
  intros w Hw. simpl. rewrite Nat.eqb_refl, (dot_zero _ Z), dot_zeros, Rmult_0_r, Rplus_0_l. rewrite (sum_over_ext _ (fun _ => 0 * 0)).
  - rewrite sum_over_mult. ring.
  - intros c Hc. destruct (Nat.eqb_spec (fst c) (fst q)) as [Eq|_]; [|ring]. exfalso. apply N1. rewrite <- Eq. apply in_map, Hc.
Qed.
Lemma independent_reduce n q cs : well_formed n (q :: cs) -> NoDup (map fst (q :: cs)) -> independent n (q :: cs) -> independent n (reduce (snd q) cs).
Proof.
  intros F N H x V c Hc. inversion F as [|? ? Fq Fc]; subst. cbn [map] in N. inversion N as [|? ? N1 N2]; subst.
  set (k := sum_over (fun c => x (fst c) * dot (snd c) (snd q)) cs / dot (snd q) (snd q)).
  pose (y := fun i => if (i =? fst q)%nat then - k else x i).
  assert (Y : forall d, In d cs -> y (fst d) = x (fst d)). { intros d Hd. unfold y. destruct (Nat.eqb_spec (fst d) (fst q)) as [E|_]; [|reflexivity]. exfalso. apply N1. rewrite <- E. apply in_map, Hd. }
  assert (VY : vanishes (length (snd q)) y (q :: cs)).
  { intros w Hw. simpl. unfold y at 1. rewrite Nat.eqb_refl. rewrite (sum_over_ext (fun c => y (fst c) * dot (snd c) w) (fun c => x (fst c) * dot (snd c) w)) by (intros d Hd; rewrite Y by exact Hd; reflexivity).
    pose proof (V w Hw) as V'. rewrite (sum_reduce x (snd q) cs w (length (snd q)) eq_refl Fc) in V'. fold k in V'. lra. }
  unfold reduce in Hc. apply in_map_iff in Hc. destruct Hc as (d & <- & Hd). cbn [fst]. rewrite <- (Y d Hd). apply (H y VY). right. exact Hd.
Qed.
Lemma independent_step n q cs : well_formed n (q :: cs) -> dot (snd q) (snd q) <> 0 -> independent n (reduce (snd q) cs) -> independent n (q :: cs).
Proof.
  intros F NZ H x V. inversion F as [|? ? Fq Fc]; subst. cbv beta in *.
  assert (X : forall c, In c cs -> x (fst c) = 0).
  { assert (VR : vanishes (length (snd q)) x (reduce (snd q) cs)).
    { intros w Hw. rewrite (sum_reduce x (snd q) cs w (length (snd q)) eq_refl Fc). pose proof (V w Hw) as V1. pose proof (V (snd q) eq_refl) as V2. simpl in V1, V2.
      replace (sum_over (fun c => x (fst c) * dot (snd c) (snd q)) cs) with (- x (fst q) * dot (snd q) (snd q)) by lra. replace (- x (fst q) * dot (snd q) (snd q) / dot (snd q) (snd q)) with (- x (fst q)) by (field; exact NZ). lra. }
    intros c Hc. specialize (H x VR (fst c, remove (snd q) (snd c))). apply H. unfold reduce. apply in_map_iff. exists c. split; [reflexivity|exact Hc]. }
  intros c [<-|Hc]; [|apply X, Hc]. pose proof (V (snd q) eq_refl) as V2. simpl in V2. rewrite (sum_over_ext _ (fun _ => 0 * 0)) in V2 by (intros d Hd; rewrite (X d Hd); ring).
  rewrite sum_over_mult, Rmult_0_l, Rplus_0_r in V2. apply Rmult_integral in V2. tauto.
Qed.

(** ** Pivots and rank *)
Lemma pivots_length f cs : (length cs <= f)%nat -> length (pivots f cs) = length cs.
Proof.
  revert cs. induction f as [|f IH]; intros cs H; destruct cs as [|c cs]; simpl in *; try lia; try reflexivity. destruct (select c [] cs) as [q rest] eqn:S.
  pose proof (Permutation_length (select_perm _ _ _ _ _ S)) as L. simpl in L. simpl. rewrite IH; rewrite reduce_length; lia.
Qed.
Lemma pivots_nonneg f cs : Forall (fun p => 0 <= p) (pivots f cs).
Proof. revert cs. induction f as [|f IH]; intros [|c cs]; simpl; try constructor. destruct (select c [] cs) as [q rest]. constructor; [apply sqrt_pos|apply IH]. Qed.
(** No pivot exceeds the norm of every column. *)
Lemma pivots_bound n f cs k : well_formed n cs -> Forall (fun c => norm (snd c) <= k) cs -> Forall (fun p => p <= k) (pivots f cs).
Proof.
  revert cs. induction f as [|f IH]; intros [|c cs] F B; simpl; try constructor. destruct (select c [] cs) as [q rest] eqn:S.
  pose proof (select_perm _ _ _ _ _ S) as P. simpl in P. apply (Permutation_Forall (Permutation_sym P)) in B. pose proof (Permutation_Forall (Permutation_sym P) F) as F'. inversion B as [|? ? B1 B2]; subst. inversion F' as [|? ? F1 F2]; subst. cbv beta in *.
  constructor; [exact B1|]. apply IH; [apply reduce_wf; [reflexivity|exact F2]|]. unfold reduce. apply Forall_map. rewrite Forall_forall in *. intros d Hd. cbn [snd].
  eapply Rle_trans; [apply norm_remove; symmetry; apply F2, Hd|apply B2, Hd].
Qed.
Lemma pivots_independent n f cs : (length cs <= f)%nat -> well_formed n cs -> Forall (fun p => 0 < p) (pivots f cs) -> independent n cs.
Proof.
  revert cs. induction f as [|f IH]; intros [|c cs] L F P; simpl in *; try lia; [intros x V c []|intros x V c []|]. destruct (select c [] cs) as [q rest] eqn:S.
  pose proof (select_perm _ _ _ _ _ S) as PM. simpl in PM. pose proof (Permutation_length PM) as L'. simpl in L'. pose proof (Permutation_Forall (Permutation_sym PM) F) as F'. inversion F' as [|? ? F1 F2]; subst. cbv beta in *. inversion P as [|? ? P1 P2]; subst.
  apply (independent_perm _ _ _ PM). apply independent_step; [exact F'| |].
  - intros Z. unfold norm in P1. rewrite Z, sqrt_0 in P1. lra.
  - apply IH; [rewrite reduce_length; lia|apply reduce_wf; [reflexivity|exact F2]|exact P2].
Qed.
Lemma filter_length_le {A} (f : A -> bool) l : (length (filter f l) <= length l)%nat.
Proof. induction l as [|x l IH]; simpl; [lia|]. destruct (f x); simpl; lia. Qed.
Lemma filter_length_all {A} (f : A -> bool) l : length (filter f l) = length l -> forall x, In x l -> f x = true.
Proof. induction l as [|y l IH]; simpl; [intros _ x []|]. destruct (f y) eqn:E; simpl; intros H x [<-|Hx]; try exact E; [apply IH; [lia|exact Hx]| |]; pose proof (filter_length_le f l); lia. Qed.
Lemma rank_le thr cs : (rank thr cs <= length cs)%nat.
Proof. unfold rank. eapply Nat.le_trans; [apply filter_length_le|]. rewrite pivots_length; lia. Qed.
Lemma largest_nonneg l : 0 <= fold_right Rmax 0 l.
Proof. induction l as [|x l IH]; simpl; [lra|]. eapply Rle_trans; [exact IH|apply Rmax_r]. Qed.
(** Full rank implies linear independence. *)
Lemma rank_full n thr cs : 0 <= thr -> well_formed n cs -> rank thr cs = length cs -> independent n cs.
Proof.
  intros HT F H. apply (pivots_independent n (length cs) cs); [lia|exact F|]. rewrite Forall_forall. intros p Hp. unfold rank in H. assert (PL : length cs = length (pivots (length cs) cs)) by (symmetry; apply pivots_length; lia).
  pose proof (filter_length_all _ _ (eq_trans H PL) p Hp) as E. cbv beta in E. destruct (Rlt_dec _ _) as [A|A]; [|discriminate]. pose proof (largest_nonneg (pivots (length cs) cs)) as LN. pose proof (Rmult_le_pos _ _ HT LN). lra.
Qed.

(** ** Solution *)
Lemma find_in (xs : list (nat * R)) i : In i (map fst xs) -> exists x, find (fun x => fst x =? i)%nat xs = Some x.
Proof. induction xs as [|y xs IH]; simpl; [intros []|]. intros [H|H]; destruct (Nat.eqb_spec (fst y) i) as [E|E]; try contradiction; try (eexists; reflexivity). apply IH, H. Qed.
Lemma solve_fst f cs b : (length cs <= f)%nat -> Permutation (map fst (solve f cs b)) (map fst cs).
Proof.
  revert cs b. induction f as [|f IH]; intros [|c cs] b L; simpl in *; try lia; try reflexivity. destruct (select c [] cs) as [q rest] eqn:S.
  pose proof (select_perm _ _ _ _ _ S) as PM. simpl in PM. pose proof (Permutation_length PM) as L'. simpl in L'. cbn [map fst].
  rewrite <- (Permutation_map fst PM : Permutation _ (fst c :: map fst cs)). cbn [map]. apply perm_skip. rewrite IH by (rewrite reduce_length; lia). rewrite reduce_fst. reflexivity.
Qed.
(** The residual of the solution is orthogonal to all columns: a least squares solution. *)
Lemma solve_normal n f cs b : (length cs <= f)%nat -> well_formed n cs -> NoDup (map fst cs) -> length b = n -> independent n cs ->
  forall c, In c cs -> sum_over (fun d => coefficient (solve f cs b) (fst d) * dot (snd d) (snd c)) cs = dot b (snd c).
Proof.
  revert cs b. induction f as [|f IH]; intros [|c cs] b L F N Hb I e He; simpl in L; try lia; [destruct He|destruct He|]. cbn [solve]. destruct (select c [] cs) as [q rest] eqn:S.
  pose proof (select_perm _ _ _ _ _ S) as PM. simpl in PM. pose proof (Permutation_length PM) as L'. simpl in L'. pose proof (Permutation_Forall (Permutation_sym PM) F) as F'. inversion F' as [|? ? F1 F2]; subst. cbv beta in *.
  apply (independent_perm _ _ _ (Permutation_sym PM)) in I. pose proof (Permutation_NoDup (Permutation_sym (Permutation_map fst PM)) N) as N'.
  pose proof (independent_pivot _ _ _ F' N' I) as NZ. pose proof (independent_reduce _ _ _ F' N' I) as IR. cbn [map] in N'. inversion N' as [|? ? N1 N2]; subst.
  set (xs := solve f (reduce (snd q) rest) (remove (snd q) b)).
  assert (PX : Permutation (map fst xs) (map fst rest)). { unfold xs. rewrite solve_fst by (rewrite reduce_length; lia). rewrite reduce_fst. reflexivity. }
  set (others := fold_right _ 0 rest).
  assert (EO : others = sum_over (fun c => coefficient xs (fst c) * dot (snd c) (snd q)) rest).
  { unfold others. assert (G : forall l, (forall c, In c l -> In c rest) -> fold_right (fun c s => match find (fun x => fst x =? fst c)%nat xs with Some x => snd x * dot (snd c) (snd q) + s | None => s end) 0 l = sum_over (fun c => coefficient xs (fst c) * dot (snd c) (snd q)) l).
    { induction l as [|d l IHl]; intros HI; simpl; [reflexivity|]. rewrite IHl by (intros d' Hd'; apply HI; right; exact Hd'). unfold coefficient. destruct (find_in xs (fst d)) as [x Hx]. { apply (Permutation_in _ (Permutation_sym PX)), in_map, HI. left. reflexivity. } rewrite Hx. reflexivity. }
    apply G. intros c0 Hc0. exact Hc0. }
  set (xq := (dot b (snd q) - others) / dot (snd q) (snd q)).
  assert (CQ : coefficient ((fst q, xq) :: xs) (fst q) = xq) by (unfold coefficient; simpl; rewrite Nat.eqb_refl; reflexivity).
  assert (CR : forall d, In d rest -> coefficient ((fst q, xq) :: xs) (fst d) = coefficient xs (fst d)).
  { intros d Hd. unfold coefficient. simpl. destruct (Nat.eqb_spec (fst q) (fst d)) as [E|_]; [|reflexivity]. exfalso. apply N1. rewrite E. apply in_map, Hd. }
  assert (SUM : forall w, sum_over (fun d => coefficient ((fst q, xq) :: xs) (fst d) * dot (snd d) w) (c :: cs) = xq * dot (snd q) w + sum_over (fun d => coefficient xs (fst d) * dot (snd d) w) rest).
  { intros w. rewrite (sum_over_perm _ _ _ (Permutation_sym PM)). cbn [sum_over fold_right]. rewrite CQ. f_equal. apply sum_over_ext. intros d Hd. rewrite CR by exact Hd. reflexivity. }
  rewrite SUM. apply (Permutation_in _ (Permutation_sym PM)) in He. destruct He as [<-|He].
  - rewrite <- EO. unfold xq. field. exact NZ.
  - assert (Lb : length (snd q) = length b) by congruence. assert (Le : length (snd q) = length (snd e)) by (rewrite F1; symmetry; apply (proj1 (Forall_forall _ _) F2 e He)).
    pose proof (IH (reduce (snd q) rest) (remove (snd q) b) ltac:(rewrite reduce_length; lia) (reduce_wf _ _ _ F1 F2) ltac:(rewrite reduce_fst; exact N2) ltac:(rewrite length_remove; congruence) IR (fst e, remove (snd q) (snd e)) ltac:(unfold reduce; apply in_map_iff; exists e; split; [reflexivity|exact He])) as H. fold xs in H. cbn [snd] in H.
    rewrite (sum_reduce (coefficient xs) (snd q) rest _ (length b) F1 F2) in H. rewrite <- EO in H.
    rewrite (dot_remove (snd q) b) in H by exact Lb. rewrite (dot_comm (snd q) (remove (snd q) (snd e))), remove_orth in H by assumption. rewrite !Rmult_0_r, !Rminus_0_r in H.
    assert (D : forall v, length v = length (snd q) -> dot v (remove (snd q) (snd e)) = dot v (snd e) - dot (snd e) (snd q) / dot (snd q) (snd q) * dot v (snd q)).
    { intros v Hv. rewrite dot_comm, dot_remove by exact Le. rewrite (dot_comm (snd e) v), (dot_comm (snd q) v). reflexivity. }
    rewrite (D b) in H by congruence. rewrite (sum_over_ext _ (fun c => coefficient xs (fst c) * dot (snd c) (snd e) + - (dot (snd e) (snd q) / dot (snd q) (snd q)) * (coefficient xs (fst c) * dot (snd c) (snd q)))) in H
      by (intros d Hd; rewrite D by (rewrite F1; apply (proj1 (Forall_forall _ _) F2 d Hd)); ring).
    rewrite sum_over_plus, sum_over_mult, <- EO in H. unfold xq. rewrite (dot_comm (snd q) (snd e)).
    replace ((dot b (snd q) - others) / dot (snd q) (snd q) * dot (snd e) (snd q)) with (dot (snd e) (snd q) / dot (snd q) (snd q) * dot b (snd q) - dot (snd e) (snd q) / dot (snd q) (snd q) * others) by (field; exact NZ). lra.
Qed.
(** For a consistent system it is the solution. *)
Lemma solve_exact n cs b x : well_formed n cs -> NoDup (map fst cs) -> length b = n -> independent n cs ->
  (forall w, length w = n -> sum_over (fun c => x (fst c) * dot (snd c) w) cs = dot b w) ->
  forall c, In c cs -> coefficient (solve (length cs) cs b) (fst c) = x (fst c).
Proof.
  intros F N Hb I HX. set (y := coefficient (solve (length cs) cs b)). pose (d := fun i => y i - x i).
  assert (V : vanishes n d cs).
  { apply vanishes_comb; [exact F|]. rewrite <- (length_comb n d cs F) at 2. apply dot_zero. rewrite dot_comb by exact F.
    rewrite (sum_over_ext _ (fun _ => 0 * 0)); [rewrite sum_over_mult; ring|]. intros c Hc. rewrite dot_comm, dot_comb by exact F.
    assert (E : sum_over (fun c0 => d (fst c0) * dot (snd c0) (snd c)) cs = 0); [|rewrite E; ring].
    pose proof (solve_normal n (length cs) cs b ltac:(lia) F N Hb I c Hc) as S. fold y in S. pose proof (HX (snd c) (proj1 (Forall_forall _ _) F c Hc)) as S2.
    rewrite (sum_over_ext _ (fun c0 => y (fst c0) * dot (snd c0) (snd c) + -1 * (x (fst c0) * dot (snd c0) (snd c)))) by (intros; unfold d; ring). rewrite sum_over_plus, sum_over_mult. lra. }
  intros c Hc. pose proof (I d V c Hc) as E. unfold d in E. lra.
Qed.

(** ** A lower bound for the pivots *)
(** If the columns contain (multiples, not shorter, of) an orthonormal family of [m] vectors, at least [m] pivots are not small.
    [es]: the family with the directions of the previous pivots removed; [W]: the vectors orthogonal to the previous pivots. *)
Definition energy (es : list long) : R := fold_right (fun e s => dot e e + s) 0 es.
Definition correlation (es : list long) (q : long) : R := fold_right (fun e s => dot e q * dot e q + s) 0 es.
Definition covered (cs : list column) (e : long) : Prop := dot e e = 0 \/ exists c s, In c cs /\ 1 <= s * s /\ forall w, dot (snd c) w = s * dot e w.
Lemma energy_max es k : 1 <= k -> k <= energy es -> exists e, In e es /\ 1 <= INR (length es) * dot e e.
Proof.
  intros K H. destruct (Exists_dec (fun e => 1 <= INR (length es) * dot e e) es) as [E|N].
  - intros e. destruct (Rle_dec 1 (INR (length es) * dot e e)); [left|right]; assumption.
  - apply Exists_exists in E. exact E.
  - exfalso. destruct es as [|e0 es0]; [simpl in H; lra|]. set (n := length (e0 :: es0)) in *. assert (NP : 0 < INR n) by (apply lt_0_INR; subst n; simpl; lia).
    assert (G : forall l, (forall e, In e l -> INR n * dot e e < 1) -> l <> [] -> INR n * energy l < INR (length l)).
    { induction l as [|e l IH]; intros A NE; [congruence|]. pose proof (A e (or_introl eq_refl)) as Ae. cbn [energy fold_right length]. rewrite S_INR. destruct l as [|e' l]; [simpl length; simpl fold_right; change (INR 0) with 0; lra|]. specialize (IH (fun x Hx => A x (or_intror Hx)) ltac:(discriminate)). unfold energy in IH. rewrite Rmult_plus_distr_l. lra. }
    specialize (G (e0 :: es0)). fold n in G. assert (INR n * energy (e0 :: es0) < INR n); [|nra]. apply G; [|discriminate]. intros e He. apply Rnot_le_lt. intros C. apply N, Exists_exists. exists e. split; assumption.
Qed.
Lemma energy_reduce n q es : length q = n -> dot q q <> 0 -> Forall (fun e => length e = n) es -> energy (map (remove q) es) = energy es - correlation es q / dot q q.
Proof.
  intros Hq NZ. induction 1 as [|e es He _ IH]; simpl; [unfold Rdiv; ring|]. unfold energy, correlation in *. rewrite IH. assert (L : length q = length e) by congruence.
  rewrite (dot_remove q e) by exact L. rewrite (dot_comm e (remove q e)), (dot_comm q (remove q e)), (remove_orth q e L NZ), dot_remove by exact L. rewrite (dot_comm q e). field. exact NZ.
Qed.
Lemma correlation_reduce n q es w : length q = n -> Forall (fun e => length e = n) es -> dot q w = 0 -> correlation (map (remove q) es) w = correlation es w.
Proof.
  intros Hq F O. induction F as [|e es He _ IH]; simpl; [reflexivity|]. unfold correlation in *. rewrite IH. rewrite dot_remove by congruence. rewrite O. ring.
Qed.
Lemma pivots_lower n t f : 0 <= t -> forall cs es (W : long -> Prop) m,
  (length cs <= f)%nat -> well_formed n cs -> Forall (fun e => length e = n) es -> t * t * INR (length es) < 1 ->
  Forall (fun c => W (snd c)) cs -> (forall q c, W q -> W c -> length q = n -> length c = n -> W (remove q c)) -> (forall q, W q -> length q = n -> correlation es q <= dot q q) ->
  (forall e, In e es -> covered cs e) -> INR m <= energy es ->
  (m <= length (filter (fun p => if Rlt_dec t p then true else false) (pivots f cs)))%nat.
Proof.
  intros HT. induction f as [|f IH]; intros cs es W m L F FE HN WC WR B CV EN; (destruct m as [|m]; [lia|]);
  (assert (M1 : 1 <= INR (S m)) by (rewrite S_INR; pose proof (pos_INR m); lra));
  destruct (energy_max es (INR (S m)) M1 EN) as (e & He & Big);
  (assert (E0 : dot e e <> 0) by (intros Z; rewrite Z in Big; lra));
  (destruct (CV e He) as [Z|(ce & s & Hc & S1 & SC)]; [contradiction|]).
  - destruct cs as [|c cs]; [destruct Hc|simpl in L; lia].
  - destruct cs as [|c cs]; [destruct Hc|]. cbn [pivots]. destruct (select c [] cs) as [q rest] eqn:S.
    pose proof (select_perm _ _ _ _ _ S) as PM. simpl in PM. pose proof (Permutation_length PM) as L'. simpl in L', L. pose proof (Permutation_Forall (Permutation_sym PM) F) as F'. inversion F' as [|? ? F1 F2]; subst. cbv beta in *.
    pose proof (Permutation_Forall (Permutation_sym PM) WC) as WC'. inversion WC' as [|? ? W1 W2]; subst. cbv beta in *. set (n := length (snd q)) in *.
    assert (QE : dot e e <= dot (snd q) (snd q)).
    { assert (C1 : norm (snd ce) <= norm (snd q)). { apply (select_max _ _ _ _ _ S); [intros x []|]. apply (Permutation_in _ (Permutation_sym PM)), Hc. }
      unfold norm in C1. apply sqrt_le_0 in C1; try apply dot_nonneg. rewrite SC, (dot_comm e (snd ce)), SC in C1. pose proof (dot_nonneg e). nra. }
    assert (Q0 : dot (snd q) (snd q) <> 0) by (pose proof (dot_nonneg e); lra).
    assert (P : t < norm (snd q)).
    { unfold norm. rewrite <- (sqrt_square t) by exact HT. apply sqrt_lt_1; [nra|apply dot_nonneg|]. assert (0 < INR (length es)) by (apply lt_0_INR; destruct es; [destruct He|simpl; lia]). nra. }
    cbn [filter]. destruct (Rlt_dec t (norm (snd q))) as [_|C]; [|contradiction]. cbn [length]. apply le_n_S.
    apply (IH _ (map (remove (snd q)) es) (fun w => W w /\ dot w (snd q) = 0)).
    + rewrite reduce_length. lia.
    + apply reduce_wf; [reflexivity|exact F2].
    + apply Forall_map. rewrite Forall_forall in *. intros x Hx. rewrite length_remove; [apply FE, Hx|]. rewrite (FE x Hx). reflexivity.
    + rewrite map_length. exact HN.
    + unfold reduce. apply Forall_map. rewrite Forall_forall in *. intros x Hx. cbn [snd]. split; [apply WR; auto|apply remove_orth; [symmetry; apply F2, Hx|exact Q0]].
    + intros a b [A1 A2] [B1 B2] La Lb. split; [apply WR; assumption|]. rewrite dot_remove by congruence. rewrite A2, B2. ring.
    + intros a [A1 A2] La. rewrite (correlation_reduce n); [apply B; assumption|reflexivity|exact FE|]. rewrite dot_comm. exact A2.
    + intros x Hx. apply in_map_iff in Hx. destruct Hx as (y & <- & Hy). assert (Ly : length (snd q) = length y) by (symmetry; apply (proj1 (Forall_forall _ _) FE y Hy)).
      destruct (CV y Hy) as [Z|(c' & s' & Hc' & S1' & SC')].
      * left. apply Rle_antisym; [|apply dot_nonneg]. rewrite dot_remove by exact Ly. rewrite (dot_comm y (remove _ _)), (dot_comm (snd q) (remove _ _)), (remove_orth _ _ Ly Q0), dot_remove by exact Ly. rewrite Z. assert (Y : dot y (snd q) = 0) by (rewrite (dot_zero y Z); apply dot_zeros). rewrite Y. unfold Rdiv. lra.
      * apply (Permutation_in _ (Permutation_sym PM)) in Hc'. destruct Hc' as [<-|Hc'].
        -- left. assert (S0 : s' <> 0) by (intros ->; lra). assert (YQ : forall w, dot y w = dot (snd q) w / s') by (intros w; rewrite SC'; field; exact S0).
           rewrite dot_remove by exact Ly. rewrite (dot_comm y (remove _ _)), (dot_comm (snd q) (remove _ _)), (remove_orth _ _ Ly Q0), dot_remove by exact Ly. rewrite !(YQ (snd q)). rewrite (YQ y). rewrite (dot_comm (snd q) y), (YQ (snd q)). field. split; assumption.
        -- right. exists (fst c', remove (snd q) (snd c')), s'. split; [unfold reduce; apply in_map_iff; exists c'; split; [reflexivity|exact Hc']|]. split; [exact S1'|]. intros w. cbn [snd]. assert (Lc : length (snd q) = length (snd c')) by (symmetry; apply (proj1 (Forall_forall _ _) F2 c' Hc')).
           rewrite !dot_remove by assumption. rewrite !SC'. unfold Rdiv. ring.
    + rewrite (energy_reduce n); [|reflexivity|exact Q0|exact FE]. pose proof (B (snd q) W1 eq_refl) as BQ. rewrite S_INR in EN. assert (correlation es (snd q) / dot (snd q) (snd q) <= 1); [|lra].
      apply (Rmult_le_reg_r (dot (snd q) (snd q))); [pose proof (dot_nonneg (snd q)); lra|]. unfold Rdiv. rewrite Rmult_assoc, Rinv_l by exact Q0. lra.
Qed.

(** ** Well-conditioned columns: all pivots are large *)
Definition conditioned (n : nat) (s2 : R) (cs : list column) : Prop :=
  forall x, s2 * sum_over (fun c => x (fst c) * x (fst c)) cs <= dot (comb n x cs) (comb n x cs).
Lemma comb_norm_ext n x cs y ds : well_formed n cs -> well_formed n ds ->
  (forall w, sum_over (fun c => x (fst c) * dot (snd c) w) cs = sum_over (fun c => y (fst c) * dot (snd c) w) ds) -> dot (comb n x cs) (comb n x cs) = dot (comb n y ds) (comb n y ds).
Proof. intros F G H. rewrite dot_comb, H, <- (dot_comb n), dot_comm, dot_comb, H, <- (dot_comb n) by assumption. reflexivity. Qed.
Lemma conditioned_perm n s2 cs ds : well_formed n cs -> Permutation cs ds -> conditioned n s2 cs -> conditioned n s2 ds.
Proof.
  intros F P H x. pose proof (Permutation_Forall P F) as G. rewrite <- (sum_over_perm _ _ _ P). rewrite <- (comb_norm_ext n x cs x ds F G); [apply H|]. intros w. apply sum_over_perm, P.
Qed.
Lemma sum_sq_nonneg f cs : 0 <= sum_over (fun c => f c * f c) cs.
Proof. induction cs as [|c cs IH]; simpl; [lra|]. pose proof (Rle_0_sqr (f c)) as S. unfold Rsqr in S. lra. Qed.
Lemma pivots_conditioned n s2 f cs : 0 <= s2 -> (length cs <= f)%nat -> well_formed n cs -> NoDup (map fst cs) -> conditioned n s2 cs -> Forall (fun p => s2 <= p * p) (pivots f cs).
Proof.
  intros S0. revert cs. induction f as [|f IH]; intros [|c cs] L F N H; simpl in L; try lia; try constructor. cbn [pivots]. destruct (select c [] cs) as [q rest] eqn:S.
  pose proof (select_perm _ _ _ _ _ S) as PM. simpl in PM. pose proof (Permutation_length PM) as L'. simpl in L'. apply (conditioned_perm _ _ _ _ F (Permutation_sym PM)) in H.
  pose proof (Permutation_NoDup (Permutation_sym (Permutation_map fst PM)) N) as N'. cbn [map] in N'. inversion N' as [|? ? N1 N2]; subst.
  pose proof (Permutation_Forall (Permutation_sym PM) F) as F'. inversion F' as [|? ? F1 F2]; subst. cbv beta in *. set (n := length (snd q)) in *.
  pose (upd := fun (x : nat -> R) k i => if (i =? fst q)%nat then k else x i).
  assert (Uq : forall x k, upd x k (fst q) = k) by (intros; unfold upd; rewrite Nat.eqb_refl; reflexivity).
  assert (Ur : forall x k d, In d rest -> upd x k (fst d) = x (fst d)). { intros x k d Hd. unfold upd. destruct (Nat.eqb_spec (fst d) (fst q)) as [E|_]; [|reflexivity]. exfalso. apply N1. rewrite <- E. apply in_map, Hd. }
  assert (SQ : forall x k, sum_over (fun c => upd x k (fst c) * upd x k (fst c)) (q :: rest) = k * k + sum_over (fun c => x (fst c) * x (fst c)) rest).
  { intros x k. cbn [sum_over fold_right]. rewrite Uq. f_equal. apply sum_over_ext. intros d Hd. rewrite Ur by exact Hd. reflexivity. }
  assert (SD : forall x k w, sum_over (fun c => upd x k (fst c) * dot (snd c) w) (q :: rest) = k * dot (snd q) w + sum_over (fun c => x (fst c) * dot (snd c) w) rest).
  { intros x k w. cbn [sum_over fold_right]. rewrite Uq. f_equal. apply sum_over_ext. intros d Hd. rewrite Ur by exact Hd. reflexivity. }
  constructor.
  - unfold norm. rewrite sqrt_sqrt by apply dot_nonneg. specialize (H (upd (fun _ => 0) 1)). rewrite SQ in H.
    assert (D1 : forall w, dot (comb n (upd (fun _ => 0) 1) (q :: rest)) w = dot (snd q) w). { intros w. rewrite dot_comb by exact F'. rewrite SD, sum_over_zero by (intros; ring). ring. }
    rewrite D1, dot_comm, D1, sum_over_zero in H by (intros; ring). lra.
  - apply IH; [rewrite reduce_length; lia|apply reduce_wf; [reflexivity|exact F2]|rewrite reduce_fst; exact N2|]. intros x.
    set (k := sum_over (fun c => x (fst c) * dot (snd c) (snd q)) rest / dot (snd q) (snd q)). pose proof (H (upd x (- k))) as HX. rewrite SQ in HX.
    rewrite (comb_norm_ext n x (reduce (snd q) rest) (upd x (- k)) (q :: rest)); [|apply reduce_wf; [reflexivity|exact F2]|exact F'|].
    + assert (ER : sum_over (fun c => x (fst c) * x (fst c)) (reduce (snd q) rest) = sum_over (fun c => x (fst c) * x (fst c)) rest) by (unfold reduce; clear; induction rest as [|d rest IH]; simpl; [reflexivity|]; rewrite IH; reflexivity).
      rewrite ER. eapply Rle_trans; [|exact HX]. apply Rmult_le_compat_l; [exact S0|]. pose proof (Rle_0_sqr (- k)) as K. unfold Rsqr in K. lra.
    + intros w. rewrite (sum_reduce x (snd q) rest w n eq_refl F2), SD. fold k. ring.
Qed.
(** Full rank. *)
Lemma conditioned_rank n s2 thr b cs : 0 <= thr -> 0 <= s2 -> well_formed n cs -> NoDup (map fst cs) -> conditioned n s2 cs -> Forall (fun c => dot (snd c) (snd c) <= b) cs -> thr * thr * b < s2 -> rank thr cs = length cs.
Proof.
  intros HT S0 F N H B T. unfold rank. pose proof (pivots_conditioned n s2 (length cs) cs S0 (Nat.le_refl _) F N H) as P. pose proof (pivots_nonneg (length cs) cs) as P0.
  pose proof (pivots_length (length cs) cs (Nat.le_refl _)) as PL. set (ps := pivots (length cs) cs) in *. rewrite <- PL.
  assert (LB : ps = [] \/ fold_right Rmax 0 ps * fold_right Rmax 0 ps <= b).
  { destruct cs as [|c0 cs0]; [left; reflexivity|right]. assert (B0 : 0 <= b). { inversion B as [|? ? B1 _]; subst. pose proof (dot_nonneg (snd c0)). lra. }
    assert (PB : Forall (fun p => p <= sqrt b) ps). { apply (pivots_bound n); [exact F|]. eapply Forall_impl; [|exact B]. intros c Hc. apply sqrt_le_1; [apply dot_nonneg|exact B0|exact Hc]. }
    assert (LE : fold_right Rmax 0 ps <= sqrt b). { clear - PB B0. induction PB as [|p l Hp _ IH]; simpl; [apply sqrt_pos|]. apply Rmax_lub; assumption. }
    pose proof (largest_nonneg ps). rewrite <- (sqrt_sqrt b) by exact B0. apply Rmult_le_compat; assumption. }
  destruct LB as [E|LB]; [rewrite E; reflexivity|]. set (lg := fold_right Rmax 0 ps) in *. assert (LG : 0 <= lg) by apply largest_nonneg. assert (TS : (thr * lg) * (thr * lg) < s2).
  { replace ((thr * lg) * (thr * lg)) with (thr * thr * (lg * lg)) by ring. eapply Rle_lt_trans; [|exact T]. apply Rmult_le_compat_l; [|exact LB]. apply Rle_0_sqr. }
  clearbody lg. clear LB. clear PL H B F N. clearbody ps. induction P as [|p l Hp P' IH]; simpl; [reflexivity|]. inversion P0 as [|? ? P1 P2]; subst. destruct (Rlt_dec (thr * lg) p) as [_|C]; [simpl; rewrite IH by exact P2; reflexivity|]. exfalso. apply C. assert (TL : 0 <= thr * lg) by (apply Rmult_le_pos; assumption). nra.
Qed.
