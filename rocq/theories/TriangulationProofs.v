(** Lemmas for C49. *)
From Coq Require Import Reals ZArith List Bool Arith Lia Lra Psatz Permutation.
From Verif Require Import StlHelpersModel TriangulationModel TriangulationSpec TriangulationQr.
Import ListNotations.
Local Open Scope R_scope.

(** ** Vectors *)
Lemma vec3_eq (a b c x y z : R) : a = x -> b = y -> c = z -> (a, b, c) = (x, y, z). Proof. congruence. Qed.
Ltac vec := repeat match goal with v : vec3 |- _ => destruct v as [[? ?] ?] end; unfold apply3, sub3, add3, scale3, zero3, dot3, cross3 in *; cbn beta iota in *; try (apply vec3_eq); try ring.
Lemma apply3_add m a b : apply3 m (add3 a b) = add3 (apply3 m a) (apply3 m b).
Proof. destruct m as [[m1 m2] m3]. vec. Qed.
Lemma apply3_scale m k a : apply3 m (scale3 k a) = scale3 k (apply3 m a).
Proof. destruct m as [[m1 m2] m3]. vec. Qed.
Lemma dot3_apply m a b : dot3 (apply3 m a) b = dot3 a (apply3 (transpose3 m) b).
Proof. destruct m as [[[[m1 m2] m3] [[m4 m5] m6]] [[m7 m8] m9]]. simpl transpose3. vec. Qed.
Lemma orthogonal_dot m a b : orthogonal m -> dot3 (apply3 m a) (apply3 m b) = dot3 a b.
Proof. intros [H _]. rewrite dot3_apply, H. reflexivity. Qed.
Lemma orthogonal_nonzero m a : orthogonal m -> a <> zero3 -> apply3 m a <> zero3.
Proof.
  intros O N E. apply N, dot3_zero. rewrite <- (orthogonal_dot m a a O), E. vec.
Qed.
Lemma ray_nonzero T U m : orthogonal (rotation T) -> orthogonal (rotation U) -> ray_of T U m <> zero3.
Proof. intros HT HU. unfold ray_of. apply orthogonal_nonzero; [exact HT|]. apply orthogonal_nonzero; [exact HU|]. intros E. injection E. intros. lra. Qed.
Lemma ray_direction T U m : direction T U m = ray_of T U m.
Proof.
  unfold direction, ray_of, transform. replace (0, 0, 0) with (scale3 0 (fst m, snd m, 1)) by vec.
  rewrite apply3_scale, !apply3_add, !apply3_scale. generalize (apply3 (rotation T) (apply3 (rotation U) (fst m, snd m, 1))). intros v. generalize (position T), (apply3 (rotation T) (position U)). intros. vec.
Qed.
(** An exact observation, in the coordinates of the code. *)
Lemma sees_ray p T U m : sees p T U m <-> exists k, add3 (centre_of T U) (scale3 k (ray_of T U m)) = p.
Proof.
  unfold sees, centre_of, ray_of, transform. split; intros (k & <-); exists k.
  - replace (k * fst m, k * snd m, k) with (scale3 k (fst m, snd m, 1)) by vec. rewrite apply3_add, !apply3_scale. generalize (apply3 (rotation T) (apply3 (rotation U) (fst m, snd m, 1))), (position T), (apply3 (rotation T) (position U)). intros. vec.
  - replace (k * fst m, k * snd m, k) with (scale3 k (fst m, snd m, 1)) by vec. rewrite apply3_add, !apply3_scale. generalize (apply3 (rotation T) (apply3 (rotation U) (fst m, snd m, 1))), (position T), (apply3 (rotation T) (position U)). intros. vec.
Qed.
Lemma parallel_scale k l v : parallel (scale3 k v) (scale3 l v).
Proof. unfold parallel. vec. Qed.
Lemma parallel_zero v : parallel zero3 v.
Proof. unfold parallel. vec. Qed.
(** Parallel to a non-zero vector: a multiple of it. *)
Lemma parallel_multiple a d : d <> zero3 -> parallel d a -> exists k, a = scale3 k d.
Proof.
  intros N H. exists (dot3 a d / dot3 d d). assert (D : dot3 d d <> 0) by (intros E; apply N, dot3_zero, E). unfold parallel in H. destruct a as [[a1 a2] a3], d as [[d1 d2] d3]. unfold cross3, scale3, dot3 in *.
  injection H as H1 H2 H3. apply vec3_eq.
  - apply (Rmult_eq_reg_r (d1 * d1 + d2 * d2 + d3 * d3)); [|exact D]. replace ((a1 * d1 + a2 * d2 + a3 * d3) / (d1 * d1 + d2 * d2 + d3 * d3) * d1 * (d1 * d1 + d2 * d2 + d3 * d3)) with ((a1 * d1 + a2 * d2 + a3 * d3) * d1) by (field; exact D). apply Rminus_diag_uniq. match goal with |- ?l = 0 => replace l with (- d2 * (d1 * a2 - d2 * a1) + d3 * (d3 * a1 - d1 * a3)) by ring end. rewrite H2, H3. ring.
  - apply (Rmult_eq_reg_r (d1 * d1 + d2 * d2 + d3 * d3)); [|exact D]. replace ((a1 * d1 + a2 * d2 + a3 * d3) / (d1 * d1 + d2 * d2 + d3 * d3) * d2 * (d1 * d1 + d2 * d2 + d3 * d3)) with ((a1 * d1 + a2 * d2 + a3 * d3) * d2) by (field; exact D). apply Rminus_diag_uniq. match goal with |- ?l = 0 => replace l with (d1 * (d1 * a2 - d2 * a1) - d3 * (d2 * a3 - d3 * a2)) by ring end. rewrite H1, H3. ring.
  - apply (Rmult_eq_reg_r (d1 * d1 + d2 * d2 + d3 * d3)); [|exact D]. replace ((a1 * d1 + a2 * d2 + a3 * d3) / (d1 * d1 + d2 * d2 + d3 * d3) * d3 * (d1 * d1 + d2 * d2 + d3 * d3)) with ((a1 * d1 + a2 * d2 + a3 * d3) * d3) by (field; exact D). apply Rminus_diag_uniq. match goal with |- ?l = 0 => replace l with (- d1 * (d3 * a1 - d1 * a3) + d2 * (d2 * a3 - d3 * a2)) by ring end. rewrite H1, H2. ring.
Qed.

(** ** The system of the normalised variant *)
Definition sum_seq (f : nat -> R) (l : list nat) : R := fold_right (fun i s => f i + s) 0 l.
Lemma sum_seq_ext f g l : (forall i, In i l -> f i = g i) -> sum_seq f l = sum_seq g l.
Proof. induction l as [|a l IH]; intros H; simpl; [reflexivity|]. rewrite (H a), IH; [reflexivity| |left; reflexivity]. intros i Hi. apply H. right. exact Hi. Qed.
Lemma sum_seq_map f g l : sum_seq f (map g l) = sum_seq (fun i => f (g i)) l.
Proof. induction l as [|a l IH]; simpl; [reflexivity|]. rewrite IH. reflexivity. Qed.
Lemma sum_seq_plus f g l : sum_seq (fun i => f i + g i) l = sum_seq f l + sum_seq g l.
Proof. induction l as [|a l IH]; simpl; [ring|]. rewrite IH. ring. Qed.
Lemma sum_seq_scale k f l : sum_seq (fun i => k * f i) l = k * sum_seq f l.
Proof. induction l as [|a l IH]; simpl; [ring|]. rewrite IH. ring. Qed.
Lemma nth_repeat_below {A} (a d : A) n i : (i < n)%nat -> nth i (repeat a n) d = a.
Proof. revert i. induction n as [|n IH]; intros [|i] H; simpl; try lia; [reflexivity|]. apply IH. lia. Qed.
Lemma nth_map_seq {A} (f : nat -> A) d n i : (i < n)%nat -> nth i (map f (seq 0 n)) d = f i.
Proof. intros H. rewrite (nth_indep _ d (f 0%nat)) by (rewrite map_length, seq_length; exact H). rewrite map_nth, seq_nth by exact H. reflexivity. Qed.
Lemma dot_seq a b : length a = length b -> dot a b = sum_seq (fun i => dot3 (nth i a zero3) (nth i b zero3)) (seq 0 (length a)).
Proof.
  revert b. induction a as [|x a IH]; intros [|y b] H; simpl in *; try lia; try reflexivity. rewrite <- seq_shift, sum_seq_map. rewrite (IH b) by lia. reflexivity.
Qed.
Lemma place_length n i v : length (place n i v) = n.
Proof. revert i. induction n as [|n IH]; intros i; simpl; [reflexivity|]. destruct i; simpl; [rewrite repeat_length|rewrite IH]; reflexivity. Qed.
Lemma dot_place n i v w : length w = n -> dot (place n i v) w = if (i <? n)%nat then dot3 v (nth i w zero3) else 0.
Proof.
  revert i w. induction n as [|n IH]; intros i [|x w] H; simpl in H; try lia; [reflexivity|]. cbn [place]. destruct i as [|i].
  - simpl. change (repeat zero3 n) with (zeros n). rewrite dot_zeros. ring.
  - cbn [dot nth]. rewrite IH by lia. change (S i <? S n)%nat with (i <? n)%nat. destruct (i <? n)%nat; vec.
Qed.
(** The product of A with a vector of unknowns, by blocks. *)
Definition blocks (x : nat -> R) (rays : list vec3) : list vec3 :=
  map (fun i => sub3 (x 0%nat, x 1%nat, x 2%nat) (scale3 (x (3 + i)%nat) (nth i rays zero3))) (seq 0 (length rays)).
Lemma blocks_length x rays : length (blocks x rays) = length rays.
Proof. unfold blocks. rewrite map_length, seq_length. reflexivity. Qed.
Lemma sum_over_app f a b : sum_over f (a ++ b) = sum_over f a + sum_over f b.
Proof. unfold sum_over. induction a as [|x a IH]; simpl; [ring|]. rewrite IH. ring. Qed.
Lemma system_sum x rays w : length w = length rays ->
  sum_over (fun c => x (fst c) * dot (snd c) w) (system rays) = dot (blocks x rays) w.
Proof.
  intros H. rewrite (dot_seq (blocks x rays) w) by (rewrite blocks_length; congruence). rewrite blocks_length. unfold system. rewrite sum_over_app.
  assert (B : sum_over (fun c => x (fst c) * dot (snd c) w) (map (fun i => ((3 + i)%nat, place (length rays) i (scale3 (-1) (nth i rays zero3)))) (seq 0 (length rays))) = sum_seq (fun i => - x (3 + i)%nat * dot3 (nth i rays zero3) (nth i w zero3)) (seq 0 (length rays))).
  { assert (G : forall l, (forall i, In i l -> (i < length rays)%nat) -> sum_over (fun c => x (fst c) * dot (snd c) w) (map (fun i => ((3 + i)%nat, place (length rays) i (scale3 (-1) (nth i rays zero3)))) l) = sum_seq (fun i => - x (3 + i)%nat * dot3 (nth i rays zero3) (nth i w zero3)) l).
    { induction l as [|i l IH]; intros HI; simpl; [reflexivity|]. rewrite dot_place by exact H. destruct (Nat.ltb_spec i (length rays)) as [_|B]; [|specialize (HI i (or_introl eq_refl)); lia]. simpl in IH. rewrite IH by (intros j Hj; apply HI; right; exact Hj). rewrite dot3_scale. ring. }
    apply G. intros i Hi. apply in_seq in Hi. lia. }
  rewrite B. cbn [map]. cbn [sum_over fold_right fst snd].
  assert (U : forall j, dot (repeat (unit3 j) (length rays)) w = sum_seq (fun i => dot3 (unit3 j) (nth i w zero3)) (seq 0 (length rays))).
  { intros j. rewrite dot_seq by (rewrite repeat_length; congruence). rewrite repeat_length. apply sum_seq_ext. intros i Hi. apply in_seq in Hi. rewrite nth_repeat_below by lia. reflexivity. }
  rewrite !U. rewrite <- sum_seq_scale with (k := x 0%nat), <- sum_seq_scale with (k := x 1%nat), <- sum_seq_scale with (k := x 2%nat). rewrite Rplus_0_r, <- !sum_seq_plus. apply sum_seq_ext. intros i Hi. apply in_seq in Hi.
  unfold blocks. rewrite nth_map_seq by lia. generalize (nth i rays zero3), (nth i w zero3). intros a b. unfold unit3. vec.
Qed.
Lemma system_wf rays : well_formed (length rays) (system rays).
Proof.
  unfold system, well_formed. apply Forall_app. split; [repeat constructor; cbn [snd]; apply repeat_length|]. apply Forall_map, Forall_forall. intros i _. cbn [snd]. apply place_length.
Qed.
Lemma system_fst rays : map fst (system rays) = seq 0 (3 + length rays).
Proof. unfold system. rewrite map_app, !map_map. cbn [map fst]. rewrite seq_app. f_equal. cbn [fst plus]. rewrite <- (seq_shift (length rays) 2), <- (seq_shift (length rays) 1), <- (seq_shift (length rays) 0), !map_map. reflexivity. Qed.
Lemma system_length rays : length (system rays) = (3 + length rays)%nat.
Proof. rewrite <- (map_length fst), system_fst, seq_length. reflexivity. Qed.
Lemma system_nodup rays : NoDup (map fst (system rays)).
Proof. rewrite system_fst. apply seq_NoDup. Qed.
Lemma system_column rays i : (i < 3 + length rays)%nat -> exists c, In c (system rays) /\ fst c = i.
Proof. intros H. assert (I : In i (map fst (system rays))) by (rewrite system_fst; apply in_seq; lia). apply in_map_iff in I. destruct I as (c & E & I). exists c. split; assumption. Qed.
Lemma vanishes_blocks x rays : vanishes (length rays) x (system rays) -> forall i, (i < length rays)%nat -> (x 0%nat, x 1%nat, x 2%nat) = scale3 (x (3 + i)%nat) (nth i rays zero3).
Proof.
  intros V i Hi. assert (Z : blocks x rays = zeros (length rays)).
  { rewrite <- (blocks_length x rays) at 1. apply dot_zero. rewrite <- system_sum by apply blocks_length. apply V, blocks_length. }
  apply (f_equal (fun l => nth i l zero3)) in Z. unfold blocks, zeros in Z. rewrite nth_map_seq, nth_repeat_below in Z by exact Hi. revert Z. generalize (nth i rays zero3), (x (3 + i)%nat). intros [[r1 r2] r3] k Z. unfold sub3, add3, scale3, zero3 in *. injection Z as Z1 Z2 Z3. apply vec3_eq; lra.
Qed.
(** Non-zero rays, two of them not parallel: full column rank. *)
Lemma system_independent rays : Forall (fun v => v <> zero3) rays -> observable rays -> independent (length rays) (system rays).
Proof.
  intros NZ (a & b & Ha & Hb & NP) x V. pose proof (vanishes_blocks x rays V) as B.
  assert (P0 : (x 0%nat, x 1%nat, x 2%nat) = zero3).
  { apply (In_nth _ _ zero3) in Ha. destruct Ha as (i & Hi & Ea). apply (In_nth _ _ zero3) in Hb. destruct Hb as (j & Hj & Eb). pose proof (B i Hi) as Bi. pose proof (B j Hj) as Bj. rewrite Ea in Bi. rewrite Eb in Bj.
    assert (Bij : scale3 (x (3 + i)%nat) a = scale3 (x (3 + j)%nat) b) by congruence. destruct (Req_dec (x (3 + i)%nat) 0) as [Z|N]; [rewrite Bi, Z; vec|]. exfalso. apply NP. unfold parallel.
    revert Bij N. generalize (x (3 + i)%nat), (x (3 + j)%nat). intros k l E N. destruct a as [[a1 a2] a3], b as [[b1 b2] b3]. unfold scale3, cross3 in *. injection E as E1 E2 E3.
    apply vec3_eq; apply (Rmult_eq_reg_l k); try exact N; rewrite Rmult_0_r.
    - replace (k * (a2 * b3 - a3 * b2)) with ((k * a2) * b3 - (k * a3) * b2) by ring. rewrite E2, E3. ring.
    - replace (k * (a3 * b1 - a1 * b3)) with ((k * a3) * b1 - (k * a1) * b3) by ring. rewrite E1, E3. ring.
    - replace (k * (a1 * b2 - a2 * b1)) with ((k * a1) * b2 - (k * a2) * b1) by ring. rewrite E1, E2. ring. }
  assert (A : forall i, (i < 3 + length rays)%nat -> x i = 0).
  { intros i Hi. destruct (Nat.lt_ge_cases i 3) as [L|L].
    - injection P0 as X0 X1 X2. destruct i as [|[|[|i]]]; try assumption; lia.
    - pose proof (B (i - 3)%nat ltac:(lia)) as E. replace (3 + (i - 3))%nat with i in E by lia. rewrite P0 in E. destruct (Req_dec (x i) 0) as [Z|N]; [exact Z|]. exfalso.
      rewrite Forall_forall in NZ. apply (NZ (nth (i - 3) rays zero3)); [apply nth_In; lia|]. revert E. generalize (nth (i - 3) rays zero3). intros [[r1 r2] r3] E. unfold scale3, zero3 in *. injection E as E1 E2 E3. apply vec3_eq; apply (Rmult_eq_reg_l (x i)); try exact N; lra. }
  intros c Hc. apply A. assert (I : In (fst c) (map fst (system rays))) by (apply in_map, Hc). rewrite system_fst in I. apply in_seq in I. lia.
Qed.
(** All rays multiples of one: not of full column rank. *)
Lemma system_dependent rays d : d <> zero3 -> (forall v, In v rays -> exists k, v = scale3 k d /\ k <> 0) -> ~ independent (length rays) (system rays).
Proof.
  intros N H I. pose (coef := fun v : vec3 => dot3 d d / dot3 v d). pose (x := fun i => match i with 0%nat => fst (fst d) | 1%nat => snd (fst d) | 2%nat => snd d | S (S (S i)) => coef (nth i rays zero3) end).
  assert (DD : dot3 d d <> 0) by (intros E; apply N, dot3_zero, E).
  assert (V : vanishes (length rays) x (system rays)).
  { intros w Hw. rewrite system_sum by exact Hw. replace (blocks x rays) with (zeros (length rays)); [apply dot_zeros|]. unfold blocks, zeros. apply (nth_ext _ _ zero3 zero3); [rewrite map_length, seq_length, repeat_length; reflexivity|]. intros i Hi. rewrite repeat_length in Hi. rewrite nth_repeat_below, nth_map_seq by exact Hi.
    destruct (H (nth i rays zero3)) as (k & E & NK); [apply nth_In; lia|]. unfold x, plus, coef. rewrite E, dot3_scale. destruct d as [[d1 d2] d3]. unfold sub3, add3, scale3, zero3. cbn [fst snd]. apply vec3_eq; field; split; assumption. }
  apply N. destruct d as [[d1 d2] d3]. unfold zero3. apply vec3_eq.
  - destruct (system_column rays 0 ltac:(lia)) as (c & Hc & E). rewrite <- (I x V c Hc), E. reflexivity.
  - destruct (system_column rays 1 ltac:(lia)) as (c & Hc & E). rewrite <- (I x V c Hc), E. reflexivity.
  - destruct (system_column rays 2 ltac:(lia)) as (c & Hc & E). rewrite <- (I x V c Hc), E. reflexivity.
Qed.
(** Exact data: the solution is the point. *)
Lemma system_exact rays centres p : length centres = length rays -> independent (length rays) (system rays) -> (2 <= length rays)%nat ->
  (forall i, (i < length rays)%nat -> exists k, add3 (nth i centres zero3) (scale3 k (nth i rays zero3)) = p) ->
  solve_head3 (system rays) centres = p.
Proof.
  intros HL I H2 H. assert (EX : exists ks : nat -> R, forall i, (i < length rays)%nat -> add3 (nth i centres zero3) (scale3 (ks i) (nth i rays zero3)) = p).
  { clear H2 I. assert (G : forall n, (n <= length rays)%nat -> exists ks : nat -> R, forall i, (i < n)%nat -> add3 (nth i centres zero3) (scale3 (ks i) (nth i rays zero3)) = p).
    { induction n as [|n IH]; intros Hn; [exists (fun _ => 0); intros i Hi; lia|]. destruct IH as (ks & K); [lia|]. destruct (H n ltac:(lia)) as (k & E). exists (fun i => if (i =? n)%nat then k else ks i). intros i Hi. destruct (Nat.eqb_spec i n) as [->|NE]; [exact E|]. apply K. lia. }
    apply G. lia. }
  destruct EX as (ks & K). pose (x := fun i => match i with 0%nat => fst (fst p) | 1%nat => snd (fst p) | 2%nat => snd p | S (S (S i)) => ks i end).
  assert (X : forall w, length w = length rays -> sum_over (fun c => x (fst c) * dot (snd c) w) (system rays) = dot centres w).
  { intros w Hw. rewrite system_sum by exact Hw. replace (blocks x rays) with centres; [reflexivity|]. unfold blocks. apply (nth_ext _ _ zero3 zero3); [rewrite map_length, seq_length; exact HL|]. intros i Hi. rewrite nth_map_seq by lia. pose proof (K i ltac:(lia)) as E. unfold x, plus. rewrite <- E. generalize (nth i rays zero3), (nth i centres zero3), (ks i). intros [[r1 r2] r3] [[c1 c2] c3] k. cbn [fst snd add3 scale3 sub3]. apply vec3_eq; ring. }
  pose proof (solve_exact (length rays) (system rays) centres x (system_wf rays) (system_nodup rays) HL I X) as S. unfold solve_head3. destruct p as [[p1 p2] p3]. apply vec3_eq.
  - destruct (system_column rays 0 ltac:(lia)) as (c & Hc & E). pose proof (S c Hc) as S0. rewrite E in S0. exact S0.
  - destruct (system_column rays 1 ltac:(lia)) as (c & Hc & E). pose proof (S c Hc) as S0. rewrite E in S0. exact S0.
  - destruct (system_column rays 2 ltac:(lia)) as (c & Hc & E). pose proof (S c Hc) as S0. rewrite E in S0. exact S0.
Qed.
Lemma rank_check_spec r n : (r <= n + 3)%nat -> (Z.of_nat n < 2 ^ 60)%Z -> rank_check r n = true <-> (n <= r < n + 3)%nat.
Proof.
  intros H B. unfold rank_check. change (2 ^ 60)%Z with 1152921504606846976%Z in B. change (2 ^ 64)%Z with 18446744073709551616%Z. rewrite Z.ltb_lt. split; intros HR.
  - destruct (Nat.lt_ge_cases r n) as [L|L].
    + exfalso. rewrite <- (Z_mod_plus_full _ 1) in HR. rewrite Z.mod_small in HR; lia.
    + rewrite Z.mod_small in HR by lia. lia.
  - rewrite Z.mod_small; lia.
Qed.

(** ** Least squares *)
(** The part of [f] orthogonal to [v]. *)
Definition reject (f v : vec3) : vec3 := sub3 f (scale3 (dot3 f v / dot3 v v) v).
Lemma line_distance2_dot q c v : line_distance2 q c v = dot3 (sub3 q c) (sub3 q c) - dot3 (sub3 q c) v * dot3 (sub3 q c) v / dot3 v v.
Proof. destruct q as [[q1 q2] q3], c as [[c1 c2] c3], v as [[v1 v2] v3]. unfold line_distance2, sub3, add3, scale3, dot3. f_equal; [ring|]. unfold Rdiv. f_equal. ring. Qed.
Lemma dot3_sub a b c : dot3 (sub3 a b) c = dot3 a c - dot3 b c.
Proof. vec. Qed.
Lemma distance_expand e f v : dot3 v v <> 0 ->
  dot3 (add3 e f) (add3 e f) - dot3 (add3 e f) v * dot3 (add3 e f) v / dot3 v v =
  (dot3 e e - dot3 e v * dot3 e v / dot3 v v) + 2 * dot3 e (reject f v) + (dot3 f f - dot3 f v * dot3 f v / dot3 v v).
Proof.
  intros N. unfold reject. rewrite (dot3_comm e (sub3 f (scale3 (dot3 f v / dot3 v v) v))), dot3_sub, dot3_scale, (dot3_comm v e), (dot3_comm f e). rewrite !(dot3_add e f). rewrite (dot3_comm e (add3 e f)), (dot3_comm f (add3 e f)), !dot3_add. rewrite (dot3_comm f e). field. exact N.
Qed.
Lemma cauchy e v : v <> zero3 -> 0 <= dot3 e e - dot3 e v * dot3 e v / dot3 v v.
Proof.
  intros N. assert (D : 0 < dot3 v v) by (pose proof (dot3_nonneg v); assert (dot3 v v <> 0) by (intros E; apply N, dot3_zero, E); lra).
  replace (dot3 e e - dot3 e v * dot3 e v / dot3 v v) with (dot3 (cross3 e v) (cross3 e v) / dot3 v v).
  - apply Rmult_le_pos; [apply dot3_nonneg|]. left. apply Rinv_0_lt_compat, D.
  - apply (Rmult_eq_reg_r (dot3 v v)); [|lra]. replace (dot3 (cross3 e v) (cross3 e v) / dot3 v v * dot3 v v) with (dot3 (cross3 e v) (cross3 e v)) by (field; lra). replace ((dot3 e e - dot3 e v * dot3 e v / dot3 v v) * dot3 v v) with (dot3 e e * dot3 v v - dot3 e v * dot3 e v) by (field; lra). vec.
Qed.
Lemma cauchy_parallel e v : v <> zero3 -> dot3 e e - dot3 e v * dot3 e v / dot3 v v = 0 -> parallel e v.
Proof.
  intros N H. assert (D : dot3 v v <> 0) by (intros E; apply N, dot3_zero, E). apply dot3_zero.
  replace (dot3 (cross3 e v) (cross3 e v)) with ((dot3 e e - dot3 e v * dot3 e v / dot3 v v) * dot3 v v); [rewrite H; ring|]. replace ((dot3 e e - dot3 e v * dot3 e v / dot3 v v) * dot3 v v) with (dot3 e e * dot3 v v - dot3 e v * dot3 e v) by (field; exact D). vec.
Qed.
Definition gradient (p : vec3) (lines : list (vec3 * vec3)) : vec3 := sum3 (map (fun l => reject (sub3 p (fst l)) (snd l)) lines).
Definition spread (e : vec3) (lines : list (vec3 * vec3)) : R := fold_right (fun l s => (dot3 e e - dot3 e (snd l) * dot3 e (snd l) / dot3 (snd l) (snd l)) + s) 0 lines.
Lemma total_expand p q lines : Forall (fun l => snd l <> zero3) lines ->
  total_distance2 q lines = spread (sub3 q p) lines + 2 * dot3 (sub3 q p) (gradient p lines) + total_distance2 p lines.
Proof.
  induction 1 as [|l lines Hl _ IH]; unfold total_distance2, spread, gradient in *; simpl.
  - rewrite dot3_comm. vec.
  - rewrite IH, !line_distance2_dot. assert (D : dot3 (snd l) (snd l) <> 0) by (intros E; apply Hl, dot3_zero, E).
    replace (sub3 q (fst l)) with (add3 (sub3 q p) (sub3 p (fst l))) by (generalize (fst l); intros; vec). rewrite distance_expand by exact D.
    rewrite (dot3_comm (sub3 q p) (add3 _ _)), dot3_add, (dot3_comm (reject _ _)), (dot3_comm (sum3 _)). ring.
Qed.
Lemma spread_nonneg e lines : Forall (fun l => snd l <> zero3) lines -> 0 <= spread e lines.
Proof. unfold spread. induction 1 as [|l lines Hl _ IH]; cbn [fold_right]; [lra|]. pose proof (cauchy e (snd l) Hl). lra. Qed.
Lemma spread_zero e lines : Forall (fun l => snd l <> zero3) lines -> spread e lines = 0 -> forall l, In l lines -> parallel e (snd l).
Proof.
  induction 1 as [|l lines Hl F IH]; intros Z l' HI; [destruct HI|]. pose proof (cauchy e (snd l) Hl) as C. pose proof (spread_nonneg e lines F) as S. unfold spread in S, IH, Z. cbn [fold_right] in Z.
  destruct HI as [<-|HI]; [apply cauchy_parallel; [exact Hl|lra]|apply IH; [lra|exact HI]].
Qed.
Lemma parallel_both e a b : e <> zero3 -> parallel e a -> parallel e b -> parallel a b.
Proof. intros N Ha Hb. destruct (parallel_multiple a e N Ha) as (k & ->). destruct (parallel_multiple b e N Hb) as (l & ->). apply parallel_scale. Qed.
Lemma sub3_zero q p : sub3 q p = zero3 -> q = p.
Proof. destruct q as [[q1 q2] q3], p as [[p1 p2] p3]. unfold sub3, add3, scale3, zero3. intros H. injection H as H1 H2 H3. apply vec3_eq; lra. Qed.
(** A zero of the gradient is the unique best point. *)
Lemma gradient_best p lines : Forall (fun l => snd l <> zero3) lines -> observable (map snd lines) -> gradient p lines = zero3 -> best_point p lines.
Proof.
  intros F (a & b & Ha & Hb & NP) G q NE. rewrite (total_expand p q lines F), G. replace (dot3 (sub3 q p) zero3) with 0 by (generalize (sub3 q p); intros; vec).
  pose proof (spread_nonneg (sub3 q p) lines F) as S. destruct (Req_dec (spread (sub3 q p) lines) 0) as [Z|N]; [|lra]. exfalso. apply NP.
  apply in_map_iff in Ha. destruct Ha as (la & <- & Ha). apply in_map_iff in Hb. destruct Hb as (lb & <- & Hb). apply (parallel_both (sub3 q p)).
  - intros E. apply NE, sub3_zero, E.
  - apply (spread_zero _ _ F Z), Ha.
  - apply (spread_zero _ _ F Z), Hb.
Qed.
(** A point on all lines has zero gradient. *)
Lemma best_unique p p' lines : best_point p lines -> best_point p' lines -> p = p'.
Proof.
  intros H H'. assert (D : forall a b : vec3, {a = b} + {a <> b}). { intros [[a1 a2] a3] [[b1 b2] b3]. destruct (Req_EM_T a1 b1); [|right; congruence]. destruct (Req_EM_T a2 b2); [|right; congruence]. destruct (Req_EM_T a3 b3); [left; congruence|right; congruence]. }
  destruct (D p p') as [E|N]; [exact E|]. pose proof (H p' (not_eq_sym N)). pose proof (H' p N). lra.
Qed.
Lemma on_line_add p c v : on_line p c v <-> exists k, add3 c (scale3 k v) = p.
Proof. unfold on_line. destruct c as [[c1 c2] c3], v as [[v1 v2] v3]. split; intros (k & E); exists k; rewrite <- E || rewrite E; reflexivity. Qed.
Lemma on_line_reject p c v : v <> zero3 -> on_line p c v -> reject (sub3 p c) v = zero3.
Proof.
  intros N H. apply on_line_add in H. destruct H as (k & <-). unfold reject. replace (sub3 (add3 c (scale3 k v)) c) with (scale3 k v) by vec. rewrite dot3_scale. assert (D : dot3 v v <> 0) by (intros E; apply N, dot3_zero, E). replace (k * dot3 v v / dot3 v v) with k by (field; exact D). vec.
Qed.
Lemma gradient_on_lines p lines : Forall (fun l => snd l <> zero3) lines -> Forall (fun l => on_line p (fst l) (snd l)) lines -> gradient p lines = zero3.
Proof.
  intros F. induction F as [|l lines Hl F IH]; intros H; inversion H as [|? ? H1 H2]; subst; unfold gradient in *; simpl; [reflexivity|]. rewrite (on_line_reject _ _ _ Hl H1), (IH H2). vec.
Qed.

(** ** The normalised variant solves for the zero of the gradient *)
Lemma sum3_dot l w : dot3 (sum3 l) w = fold_right (fun v s => dot3 v w + s) 0 l.
Proof. induction l as [|v l IH]; simpl; [vec|]. rewrite dot3_add, IH. reflexivity. Qed.
Lemma coordinates_zero v : (forall j, (j < 3)%nat -> dot3 v (unit3 j) = 0) -> v = zero3.
Proof. intros H. pose proof (H 0%nat ltac:(lia)) as H0. pose proof (H 1%nat ltac:(lia)) as H1. pose proof (H 2%nat ltac:(lia)) as H2. destruct v as [[v1 v2] v3]. simpl in *. apply vec3_eq; lra. Qed.
Lemma system_gradient rays centres : length centres = length rays -> Forall (fun v => v <> zero3) rays -> independent (length rays) (system rays) ->
  gradient (solve_head3 (system rays) centres) (combine centres rays) = zero3.
Proof.
  intros HL NZ I. set (x := coefficient (solve (length (system rays)) (system rays) centres)).
  assert (NE : forall w, In w (map snd (system rays)) -> dot (blocks x rays) w = dot centres w).
  { intros w Hw. apply in_map_iff in Hw. destruct Hw as (c & <- & Hc). rewrite <- system_sum by apply (proj1 (Forall_forall _ _) (system_wf rays) c Hc).
    apply (solve_normal (length rays) (length (system rays)) (system rays) centres (Nat.le_refl _) (system_wf rays) (system_nodup rays) HL I c Hc). }
  set (p := solve_head3 (system rays) centres). assert (P : p = (x 0%nat, x 1%nat, x 2%nat)) by reflexivity.
  (* the multipliers *)
  assert (K : forall i, (i < length rays)%nat -> x (3 + i)%nat = dot3 (sub3 p (nth i centres zero3)) (nth i rays zero3) / dot3 (nth i rays zero3) (nth i rays zero3)).
  { intros i Hi. assert (D : dot3 (nth i rays zero3) (nth i rays zero3) <> 0). { intros E. rewrite Forall_forall in NZ. apply (NZ (nth i rays zero3)); [apply nth_In, Hi|apply dot3_zero, E]. }
    pose proof (NE (place (length rays) i (scale3 (-1) (nth i rays zero3)))) as E. rewrite !(dot_comm _ (place _ _ _)), !dot_place in E by (try exact HL; apply blocks_length). apply Nat.ltb_lt in Hi. rewrite Hi in E. apply Nat.ltb_lt in Hi.
    specialize (E ltac:(unfold system; rewrite map_app, !map_map; apply in_or_app; right; apply in_map_iff; exists i; split; [reflexivity|apply in_seq; lia])).
    unfold blocks in E. rewrite nth_map_seq in E by exact Hi. rewrite <- P in E. rewrite !dot3_scale in E. rewrite (dot3_comm (nth i rays zero3) (sub3 _ _)), dot3_sub, dot3_scale in E. rewrite dot3_sub. rewrite (dot3_comm (nth i rays zero3) (nth i centres zero3)) in E.
    apply (Rmult_eq_reg_r (dot3 (nth i rays zero3) (nth i rays zero3))); [|exact D]. unfold Rdiv. rewrite Rmult_assoc, Rinv_l by exact D. lra. }
  apply coordinates_zero. intros j Hj. unfold gradient. rewrite sum3_dot.
  pose proof (NE (repeat (unit3 j) (length rays))) as E. specialize (E ltac:(unfold system; rewrite map_app, !map_map; apply in_or_app; left; cbn [map snd]; destruct j as [|[|[|j]]]; [left; reflexivity|right; left; reflexivity|right; right; left; reflexivity|lia])).
  rewrite (dot_seq (blocks x rays)), (dot_seq centres), blocks_length, HL in E by (rewrite repeat_length; try apply blocks_length; exact HL).
  assert (G : fold_right (fun v s => dot3 v (unit3 j) + s) 0 (map (fun l => reject (sub3 p (fst l)) (snd l)) (combine centres rays)) = sum_seq (fun i => dot3 (reject (sub3 p (nth i centres zero3)) (nth i rays zero3)) (unit3 j)) (seq 0 (length rays))).
  { clearbody p. clear - HL p. revert centres HL. induction rays as [|r rays IH]; intros [|c centres] HL; simpl in *; try lia; [reflexivity|]. rewrite <- seq_shift, sum_seq_map. f_equal. apply IH. lia. }
  rewrite G. transitivity (sum_seq (fun i => dot3 (nth i (blocks x rays) zero3) (nth i (repeat (unit3 j) (length rays)) zero3) + -1 * dot3 (nth i centres zero3) (nth i (repeat (unit3 j) (length rays)) zero3)) (seq 0 (length rays))).
  - apply sum_seq_ext. intros i Hi. apply in_seq in Hi. rewrite nth_repeat_below by lia. unfold blocks. rewrite nth_map_seq by lia. rewrite K, <- P by lia. unfold reject. generalize (dot3 (sub3 p (nth i centres zero3)) (nth i rays zero3) / dot3 (nth i rays zero3) (nth i rays zero3)). intros k. generalize (nth i rays zero3), (nth i centres zero3), (unit3 j). intros. rewrite !dot3_sub. ring.
  - rewrite sum_seq_plus, sum_seq_scale, E. ring.
Qed.

(** ** The bearing variant *)
Definition normal_apply (vs : list vec3) (x : vec3) : vec3 := sub3 (scale3 (INR (length vs)) x) (sum3 (map (fun v => scale3 (dot3 v x / dot3 v v) v) vs)).
Lemma normal_system_sum x vs w : sum_over (fun c => x (fst c) * dot (snd c) [w]) (normal_system vs) = dot3 (normal_apply vs (x 0%nat, x 1%nat, x 2%nat)) w.
Proof.
  unfold normal_system. cbn [map sum_over fold_right fst snd dot]. unfold normal_column, normal_apply. rewrite !dot3_sub, !dot3_scale, !sum3_dot.
  assert (G : x 0%nat * fold_right (fun v s => dot3 v w + s) 0 (map (fun v => scale3 (dot3 v (unit3 0) / dot3 v v) v) vs) + x 1%nat * fold_right (fun v s => dot3 v w + s) 0 (map (fun v => scale3 (dot3 v (unit3 1) / dot3 v v) v) vs) + x 2%nat * fold_right (fun v s => dot3 v w + s) 0 (map (fun v => scale3 (dot3 v (unit3 2) / dot3 v v) v) vs)
    = fold_right (fun v s => dot3 v w + s) 0 (map (fun v => scale3 (dot3 v (x 0%nat, x 1%nat, x 2%nat) / dot3 v v) v) vs)).
  { induction vs as [|v vs IH]; cbn [map fold_right]; [ring|]. rewrite <- IH, !dot3_scale. unfold Rdiv. replace (dot3 v (x 0%nat, x 1%nat, x 2%nat)) with (x 0%nat * dot3 v (unit3 0) + x 1%nat * dot3 v (unit3 1) + x 2%nat * dot3 v (unit3 2)) by (generalize (x 0%nat), (x 1%nat), (x 2%nat); intros; unfold unit3; vec). ring. }
  rewrite <- G. replace (dot3 (x 0%nat, x 1%nat, x 2%nat) w) with (x 0%nat * dot3 (unit3 0) w + x 1%nat * dot3 (unit3 1) w + x 2%nat * dot3 (unit3 2) w) by (generalize (x 0%nat), (x 1%nat), (x 2%nat); intros; unfold unit3; vec). ring.
Qed.
Lemma normal_wf vs : well_formed 1 (normal_system vs). Proof. repeat constructor. Qed.
Lemma normal_nodup vs : NoDup (map fst (normal_system vs)). Proof. simpl. repeat constructor; simpl; intuition lia. Qed.
Lemma length_1 {A} (w : list A) : length w = 1%nat -> exists a, w = [a].
Proof. destruct w as [|a [|b w]]; simpl; intros H; try lia. exists a. reflexivity. Qed.
Lemma normal_gradient p vs ps : length vs = length ps -> sub3 (normal_apply vs p) (normal_rhs vs ps) = gradient p (combine ps vs).
Proof.
  revert ps. induction vs as [|v vs IH]; intros [|c ps] H; cbn [length] in H; try lia.
  - unfold normal_apply, normal_rhs, gradient. simpl. vec.
  - specialize (IH ps ltac:(lia)). unfold normal_apply, normal_rhs, gradient in *. cbn [length combine map sum3 fold_right fst snd]. fold (sum3 ps). fold (sum3 (map (fun v => scale3 (dot3 v p / dot3 v v) v) vs)). fold (sum3 (map (fun x => scale3 (dot3 (fst x) (snd x) / dot3 (fst x) (fst x)) (fst x)) (combine vs ps))). fold (sum3 (map (fun l => reject (sub3 p (fst l)) (snd l)) (combine ps vs))).
    rewrite <- IH. rewrite S_INR. unfold reject. replace (dot3 (sub3 p c) v / dot3 v v) with (dot3 v p / dot3 v v - dot3 v c / dot3 v v) by (rewrite dot3_sub, (dot3_comm p v), (dot3_comm c v); unfold Rdiv; ring).
    generalize (dot3 v p / dot3 v v), (dot3 v c / dot3 v v), (sum3 ps), (sum3 (map (fun v => scale3 (dot3 v p / dot3 v v) v) vs)), (sum3 (map (fun x => scale3 (dot3 (fst x) (snd x) / dot3 (fst x) (fst x)) (fst x)) (combine vs ps))), (INR (length vs)). intros. vec.
Qed.
Lemma normal_solution vs ps : length vs = length ps -> independent 1 (normal_system vs) -> gradient (solve_head3 (normal_system vs) [normal_rhs vs ps]) (combine ps vs) = zero3.
Proof.
  intros HL I. set (x := coefficient (solve (length (normal_system vs)) (normal_system vs) [normal_rhs vs ps])). set (p := solve_head3 (normal_system vs) [normal_rhs vs ps]). assert (P : p = (x 0%nat, x 1%nat, x 2%nat)) by reflexivity.
  assert (NE : forall j, (j < 3)%nat -> dot3 (sub3 (normal_apply vs p) (normal_rhs vs ps)) (normal_column vs j) = 0).
  { intros j Hj. pose proof (solve_normal 1 (length (normal_system vs)) (normal_system vs) [normal_rhs vs ps] (Nat.le_refl _) (normal_wf vs) (normal_nodup vs) eq_refl I (j, [normal_column vs j])) as E. fold x in E. cbn [snd] in E. rewrite normal_system_sum, <- P in E. cbn [dot] in E. rewrite dot3_sub. rewrite E; [ring|].
    unfold normal_system. apply in_map_iff. exists j. split; [reflexivity|]. destruct j as [|[|[|j]]]; simpl; try tauto; lia. }
  rewrite <- normal_gradient by exact HL. set (g := sub3 _ _) in *. clearbody g.
  (* the columns are a basis: g is orthogonal to all of them, so M g has zero scalar product with g, and M is symmetric *)
  assert (Z : normal_apply vs g = zero3).
  { apply coordinates_zero. intros j Hj. rewrite <- (NE j Hj). rewrite (dot3_comm g). unfold normal_apply, normal_column. rewrite !dot3_sub, !dot3_scale, !sum3_dot. rewrite (dot3_comm (unit3 j) g). f_equal.
    clear. induction vs as [|v vs IH]; cbn [map fold_right]; [reflexivity|]. rewrite IH, !dot3_scale. rewrite (dot3_comm v g). unfold Rdiv. rewrite (dot3_comm v (unit3 j)). ring. }
  pose (y := fun i => match i with 0%nat => fst (fst g) | 1%nat => snd (fst g) | _ => snd g end).
  assert (V : vanishes 1 y (normal_system vs)).
  { intros w Hw. destruct (length_1 w Hw) as (a & ->). rewrite (normal_system_sum y). replace (y 0%nat, y 1%nat, y 2%nat) with g by (destruct g as [[? ?] ?]; reflexivity). rewrite Z. vec. }
  pose proof (I _ V) as G. destruct g as [[g1 g2] g3]. apply vec3_eq.
  - apply (G (0%nat, [normal_column vs 0])). left. reflexivity.
  - apply (G (1%nat, [normal_column vs 1])). right. left. reflexivity.
  - apply (G (2%nat, [normal_column vs 2])). right. right. left. reflexivity.
Qed.
Lemma normal_spread vs e : dot3 (normal_apply vs e) e = spread e (map (fun v => (zero3, v)) vs).
Proof.
  unfold normal_apply. rewrite dot3_sub, dot3_scale, sum3_dot. induction vs as [|v vs IH]; cbn [length map fold_right spread snd]; [simpl; ring|]. fold (spread e (map (fun v => (zero3, v)) vs)). rewrite <- IH, S_INR, dot3_scale, (dot3_comm v e). unfold Rdiv. ring.
Qed.
(** Non-zero parallel bearing vectors: the normal matrix is singular. *)
Lemma normal_dependent vs : (1 <= length vs)%nat -> Forall (fun v => v <> zero3) vs -> unobservable vs -> ~ independent 1 (normal_system vs).
Proof.
  intros L NZ U I. destruct vs as [|d vs]; [simpl in L; lia|]. assert (ND : d <> zero3) by (inversion NZ; assumption).
  assert (Z : normal_apply (d :: vs) d = zero3).
  { assert (G : forall l, (forall v, In v l -> v <> zero3 /\ parallel d v) -> normal_apply l d = zero3).
    { unfold normal_apply. induction l as [|v l IH]; intros H; [simpl; vec|]. cbn [length map sum3 fold_right]. fold (sum3 (map (fun v => scale3 (dot3 v d / dot3 v v) v) l)). specialize (IH (fun v Hv => H v (or_intror Hv))). destruct (H v (or_introl eq_refl)) as [NV PV]. destruct (parallel_multiple v d ND PV) as (k & E).
      assert (NK : k <> 0). { intros ->. apply NV. rewrite E. vec. } assert (DD : dot3 d d <> 0) by (intros E0; apply ND, dot3_zero, E0).
      replace (scale3 (dot3 v d / dot3 v v) v) with d.
      - rewrite S_INR. revert IH. generalize (sum3 (map (fun v => scale3 (dot3 v d / dot3 v v) v) l)), (INR (length l)). intros s n. destruct s as [[s1 s2] s3], d as [[d1 d2] d3]. unfold sub3, add3, scale3, zero3. intros E1. injection E1 as E1 E2 E3. apply vec3_eq; lra.
      - rewrite E, !dot3_scale, (dot3_comm d (scale3 k d)), dot3_scale. replace (k * dot3 d d / (k * (k * dot3 d d))) with (/ k) by (field; split; assumption). destruct d as [[d1 d2] d3]. unfold scale3. apply vec3_eq; field; exact NK. }
    apply G. intros v Hv. rewrite Forall_forall in NZ. split; [apply NZ, Hv|apply U; [left; reflexivity|exact Hv]]. }
  pose (y := fun i => match i with 0%nat => fst (fst d) | 1%nat => snd (fst d) | _ => snd d end).
  assert (V : vanishes 1 y (normal_system (d :: vs))).
  { intros w Hw. destruct (length_1 w Hw) as (a & ->). rewrite (normal_system_sum y). replace (y 0%nat, y 1%nat, y 2%nat) with d by (destruct d as [[? ?] ?]; reflexivity). rewrite Z. vec. }
  pose proof (I _ V) as G. apply ND. destruct d as [[g1 g2] g3]. apply vec3_eq.
  - apply (G (0%nat, [normal_column ((g1, g2, g3) :: vs) 0])). left. reflexivity.
  - apply (G (1%nat, [normal_column ((g1, g2, g3) :: vs) 1])). right. left. reflexivity.
  - apply (G (2%nat, [normal_column ((g1, g2, g3) :: vs) 2])). right. right. left. reflexivity.
Qed.

(** ** The rank is at least the number of views for moderate problems *)
Lemma place_scale n i s v : place n i (scale3 s v) = scale_long s (place n i v).
Proof.
  unfold scale_long. assert (Z : scale3 s zero3 = zero3) by vec. revert i. induction n as [|n IH]; intros i; simpl; [reflexivity|]. destruct i; cbn [map]; [|rewrite Z, IH; reflexivity]. f_equal. clear IH. induction n; simpl; [reflexivity|]. f_equal; [symmetry; exact Z|exact IHn].
Qed.
Lemma nth_place n i v : (i < n)%nat -> nth i (place n i v) zero3 = v.
Proof. revert i. induction n as [|n IH]; intros i H; [lia|]. cbn [place]. destruct i; [reflexivity|]. cbn [nth]. apply IH. lia. Qed.
Lemma sum_seq_const k l : sum_seq (fun _ => k) l = k * INR (length l).
Proof. induction l as [|a l IH]; [simpl; ring|]. cbn [length]. rewrite S_INR. unfold sum_seq in *. cbn [fold_right]. rewrite IH. ring. Qed.
Lemma cauchy_unit a b : dot3 a a = 1 -> dot3 a b * dot3 a b <= dot3 b b.
Proof.
  intros H. assert (N : a <> zero3). { intros ->. revert H. vec. lra. } pose proof (cauchy b a N) as C. rewrite H, (dot3_comm b a) in C. unfold Rdiv in C. rewrite Rinv_1 in C. lra.
Qed.
Lemma system_rank_lower rays k : Forall (fun r => 1 <= dot3 r r <= k) rays -> INR (length rays) * INR (length rays) < 1000000 -> k * INR (length rays) < 1000000 ->
  (length rays <= rank rank_loss_tolerance (system rays))%nat.
Proof.
  intros HR HN HK. set (n := length rays) in *. destruct (Nat.eq_dec n 0) as [Z|NZ]; [lia|]. assert (NP : 1 <= INR n) by (change 1 with (INR 1); apply le_INR; lia).
  assert (HRn : forall i, (i < n)%nat -> 1 <= dot3 (nth i rays zero3) (nth i rays zero3) <= k) by (intros i Hi; rewrite Forall_forall in HR; apply HR, nth_In, Hi).
  pose (root := fun i => sqrt (dot3 (nth i rays zero3) (nth i rays zero3))).
  assert (RP : forall i, (i < n)%nat -> 1 <= root i /\ root i * root i = dot3 (nth i rays zero3) (nth i rays zero3)).
  { intros i Hi. pose proof (HRn i Hi) as [A B]. unfold root. split; [|apply sqrt_sqrt; lra]. rewrite <- sqrt_1 at 1. apply sqrt_le_1; lra. }
  pose (u := fun i => scale3 (- / root i) (nth i rays zero3)).
  assert (U : forall i, (i < n)%nat -> dot3 (u i) (u i) = 1).
  { intros i Hi. destruct (RP i Hi) as [A B]. unfold u. rewrite dot3_scale, dot3_comm, dot3_scale, <- B. field. lra. }
  pose (es := map (fun i => place n i (u i)) (seq 0 n)).
  assert (LE : length es = n) by (unfold es; rewrite map_length, seq_length; reflexivity).
  unfold rank. set (t := rank_loss_tolerance * fold_right Rmax 0 (pivots (length (system rays)) (system rays))).
  assert (TP : 0 <= t). { unfold t, rank_loss_tolerance. pose proof (largest_nonneg (pivots (length (system rays)) (system rays))). lra. }
  assert (TB : t * t * INR n < 1).
  { pose (b := Rmax (INR n) k). assert (B0 : INR n <= b) by apply Rmax_l. assert (B1 : k <= b) by apply Rmax_r. assert (BB : b * INR n < 1000000) by (unfold b, Rmax; destruct (Rle_dec (INR n) k); assumption).
    assert (PB : Forall (fun p => p <= sqrt b) (pivots (length (system rays)) (system rays))).
    { apply (pivots_bound n); [apply system_wf|]. unfold system. apply Forall_app. split.
      - apply Forall_map. rewrite Forall_forall. intros j Hj. cbn [snd]. unfold norm. apply sqrt_le_1; [apply dot_nonneg|lra|]. rewrite dot_seq by reflexivity. rewrite repeat_length. rewrite (sum_seq_ext _ (fun _ => 1)).
        + rewrite sum_seq_const, seq_length. fold n. lra.
        + intros i Hi. apply in_seq in Hi. rewrite nth_repeat_below by lia. destruct Hj as [<-|[<-|[<-|[]]]]; unfold unit3; vec.
      - apply Forall_map. rewrite Forall_forall. intros i Hi. apply in_seq in Hi. cbn [snd]. unfold norm. apply sqrt_le_1; [apply dot_nonneg|lra|]. fold n. rewrite dot_place by apply place_length. rewrite nth_place by lia. destruct (i <? n)%nat; [|lra]. rewrite dot3_scale, dot3_comm, dot3_scale. pose proof (HRn i ltac:(lia)). lra. }
    assert (LB : fold_right Rmax 0 (pivots (length (system rays)) (system rays)) <= sqrt b).
    { revert PB. generalize (pivots (length (system rays)) (system rays)). induction 1 as [|p l Hp _ IH]; simpl; [apply sqrt_pos|]. apply Rmax_lub; assumption. }
    pose proof (largest_nonneg (pivots (length (system rays)) (system rays))) as L0. set (lg := fold_right Rmax 0 (pivots (length (system rays)) (system rays))) in *.
    assert (SB : lg * lg <= b). { rewrite <- (sqrt_sqrt b) by lra. apply Rmult_le_compat; assumption. }
    unfold t, rank_loss_tolerance. apply Rle_lt_trans with (b * INR n / 1000000); [|lra]. assert (lg * lg * INR n <= b * INR n) by (apply Rmult_le_compat_r; lra). lra. }
  apply (pivots_lower n t (length (system rays)) TP (system rays) es (fun _ => True)).
  - lia.
  - apply system_wf.
  - unfold es. apply Forall_map, Forall_forall. intros i _. apply place_length.
  - rewrite LE. exact TB.
  - apply Forall_forall. intros; exact I.
  - intros; exact I.
  - intros q _ Hq. rewrite (dot_seq q q eq_refl), Hq. unfold correlation, es.
    assert (G : forall l, (forall i, In i l -> (i < n)%nat) -> fold_right (fun e s => dot e q * dot e q + s) 0 (map (fun i => place n i (u i)) l) <= sum_seq (fun i => dot3 (nth i q zero3) (nth i q zero3)) l).
    { induction l as [|i l IH]; intros HI; cbn [map fold_right sum_seq]; [lra|]. specialize (IH (fun j Hj => HI j (or_intror Hj))). unfold sum_seq in IH. pose proof (HI i (or_introl eq_refl)) as Hi. rewrite dot_place by exact Hq. pose proof Hi as Hi'. apply Nat.ltb_lt in Hi'. rewrite Hi'. pose proof (cauchy_unit (u i) (nth i q zero3) (U i Hi)). lra. }
    apply G. intros i Hi. apply in_seq in Hi. lia.
  - intros e He. unfold es in He. apply in_map_iff in He. destruct He as (i & <- & Hi). apply in_seq in Hi. right. exists ((3 + i)%nat, place n i (scale3 (-1) (nth i rays zero3))), (root i). destruct (RP i ltac:(lia)) as [A B]. split; [|split].
    + unfold system. apply in_or_app. right. apply in_map_iff. exists i. split; [reflexivity|apply in_seq; fold n; lia].
    + nra.
    + intros w. cbn [snd]. unfold u. rewrite !place_scale, !dot_scale. field. lra.
  - unfold energy, es. assert (G : forall l, (forall i, In i l -> (i < n)%nat) -> fold_right (fun e s => dot e e + s) 0 (map (fun i => place n i (u i)) l) = INR (length l)).
    { induction l as [|i l IH]; intros HI; cbn [map fold_right length]; [reflexivity|]. rewrite IH by (intros j Hj; apply HI; right; exact Hj). pose proof (HI i (or_introl eq_refl)) as Hi. rewrite dot_place by apply place_length. rewrite nth_place, U by exact Hi. apply Nat.ltb_lt in Hi. rewrite Hi, S_INR. ring. }
    rewrite G, seq_length; [lra|]. intros i Hi. apply in_seq in Hi. lia.
Qed.

(** ** Views *)
Definition view_ray (v : view) : vec3 := ray_of (view_T_G_B v) (view_T_B_C v) (view_measurement v).
Definition view_centre (v : view) : vec3 := centre_of (view_T_G_B v) (view_T_B_C v).
Lemma view_direction_ray v : view_direction v = view_ray v. Proof. apply ray_direction. Qed.
Lemma camera_centre_of T U : camera_centre T U = centre_of T U.
Proof.
  unfold camera_centre, centre_of, transform. replace (apply3 (rotation U) (0, 0, 0)) with zero3 by (destruct (rotation U) as [[a b] c]; vec). replace (add3 zero3 (position U)) with (position U) by (generalize (position U); intros; vec). generalize (apply3 (rotation T) (position U)), (position T). intros. vec.
Qed.
Lemma line_of_sight_eq v : line_of_sight v = (view_centre v, view_ray v).
Proof. unfold line_of_sight. rewrite view_direction_ray, camera_centre_of. reflexivity. Qed.
Lemma lines_combine vs : map line_of_sight vs = combine (map view_centre vs) (map view_ray vs).
Proof. induction vs as [|v vs IH]; simpl; [reflexivity|]. rewrite line_of_sight_eq, IH. reflexivity. Qed.
Lemma view_ray_nonzero vs : Forall rigid_view vs -> Forall (fun r => r <> zero3) (map view_ray vs).
Proof. intros H. apply Forall_map. eapply Forall_impl; [|exact H]. intros v [A B]. apply ray_nonzero; assumption. Qed.
Lemma lines_nonzero vs : Forall rigid_view vs -> Forall (fun l => snd l <> zero3) (map line_of_sight vs).
Proof. intros H. apply Forall_map. eapply Forall_impl; [|exact H]. intros v [A B]. cbv beta. rewrite line_of_sight_eq. apply ray_nonzero; assumption. Qed.
Lemma lines_directions vs : map snd (map line_of_sight vs) = map view_direction vs.
Proof. rewrite map_map. reflexivity. Qed.
Lemma directions_rays vs : map view_direction vs = map view_ray vs.
Proof. apply map_ext. intros v. apply view_direction_ray. Qed.
Lemma view_on_line p v : view_sees p v -> on_line p (fst (line_of_sight v)) (snd (line_of_sight v)).
Proof. intros H. rewrite line_of_sight_eq. apply on_line_add. apply sees_ray in H. exact H. Qed.
Lemma views_independent vs : Forall rigid_view vs -> observable (map view_direction vs) -> independent (length (map view_ray vs)) (system (map view_ray vs)).
Proof. intros R O. apply system_independent; [apply view_ray_nonzero, R|]. rewrite <- directions_rays. exact O. Qed.
(** The answer for observable views. *)
Lemma views_best vs : Forall rigid_view vs -> observable (map view_direction vs) ->
  triangulate_rays (map view_ray vs) (map view_centre vs) = (Unobservable, None) \/
  exists q, triangulate_rays (map view_ray vs) (map view_centre vs) = (Successful, Some q) /\ best_point q (map line_of_sight vs).
Proof.
  intros R O. unfold triangulate_rays. destruct (rank_check _ _); [left; reflexivity|right]. eexists. split; [reflexivity|]. apply gradient_best; [apply lines_nonzero, R|rewrite lines_directions; exact O|].
  rewrite lines_combine. apply system_gradient; [rewrite !map_length; reflexivity|apply view_ray_nonzero, R|apply views_independent; assumption].
Qed.
Lemma views_exact_best p vs : Forall rigid_view vs -> observable (map view_direction vs) -> Forall (view_sees p) vs -> best_point p (map line_of_sight vs).
Proof.
  intros R O E. apply gradient_best; [apply lines_nonzero, R|rewrite lines_directions; exact O|]. apply gradient_on_lines; [apply lines_nonzero, R|]. apply Forall_map. eapply Forall_impl; [|exact E]. intros v Hv. apply view_on_line, Hv.
Qed.
Lemma views_exact p vs : Forall rigid_view vs -> observable (map view_direction vs) -> Forall (view_sees p) vs ->
  triangulate_rays (map view_ray vs) (map view_centre vs) = (Unobservable, None) \/ triangulate_rays (map view_ray vs) (map view_centre vs) = (Successful, Some p).
Proof.
  intros R O E. destruct (views_best vs R O) as [H|(q & H & B)]; [left; exact H|right]. rewrite H. rewrite (best_unique q p _ B (views_exact_best p vs R O E)). reflexivity.
Qed.
(** Full rank implies observability. *)
Lemma unobservable_dependent vs : (1 <= length vs)%nat -> Forall rigid_view vs -> unobservable (map view_direction vs) -> ~ independent (length (map view_ray vs)) (system (map view_ray vs)).
Proof.
  intros L R U. destruct vs as [|v0 vs]; [simpl in L; lia|]. pose proof (view_ray_nonzero _ R) as NZ. assert (N0 : view_ray v0 <> zero3) by (inversion NZ; assumption). apply (system_dependent _ (view_ray v0) N0). rewrite directions_rays in U.
  intros w Hw. destruct (parallel_multiple w (view_ray v0) N0 (U _ _ (or_introl eq_refl) Hw)) as (k & ->). exists k. split; [reflexivity|]. intros ->. rewrite Forall_forall in NZ. apply (NZ _ Hw). generalize (view_ray v0). intros d. vec.
Qed.
Lemma measurement_norm v : rigid_view v -> dot3 (view_ray v) (view_ray v) = 1 + fst (view_measurement v) * fst (view_measurement v) + snd (view_measurement v) * snd (view_measurement v).
Proof. intros [A B]. unfold view_ray, ray_of. rewrite !orthogonal_dot by assumption. unfold dot3. ring. Qed.
Lemma views_unobservable vs : (1 <= length vs)%nat -> Forall rigid_view vs -> unobservable (map view_direction vs) -> (length vs < 1000)%nat ->
  (forall v, In v vs -> (1 + fst (view_measurement v) * fst (view_measurement v) + snd (view_measurement v) * snd (view_measurement v)) * INR (length vs) < 1000000) ->
  triangulate_rays (map view_ray vs) (map view_centre vs) = (Unobservable, None).
Proof.
  intros L R U N B. unfold triangulate_rays. replace (rank_check _ _) with true; [reflexivity|]. symmetry. rewrite map_length. apply rank_check_spec.
  - rewrite <- (map_length view_ray vs), Nat.add_comm, <- system_length. apply rank_le.
  - change (2 ^ 60)%Z with 1152921504606846976%Z. lia.
  - assert (LP : 1 <= INR (length vs)) by (change 1 with (INR 1); apply le_INR; lia).
    assert (LB : INR (length vs) <= 999). { replace 999 with (INR 999) by (rewrite INR_IZR_INZ; reflexivity). apply le_INR. lia. }
    split.
    + rewrite <- (map_length view_ray vs).
      assert (EX : exists k, Forall (fun r => 1 <= dot3 r r <= k) (map view_ray vs) /\ k * INR (length vs) < 1000000).
      { assert (G : forall l, Forall rigid_view l -> (forall v, In v l -> (1 + fst (view_measurement v) * fst (view_measurement v) + snd (view_measurement v) * snd (view_measurement v)) * INR (length vs) < 1000000) -> exists k, Forall (fun r => 1 <= dot3 r r <= k) (map view_ray l) /\ k * INR (length vs) < 1000000).
        { induction 1 as [|v l Hv F IH]; intros Bl; [exists 0; split; [constructor|lra]|]. destruct IH as (k & Fk & K); [intros w Hw; apply Bl; right; exact Hw|]. pose proof (Bl v (or_introl eq_refl)) as Bv. rewrite <- (measurement_norm v Hv) in Bv.
          exists (Rmax k (dot3 (view_ray v) (view_ray v))). split; [|unfold Rmax; destruct (Rle_dec _ _); assumption]. simpl. constructor.
          - split; [rewrite (measurement_norm v Hv); nra|apply Rmax_r].
          - eapply Forall_impl; [|exact Fk]. intros r [A C]. split; [exact A|]. eapply Rle_trans; [exact C|apply Rmax_l]. }
        apply G; assumption. }
      destruct EX as (k & Fk & K). apply (system_rank_lower (map view_ray vs) k Fk); rewrite map_length; [nra|exact K].
    + destruct (Nat.lt_ge_cases (rank rank_loss_tolerance (system (map view_ray vs))) (length vs + 3)) as [C|C]; [exact C|]. exfalso. apply (unobservable_dependent vs L R U). apply (rank_full _ rank_loss_tolerance); [unfold rank_loss_tolerance; lra|apply system_wf|].
      pose proof (rank_le rank_loss_tolerance (system (map view_ray vs))) as RL. rewrite system_length, map_length in *. lia.
Qed.

(** ** Well-conditioned problems are solved *)
Lemma comb_blocks x rays : dot (comb (length rays) x (system rays)) (comb (length rays) x (system rays)) = dot (blocks x rays) (blocks x rays).
Proof.
  pose proof (length_comb (length rays) x (system rays) (system_wf rays)) as L. rewrite dot_comb by apply system_wf. rewrite system_sum by exact L. rewrite dot_comm, dot_comb by apply system_wf. apply system_sum, blocks_length.
Qed.
Lemma blocks_fold_gen (f : nat -> R) p rays : let l := map (fun i => sub3 p (scale3 (f i) (nth i rays zero3))) (seq 0 (length rays)) in
  dot l l = fold_right (fun y s => let d := sub3 p (scale3 (fst y) (snd y)) in dot3 d d + s) 0 (combine (map f (seq 0 (length rays))) rays).
Proof.
  revert f. induction rays as [|r rays IH]; intros f; cbn [length seq map combine fold_right]; [reflexivity|].
  cbn [dot fst snd nth]. apply f_equal2; [reflexivity|]. rewrite <- seq_shift, !map_map. cbn [nth]. apply (IH (fun i => f (S i))).
Qed.
Lemma blocks_fold x rays : dot (blocks x rays) (blocks x rays) =
  fold_right (fun y s => let d := sub3 (x 0%nat, x 1%nat, x 2%nat) (scale3 (fst y) (snd y)) in dot3 d d + s) 0 (combine (map (fun i => x (3 + i)%nat) (seq 0 (length rays))) rays).
Proof. apply (blocks_fold_gen (fun i => x (3 + i)%nat)). Qed.
Lemma system_squares x rays : sum_over (fun c => x (fst c) * x (fst c)) (system rays) = dot3 (x 0%nat, x 1%nat, x 2%nat) (x 0%nat, x 1%nat, x 2%nat) + fold_right (fun k s => k * k + s) 0 (map (fun i => x (3 + i)%nat) (seq 0 (length rays))).
Proof.
  unfold system. rewrite sum_over_app. f_equal; [cbn [map sum_over fold_right fst dot3]; ring|]. generalize (seq 0 (length rays)) at 1 2. intros l. induction l as [|i l IH]; [reflexivity|]. cbn [map sum_over fold_right fst]. f_equal. exact IH.
Qed.
Lemma system_conditioned s2 rays : well_conditioned s2 rays -> conditioned (length rays) s2 (system rays).
Proof.
  intros H x. rewrite comb_blocks, blocks_fold, system_squares. apply H. rewrite map_length, seq_length. reflexivity.
Qed.
Lemma views_conditioned p s2 vs : Forall rigid_view vs -> Forall (view_sees p) vs -> (2 <= length vs)%nat -> (Z.of_nat (length vs) < 2 ^ 60)%Z -> 0 <= s2 -> well_conditioned s2 (map view_direction vs) ->
  INR (length vs) < 1000000 * s2 -> (forall v, In v vs -> 1 + fst (view_measurement v) * fst (view_measurement v) + snd (view_measurement v) * snd (view_measurement v) < 1000000 * s2) ->
  triangulate_rays (map view_ray vs) (map view_centre vs) = (Successful, Some p).
Proof.
  intros R E L2 LZ S0 C LN LM. rewrite directions_rays in C. apply system_conditioned in C.
  assert (RK : rank rank_loss_tolerance (system (map view_ray vs)) = length (system (map view_ray vs))).
  { assert (EX : exists b, Forall (fun c => dot (snd c) (snd c) <= b) (system (map view_ray vs)) /\ b < 1000000 * s2).
    { assert (G : forall l : list column, (forall c, In c l -> dot (snd c) (snd c) < 1000000 * s2) -> exists b, Forall (fun c => dot (snd c) (snd c) <= b) l /\ (l = [] \/ b < 1000000 * s2)).
      { induction l as [|c l IH]; intros B; [exists 0; split; [constructor|left; reflexivity]|]. destruct IH as (b & Fb & Hb); [intros d Hd; apply B; right; exact Hd|]. pose proof (B c (or_introl eq_refl)) as Bc. destruct Hb as [->|Hb].
        - exists (dot (snd c) (snd c)). split; [constructor; [lra|constructor]|right; exact Bc].
        - exists (Rmax b (dot (snd c) (snd c))). split; [|right; unfold Rmax; destruct (Rle_dec _ _); assumption]. constructor; [apply Rmax_r|]. eapply Forall_impl; [|exact Fb]. intros d Hd. eapply Rle_trans; [exact Hd|apply Rmax_l]. }
      destruct (G (system (map view_ray vs))) as (b & Fb & [E0|Hb]).
      - intros c Hc. unfold system in Hc. rewrite map_length in Hc. apply in_app_or in Hc. destruct Hc as [Hc|Hc]; apply in_map_iff in Hc; destruct Hc as (i & <- & Hi); cbn [snd].
        + rewrite dot_seq by reflexivity. rewrite repeat_length. rewrite (sum_seq_ext _ (fun _ => 1)); [rewrite sum_seq_const, seq_length; lra|]. intros j Hj. apply in_seq in Hj. rewrite nth_repeat_below by lia. destruct Hi as [<-|[<-|[<-|[]]]]; unfold unit3; vec.
        + apply in_seq in Hi. rewrite dot_place by apply place_length. rewrite nth_place by lia. destruct (Nat.ltb_spec i (length vs)) as [_|B]; [|lia]. rewrite dot3_scale, dot3_comm, dot3_scale.
          assert (IV : In (nth i (map view_ray vs) zero3) (map view_ray vs)) by (apply nth_In; rewrite map_length; lia). apply in_map_iff in IV. destruct IV as (v & EV & IV). rewrite <- EV. rewrite (measurement_norm v) by (rewrite Forall_forall in R; apply R, IV). specialize (LM v IV). lra.
      - pose proof (system_length (map view_ray vs)) as SL. rewrite E0 in SL. simpl in SL. lia.
      - exists b. split; assumption. }
    destruct EX as (b & Fb & Hb). apply (conditioned_rank (length (map view_ray vs)) s2 rank_loss_tolerance b); [unfold rank_loss_tolerance; lra|exact S0|apply system_wf|apply system_nodup|exact C|exact Fb|unfold rank_loss_tolerance; lra]. }
  unfold triangulate_rays. rewrite RK, system_length, map_length. replace (rank_check (3 + length vs) (length vs)) with false.
  - do 2 f_equal. assert (I : independent (length (map view_ray vs)) (system (map view_ray vs))) by (apply (rank_full _ rank_loss_tolerance); [unfold rank_loss_tolerance; lra|apply system_wf|exact RK]).
    apply system_exact; [rewrite !map_length; reflexivity|exact I|rewrite map_length; exact L2|]. rewrite map_length. intros i Hi. rewrite Forall_forall in E.
    destruct vs as [|v0 vs0]; [simpl in Hi; lia|]. rewrite (nth_indep _ zero3 (view_centre v0)) by (rewrite map_length; exact Hi). rewrite (nth_indep _ zero3 (view_ray v0)) by (rewrite map_length; exact Hi). rewrite !map_nth. apply sees_ray. apply E, nth_In, Hi.
  - symmetry. destruct (rank_check (3 + length vs) (length vs)) eqn:RC; [|reflexivity]. apply rank_check_spec in RC; [lia|lia|exact LZ].
Qed.
(** The bearing variant. *)
Lemma total_spread e vs : total_distance2 e (map (fun v => ((0, 0, 0), v)) vs) = spread e (map (fun v => (zero3, v)) vs).
Proof.
  unfold total_distance2, spread. induction vs as [|v vs IH]; cbn [map fold_right fst snd]; [reflexivity|]. rewrite IH, line_distance2_dot. replace (sub3 e (0, 0, 0)) with e by vec. reflexivity.
Qed.
Lemma sum3_norm l b : Forall (fun u => dot3 u u <= b) l -> dot3 (sum3 l) (sum3 l) <= INR (length l) * INR (length l) * b.
Proof.
  intros H. assert (G : dot3 (sum3 l) (sum3 l) <= INR (length l) * fold_right (fun u s => dot3 u u + s) 0 l /\ fold_right (fun u s => dot3 u u + s) 0 l <= INR (length l) * b).
  { induction H as [|u l Hu _ [IH1 IH2]]; [simpl; split; lra|]. cbn [length sum3 fold_right]. fold (sum3 l). rewrite S_INR. split; [|lra].
    assert (C : 2 * dot3 u (sum3 l) <= INR (length l) * dot3 u u + fold_right (fun u s => dot3 u u + s) 0 l).
    { clear. rewrite dot3_comm, sum3_dot. induction l as [|a l IH]; [simpl; lra|]. cbn [length fold_right]. rewrite S_INR. assert (2 * dot3 a u <= dot3 u u + dot3 a a); [|lra].
      pose proof (dot3_nonneg (sub3 a u)) as P. rewrite dot3_sub, (dot3_comm a (sub3 a u)), (dot3_comm u (sub3 a u)), !dot3_sub, (dot3_comm u a) in P. lra. }
    rewrite dot3_add, (dot3_comm u (add3 u _)), (dot3_comm (sum3 l) (add3 u _)), !dot3_add, (dot3_comm (sum3 l) u). pose proof (pos_INR (length l)) as PI.
    assert (FN : 0 <= fold_right (fun u s => dot3 u u + s) 0 l) by (clear; induction l as [|a l IH]; cbn [fold_right]; [lra|]; pose proof (dot3_nonneg a); lra). nra. }
  destruct G as [G1 G2]. pose proof (pos_INR (length l)) as PI. eapply Rle_trans; [exact G1|]. rewrite Rmult_assoc. apply Rmult_le_compat_l; assumption.
Qed.
Lemma normal_column_reject vs j : normal_column vs j = sum3 (map (reject (unit3 j)) vs).
Proof.
  unfold normal_column. induction vs as [|v vs IH]; [unfold unit3; simpl; destruct j as [|[|j]]; vec|]. cbn [length map sum3 fold_right]. fold (sum3 (map (reject (unit3 j)) vs)). rewrite <- IH. fold (sum3 (map (fun v => scale3 (dot3 v (unit3 j) / dot3 v v) v) vs)). rewrite S_INR. unfold reject. rewrite (dot3_comm (unit3 j) v).
  generalize (dot3 v (unit3 j) / dot3 v v). generalize (sum3 (map (fun v => scale3 (dot3 v (unit3 j) / dot3 v v) v) vs)). generalize (unit3 j), (INR (length vs)). intros. vec.
Qed.
Lemma reject_norm f v : v <> zero3 -> dot3 (reject f v) (reject f v) <= dot3 f f.
Proof.
  intros N. assert (D : dot3 v v <> 0) by (intros E; apply N, dot3_zero, E). unfold reject. rewrite dot3_sub, dot3_scale, (dot3_comm f (sub3 _ _)), (dot3_comm v (sub3 _ _)), !dot3_sub, !dot3_scale, (dot3_comm v f).
  assert (0 <= dot3 f v * dot3 f v / dot3 v v). { apply Rmult_le_pos; [apply Rle_0_sqr|]. left. apply Rinv_0_lt_compat. pose proof (dot3_nonneg v). lra. }
  replace (dot3 f f - dot3 f v / dot3 v v * dot3 f v - dot3 f v / dot3 v v * (dot3 f v - dot3 f v / dot3 v v * dot3 v v)) with (dot3 f f - dot3 f v * dot3 f v / dot3 v v) by (field; exact D). lra.
Qed.
Lemma normal_conditioned k vs : 0 <= k -> bearing_conditioned k vs -> conditioned 1 (k * k) (normal_system vs).
Proof.
  intros K H x. set (e := (x 0%nat, x 1%nat, x 2%nat) : vec3). set (m := normal_apply vs e).
  assert (D : forall w, length w = 1%nat -> dot (comb 1 x (normal_system vs)) w = dot [m] w).
  { intros w Hw. destruct (length_1 w Hw) as (a & ->). rewrite dot_comb by apply normal_wf. rewrite normal_system_sum. simpl. fold e m. ring. }
  rewrite D by (apply length_comb, normal_wf). rewrite dot_comm, D by reflexivity. cbn [dot]. rewrite Rplus_0_r. replace (sum_over (fun c => x (fst c) * x (fst c)) (normal_system vs)) with (dot3 e e) by (unfold normal_system, e; cbn [map sum_over fold_right fst dot3]; ring).
  pose proof (H e) as HE. rewrite total_spread, <- normal_spread in HE. fold m in HE. pose proof (dot3_nonneg e) as E0. pose proof (dot3_nonneg m) as M0.
  destruct (Req_dec (dot3 e e) 0) as [Z|NZ]; [rewrite Z; lra|]. assert (C : dot3 m e * dot3 m e <= dot3 m m * dot3 e e).
  { assert (NE : e <> zero3) by (intros EZ; apply NZ; rewrite EZ; vec). pose proof (cauchy m e NE) as C. apply (Rmult_le_compat_r (dot3 e e)) in C; [|exact E0]. replace ((dot3 m m - dot3 m e * dot3 m e / dot3 e e) * dot3 e e) with (dot3 m m * dot3 e e - dot3 m e * dot3 m e) in C by (field; exact NZ). lra. }
  assert (P : 0 <= k * dot3 e e) by (apply Rmult_le_pos; assumption). assert ((k * dot3 e e) * (k * dot3 e e) <= dot3 m e * dot3 m e) by (apply Rmult_le_compat; assumption).
  apply (Rmult_le_reg_r (dot3 e e)); [lra|]. nra.
Qed.
