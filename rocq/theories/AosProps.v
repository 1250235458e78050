(** C96: the implicit step of nonlinear diffusion. *)
From Coq Require Import Reals Bool Arith Lia Lra.
From Verif Require DiffusionModel.
From Verif Require Import DiffusionSpec DiffusionProps AosModel AosSpec.
Local Open Scope R_scope.

(** ** One line *)
Section Line.
Variables (n : nat) (g d : nat -> R).
Hypotheses (N : (2 <= n)%nat) (G : forall i, (i + 1 < n)%nat -> 0 <= g i).
(** The coefficients of the system: [g] is twice the conductivity times the time. *)
Let a i := 1 + (if (i =? 0)%nat then g 0%nat else if (i =? n - 1)%nat then g (n - 2)%nat else g (i - 1)%nat + g i).
Let b i := - g i.
Lemma pivot_bound k : (k < n)%nat -> 1 + (if (k + 1 <? n)%nat then g k else 0) <= pivot a b k.
Proof.
  induction k as [|k IH]; intros K.
  - cbn [pivot]. unfold a. cbn [Nat.eqb]. destruct (Nat.ltb_spec (0 + 1) n); [lra|lia].
  - specialize (IH ltac:(lia)). destruct (Nat.ltb_spec (k + 1) n); [|lia]. pose proof (G k ltac:(lia)) as GK. cbn [pivot]. assert (b k / pivot a b k * b k <= g k) as Q.
    { unfold b. set (m := pivot a (fun i => - g i) k) in *. change (pivot a b k) with m in IH. apply Rmult_le_reg_r with m; [lra|]. replace (- g k / m * - g k * m) with (g k * g k) by (field; lra). apply Rmult_le_compat_l; lra. }
    unfold a at 1. destruct (Nat.eqb_spec (S k) 0); [lia|]. destruct (Nat.eqb_spec (S k) (n - 1)) as [e|e].
    + destruct (Nat.ltb_spec (S k + 1) n); [lia|]. replace (n - 2)%nat with k by lia. lra.
    + destruct (Nat.ltb_spec (S k + 1) n); [|lia]. replace (S k - 1)%nat with k by lia. lra.
Qed.
Lemma pivot_pos k : (k < n)%nat -> 1 <= pivot a b k.
Proof. intros K. pose proof (pivot_bound k K). destruct (Nat.ltb_spec (k + 1) n); [pose proof (G k ltac:(lia))|]; lra. Qed.
Let x i := backward a b d n (n - 1 - i).
Lemma x_last : pivot a b (n - 1) * x (n - 1) = forward a b d (n - 1).
Proof. unfold x. rewrite Nat.sub_diag. cbn [backward]. pose proof (pivot_pos (n - 1) ltac:(lia)). field. lra. Qed.
Lemma x_step i : (i + 1 < n)%nat -> pivot a b i * x i + b i * x (i + 1)%nat = forward a b d i.
Proof.
  intros I. unfold x. replace (n - 1 - i)%nat with (S (n - 1 - (i + 1))) by lia. cbn [backward]. replace (n - 1 - S (n - 1 - (i + 1)))%nat with i by lia. pose proof (pivot_pos i ltac:(lia)). field. lra.
Qed.
Lemma x_row i : (i < n)%nat -> pivot a b i * x i + (if (i + 1 <? n)%nat then b i * x (i + 1)%nat else 0) = forward a b d i.
Proof. intros I. destruct (Nat.ltb_spec (i + 1) n); [apply x_step; assumption|]. replace i with (n - 1)%nat by lia. rewrite Rplus_0_r. apply x_last. Qed.
(** The values solve the system. *)
Lemma line_solves i : (i < n)%nat -> x i - line_inflow n g x i = d i.
Proof.
  intros I. pose proof (x_row i I) as E. unfold line_inflow. destruct i as [|k].
  - cbn [pivot forward] in E. destruct (Nat.ltb_spec (0 + 1) n); [|lia]. rewrite Nat.ltb_irrefl. unfold a in E at 1. cbn [Nat.eqb] in E. unfold b in E. lra.
  - pose proof (x_step k ltac:(lia)) as P. pose proof (pivot_pos k ltac:(lia)) as M. cbn [pivot forward] in E. destruct (Nat.ltb_spec 0 (S k)); [|lia]. replace (S k - 1)%nat with k by lia. replace (k + 1)%nat with (S k) in P by lia. set (m := pivot a b k) in *. set (f := forward a b d k) in *.
    assert (b k / m * f = b k * x k + b k / m * b k * x (S k)) as Q by (rewrite <- P; field; lra). rewrite Rmult_minus_distr_r in E.
    assert (a (S k) = 1 + (if (S k + 1 <? n)%nat then g (S k) else 0) + g k) as A.
    { unfold a. destruct (Nat.eqb_spec (S k) 0); [lia|]. replace (S k - 1)%nat with k by lia. destruct (Nat.eqb_spec (S k) (n - 1)) as [e|e], (Nat.ltb_spec (S k + 1) n); try lia; [replace (n - 2)%nat with k by lia|]; lra. }
    rewrite A in E. unfold b in *. destruct (S k + 1 <? n)%nat; lra.
Qed.
End Line.
(** Any solution lies within the bounds of the right hand side, and there is only one. *)
Lemma line_argmax (f : nat -> R) n : (0 < n)%nat -> exists i, (i < n)%nat /\ forall k, (k < n)%nat -> f k <= f i.
Proof.
  intros N. induction n as [|n IH]; [lia|]. destruct (Nat.eq_dec n 0) as [e|]; [exists 0%nat; split; [lia|]; intros k K; replace k with 0%nat by lia; lra|]. destruct IH as (i & I & M); [lia|]. destruct (Rle_dec (f n) (f i)) as [L|L].
  - exists i. split; [lia|]. intros k K. destruct (Nat.eq_dec k n) as [->|]; [exact L|apply M; lia].
  - exists n. split; [lia|]. intros k K. destruct (Nat.eq_dec k n) as [->|]; [lra|]. assert (f k <= f i) by (apply M; lia). lra.
Qed.
Lemma line_upper n g u d hi : (forall i, (i + 1 < n)%nat -> 0 <= g i) -> (forall i, (i < n)%nat -> u i - line_inflow n g u i = d i) -> (forall i, (i < n)%nat -> d i <= hi) -> forall i, (i < n)%nat -> u i <= hi.
Proof.
  intros G E D i I. destruct (line_argmax u n) as (k & K & M); [lia|]. apply Rle_trans with (u k); [apply M, I|]. apply Rle_trans with (d k); [|apply D, K]. rewrite <- (E k K). unfold line_inflow.
  assert ((if (k + 1 <? n)%nat then g k * (u (k + 1)%nat - u k) else 0) <= 0). { destruct (Nat.ltb_spec (k + 1) n); [|lra]. pose proof (G k ltac:(lia)). pose proof (M (k + 1)%nat ltac:(lia)). nra. }
  assert (0 <= (if (0 <? k)%nat then g (k - 1)%nat * (u k - u (k - 1)%nat) else 0)). { destruct (Nat.ltb_spec 0 k); [|lra]. pose proof (G (k - 1)%nat ltac:(lia)). pose proof (M (k - 1)%nat ltac:(lia)). nra. }
  lra.
Qed.
Lemma line_inflow_linear n g u v s i : line_inflow n g (fun k => u k + s * v k) i = line_inflow n g u i + s * line_inflow n g v i.
Proof. unfold line_inflow. destruct (i + 1 <? n)%nat, (0 <? i)%nat; ring. Qed.
Lemma line_range n g u d lo hi : (forall i, (i + 1 < n)%nat -> 0 <= g i) -> (forall i, (i < n)%nat -> u i - line_inflow n g u i = d i) -> (forall i, (i < n)%nat -> lo <= d i <= hi) -> forall i, (i < n)%nat -> lo <= u i <= hi.
Proof.
  intros G E D i I. split; [|apply (line_upper n g u d hi G E (fun k K => proj2 (D k K)) i I)]. assert (0 + - 1 * u i <= - lo); [|lra]. apply (line_upper n g (fun k => 0 + - 1 * u k) (fun k => - d k) (- lo) G); [|intros k K; pose proof (D k K); lra|exact I].
  intros k K. rewrite (line_inflow_linear n g (fun _ => 0) u (- 1) k), <- (E k K). unfold line_inflow. destruct (k + 1 <? n)%nat, (0 <? k)%nat; lra.
Qed.
Lemma line_unique n g u v d : (forall i, (i + 1 < n)%nat -> 0 <= g i) -> (forall i, (i < n)%nat -> u i - line_inflow n g u i = d i) -> (forall i, (i < n)%nat -> v i - line_inflow n g v i = d i) -> forall i, (i < n)%nat -> u i = v i.
Proof.
  intros G E F i I. assert (0 <= u i + - 1 * v i <= 0); [|lra]. apply (line_range n g (fun k => u k + - 1 * v k) (fun _ => 0) 0 0 G); [|intros; lra|exact I]. intros k K. rewrite (line_inflow_linear n g u v (- 1) k). pose proof (E k K). pose proof (F k K). lra.
Qed.
Lemma line_sum n g u d : (forall i, (i < n)%nat -> u i - line_inflow n g u i = d i) -> sum n u = sum n d.
Proof.
  intros E. rewrite (sum_ext n d (fun i => u i + - 1 * line_inflow n g u i)) by (intros i I; rewrite <- (E i I); ring). rewrite sum_plus, sum_scale.
  assert (sum n (line_inflow n g u) = 0) as ->; [|lra]. etransitivity; [|apply (sum_flow n (fun i => g i * (u (i + 1)%nat - u i)))]. apply sum_ext. intros i I. unfold line_inflow. destruct (Nat.ltb_spec 0 i); [|reflexivity]. replace (i - 1 + 1)%nat with i by lia. reflexivity.
Qed.
Lemma line_inflow_scale n g g' u t i : (forall k, (k + 1 < n)%nat -> g k = t * g' k) -> (i < n)%nat -> line_inflow n g u i = t * line_inflow n g' u i.
Proof. intros E I. unfold line_inflow. destruct (Nat.ltb_spec (i + 1) n), (Nat.ltb_spec 0 i); rewrite ?(E i), ?(E (i - 1)%nat) by lia; ring. Qed.
Lemma pivot_ext a a' b b' k : (forall i, (i <= k)%nat -> a i = a' i) -> (forall i, (i < k)%nat -> b i = b' i) -> pivot a b k = pivot a' b' k.
Proof. induction k as [|k IH]; intros A B; cbn [pivot]; [apply A; lia|]. rewrite (A (S k)), (B k), IH by (intros; (apply A || apply B); lia) || lia. reflexivity. Qed.
Lemma forward_ext a a' b b' d k : (forall i, (i <= k)%nat -> a i = a' i) -> (forall i, (i < k)%nat -> b i = b' i) -> forward a b d k = forward a' b' d k.
Proof. induction k as [|k IH]; intros A B; cbn [forward]; [reflexivity|]. rewrite (B k), (pivot_ext a a' b b' k), IH by (intros; (apply A || apply B); lia) || lia. reflexivity. Qed.
Lemma backward_ext a a' b b' d n r : (r < n)%nat -> (forall i, (i < n)%nat -> a i = a' i) -> (forall i, (i + 1 < n)%nat -> b i = b' i) -> backward a b d n r = backward a' b' d n r.
Proof.
  intros R A B. induction r as [|r IH]; cbn [backward]; rewrite (forward_ext a a' b b' d), (pivot_ext a a' b b') by (intros; (apply A || apply B); lia); [reflexivity|]. rewrite IH, B by lia. reflexivity.
Qed.
(** ** The image *)
Section Square.
Variables (n : nat) (L c e1 e2 : nat -> nat -> R) (t : R).
Hypotheses (N : (2 <= n)%nat) (T : 0 <= t) (C : forall y x, (y < n)%nat -> (x < n)%nat -> 0 <= c y x).
Let U i j := backward (fun k => 1 + t * entry (py n n (qr n n (Mat n n c))) k j) (fun k => - t * entry (qr n n (Mat n n c)) k j) (fun k => L k j) n (n - 1 - i).
Let V i j := backward (fun k => 1 + t * entry (px n n (qc n n (Mat n n c))) i k) (fun k => - t * entry (qc n n (Mat n n c)) i k) (fun k => L i k) n (n - 1 - j).
Lemma U_line x : (x < n)%nat -> forall y, (y < n)%nat -> U y x - line_inflow n (fun i => t * (c i x + c (i + 1)%nat x)) (fun i => U i x) y = L y x.
Proof.
  intros X. set (g := fun i => t * (c i x + c (i + 1)%nat x)). assert (forall i, (i + 1 < n)%nat -> 0 <= g i) as G. { intros i I. unfold g. pose proof (C i x ltac:(lia) X). pose proof (C (i + 1)%nat x I X). apply Rmult_le_pos; lra. }
  set (a := fun i => 1 + (if (i =? 0)%nat then g 0%nat else if (i =? n - 1)%nat then g (n - 2)%nat else g (i - 1)%nat + g i)).
  assert (forall i, (i < n)%nat -> U i x = backward a (fun i => - g i) (fun k => L k x) n (n - 1 - i)) as E.
  { intros i I. unfold U. apply backward_ext; [lia| |].
    - intros k K. cbn [entry py qr mrows]. unfold a, g. destruct (Nat.eqb_spec k 0); [reflexivity|]. destruct (Nat.eqb_spec k (n - 1)) as [e|e]; [replace (n - 1 - 1)%nat with (n - 2)%nat by lia; reflexivity|]. lra.
    - intros k K. cbn [entry qr]. unfold g. ring. }
  intros y Y. rewrite <- (line_solves n g (fun k => L k x) N G y Y). fold a. rewrite (E y Y). f_equal. unfold line_inflow. destruct (Nat.ltb_spec (y + 1) n), (Nat.ltb_spec 0 y); rewrite ?(E (y + 1)%nat), ?(E (y - 1)%nat), ?(E y Y) by lia; reflexivity.
Qed.
Lemma V_line y : (y < n)%nat -> forall x, (x < n)%nat -> V y x - line_inflow n (fun j => t * (c y j + c y (j + 1)%nat)) (fun j => V y j) x = L y x.
Proof.
  intros Y. set (g := fun j => t * (c y j + c y (j + 1)%nat)). assert (forall i, (i + 1 < n)%nat -> 0 <= g i) as G. { intros i I. unfold g. pose proof (C y i Y ltac:(lia)). pose proof (C y (i + 1)%nat Y I). apply Rmult_le_pos; lra. }
  set (a := fun i => 1 + (if (i =? 0)%nat then g 0%nat else if (i =? n - 1)%nat then g (n - 2)%nat else g (i - 1)%nat + g i)).
  assert (forall i, (i < n)%nat -> V y i = backward a (fun i => - g i) (fun k => L y k) n (n - 1 - i)) as E.
  { intros i I. unfold V. apply backward_ext; [lia| |].
    - intros k K. cbn [entry px qc mcols]. unfold a, g. destruct (Nat.eqb_spec k 0); [reflexivity|]. destruct (Nat.eqb_spec k (n - 1)) as [e|e]; [replace (n - 1 - 1)%nat with (n - 2)%nat by lia; reflexivity|]. lra.
    - intros k K. cbn [entry qc]. unfold g. ring. }
  intros x X. rewrite <- (line_solves n g (fun k => L y k) N G x X). fold a. rewrite (E x X). f_equal. unfold line_inflow. destruct (Nat.ltb_spec (x + 1) n), (Nat.ltb_spec 0 x); rewrite ?(E (x + 1)%nat), ?(E (x - 1)%nat), ?(E x X) by lia; reflexivity.
Qed.
Lemma vertical_line W y x : (y < n)%nat -> line_inflow n (fun i => t * (c i x + c (i + 1)%nat x)) (fun i => W i x) y = 2 * t * vertical n W c y x.
Proof. intros Y. unfold vertical. apply line_inflow_scale; [intros k _; field|exact Y]. Qed.
Lemma horizontal_line W y x : (x < n)%nat -> line_inflow n (fun j => t * (c y j + c y (j + 1)%nat)) (fun j => W y j) x = 2 * t * horizontal n W c y x.
Proof. intros X. unfold horizontal. apply line_inflow_scale; [intros k _; field|exact X]. Qed.
(** For square images the step divides by no zero and gives the mean of the (only) solutions of the implicit equations of the two directions. *)
Theorem aox_step : exists L' U V, aos_step n n (Mat n n L) (Mat n n c) t (allocated n n e1) (allocated n n e2) = Done (Mat n n L') /\
  implicit_rows n L c U t /\ implicit_cols n L c V t /\ forall y x, (y < n)%nat -> (x < n)%nat -> L' y x = (U y x + V y x) / 2.
Proof.
  unfold aos_step, aos_rows, aos_columns, allocated, thomas. cbn [mrows mcols entry transpose]. destruct (Nat.ltb_spec n 2); [lia|]. destruct (Nat.eqb_spec n 0); [lia|]. replace (n - 1 + 1)%nat with n by lia. rewrite Nat.ltb_irrefl. cbn [orb]. cbn [mrows mcols entry]. rewrite Nat.eqb_refl. cbn [andb].
  eexists. exists U, V. split; [reflexivity|]. split; [|split].
  - intros y x Y X. rewrite <- vertical_line by exact Y. apply (U_line x X y Y).
  - intros y x Y X. rewrite <- horizontal_line by exact X. apply (V_line y Y x X).
  - intros y x Y X. cbv beta. destruct (Nat.ltb_spec y n), (Nat.ltb_spec x n); try lia. cbn [andb]. unfold U, V. field.
Qed.
Theorem aox_unique A B : (implicit_rows n L c A t -> implicit_rows n L c B t -> forall y x, (y < n)%nat -> (x < n)%nat -> A y x = B y x) /\
  (implicit_cols n L c A t -> implicit_cols n L c B t -> forall y x, (y < n)%nat -> (x < n)%nat -> A y x = B y x).
Proof.
  split; intros HA HB y x Y X.
  - apply (line_unique n (fun i => t * (c i x + c (i + 1)%nat x)) (fun i => A i x) (fun i => B i x) (fun i => L i x)); [| | |exact Y].
    + intros i I. pose proof (C i x ltac:(lia) X). pose proof (C (i + 1)%nat x I X). apply Rmult_le_pos; lra.
    + intros i I. rewrite (vertical_line A i x I). apply (HA i x I X).
    + intros i I. rewrite (vertical_line B i x I). apply (HB i x I X).
  - apply (line_unique n (fun j => t * (c y j + c y (j + 1)%nat)) (fun j => A y j) (fun j => B y j) (fun j => L y j)); [| | |exact X].
    + intros i I. pose proof (C y i Y ltac:(lia)). pose proof (C y (i + 1)%nat Y I). apply Rmult_le_pos; lra.
    + intros i I. rewrite (horizontal_line A y i I). apply (HA y i Y I).
    + intros i I. rewrite (horizontal_line B y i I). apply (HB y i Y I).
Qed.
(** It keeps the brightness, and the range for every step size. *)
Theorem aox_conserves L' : aos_step n n (Mat n n L) (Mat n n c) t (allocated n n e1) (allocated n n e2) = Done L' -> total n n (entry L') = total n n L.
Proof.
  intros E. destruct aox_step as (L2 & A & B & E2 & HA & HB & V2). rewrite E in E2. injection E2 as ->. cbn [entry]. unfold total.
  rewrite (sum_ext n _ (fun y => / 2 * sum n (fun x => A y x) + / 2 * sum n (fun x => B y x))).
  2:{ intros y Y. rewrite <- !sum_scale, <- sum_plus. apply sum_ext. intros x X. rewrite (V2 y x Y X). field. }
  rewrite sum_plus, !sum_scale. assert (sum n (fun y => sum n (fun x => A y x)) = sum n (fun y => sum n (fun x => L y x))) as ->.
  { rewrite (sum_swap n n A), (sum_swap n n L). apply sum_ext. intros x X. apply (line_sum n (fun i => t * (c i x + c (i + 1)%nat x))). intros y Y. rewrite (vertical_line A y x Y). apply (HA y x Y X). }
  assert (sum n (fun y => sum n (fun x => B y x)) = sum n (fun y => sum n (fun x => L y x))) as ->; [|field].
  apply sum_ext. intros y Y. apply (line_sum n (fun j => t * (c y j + c y (j + 1)%nat))). intros x X. rewrite (horizontal_line B y x X). apply (HB y x Y X).
Qed.
Theorem aox_range L' lo hi : aos_step n n (Mat n n L) (Mat n n c) t (allocated n n e1) (allocated n n e2) = Done L' -> within n n lo hi L -> within n n lo hi (entry L').
Proof.
  intros E W y x Y X. destruct aox_step as (L2 & A & B & E2 & HA & HB & V2). rewrite E in E2. injection E2 as ->. cbn [entry]. rewrite (V2 y x Y X).
  assert (lo <= A y x <= hi) as P.
  { apply (line_range n (fun i => t * (c i x + c (i + 1)%nat x)) (fun i => A i x) (fun i => L i x) lo hi); [| |intros i I; apply (W i x I X)|exact Y].
    - intros i I. pose proof (C i x ltac:(lia) X). pose proof (C (i + 1)%nat x I X). apply Rmult_le_pos; lra.
    - intros i I. rewrite (vertical_line A i x I). apply (HA i x I X). }
  assert (lo <= B y x <= hi) as Q; [|lra].
  apply (line_range n (fun j => t * (c y j + c y (j + 1)%nat)) (fun j => B y j) (fun j => L y j) lo hi); [| |intros i I; apply (W y i Y I)|exact X].
  - intros i I. pose proof (C y i Y ltac:(lia)). pose proof (C y (i + 1)%nat Y I). apply Rmult_le_pos; lra.
  - intros i I. rewrite (horizontal_line B y i I). apply (HB y i Y I).
Qed.
End Square.
Print Assumptions aox_step.
Print Assumptions aox_unique.
Print Assumptions aox_conserves.
Print Assumptions aox_range.
Example aox_step_ex : (2 <= 5)%nat /\ 0 <= 100 /\ (forall y x, (y < 5)%nat -> (x < 5)%nat -> 0 <= INR (y * x)).
Proof. split; [lia|]. split; [lra|]. intros. apply pos_INR. Qed.
(** Images that are not square: Ltx_ is allocated with the wrong orientation. Wider ones make Thomas write rows it does not have, taller ones throw. *)
Theorem aox_wide_refuted h w L c t e1 e2 : (2 <= h)%nat -> (h < w)%nat -> aos_step h w (Mat h w L) (Mat h w c) t (allocated h w e1) (allocated h w e2) = Undefined.
Proof.
  intros H W. unfold aos_step, aos_rows, aos_columns, allocated, thomas. cbn [mrows mcols transpose]. destruct (Nat.ltb_spec h 2); [lia|]. destruct (Nat.ltb_spec w 2); [lia|]. destruct (Nat.eqb_spec h 0); [lia|]. replace (h - 1 + 1)%nat with h by lia. rewrite !Nat.ltb_irrefl. cbn [orb].
  destruct (Nat.eqb_spec w 0); [lia|]. replace (w - 1 + 1)%nat with w by lia. rewrite !Nat.ltb_irrefl. cbn [orb]. destruct (Nat.ltb_spec h w); [|lia]. reflexivity.
Qed.
Theorem aox_tall_refuted h w L c t e1 e2 : (2 <= w)%nat -> (w < h)%nat -> aos_step h w (Mat h w L) (Mat h w c) t (allocated h w e1) (allocated h w e2) = Threw.
Proof.
  intros H W. unfold aos_step, aos_rows, aos_columns, allocated, thomas. cbn [mrows mcols transpose]. destruct (Nat.ltb_spec h 2); [lia|]. destruct (Nat.ltb_spec w 2); [lia|]. destruct (Nat.eqb_spec h 0); [lia|]. replace (h - 1 + 1)%nat with h by lia. rewrite !Nat.ltb_irrefl. cbn [orb].
  destruct (Nat.eqb_spec w 0); [lia|]. replace (w - 1 + 1)%nat with w by lia. rewrite !Nat.ltb_irrefl. cbn [orb]. destruct (Nat.ltb_spec h w); [lia|]. cbn [mrows mcols transpose]. destruct (Nat.eqb_spec h w); [lia|]. reflexivity.
Qed.
Print Assumptions aox_wide_refuted.
Print Assumptions aox_tall_refuted.
