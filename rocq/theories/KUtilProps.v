(** C118: helper functions of KAZE. *)
From Coq Require Import Reals ZArith List Bool Arith Lra Lia.
From Verif Require Import KUtilModel KUtilSpec.
Import ListNotations.
Local Open Scope R_scope.

(** ** Scaling *)
Lemma min_fold l a : let m := fold_left (fun aux v => if Rlt_dec v aux then v else aux) l a in m <= a /\ (forall v, In v l -> m <= v) /\ (m = a \/ In m l).
Proof.
  revert a. induction l as [|x l IH]; intros a; cbn; [repeat split; [lra|intros ? []|left; reflexivity]|].
  destruct (Rlt_dec x a) as [L|L]; destruct (IH (if Rlt_dec x a then x else a)) as [A [B C]]; destruct (Rlt_dec x a) as [L'|L']; try contradiction; cbn in *.
  - repeat split; [lra|intros v [<-|V]; [exact A|exact (B v V)]|]. destruct C as [C|C]; right; [left; symmetry; exact C|right; exact C].
  - repeat split; [lra|intros v [<-|V]; [lra|exact (B v V)]|]. destruct C as [C|C]; [left; exact C|right; right; exact C].
Qed.
Lemma max_fold l a : let m := fold_left (fun aux v => if Rlt_dec aux v then v else aux) l a in a <= m /\ (forall v, In v l -> v <= m) /\ (m = a \/ In m l).
Proof.
  revert a. induction l as [|x l IH]; intros a; cbn; [repeat split; [lra|intros ? []|left; reflexivity]|].
  destruct (IH (if Rlt_dec a x then x else a)) as [A [B C]]; destruct (Rlt_dec a x) as [L'|L']; cbn in *.
  - repeat split; [lra|intros v [<-|V]; [exact A|exact (B v V)]|]. destruct C as [C|C]; right; [left; symmetry; exact C|right; exact C].
  - repeat split; [lra|intros v [<-|V]; [lra|exact (B v V)]|]. destruct C as [C|C]; [left; exact C|right; right; exact C].
Qed.
(** If the smallest value is at most 1000 and smaller than the greatest, the result is the image scaled to 0 .. 1. *)
Theorem kux_scale l lo hi : least l lo -> greatest l hi -> lo <= 1000 -> lo < hi -> convert_scale l = Fine (scaled lo hi l).
Proof.
  intros [LI L] [HI H] T D. unfold convert_scale.
  assert (M : compute_min l = lo). { destruct (min_fold l 1000) as [A [B C]]. fold (compute_min l) in *. pose proof (B lo LI). destruct C as [C|C]; [lra|]. pose proof (L _ C). lra. }
  rewrite M. assert (X : compute_max (map (fun v => v - lo) l) = hi - lo).
  { destruct (max_fold (map (fun v => v - lo) l) 0) as [A [B C]]. fold (compute_max (map (fun v => v - lo) l)) in *.
    assert (hi - lo <= compute_max (map (fun v => v - lo) l)) by (apply B, in_map_iff; exists hi; split; [reflexivity|exact HI]).
    destruct C as [C|C]; [lra|]. apply in_map_iff in C. destruct C as [v [E V]]. pose proof (H v V). lra. }
  cbv zeta. rewrite X. destruct l as [|x l]; [destruct LI|]. destruct (Req_EM_T (hi - lo) 0) as [E|_]; [lra|]. f_equal. unfold scaled. rewrite map_map. reflexivity.
Qed.
Print Assumptions kux_scale.
(** The range of the result. *)
Theorem kux_range l lo hi r : least l lo -> greatest l hi -> lo <= 1000 -> lo < hi -> convert_scale l = Fine r -> (forall v, In v r -> 0 <= v <= 1) /\ In 0 r /\ In 1 r /\ length r = length l.
Proof.
  intros L H T D E. rewrite (kux_scale l lo hi L H T D) in E. injection E as <-. destruct L as [LI L], H as [HI H]. unfold scaled. split; [|split; [|split]].
  - intros v V. apply in_map_iff in V. destruct V as [x [<- X]]. pose proof (L x X). pose proof (H x X). assert (P : 0 < / (hi - lo)) by (apply Rinv_0_lt_compat; lra). unfold Rdiv. split; [apply Rmult_le_pos; lra|].
    apply Rmult_le_reg_l with (hi - lo); [lra|]. replace ((hi - lo) * ((x - lo) * / (hi - lo))) with (x - lo) by (field; lra). lra.
  - apply in_map_iff. exists lo. split; [field; lra|exact LI].
  - apply in_map_iff. exists hi. split; [field; lra|exact HI].
  - apply map_length.
Qed.
Print Assumptions kux_range.
(** A flat image becomes NaN; if all values are greater than 1000, 1000 is subtracted instead of the smallest. *)
Theorem kux_flat_refuted l c : l <> [] -> (forall v, In v l -> v = c) -> c <= 1000 -> convert_scale l = Nan.
Proof.
  intros N H T. unfold convert_scale.
  assert (LI : In c l). { destruct l as [|x l]; [congruence|]. left. apply H. left. reflexivity. }
  assert (M : compute_min l = c). { destruct (min_fold l 1000) as [A [B C]]. fold (compute_min l) in *. pose proof (B c LI). destruct C as [C|C]; [lra|exact (H _ C)]. }
  rewrite M. assert (X : compute_max (map (fun v => v - c) l) = 0).
  { destruct (max_fold (map (fun v => v - c) l) 0) as [A [B C]]. fold (compute_max (map (fun v => v - c) l)) in *. destruct C as [C|C]; [exact C|]. apply in_map_iff in C. destruct C as [v [E V]]. rewrite (H v V) in E. lra. }
  cbv zeta. rewrite X. destruct l; [congruence|]. destruct (Req_EM_T 0 0) as [_|K]; [reflexivity|congruence].
Qed.
Print Assumptions kux_flat_refuted.
Theorem kux_bright_refuted l hi : greatest l hi -> (forall v, In v l -> 1000 < v) -> convert_scale l = Fine (scaled 1000 hi l) /\ forall v, In v (scaled 1000 hi l) -> 0 < v.
Proof.
  intros [HI H] B1. pose proof (B1 hi HI) as HB. split.
  - unfold convert_scale. assert (M : compute_min l = 1000). { destruct (min_fold l 1000) as [A [B C]]. fold (compute_min l) in *. destruct C as [C|C]; [exact C|]. pose proof (B1 _ C). lra. }
    rewrite M. assert (X : compute_max (map (fun v => v - 1000) l) = hi - 1000).
    { destruct (max_fold (map (fun v => v - 1000) l) 0) as [A [B C]]. fold (compute_max (map (fun v => v - 1000) l)) in *.
      assert (hi - 1000 <= compute_max (map (fun v => v - 1000) l)) by (apply B, in_map_iff; exists hi; split; [reflexivity|exact HI]).
      destruct C as [C|C]; [lra|]. apply in_map_iff in C. destruct C as [v [E V]]. pose proof (H v V). lra. }
    cbv zeta. rewrite X. destruct l as [|x l]; [destruct HI|]. destruct (Req_EM_T (hi - 1000) 0) as [E|_]; [lra|]. f_equal. unfold scaled. rewrite map_map. reflexivity.
  - intros v V. apply in_map_iff in V. destruct V as [x [<- X]]. pose proof (B1 x X). apply Rmult_lt_0_compat; [lra|]. apply Rinv_0_lt_compat. lra.
Qed.
Print Assumptions kux_bright_refuted.

(** ** Matches and inliers *)
(** For matches with two candidates each and valid indices, the points of exactly the clear matches are appended in order. *)
Theorem kux_nndr train query ms pm nndr (rests : list (list dmatch)) :
  length rests = length ms ->
  (forall m, In m ms -> clear_match nndr m -> (queryIdx (fst m) < length train)%nat /\ (trainIdx (fst m) < length query)%nat) ->
  exists kept, selected (clear_match nndr) ms kept /\
    matches2points_nndr train query (map (fun mr => fst (fst mr) :: snd (fst mr) :: snd mr) (combine ms rests)) pm nndr =
      Fine (pm ++ flat (map (fun m => (nth (queryIdx (fst m)) train (0, 0), nth (trainIdx (fst m)) query (0, 0))) kept)).
Proof.
  revert rests pm. induction ms as [|[m1 m2] ms IH]; intros rests pm L V; destruct rests as [|r rests]; try discriminate L.
  - exists []. split; [constructor|]. cbn. rewrite app_nil_r. reflexivity.
  - cbn [length] in L. injection L as L. cbn [combine map fst snd matches2points_nndr]. destruct (Rlt_dec (dist m1) (nndr * dist m2)) as [C|C].
    + destruct (V (m1, m2) (or_introl eq_refl) C) as [A B]. cbn [fst] in A, B. rewrite (nth_error_nth' train (0, 0) A), (nth_error_nth' query (0, 0) B).
      destruct (IH rests (pm ++ [nth (queryIdx m1) train (0, 0); nth (trainIdx m1) query (0, 0)]) L) as [k [S E]]; [intros m M; apply V; right; exact M|].
      exists ((m1, m2) :: k). split; [apply sel_yes; assumption|]. rewrite E. rewrite <- app_assoc. reflexivity.
    + destruct (IH rests pm L) as [k [S E]]; [intros m M; apply V; right; exact M|]. exists k. split; [apply sel_no; assumption|exact E].
Qed.
Print Assumptions kux_nndr.
(** A match with one candidate, as a matcher returns for a single train descriptor, is read out of bounds; wherever it is in the list. *)
Theorem kux_single_refuted train query ms pm nndr : (exists m, In m ms /\ (length m < 2)%nat) -> matches2points_nndr train query ms pm nndr = OutOfBounds.
Proof.
  revert pm. induction ms as [|m ms IH]; intros pm [x [I L]]; [destruct I|]. destruct m as [|m1 [|m2 m]]; [reflexivity|reflexivity|]. cbn [matches2points_nndr].
  assert (E : forall p, matches2points_nndr train query ms p nndr = OutOfBounds). { intros p. apply IH. destruct I as [<-|I]; [cbn in L; lia|]. exists x. split; assumption. }
  destruct (Rlt_dec _ _); [|apply E]. destruct (nth_error train _); [|reflexivity]. destruct (nth_error query _); [apply E|reflexivity].
Qed.
Print Assumptions kux_single_refuted.

Lemma pair_ok_iff H e p q : pair_ok H e p q = true <-> maps_near H e p q.
Proof.
  destruct p as [x1 y1], q as [x2 y2]. unfold pair_ok, maps_near. cbn [fst snd]. set (s := h31 H * x1 + h32 H * y1 + h33 H). destruct (Req_EM_T s 0) as [Z|Z].
  - split; [discriminate|]. intros [s' [u [v [N [_ [_ [E _]]]]]]]. congruence.
  - destruct (Rle_dec _ e) as [L|L].
    + split; [intros _|reflexivity]. exists s, ((h11 H * x1 + h12 H * y1 + h13 H) / s), ((h21 H * x1 + h22 H * y1 + h23 H) / s). split; [exact Z|]. split; [field; exact Z|]. split; [field; exact Z|]. split; [reflexivity|exact L].
    + split; [discriminate|]. intros [s' [u [v [N [U [W [E D]]]]]]]. subst s'. contradiction L.
      replace ((h11 H * x1 + h12 H * y1 + h13 H) / s) with u by (rewrite U; field; exact Z). replace ((h21 H * x1 + h22 H * y1 + h23 H) / s) with v by (rewrite W; field; exact Z). exact D.
Qed.
(** The inliers are exactly the pairs that the homography maps to within the error, in order; old contents of the vector do not
    matter. *)
Theorem kux_inliers ms old H e : exists kept, selected (fun pq => maps_near H e (fst pq) (snd pq)) ms kept /\ compute_inliers_homography (flat ms) old H e = Fine (flat kept).
Proof.
  unfold compute_inliers_homography. induction ms as [|[p q] ms IH]; [exists []; split; [constructor|reflexivity]|]. destruct IH as [k [S E]]. cbn [flat inliers_of]. rewrite E.
  destruct (pair_ok H e p q) eqn:P.
  - exists ((p, q) :: k). split; [apply sel_yes; [apply pair_ok_iff; exact P|exact S]|reflexivity].
  - exists k. split; [apply sel_no; [intros M; cbn in M; apply pair_ok_iff in M; congruence|exact S]|reflexivity].
Qed.
Print Assumptions kux_inliers.
(** An odd number of points is read out of bounds. *)
Theorem kux_odd_refuted ms p old H e : compute_inliers_homography (flat ms ++ [p]) old H e = OutOfBounds.
Proof. unfold compute_inliers_homography. induction ms as [|[a b] ms IH]; [reflexivity|]. cbn [flat app inliers_of]. rewrite IH. reflexivity. Qed.
Print Assumptions kux_odd_refuted.

(** ** Side by side *)
Lemma row_fine f n : (forall j, (j < n)%nat -> exists v, f j = Fine v) ->
  forall a, (forall j, (a <= j < a + n)%nat -> exists v : Z, f j = Fine v) ->
  exists r, fold_right (fun j row => match f j, row with Fine v, Fine r => Fine (v :: r) | _, _ => OutOfBounds end) (Fine []) (seq a n) = Fine r /\ length r = n /\ forall j v, (j < n)%nat -> f (a + j)%nat = Fine v -> nth j r 0%Z = v.
Proof.
  intros _. induction n as [|n IH]; intros a H; [exists []; repeat split; intros; lia|]. cbn [seq fold_right].
  destruct (IH (S a)) as [r [E [L N]]]; [intros j J; apply H; lia|]. destruct (H a) as [v V]; [lia|]. rewrite V, E. exists (v :: r). split; [reflexivity|]. split; [cbn; lia|].
  intros [|j] u J U; [rewrite Nat.add_0_r in U; cbn; congruence|]. cbn. apply N; [lia|]. rewrite <- U. f_equal. lia.
Qed.
Lemma composed_left img1 img2 i j : (i < rows img1)%nat -> (j < cols img1)%nat -> composed img1 img2 i j = Fine (at_ img1 i j).
Proof. intros I J. unfold composed. destruct (Nat.ltb_spec j (cols img1)); [|lia]. destruct (Nat.ltb_spec i (rows img1)); [reflexivity|lia]. Qed.
Lemma composed_right img1 img2 i j : (i < rows img2)%nat -> (j < cols img2)%nat -> composed img1 img2 i (cols img1 + j) = Fine (at_ img2 i j).
Proof. intros I J. unfold composed. destruct (Nat.ltb_spec (cols img1 + j) (cols img1)); [lia|]. replace (cols img1 + j - cols img1)%nat with j by lia. destruct (Nat.ltb_spec i (rows img2)); [|lia]. destruct (Nat.ltb_spec j (cols img2)); [reflexivity|lia]. Qed.
(** Two images of the same height, next to each other. *)
Theorem kux_compose img1 img2 : rows img1 = rows img2 -> exists l, compose img1 img2 (rows img1) (cols img1 + cols img2) = Fine l /\ length l = rows img1 /\
  forall i, (i < rows img1)%nat -> length (nth i l []) = (cols img1 + cols img2)%nat /\
    (forall j, (j < cols img1)%nat -> nth j (nth i l []) 0%Z = at_ img1 i j) /\ (forall j, (j < cols img2)%nat -> nth (cols img1 + j) (nth i l []) 0%Z = at_ img2 i j).
Proof.
  intros R. unfold compose.
  assert (G : forall n a, (a + n <= rows img1)%nat -> exists l, fold_right (fun i acc =>
    match fold_right (fun j row => match composed img1 img2 i j, row with Fine v, Fine r => Fine (v :: r) | _, _ => OutOfBounds end) (Fine []) (seq 0 (cols img1 + cols img2)), acc with
    | Fine row, Fine l => Fine (row :: l) | _, _ => OutOfBounds end) (Fine []) (seq a n) = Fine l /\ length l = n /\
    forall i, (i < n)%nat -> length (nth i l []) = (cols img1 + cols img2)%nat /\
    (forall j, (j < cols img1)%nat -> nth j (nth i l []) 0%Z = at_ img1 (a + i) j) /\ (forall j, (j < cols img2)%nat -> nth (cols img1 + j) (nth i l []) 0%Z = at_ img2 (a + i) j)).
  { induction n as [|n IH]; intros a A; [exists []; repeat split; intros; lia|]. cbn [seq fold_right]. destruct (IH (S a)) as [l [E [L N]]]; [lia|].
    assert (F : forall j, (j < cols img1 + cols img2)%nat -> exists v, composed img1 img2 a j = Fine v).
    { intros j J. destruct (Nat.lt_ge_cases j (cols img1)) as [C|C]; [exists (at_ img1 a j); apply composed_left; lia|]. exists (at_ img2 a (j - cols img1)). rewrite <- (composed_right img1 img2 a (j - cols img1)) by lia. f_equal. lia. }
    destruct (row_fine (composed img1 img2 a) (cols img1 + cols img2) F 0) as [r [Er [Lr Nr]]]; [intros j J; apply F; lia|]. rewrite Er, E. exists (r :: l). split; [reflexivity|]. split; [cbn; lia|].
    intros [|i] I.
    - cbn [nth]. rewrite Nat.add_0_r. split; [exact Lr|]. split; intros j J; apply Nr; try lia; cbn [Nat.add]; [apply composed_left; lia|apply composed_right; lia].
    - cbn [nth]. replace (a + S i)%nat with (S a + i)%nat by lia. apply N. lia. }
  destruct (G (rows img1) 0%nat) as [l [E [L N]]]; [lia|]. exists l. split; [exact E|]. split; [exact L|]. intros i I. exact (N i I).
Qed.
Print Assumptions kux_compose.
(** The images may have different resolutions, says the comment of the code; but the second image itself is read and not the
    resized copy: a second image with fewer rows or columns is read out of bounds if the composed image has the size of
    the first one twice. *)
Theorem kux_compose_refuted img1 img2 : (0 < cols img1)%nat -> (0 < rows img1)%nat -> (rows img2 < rows img1 \/ cols img2 < cols img1)%nat ->
  compose img1 img2 (rows img1) (2 * cols img1) = OutOfBounds.
Proof.
  intros C R S. unfold compose.
  set (row := fun i => fold_right (fun j row => match composed img1 img2 i j, row with Fine v, Fine r => Fine (v :: r) | _, _ => OutOfBounds end) (Fine []) (seq 0 (2 * cols img1))).
  assert (BAD : row (rows img1 - 1)%nat = OutOfBounds).
  { unfold row. replace (2 * cols img1)%nat with ((2 * cols img1 - 1) + 1)%nat by lia. rewrite seq_app, fold_right_app. cbn [seq fold_right plus].
    assert (B : composed img1 img2 (rows img1 - 1) (2 * cols img1 - 1) = OutOfBounds).
    { unfold composed. destruct (Nat.ltb_spec (2 * cols img1 - 1) (cols img1)); [lia|]. destruct (Nat.ltb_spec (rows img1 - 1) (rows img2)); [|reflexivity]. destruct (Nat.ltb_spec (2 * cols img1 - 1 - cols img1) (cols img2)); [lia|reflexivity]. }
    rewrite B. generalize (seq 0 (2 * cols img1 - 1)). intros l. induction l as [|j l IH]; [reflexivity|]. cbn [fold_right]. rewrite IH. destruct (composed img1 img2 (rows img1 - 1) j); reflexivity. }
  change (fold_right (fun i acc => match row i, acc with Fine r, Fine l => Fine (r :: l) | _, _ => OutOfBounds end) (Fine []) (seq 0 (rows img1)) = OutOfBounds).
  replace (rows img1) with ((rows img1 - 1) + 1)%nat by lia. rewrite seq_app, fold_right_app. cbn [seq fold_right plus]. rewrite BAD.
  generalize (seq 0 (rows img1 - 1)). intros l. induction l as [|j l IH]; [reflexivity|]. cbn [fold_right]. rewrite IH. destruct (row j); reflexivity.
Qed.
Print Assumptions kux_compose_refuted.

(** ** Homographies *)
(** Three lines with three numbers, the last one not 0: the same homography with last entry 1. *)
Theorem kux_homography a b c d e f g h i ra rb rc rest : i <> 0 -> exists H, read_homography ((a :: b :: c :: ra) :: (d :: e :: f :: rb) :: (g :: h :: i :: rc) :: rest) = Fine H /\
  h33 H = 1 /\ proportional i H a b c d e f g h i.
Proof.
  intros N. unfold read_homography. cbn [nth scan]. destruct (Req_EM_T i 0) as [Z|_]; [contradiction|]. eexists. split; [reflexivity|]. cbn. split; [field; exact N|]. unfold proportional. cbn. repeat split; field; exact N.
Qed.
Print Assumptions kux_homography.
(** Files with too few lines or numbers are accepted, and give NaN or infinite entries. *)
Theorem kux_short_refuted lines : (length lines < 3)%nat \/ (length (nth 2 lines []) < 3)%nat -> read_homography lines = Nan.
Proof.
  intros S. unfold read_homography. destruct (scan (nth 0 lines [])) as [[a b] c]. destruct (scan (nth 1 lines [])) as [[d e] f].
  assert (Z : exists g h, scan (nth 2 lines []) = (g, h, 0)).
  { destruct S as [S|S]; [rewrite nth_overflow by lia; exists 0, 0; reflexivity|]. destruct (nth 2 lines []) as [|x [|y [|z l]]]; cbn in S; [exists 0, 0|exists x, 0|exists x, y|lia]; reflexivity. }
  destruct Z as [g [h ->]]. destruct (Req_EM_T 0 0) as [_|K]; [reflexivity|congruence].
Qed.
Print Assumptions kux_short_refuted.

(** ** Concrete cases *)
Example kux_ex_scale : convert_scale [3; 1; 2] = Fine [(3 - 1) / (3 - 1); (1 - 1) / (3 - 1); (2 - 1) / (3 - 1)].
Proof. apply (kux_scale [3; 1; 2] 1 3); [split; [cbn; tauto|intros v V]|split; [cbn; tauto|intros v V]|lra|lra]; cbn in V; destruct V as [<-|[<-|[<-|[]]]]; lra. Qed.
Definition shift : homography := {| h11 := 1; h12 := 0; h13 := 5; h21 := 0; h22 := 1; h23 := 0; h31 := 0; h32 := 0; h33 := 1 |}.
Example kux_ex_inlier : maps_near shift (1 / 2) (1, 1) (6, 1) /\ ~ maps_near shift (1 / 2) (1, 1) (7, 1).
Proof.
  split.
  - exists 1, 6, 1. cbn. repeat split; try lra. replace ((6 - 6) * ((6 - 6) * 1) + (1 - 1) * ((1 - 1) * 1)) with 0 by ring. rewrite sqrt_0. lra.
  - intros [s [u [v [N [U [W [E D]]]]]]]. cbn in *. assert (s = 1) by lra. subst s. assert (u = 6) by lra. assert (v = 1) by lra. subst. replace ((6 - 7) * ((6 - 7) * 1) + (1 - 1) * ((1 - 1) * 1)) with (1 * 1) in D by ring. rewrite sqrt_square in D; lra.
Qed.
Example kux_ex_compose : compose {| rows := 1; cols := 2; at_ := fun _ j => Z.of_nat j |} {| rows := 1; cols := 1; at_ := fun _ _ => 9%Z |} 1 3 = Fine [[0; 1; 9]%Z].
Proof. reflexivity. Qed.
