(** C146: inliers of RANSAC are the pairs with status 1, and lines join the points in the composed picture. *)
From Coq Require Import Reals ZArith List Lia Lra.
From Verif Require Import KUtilModel KUtilSpec KUtilProps KInlierModel KInlierSpec.
Import ListNotations.
Local Open Scope R_scope.

Lemma split_flat ps : split_points (flat ps) = Got (map fst ps, map snd ps).
Proof. induction ps as [|[p q] ps IH]; [reflexivity|]. cbn [flat split_points map fst snd]. rewrite IH. reflexivity. Qed.
Lemma flat_app a b : flat (a ++ b) = flat a ++ flat b.
Proof. induction a as [|[p q] a IH]; [reflexivity|]. cbn [flat app]. rewrite IH. reflexivity. Qed.
Lemma flat_length ps : length (flat ps) = (2 * length ps)%nat.
Proof. induction ps as [|[p q] ps IH]; [reflexivity|]. cbn [flat length]. lia. Qed.
Lemma pick_all : forall ps status done sdone old, length status = length ps -> length sdone = length done ->
  fold_left (pick (map fst (done ++ ps)) (map snd (done ++ ps)) (sdone ++ status)) (seq (length done) (length ps)) (Got old) = Got (old ++ flat (chosen ps status)).
Proof.
  induction ps as [|[p q] ps IH]; intros [|s status] done sdone old L D; try discriminate; [cbn; rewrite app_nil_r; reflexivity|]. cbn [length seq fold_left]. unfold pick at 2.
  assert (N0 : nth_error (sdone ++ s :: status) (length done) = Some s) by (rewrite nth_error_app2, D, Nat.sub_diag by lia; reflexivity).
  assert (N1 : nth_error (map fst (done ++ (p, q) :: ps)) (length done) = Some p) by (rewrite map_app, nth_error_app2, map_length, Nat.sub_diag by (rewrite map_length; lia); reflexivity).
  assert (N2 : nth_error (map snd (done ++ (p, q) :: ps)) (length done) = Some q) by (rewrite map_app, nth_error_app2, map_length, Nat.sub_diag by (rewrite map_length; lia); reflexivity). rewrite N0, N1, N2. clear N0 N1 N2.
  replace (done ++ (p, q) :: ps) with ((done ++ [(p, q)]) ++ ps) by (rewrite <- app_assoc; reflexivity). replace (sdone ++ s :: status) with ((sdone ++ [s]) ++ status) by (rewrite <- app_assoc; reflexivity).
  assert (X : S (length done) = length (done ++ [(p, q)])) by (rewrite app_length; cbn; lia). assert (Y : length (sdone ++ [s]) = length (done ++ [(p, q)])) by (rewrite !app_length; cbn; lia). cbn [chosen]. rewrite X.
  destruct (Z.eqb_spec s 1), (Z.eq_dec s 1); try contradiction.
  - rewrite IH; [|injection L as L; exact L|exact Y]. cbn [flat]. rewrite <- app_assoc. reflexivity.
  - apply IH; [injection L as L; exact L|exact Y].
Qed.
Lemma div2_flat ps : Nat.div2 (length (flat ps)) = length ps.
Proof. rewrite flat_length. apply Nat.div2_double. Qed.
(** The inliers are appended: exactly the pairs with status 1, unbroken and in order. *)
Theorem kix_ransac est ps status old e fund : est fund (map fst ps) (map snd ps) e = Estimated status -> length status = length ps ->
  compute_inliers_ransac est (flat ps) old e fund = Got (old ++ flat (chosen ps status)).
Proof. intros E L. unfold compute_inliers_ransac. rewrite split_flat. unfold point in *. rewrite E, div2_flat. exact (pick_all ps status [] [] old L eq_refl). Qed.
Print Assumptions kix_ransac.
Lemma judged H e : forall ps status, judges H e ps status -> length status = length ps /\ selected (fun pq => maps_near H e (fst pq) (snd pq)) ps (chosen ps status).
Proof.
  intros ps status J. induction J as [|pq s ps status D J [L S]]; [split; [reflexivity|constructor]|]. cbn [length chosen]. split; [congruence|]. destruct D as [[M ->]|[M ->]]; cbn; [apply sel_yes; assumption|apply sel_no; assumption].
Qed.
Lemma selected_fun {A} (P : A -> Prop) l m : selected P l m -> forall m', selected P l m' -> m = m'.
Proof. induction 1 as [|x l m X S IH|x l m X S IH]; intros m' S'; inversion S'; subst; try contradiction; [reflexivity|f_equal; apply IH; assumption|apply IH; assumption]. Qed.
(** With an estimator that judges by a homography, an empty vector gets what compute_inliers_homography gives. *)
Theorem kix_agrees est ps status H e : est false (map fst ps) (map snd ps) e = Estimated status -> judges H e ps status ->
  exists l, compute_inliers_ransac est (flat ps) [] e false = Got l /\ forall old, compute_inliers_homography (flat ps) old H e = Fine l.
Proof.
  intros E J. destruct (judged H e ps status J) as [L S]. exists (flat (chosen ps status)). split; [exact (kix_ransac est ps status [] e false E L)|]. intros old. destruct (kux_inliers ps old H e) as (k & K & ->). rewrite (selected_fun _ _ _ S _ K). reflexivity.
Qed.
Print Assumptions kix_agrees.
(** But unlike that function this one keeps the old contents: a second call doubles the inliers; *)
Theorem kix_again_refuted : exists est ps e l, compute_inliers_ransac est (flat ps) [] e false = Got l /\ l <> [] /\ compute_inliers_ransac est (flat ps) l e false = Got (l ++ l) /\ forall H old old', compute_inliers_homography (flat ps) old H e = compute_inliers_homography (flat ps) old' H e.
Proof.
  exists (fun _ ps _ _ => Estimated (map (fun _ => 1%Z) ps)), [((1, 2), (3, 4))], 1, [(1, 2); (3, 4)]. split; [reflexivity|]. split; [discriminate|]. split; [reflexivity|]. intros. reflexivity.
Qed.
Print Assumptions kix_again_refuted.
(** a status for too few points, as of a fundamental matrix that was not found, is read outside; *)
Theorem kix_status_refuted est ps status old e fund : est fund (map fst ps) (map snd ps) e = Estimated status -> (length status < length ps)%nat -> compute_inliers_ransac est (flat ps) old e fund = Outside.
Proof.
  intros E L. unfold compute_inliers_ransac. rewrite split_flat. unfold point in *. rewrite E, div2_flat. assert (O : forall l, fold_left (pick (map fst ps) (map snd ps) status) l Outside = Outside) by (induction l as [|i l IH]; [reflexivity|exact IH]).
  assert (G : forall l r, In (length status) l -> r <> Thrown -> fold_left (pick (map fst ps) (map snd ps) status) l r = Outside).
  { induction l as [|i l IH]; intros r I T; [destruct I|]. cbn [fold_left]. destruct r as [x| |]; [|contradiction|apply O]. destruct I as [->|I].
    - unfold pick at 2. rewrite (proj2 (nth_error_None status (length status)) (le_n _)). apply O.
    - apply IH; [exact I|]. unfold pick. destruct (nth_error status i) as [s|]; [|discriminate]. destruct (s =? 1)%Z; [|discriminate]. destruct (nth_error _ i); [|discriminate]. destruct (nth_error _ i); discriminate. }
  apply G; [apply in_seq; lia|discriminate].
Qed.
Print Assumptions kix_status_refuted.
(** and an odd number of points is read outside by both, whatever the estimator does, and by the drawing functions. *)
Theorem kix_odd_refuted est ps p old e fund color img1 img2 : compute_inliers_ransac est (flat ps ++ [p]) old e fund = Outside /\ draw_inliers img1 img2 (flat ps ++ [p]) = Outside /\ draw_inliers_coloured color img1 img2 (flat ps ++ [p]) = Outside.
Proof.
  assert (S : split_points (flat ps ++ [p]) = Outside) by (induction ps as [|[a b] ps IH]; [reflexivity|]; cbn [flat app split_points]; rewrite IH; reflexivity).
  assert (D : forall c, lines_with c img1 img2 (flat ps ++ [p]) = Outside) by (intros c; clear S; induction ps as [|[a b] ps IH]; [reflexivity|]; cbn [flat app lines_with]; rewrite IH; reflexivity).
  unfold compute_inliers_ransac. rewrite S. repeat split; apply D.
Qed.
Print Assumptions kix_odd_refuted.

(** ** Lines *)
(** One line for each pair, in its colour: blue without a colour and for 1, cyan for 0, green for 2. *)
Theorem kix_lines img1 img2 ps : draw_inliers img1 img2 (flat ps) = Got (map (fun pq => (line_ends img1 img2 (fst pq) (snd pq), (255, 0, 0)%Z)) ps) /\
  forall color c, In (color, c) [(0, (255, 255, 0)); (1, (255, 0, 0)); (2, (0, 255, 0))]%Z -> draw_inliers_coloured color img1 img2 (flat ps) = Got (map (fun pq => (line_ends img1 img2 (fst pq) (snd pq), c)) ps).
Proof.
  assert (D : forall c, lines_with (Some c) img1 img2 (flat ps) = Got (map (fun pq => (line_ends img1 img2 (fst pq) (snd pq), c)) ps)) by (intros c; induction ps as [|[a b] ps IH]; [reflexivity|]; cbn [flat lines_with map fst snd]; rewrite IH; reflexivity).
  split; [apply D|]. intros color c [E|[E|[E|[]]]]; injection E as <- <-; apply D.
Qed.
Print Assumptions kix_lines.
(** Other colours draw nothing. *)
Theorem kix_colour_refuted color img1 img2 ps : (color < 0 \/ 2 < color)%Z -> draw_inliers_coloured color img1 img2 (flat ps) = Got [].
Proof.
  intros C. unfold draw_inliers_coloured, colour_of. destruct (Z.eqb_spec color 0); [lia|]. destruct (Z.eqb_spec color 1); [lia|]. destruct (Z.eqb_spec color 2); [lia|]. induction ps as [|[a b] ps IH]; [reflexivity|]. cbn [flat lines_with]. rewrite IH. reflexivity.
Qed.
Print Assumptions kix_colour_refuted.
Lemma trunc_floor r : 0 <= r -> (0 <= trunc r)%Z /\ IZR (trunc r) <= r < IZR (trunc r) + 1.
Proof.
  intros P. unfold trunc. destruct (Rle_dec 0 r); [|contradiction]. destruct (base_Int_part r) as [A B]. split; [|lra]. assert (X : -1 < IZR (Int_part r)) by lra. apply lt_IZR in X. lia.
Qed.
Lemma trunc_unique r z : 0 <= r -> IZR z <= r < IZR z + 1 -> trunc r = z.
Proof. intros P [A B]. destruct (trunc_floor r P) as [_ [C D]]. assert (IZR z < IZR (trunc r + 1)) by (rewrite plus_IZR; lra). assert (IZR (trunc r) < IZR (z + 1)) by (rewrite plus_IZR; lra). apply lt_IZR in H. apply lt_IZR in H0. lia. Qed.
Lemma INR_Z n : INR n = IZR (Z.of_nat n).
Proof. apply INR_IZR_INZ. Qed.
(** A line starts at the pixel of the first point, inside of the first image. *)
Theorem kix_left img1 img2 p q : - / 2 <= fst p < INR (cols img1) - / 2 -> - / 2 <= snd p < INR (rows img1) - / 2 ->
  exists x y e, line_ends img1 img2 p q = ((x, y), e) /\ pixel x (fst p) /\ pixel y (snd p) /\ (0 <= x < Z.of_nat (cols img1))%Z /\ (0 <= y < Z.of_nat (rows img1))%Z.
Proof.
  intros X Y. eexists _, _, _. split; [reflexivity|]. destruct (trunc_floor (fst p + / 2)) as [A1 A2]; [lra|]. destruct (trunc_floor (snd p + / 2)) as [B1 B2]; [lra|]. unfold pixel. rewrite INR_Z in X, Y. repeat split; try lra; try assumption; apply lt_IZR; lra.
Qed.
Print Assumptions kix_left.
(** It ends at the pixel of the second point scaled to the size of the first image, in the right half of the picture. *)
Theorem kix_right img1 img2 p q : (0 < cols img2)%nat -> (0 < rows img2)%nat ->
  let u := fst q * INR (cols img1) / INR (cols img2) in let v := snd q * INR (rows img1) / INR (rows img2) in
  - / 2 <= u < INR (cols img1) - / 2 -> - / 2 <= v < INR (rows img1) - / 2 ->
  exists e x y, line_ends img1 img2 p q = (e, ((Z.of_nat (cols img1) + x)%Z, y)) /\ pixel x u /\ pixel y v /\ (0 <= x < Z.of_nat (cols img1))%Z /\ (0 <= y < Z.of_nat (rows img1))%Z.
Proof.
  intros C R u v U V. destruct (trunc_floor (u + / 2)) as [A1 A2]; [lra|]. destruct (trunc_floor (v + / 2)) as [B1 B2]; [lra|]. exists (trunc (fst p + / 2), trunc (snd p + / 2)), (trunc (u + / 2)), (trunc (v + / 2)). apply lt_INR in C. apply lt_INR in R. cbn [INR] in C, R.
  assert (EU : fst q * (INR (cols img1) / INR (cols img2)) = u) by (unfold u; field; lra). assert (EV : snd q * (INR (rows img1) / INR (rows img2)) = v) by (unfold v; field; lra). split.
  - unfold line_ends. rewrite EU, EV. f_equal. f_equal. pose proof (pos_INR (cols img1)). apply trunc_unique; [lra|]. rewrite plus_IZR, <- INR_Z. lra.
  - unfold pixel. rewrite INR_Z in U, V. repeat split; try lra; try assumption; apply lt_IZR; lra.
Qed.
Print Assumptions kix_right.
(** For images of one size the picture shows there the pixel of the second image that contains the point. *)
Theorem kix_shows img1 img2 p q : cols img2 = cols img1 -> rows img2 = rows img1 -> - / 2 <= fst q < INR (cols img1) - / 2 -> - / 2 <= snd q < INR (rows img1) - / 2 ->
  exists e X Y x y, line_ends img1 img2 p q = (e, (Z.of_nat X, Z.of_nat Y)) /\ composed img1 img2 Y X = Fine (at_ img2 y x) /\ pixel (Z.of_nat x) (fst q) /\ pixel (Z.of_nat y) (snd q).
Proof.
  intros C R U V. assert (PC : 0 < INR (cols img1)) by lra. assert (PR : 0 < INR (rows img1)) by lra.
  assert (NC : (0 < cols img2)%nat) by (rewrite C; apply INR_lt; exact PC). assert (NR : (0 < rows img2)%nat) by (rewrite R; apply INR_lt; exact PR).
  assert (EU : fst q * INR (cols img1) / INR (cols img2) = fst q) by (rewrite C; field; lra). assert (EV : snd q * INR (rows img1) / INR (rows img2) = snd q) by (rewrite R; field; lra).
  destruct (kix_right img1 img2 p q NC NR) as (e & x & y & E & P1 & P2 & B1 & B2); [rewrite EU; exact U|rewrite EV; exact V|]. rewrite EU in P1. rewrite EV in P2. exists e, (cols img1 + Z.to_nat x)%nat, (Z.to_nat y), (Z.to_nat x), (Z.to_nat y). split; [rewrite E; f_equal; f_equal; lia|]. split; [|rewrite !Z2Nat.id by lia; tauto].
  unfold composed. destruct (Nat.ltb_spec (cols img1 + Z.to_nat x) (cols img1)); [lia|]. replace (cols img1 + Z.to_nat x - cols img1)%nat with (Z.to_nat x) by lia. rewrite C, R. destruct (Nat.ltb_spec (Z.to_nat y) (rows img1)); [|lia]. destruct (Nat.ltb_spec (Z.to_nat x) (cols img1)); [|lia]. reflexivity.
Qed.
Print Assumptions kix_shows.
(** For images of different sizes it shows something else: the second image is resized, but the copy is not used. *)
Theorem kix_resolution_refuted : exists img1 img2 p q e X Y v, line_ends img1 img2 p q = (e, (Z.of_nat X, Z.of_nat Y)) /\ composed img1 img2 Y X = Fine v /\
  pixel 2 (fst q) /\ pixel 2 (snd q) /\ (2 < cols img2)%nat /\ (2 < rows img2)%nat /\ v <> at_ img2 2 2.
Proof.
  exists (Build_picture 2 2 (fun _ _ => 0%Z)), (Build_picture 4 4 (fun i j => Z.of_nat (10 * i + j))), (0, 0), (2, 2), (trunc (0 + / 2), trunc (0 + / 2)), 3%nat, 1%nat, 11%Z. split; [|split; [reflexivity|]].
  - unfold line_ends. cbn [fst snd cols rows]. f_equal. f_equal; apply trunc_unique; cbn; lra.
  - unfold pixel. cbn. repeat split; try lra; try lia; discriminate.
Qed.
Print Assumptions kix_resolution_refuted.

(** ** Cases *)
Definition three : list (point * point) := [((0, 0), (1, 1)); ((2, 0), (9, 9)); ((0, 2), (1, 3))].
Example kix_ransac_ex : exists est, est true (map fst three) (map snd three) 1 = Estimated [1; 0; 1]%Z /\ compute_inliers_ransac est (flat three) [(7, 7); (8, 8)] 1 true = Got [(7, 7); (8, 8); (0, 0); (1, 1); (0, 2); (1, 3)].
Proof. exists (fun _ _ _ _ => Estimated [1; 0; 1]%Z). split; reflexivity. Qed.
Example kix_agrees_ex : judges (Build_homography 1 0 1 0 1 1 0 0 1) 1 [((0, 0), (1, 1))] [1%Z].
Proof.
  constructor; [|constructor]. left. split; [|reflexivity]. apply pair_ok_iff. unfold pair_ok. cbn [fst snd h11 h12 h13 h21 h22 h23 h31 h32 h33]. destruct (Req_EM_T _ 0); [lra|]. destruct (Rle_dec _ 1) as [|N]; [reflexivity|]. exfalso. apply N. match goal with |- sqrt ?a <= _ => replace a with 0 by field end. rewrite sqrt_0. lra.
Qed.
Example kix_status_ex : exists est, est true (map fst three) (map snd three) 1 = Estimated [] /\ (length (@nil Z) < length three)%nat.
Proof. exists (fun _ _ _ _ => Estimated []). split; [reflexivity|cbn; lia]. Qed.
Example kix_colour_ex : (7 < 0 \/ 2 < 7)%Z.
Proof. lia. Qed.
Example kix_shows_ex : let img := Build_picture 2 3 (fun i j => Z.of_nat (i + j)) in - / 2 <= 17 / 10 < INR (cols img) - / 2 /\ - / 2 <= 3 / 10 < INR (rows img) - / 2.
Proof. cbn. lra. Qed.
Example kix_right_ex : let img1 := Build_picture 2 3 (fun _ _ => 0%Z) in let img2 := Build_picture 4 6 (fun _ _ => 0%Z) in (0 < cols img2)%nat /\ - / 2 <= 4 * INR (cols img1) / INR (cols img2) < INR (cols img1) - / 2 /\ - / 2 <= 1 * INR (rows img1) / INR (rows img2) < INR (rows img1) - / 2.
Proof. cbn. split; [lia|]. lra. Qed.
Example kix_left_ex : let img1 := Build_picture 2 3 (fun _ _ => 0%Z) in - / 2 <= 2 < INR (cols img1) - / 2 /\ - / 2 <= 1 < INR (rows img1) - / 2.
Proof. cbn. lra. Qed.
