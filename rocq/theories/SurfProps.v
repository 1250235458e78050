(** C99: descriptors of KAZE keypoints. *)
From Coq Require Import ZArith Reals List Bool Lia Lra.
From Verif Require Import OrientModel SurfModel SurfSpec.
Import ListNotations.
Local Open Scope R_scope.

(** ** Sums of squares *)
Lemma squares_app a b : squares (a ++ b) = squares a + squares b.
Proof. induction a as [|x a IH]; cbn; [|fold (squares (a ++ b)); rewrite IH]; unfold squares; ring. Qed.
Lemma squares_map c l : squares (map (fun x => x * c) l) = squares l * c * c.
Proof. induction l as [|x l IH]; cbn; [ring|]. unfold squares in *. rewrite IH. ring. Qed.
Lemma squares_spec l : squares l = sum_of_squares l.
Proof. induction l as [|x l IH]; [reflexivity|]. unfold squares, sum_of_squares in *. cbn [fold_right map]. rewrite IH. ring. Qed.
Lemma squares_nonneg l : 0 <= squares l.
Proof. induction l as [|x l IH]; cbn; [lra|]. unfold squares in IH. pose proof (Rle_0_sqr x) as S. unfold Rsqr in S. lra. Qed.
Lemma squares_zero l : squares l = 0 <-> Forall (fun x => x = 0) l.
Proof.
  induction l as [|x l IH]; [split; [constructor|reflexivity]|]. change (squares (x :: l)) with (x * x + squares l). pose proof (squares_nonneg l) as N. pose proof (Rle_0_sqr x) as S. unfold Rsqr in S. split.
  - intros E. constructor; [apply Rsqr_0_uniq; unfold Rsqr; lra|apply IH; lra].
  - intros F. inversion F as [|? ? X F']; subst. apply IH in F'. rewrite F'. ring.
Qed.
Definition entries (cell : list (R * R) -> list R) (cs : list (R * list (R * R))) : list R := flat_map (fun '(g, values) => map (fun x => x * g) (cell values)) cs.
Lemma accumulate_spec cell cs : accumulate cell cs = (entries cell cs, squares (entries cell cs)).
Proof.
  unfold accumulate, entries. assert (forall cs d0 l0, fold_left (fun '(desc, len) '(gauss_s2, values) => let v := cell values in (desc ++ map (fun x => x * gauss_s2) v, len + squares v * gauss_s2 * gauss_s2)) cs (d0, l0) =
    (d0 ++ flat_map (fun '(g, values) => map (fun x => x * g) (cell values)) cs, l0 + squares (flat_map (fun '(g, values) => map (fun x => x * g) (cell values)) cs))) as G; [|rewrite G, Rplus_0_l; reflexivity].
  induction cs0 as [|[g values] cs0 IH]; intros d0 l0; cbn [fold_left flat_map].
  - rewrite app_nil_r. change (squares []) with 0. rewrite Rplus_0_r. reflexivity.
  - rewrite IH, squares_app, squares_map, <- app_assoc. f_equal. ring.
Qed.
(** ** Cells *)
Definition scaled (c : R) (l : list (R * R)) : list (R * R) := map (fun '(x, y) => (c * x, c * y)) l.
Lemma cell4_scaled c l : 0 < c -> cell4 (scaled c l) = map (Rmult c) (cell4 l).
Proof.
  intros C. unfold cell4. assert (forall l a b d e, fold_left (fun '(dx, dy, mdx, mdy) '(x, y) => (dx + x, dy + y, mdx + Rabs x, mdy + Rabs y)) (scaled c l) (c * a, c * b, c * d, c * e) =
    let '(dx, dy, mdx, mdy) := fold_left (fun '(dx, dy, mdx, mdy) '(x, y) => (dx + x, dy + y, mdx + Rabs x, mdy + Rabs y)) l (a, b, d, e) in (c * dx, c * dy, c * mdx, c * mdy)) as G.
  { induction l0 as [|[x y] l0 IH]; intros a b d e; [reflexivity|]. cbn [scaled map fold_left]. rewrite <- IH. rewrite !Rabs_mult, (Rabs_right c) by lra. unfold scaled. f_equal. f_equal; [f_equal; [f_equal|]|]; ring. }
  specialize (G l 0 0 0 0). rewrite !Rmult_0_r in G. rewrite G. destruct (fold_left _ l _) as [[[dx dy] mdx] mdy]. reflexivity.
Qed.
Lemma cell8_scaled c l : 0 < c -> cell8 (scaled c l) = map (Rmult c) (cell8 l).
Proof.
  intros C. unfold cell8. set (step := fun '(dxp, dxn, mdxp, mdxn, dyp, dyn, mdyp, mdyn) '(x, y) => _).
  assert (forall l a1 a2 a3 a4 a5 a6 a7 a8, fold_left step (scaled c l) (c * a1, c * a2, c * a3, c * a4, c * a5, c * a6, c * a7, c * a8) =
    let '(r1, r2, r3, r4, r5, r6, r7, r8) := fold_left step l (a1, a2, a3, a4, a5, a6, a7, a8) in (c * r1, c * r2, c * r3, c * r4, c * r5, c * r6, c * r7, c * r8)) as G.
  { induction l0 as [|[x y] l0 IH]; intros a1 a2 a3 a4 a5 a6 a7 a8; [reflexivity|]. cbn [scaled map fold_left]. fold (scaled c l0). rewrite <- (Rmult_0_r c) in *.
    assert (step (c * a1, c * a2, c * a3, c * a4, c * a5, c * a6, c * a7, c * a8) (c * x, c * y) = let '(r1, r2, r3, r4, r5, r6, r7, r8) := step (a1, a2, a3, a4, a5, a6, a7, a8) (x, y) in (c * r1, c * r2, c * r3, c * r4, c * r5, c * r6, c * r7, c * r8)) as ->.
    { unfold step. rewrite !Rabs_mult, (Rabs_right c) by lra. assert (forall z, 0 <= z <-> 0 <= c * z) as P.
      { intros z. split; intros Z; [apply Rmult_le_pos; lra|]. apply Rmult_le_reg_l with c; lra. }
      destruct (Rle_dec 0 y) as [Y|Y], (Rle_dec 0 (c * y)) as [Y'|Y']; try (exfalso; rewrite P in Y; contradiction); try (exfalso; rewrite <- P in Y'; contradiction);
      destruct (Rle_dec 0 x) as [X|X], (Rle_dec 0 (c * x)) as [X'|X']; try (exfalso; rewrite P in X; contradiction); try (exfalso; rewrite <- P in X'; contradiction); cbv beta iota zeta; rewrite !Rmult_plus_distr_l; reflexivity. }
    destruct (step (a1, a2, a3, a4, a5, a6, a7, a8) (x, y)) as [[[[[[[r1 r2] r3] r4] r5] r6] r7] r8]. apply IH. }
  specialize (G l 0 0 0 0 0 0 0 0). rewrite !Rmult_0_r in G. rewrite G. destruct (fold_left step l _) as [[[[[[[r1 r2] r3] r4] r5] r6] r7] r8]. reflexivity.
Qed.
Definition absolute (f : R * R -> R) (l : list (R * R)) : R := fold_right (fun p s => Rabs (f p) + s) 0 l.
Lemma absolute_nonneg f l : 0 <= absolute f l.
Proof. induction l as [|p l IH]; cbn; [lra|]. unfold absolute in IH. pose proof (Rabs_pos (f p)). lra. Qed.
Lemma absolute_zero f l : absolute f l = 0 -> Forall (fun p => f p = 0) l.
Proof.
  induction l as [|p l IH]; intros E; [constructor|]. change (absolute f (p :: l)) with (Rabs (f p) + absolute f l) in E. pose proof (absolute_nonneg f l). pose proof (Rabs_pos (f p)). constructor; [|apply IH; lra]. destruct (Req_dec (f p) 0) as [Z|Z]; [exact Z|]. apply Rabs_pos_lt in Z. lra.
Qed.
Lemma cell4_absolute l : exists dx dy, cell4 l = [dx; dy; absolute fst l; absolute snd l].
Proof.
  unfold cell4. assert (forall l a b d e, exists dx dy, fold_left (fun '(dx, dy, mdx, mdy) '(x, y) => (dx + x, dy + y, mdx + Rabs x, mdy + Rabs y)) l (a, b, d, e) = (dx, dy, d + absolute fst l, e + absolute snd l)) as G.
  { induction l0 as [|[x y] l0 IH]; intros a b d e; cbn [fold_left].
    - exists a, b. cbn. rewrite !Rplus_0_r. reflexivity.
    - destruct (IH (a + x) (b + y) (d + Rabs x) (e + Rabs y)) as (dx & dy & ->). exists dx, dy. change (absolute fst ((x, y) :: l0)) with (Rabs x + absolute fst l0). change (absolute snd ((x, y) :: l0)) with (Rabs y + absolute snd l0). f_equal; [f_equal|]; ring. }
  destruct (G l 0 0 0 0) as (dx & dy & ->). exists dx, dy. rewrite !Rplus_0_l. reflexivity.
Qed.
Lemma cell8_absolute l : exists dxp dxn mdxp mdxn dyp dyn mdyp mdyn, cell8 l = [dxp; dxn; mdxp; mdxn; dyp; dyn; mdyp; mdyn] /\ mdxp + mdxn = absolute fst l /\ mdyp + mdyn = absolute snd l.
Proof.
  unfold cell8. set (step := fun '(dxp, dxn, mdxp, mdxn, dyp, dyn, mdyp, mdyn) '(x, y) => _).
  assert (forall l a1 a2 a3 a4 a5 a6 a7 a8, exists r1 r2 r3 r4 r5 r6 r7 r8, fold_left step l (a1, a2, a3, a4, a5, a6, a7, a8) = (r1, r2, r3, r4, r5, r6, r7, r8) /\ r3 + r4 = a3 + a4 + absolute fst l /\ r7 + r8 = a7 + a8 + absolute snd l) as G.
  { induction l0 as [|[x y] l0 IH]; intros a1 a2 a3 a4 a5 a6 a7 a8; cbn [fold_left].
    - do 8 eexists. split; [reflexivity|]. cbn. split; ring.
    - change (absolute fst ((x, y) :: l0)) with (Rabs x + absolute fst l0). change (absolute snd ((x, y) :: l0)) with (Rabs y + absolute snd l0).
      assert (exists b1 b2 b3 b4 b5 b6 b7 b8, step (a1, a2, a3, a4, a5, a6, a7, a8) (x, y) = (b1, b2, b3, b4, b5, b6, b7, b8) /\ b3 + b4 = a3 + a4 + Rabs x /\ b7 + b8 = a7 + a8 + Rabs y) as (b1 & b2 & b3 & b4 & b5 & b6 & b7 & b8 & -> & B1 & B2).
      { unfold step. destruct (Rle_dec 0 y), (Rle_dec 0 x); do 8 eexists; (split; [reflexivity|]); split; ring. }
      destruct (IH b1 b2 b3 b4 b5 b6 b7 b8) as (r1 & r2 & r3 & r4 & r5 & r6 & r7 & r8 & E & R1 & R2). exists r1, r2, r3, r4, r5, r6, r7, r8. split; [exact E|]. split; lra. }
  destruct (G l 0 0 0 0 0 0 0 0) as (r1 & r2 & r3 & r4 & r5 & r6 & r7 & r8 & -> & R1 & R2). exists r1, r2, r3, r4, r5, r6, r7, r8. split; [reflexivity|]. split; lra.
Qed.
Definition cell_of (v : variant) := if extended v then cell8 else cell4.
Lemma cell_zero v l : Forall (fun x => x = 0) (cell_of v l) <-> Forall (fun p => p = (0, 0)) l.
Proof.
  split.
  - intros F. assert (absolute fst l = 0 /\ absolute snd l = 0) as [A B].
    { unfold cell_of in F. destruct (extended v).
      - destruct (cell8_absolute l) as (r1 & r2 & r3 & r4 & r5 & r6 & r7 & r8 & E & R1 & R2). rewrite E in F. rewrite Forall_forall in F. rewrite <- R1, <- R2. rewrite (F r3), (F r4), (F r7), (F r8) by (cbn; tauto). lra.
      - destruct (cell4_absolute l) as (dx & dy & E). rewrite E in F. rewrite Forall_forall in F. split; apply F; cbn; tauto. }
    apply absolute_zero in A, B. rewrite Forall_forall in *. intros [x y] I. specialize (A _ I). specialize (B _ I). cbn in A, B. subst. reflexivity.
  - intros F. assert (scaled 2 l = l) as S. { unfold scaled. rewrite <- map_id. apply map_ext_in. intros p I. rewrite Forall_forall in F. rewrite (F p I). f_equal; ring. }
    assert (cell_of v l = map (Rmult 2) (cell_of v l)) as E by (unfold cell_of; destruct (extended v); [rewrite <- cell8_scaled, S by lra|rewrite <- cell4_scaled, S by lra]; reflexivity).
    revert E. generalize (cell_of v l). induction l0 as [|x l0 IH]; intros E; [constructor|]. injection E as E1 E2. constructor; [lra|apply IH, E2].
Qed.
Lemma cell_length v l : length (cell_of v l) = if extended v then 8%nat else 4%nat.
Proof.
  unfold cell_of. destruct (extended v).
  - destruct (cell8_absolute l) as (r1 & r2 & r3 & r4 & r5 & r6 & r7 & r8 & -> & _). reflexivity.
  - destruct (cell4_absolute l) as (dx & dy & ->). reflexivity.
Qed.
(** ** The descriptors *)
Section Theorems.
Variables (height width : Z).
Lemma descriptor_eq v D xf yf size angle : let e := entries (cell_of v) (cells height width v D xf yf (cos angle) (sin angle) (fround (size / 2))) in
  descriptor height width v D xf yf size angle = if Req_EM_T (sqrt (squares e)) 0 then None else Some (map (fun d => d / sqrt (squares e)) e).
Proof. cbv zeta. unfold descriptor. fold (cell_of v). rewrite accumulate_spec. reflexivity. Qed.
Lemma entries_length v cs : length (entries (cell_of v) cs) = (length cs * (if extended v then 8 else 4))%nat.
Proof. unfold entries. induction cs as [|[g values] cs IH]; [reflexivity|]. cbn [flat_map length]. rewrite app_length, map_length, cell_length, IH. destruct (extended v); lia. Qed.
Lemma cells_length v D xf yf co si s : length (cells height width v D xf yf co si s) = 16%nat.
Proof. unfold cells, starts. destruct (kind v); reflexivity. Qed.
(** Every descriptor is a vector of length 1 with 64 or 128 elements. *)
Theorem sux_unit v D xf yf size angle d : descriptor height width v D xf yf size angle = Some d -> unit_vector (if extended v then 128 else 64) d.
Proof.
  rewrite descriptor_eq. set (e := entries _ _). destruct (Req_EM_T (sqrt (squares e)) 0) as [|N]; [discriminate|]. intros [= <-]. split.
  - rewrite map_length. unfold e. rewrite entries_length, cells_length. destruct (extended v); reflexivity.
  - rewrite <- squares_spec. unfold Rdiv. rewrite squares_map. pose proof (sqrt_sqrt (squares e) (squares_nonneg e)) as S. replace (squares e * / sqrt (squares e) * / sqrt (squares e)) with ((sqrt (squares e) * sqrt (squares e)) * / sqrt (squares e) * / sqrt (squares e)) by (rewrite S; reflexivity). field. exact N.
Qed.
(** There is none exactly if all samples are zero. *)
Definition all_samples (v : variant) (D : derivatives) (xf yf size angle : R) : list (R * R) := flat_map snd (cells height width v D xf yf (cos angle) (sin angle) (fround (size / 2))).
Lemma weight_pos v n m : 0 < cell_weight v n m.
Proof. unfold cell_weight. destruct (kind v); try lra. apply exp_pos. Qed.
Lemma cells_weight v D xf yf co si s g values : In (g, values) (cells height width v D xf yf co si s) -> 0 < g.
Proof. unfold cells. rewrite in_flat_map. intros ([n i] & _ & I). apply in_map_iff in I as ([m j] & [= <- <-] & _). apply weight_pos. Qed.
Theorem sux_none v D xf yf size angle : descriptor height width v D xf yf size angle = None <-> Forall (fun p => p = (0, 0)) (all_samples v D xf yf size angle).
Proof.
  rewrite descriptor_eq. unfold all_samples. set (cs := cells _ _ _ _ _ _ _ _ _). set (e := entries _ _). transitivity (squares e = 0).
  { destruct (Req_EM_T (sqrt (squares e)) 0) as [Z|Z]; split; intros H; try discriminate; auto; [apply sqrt_eq_0; [apply squares_nonneg|exact Z]|]. exfalso. apply Z. rewrite H. apply sqrt_0. }
  rewrite squares_zero. assert (forall g values, In (g, values) cs -> 0 < g) as W by (intros g values I; apply (cells_weight _ _ _ _ _ _ _ _ _ I)). unfold e, entries. clear e. clearbody cs. revert W. induction cs as [|[g values] cs IH]; intros W; [split; intros _; constructor|]. cbn [flat_map snd]. rewrite !Forall_app, IH by (intros g' values' I; apply (W g' values'); right; exact I). specialize (W g values (or_introl eq_refl)).
  assert (Forall (fun x => x = 0) (map (fun x => x * g) (cell_of v values)) <-> Forall (fun p => p = (0, 0)) values) as ->; [|reflexivity]. rewrite <- (cell_zero v), Forall_map, !Forall_forall. split; intros F x I; specialize (F x I); cbn in *.
  - apply Rmult_integral in F as [F|F]; [exact F|lra].
  - rewrite F. ring.
Qed.
(** ** Contrast *)
Definition scale_derivatives (c : R) (D : derivatives) : derivatives := Derivatives (fun y x => c * dLx D y x) (fun y x => c * dLy D y x) (fun y x => c * dLxx D y x) (fun y x => c * dLxy D y x) (fun y x => c * dLyy D y x).
Lemma interpolate_scaled v c L sy sx : interpolate height width v (fun y x => c * L y x) sy sx = c * interpolate height width v L sy sx.
Proof. unfold interpolate, bilinear. ring. Qed.
Lemma gauge_scaled c rx ry rxx rxy ryy : 0 < c -> gauge (c * rx) (c * ry) (c * rxx) (c * rxy) (c * ryy) = (c * fst (gauge rx ry rxx rxy ryy), c * snd (gauge rx ry rxx rxy ryy)).
Proof.
  intros C. unfold gauge. assert (0 < c * c) as CC by (apply Rmult_lt_0_compat; exact C). replace (c * rx * (c * rx) + c * ry * (c * ry)) with (c * c * (rx * rx + ry * ry)) by ring.
  destruct (Req_EM_T (rx * rx + ry * ry) 0) as [Z|Z], (Req_EM_T (c * c * (rx * rx + ry * ry)) 0) as [Z'|Z']; cbn [fst snd].
  - f_equal; ring.
  - exfalso. apply Z'. rewrite Z. ring.
  - exfalso. apply Rmult_integral in Z' as [|]; lra.
  - f_equal; field; split; lra.
Qed.
Lemma sample_scaled v c D xf yf co si s i j k l : 0 < c -> sample_values height width v (scale_derivatives c D) xf yf co si s i j k l = let '(x, y) := sample_values height width v D xf yf co si s i j k l in (c * x, c * y).
Proof.
  intros C. unfold sample_values. destruct (position v xf yf co si s k l) as [sy sx]. cbn [scale_derivatives dLx dLy dLxx dLxy dLyy]. rewrite !interpolate_scaled. destruct (kind v).
  - destruct (upright v); f_equal; ring.
  - destruct (position v xf yf co si s (i + 5) (j + 5)) as [ys xs]. destruct (upright v); f_equal; ring.
  - rewrite gauge_scaled by exact C. destruct (gauge _ _ _ _ _) as [a b]. cbn [fst snd]. destruct (extended v); reflexivity.
Qed.
Lemma map_flat_map {A B C} (f : B -> C) (g : A -> list B) l : map f (flat_map g l) = flat_map (fun a => map f (g a)) l.
Proof. induction l as [|a l IH]; [reflexivity|]. cbn [flat_map]. rewrite map_app, IH. reflexivity. Qed.
Lemma cells_scaled v c D xf yf co si s : 0 < c -> cells height width v (scale_derivatives c D) xf yf co si s = map (fun '(g, values) => (g, scaled c values)) (cells height width v D xf yf co si s).
Proof.
  intros C. unfold cells. rewrite map_flat_map. apply flat_map_ext. intros [n i]. rewrite map_map. apply map_ext. intros [m j]. f_equal. unfold scaled. rewrite map_flat_map. apply flat_map_ext. intros k. rewrite map_map. apply map_ext. intros l. apply sample_scaled, C.
Qed.
Lemma entries_scaled v c cs : 0 < c -> entries (cell_of v) (map (fun '(g, values) => (g, scaled c values)) cs) = map (fun x => x * c) (entries (cell_of v) cs).
Proof.
  intros C. unfold entries. rewrite map_flat_map. induction cs as [|[g values] cs IH]; [reflexivity|]. cbn [map flat_map]. rewrite IH. f_equal. assert (cell_of v (scaled c values) = map (Rmult c) (cell_of v values)) as -> by (unfold cell_of; destruct (extended v); [apply cell8_scaled, C|apply cell4_scaled, C]). rewrite !map_map. apply map_ext. intros x. ring.
Qed.
Theorem sux_contrast v D xf yf size angle c : 0 < c -> descriptor height width v (scale_derivatives c D) xf yf size angle = descriptor height width v D xf yf size angle.
Proof.
  intros C. rewrite !descriptor_eq. rewrite cells_scaled, entries_scaled by exact C. set (e := entries _ _). rewrite squares_map. assert (sqrt (squares e * c * c) = sqrt (squares e) * c) as ->.
  { rewrite Rmult_assoc, sqrt_mult_alt by apply squares_nonneg. rewrite sqrt_square by lra. reflexivity. }
  destruct (Req_EM_T (sqrt (squares e)) 0) as [Z|Z], (Req_EM_T (sqrt (squares e) * c) 0) as [Z'|Z'].
  - reflexivity.
  - exfalso. apply Z'. rewrite Z. ring.
  - exfalso. apply Rmult_integral in Z' as [|]; lra.
  - f_equal. rewrite map_map. apply map_ext. intros x. field. split; lra.
Qed.
(** ** Only pixels of the image are read *)
Lemma limit_range size z : (1 <= size)%Z -> (0 <= limit size z < size)%Z.
Proof. intros S. unfold limit. destruct (Z.ltb_spec z 0); destruct (Z.ltb_spec (size - 1) 0); try destruct (Z.ltb_spec (size - 1) z); lia. Qed.
Theorem sux_reads v D D' xf yf size angle : (1 <= height)%Z -> (1 <= width)%Z ->
  (forall y x, (0 <= y < height)%Z -> (0 <= x < width)%Z -> dLx D' y x = dLx D y x /\ dLy D' y x = dLy D y x /\ dLxx D' y x = dLxx D y x /\ dLxy D' y x = dLxy D y x /\ dLyy D' y x = dLyy D y x) ->
  descriptor height width v D' xf yf size angle = descriptor height width v D xf yf size angle.
Proof.
  intros H W E. rewrite !descriptor_eq. assert (cells height width v D' xf yf (cos angle) (sin angle) (fround (size / 2)) = cells height width v D xf yf (cos angle) (sin angle) (fround (size / 2))) as ->; [|reflexivity].
  unfold cells. apply flat_map_ext. intros [n i]. apply map_ext. intros [m j]. f_equal. apply flat_map_ext. intros k. apply map_ext. intros l. unfold sample_values. destruct (position v xf yf (cos angle) (sin angle) (fround (size / 2)) k l) as [sy sx].
  assert (forall L' L : Z -> Z -> R, (forall y x, (0 <= y < height)%Z -> (0 <= x < width)%Z -> L' y x = L y x) -> interpolate height width v L' sy sx = interpolate height width v L sy sx) as I.
  { intros L' L A. unfold interpolate, bilinear. rewrite !A by (apply limit_range; assumption). reflexivity. }
  rewrite (I (dLx D') (dLx D)), (I (dLy D') (dLy D)), (I (dLxx D') (dLxx D)), (I (dLxy D') (dLxy D)), (I (dLyy D') (dLyy D)); [reflexivity|..]; intros y x Y X; destruct (E y x Y X) as (? & ? & ? & ? & ?); assumption.
Qed.
(** ** Interpolation *)
Lemma trunc_floor r z : 0 <= r -> IZR z <= r < IZR z + 1 -> trunc r = z.
Proof.
  intros P [A B]. unfold trunc. destruct (Rle_dec 0 r) as [_|N]; [|contradiction]. destruct (base_Int_part r) as [C D]. assert (IZR (Int_part r) < IZR (z + 1) /\ IZR (z - 1) < IZR (Int_part r)) as [E F] by (rewrite plus_IZR, minus_IZR; lra). apply lt_IZR in E, F. lia.
Qed.
Lemma limit_inside size z : (0 <= z < size)%Z -> limit size z = z.
Proof. intros S. unfold limit. destruct (Z.ltb_spec z 0); [lia|]. destruct (Z.ltb_spec (size - 1) z); [lia|reflexivity]. Qed.
(** Indices of the two pixels along one axis: in the image they are neighbours. *)
Lemma neighbours size s : / 2 <= s < IZR size - / 2 -> exists z, limit size (trunc (s - / 2)) = z /\ limit size (trunc (s + / 2)) = (z + 1)%Z.
Proof.
  intros [A B]. destruct (base_Int_part (s - / 2)) as [C D]. set (z := Int_part (s - / 2)) in *. assert (0 <= z)%Z as N. { assert (IZR (-1) < IZR z) as E by (change (IZR (-1)) with (-1); lra). apply lt_IZR in E. lia. }
  assert (z + 1 < size)%Z as U by (apply lt_IZR; rewrite plus_IZR; lra). exists z. rewrite (trunc_floor (s - / 2) z), (trunc_floor (s + / 2) (z + 1)) by (rewrite ?plus_IZR; lra). rewrite !limit_inside by lia. auto.
Qed.
(** Exact for affine functions, except by the rotated M-SURF descriptors. *)
Theorem sux_affine v a b c sy sx : (kind v = Msurf -> upright v = true) -> / 2 <= sy < IZR height - / 2 -> / 2 <= sx < IZR width - / 2 ->
  interpolate height width v (fun y x => affine a b c (IZR y) (IZR x)) sy sx = affine a b c sy sx.
Proof.
  intros K Y X. destruct (neighbours height sy Y) as (y & Y1 & Y2). destruct (neighbours width sx X) as (x & X1 & X2).
  assert (interpolate height width v (fun y x => affine a b c (IZR y) (IZR x)) sy sx = bilinear (fun y x => affine a b c (IZR y) (IZR x)) y x (y + 1) (x + 1) sy sx) as ->.
  { unfold interpolate. destruct (kind v); [|destruct (upright v); [|specialize (K eq_refl); discriminate]|]; rewrite X1, X2, Y1, Y2; reflexivity. }
  unfold bilinear, affine. rewrite !plus_IZR. ring.
Qed.
(** Beyond the border the nearest pixel of the border is taken. *)
Theorem sux_border v L sy sx : (1 <= height)%Z -> (1 <= width)%Z -> sy < / 2 -> sx < / 2 -> interpolate height width v L sy sx = L 0%Z 0%Z.
Proof.
  intros H W Y X. assert (forall size r, (1 <= size)%Z -> r < 1 -> limit size (trunc r) = 0%Z) as T.
  { intros size r S B. unfold limit. assert (trunc r <= 0)%Z as N.
    { unfold trunc. destruct (Rle_dec 0 r) as [P|P].
      - destruct (base_Int_part r) as [C D]. assert (IZR (Int_part r) < IZR 1) as E by lra. apply lt_IZR in E. lia.
      - destruct (base_Int_part (- r)) as [C D]. assert (IZR (-1) < IZR (Int_part (- r))) as E by (change (IZR (-1)) with (-1); lra). apply lt_IZR in E. lia. }
    destruct (Z.ltb_spec (trunc r) 0); [|assert (trunc r = 0)%Z as -> by lia]; destruct (Z.ltb_spec (size - 1) 0); lia. }
  unfold interpolate.
  rewrite !T by (assumption || lra). assert (limit height (match kind v, upright v with Msurf, false => fround (sy - / 2) | _, _ => trunc (sy - / 2) end) = 0%Z) as -> by (unfold fround; destruct (kind v); [|destruct (upright v)|]; apply T; assumption || lra).
  assert (limit width (match kind v, upright v with Msurf, false => fround (sx - / 2) | _, _ => trunc (sx - / 2) end) = 0%Z) as -> by (unfold fround; destruct (kind v); [|destruct (upright v)|]; apply T; assumption || lra). unfold bilinear. ring.
Qed.
End Theorems.
(** The second derivatives in gauge coordinates do not depend on the orientation of the axes. *)
Theorem sux_gauge t gx gy hxx hxy hyy : let '(gx', gy') := rotated_gradient t gx gy in let '(hxx', hxy', hyy') := rotated_hessian t hxx hxy hyy in gauge gx' gy' hxx' hxy' hyy' = gauge gx gy hxx hxy hyy.
Proof.
  unfold rotated_gradient, rotated_hessian, gauge. pose proof (sin2_cos2 t) as S. unfold Rsqr in S. set (c := cos t) in *. set (s := sin t) in *.
  assert ((c * gx + s * gy) * (c * gx + s * gy) + (- s * gx + c * gy) * (- s * gx + c * gy) = gx * gx + gy * gy) as ->.
  { replace ((c * gx + s * gy) * (c * gx + s * gy) + (- s * gx + c * gy) * (- s * gx + c * gy)) with ((s * s + c * c) * (gx * gx + gy * gy)) by ring. rewrite S. ring. }
  destruct (Req_EM_T (gx * gx + gy * gy) 0); [reflexivity|]. f_equal; f_equal.
  - transitivity ((s * s + c * c) * (s * s + c * c) * (gx * gx * hxx + 2 * gx * hxy * gy + gy * gy * hyy)); [ring|rewrite S; ring].
  - transitivity ((s * s + c * c) * (s * s + c * c) * (-2 * gx * hxy * gy + hxx * (gy * gy) + gx * gx * hyy)); [ring|rewrite S; ring].
Qed.
(** The cells of M-SURF are weighted symmetrically about the middle, the outer rows and columns by a factor exp (- 4 / 9) less than the inner ones; others all the same. *)
Theorem sux_weights v n m : (n < 4)%nat -> (m < 4)%nat ->
  (kind v <> Msurf -> cell_weight v n m = cell_weight v 0 0) /\
  (kind v = Msurf -> cell_weight v n m = cell_weight v m n /\ cell_weight v (3 - n) m = cell_weight v n m /\ cell_weight v 0 m = cell_weight v 1 m * exp (- (4 / 9))).
Proof.
  intros N M. split; intros K; unfold cell_weight.
  - destruct (kind v); try reflexivity. contradiction.
  - rewrite K. unfold gaussian. split; [f_equal; f_equal; ring|]. split; [|rewrite <- exp_plus; f_equal; cbn; field].
    rewrite minus_INR by lia. f_equal. cbn. f_equal. field.
Qed.
Print Assumptions sux_weights.
(** At angle 0 the rotated SURF descriptor is the upright one with x and y exchanged. *)
Definition transposed (D : derivatives) : derivatives := Derivatives (fun y x => dLy D x y) (fun y x => dLx D x y) (fun y x => dLyy D x y) (fun y x => dLxy D x y) (fun y x => dLxx D x y).
Theorem sux_transposed height width ext D xf yf size : descriptor height width (Variant Surf false ext) D xf yf size 0 = descriptor width height (Variant Surf true ext) (transposed D) yf xf size 0.
Proof.
  rewrite !descriptor_eq. assert (cells height width (Variant Surf false ext) D xf yf (cos 0) (sin 0) (fround (size / 2)) = cells width height (Variant Surf true ext) (transposed D) yf xf (cos 0) (sin 0) (fround (size / 2))) as ->; [|reflexivity].
  unfold cells. apply flat_map_ext. intros [n i]. apply map_ext. intros [m j]. f_equal. apply flat_map_ext. intros k. apply map_ext. intros l. unfold sample_values, position. cbn [kind upright extended]. rewrite cos_0, sin_0. unfold interpolate, bilinear. cbn [kind upright transposed dLx dLy].
  replace (yf + (IZR (l * fround (size / 2)) * 1 + IZR (k * fround (size / 2)) * 0)) with (IZR (l * fround (size / 2)) + yf) by ring. replace (xf + (- IZR (l * fround (size / 2)) * 0 + IZR (k * fround (size / 2)) * 1)) with (IZR (k * fround (size / 2)) + xf) by ring. f_equal; ring.
Qed.
Print Assumptions sux_unit.
Print Assumptions sux_none.
Print Assumptions sux_contrast.
Print Assumptions sux_reads.
Print Assumptions sux_affine.
Print Assumptions sux_border.
Print Assumptions sux_gauge.
Print Assumptions sux_transposed.
(** ** Refutations *)
(** Keypoints in a flat part of an image, for example of a level whose derivatives are not computed: all elements are NaN. *)
Definition flat : derivatives := Derivatives (fun _ _ => 0) (fun _ _ => 0) (fun _ _ => 0) (fun _ _ => 0) (fun _ _ => 0).
Theorem sux_flat_refuted : forall v height width xf yf size angle, descriptor height width v flat xf yf size angle = None.
Proof.
  intros. apply sux_none. unfold all_samples. apply Forall_forall. intros p I. apply in_flat_map in I as ([g values] & I & J). cbn [snd] in J. unfold cells in I. apply in_flat_map in I as ([n i] & _ & I). apply in_map_iff in I as ([m j] & [= <- <-] & _). apply in_flat_map in J as (k & _ & J). apply in_map_iff in J as (l & <- & _).
  unfold sample_values. destruct (position v xf yf (cos angle) (sin angle) (fround (size / 2)) k l) as [sy sx]. cbn [flat dLx dLy dLxx dLxy dLyy]. assert (interpolate height width v (fun _ _ => 0) sy sx = 0) as -> by (unfold interpolate, bilinear; ring). destruct (kind v).
  - destruct (upright v); f_equal; ring.
  - destruct (position v xf yf (cos angle) (sin angle) (fround (size / 2)) (i + 5) (j + 5)) as [ys xs]. destruct (upright v); f_equal; ring.
  - unfold gauge. destruct (Req_EM_T (0 * 0 + 0 * 0) 0) as [_|N]; [destruct (extended v); reflexivity|]. exfalso. apply N. ring.
Qed.
Print Assumptions sux_flat_refuted.
(** Interpolation leaves the range of the pixels: left of the middle between two pixels it extrapolates from the two pixels to the left. *)
Definition step_image (y x : Z) : R := if (x <? 5)%Z then 0 else 1.
Theorem sux_range_refuted : exists height width L sy sx, within 0 1 height width L /\ / 2 <= sy < IZR height - / 2 /\ / 2 <= sx < IZR width - / 2 /\ interpolate height width (Variant Surf true false) L sy sx = 125 / 100.
Proof.
  exists 20%Z, 20%Z, step_image, 10, (5 + / 4). split; [intros y x _ _; unfold step_image; destruct (x <? 5)%Z; lra|]. split; [lra|]. split; [lra|]. unfold interpolate. cbn [kind upright]. rewrite (trunc_floor (10 - / 2) 9), (trunc_floor (10 + / 2) 10), (trunc_floor (5 + / 4 - / 2) 4), (trunc_floor (5 + / 4 + / 2) 5) by lra. rewrite !limit_inside by lia. unfold bilinear, step_image. cbn [Z.ltb Z.compare Pos.compare Pos.compare_cont]. lra.
Qed.
Print Assumptions sux_range_refuted.
(** The rotated M-SURF descriptors do not interpolate there at all: a linear image is sampled with an error of a quarter of a pixel, and with a jump in the middle between two pixels. *)
Theorem sux_rotated_refuted : exists height width sy sx, / 2 <= sy < IZR height - / 2 /\ / 2 <= sx < IZR width - / 2 /\ interpolate height width (Variant Msurf false false) (fun y x => IZR x) sy sx = 5 /\ sx = 525 / 100 /\
  interpolate height width (Variant Msurf false false) (fun y x => IZR x) sy (5 + / 2) = 55 / 10 /\ (forall e, 0 <= e < / 2 -> interpolate height width (Variant Msurf false false) (fun y x => IZR x) sy (5 + e) = 5).
Proof.
  assert (forall e, 0 <= e < / 2 -> interpolate 20 20 (Variant Msurf false false) (fun y x => IZR x) 10 (5 + e) = 5) as Q.
  { intros e E. unfold interpolate, fround. cbn [kind upright]. rewrite (trunc_floor (10 - / 2 + / 2) 10), (trunc_floor (10 + / 2) 10), (trunc_floor (5 + e - / 2 + / 2) 5), (trunc_floor (5 + e + / 2) 5) by lra. rewrite !limit_inside by lia. unfold bilinear. lra. }
  exists 20%Z, 20%Z, 10, (525 / 100). split; [lra|]. split; [lra|]. split; [replace (525 / 100) with (5 + / 4) by lra; apply Q; lra|]. split; [lra|]. split; [|exact Q].
  unfold interpolate, fround. cbn [kind upright]. rewrite (trunc_floor (10 - / 2 + / 2) 10), (trunc_floor (10 + / 2) 10), (trunc_floor (5 + / 2 - / 2 + / 2) 5), (trunc_floor (5 + / 2 + / 2) 6) by lra. rewrite !limit_inside by lia. unfold bilinear. lra.
Qed.
Print Assumptions sux_rotated_refuted.
(** An image whose brightness increases to the right has a descriptor. *)
Example sux_unit_ex : exists d, descriptor 50 50 (Variant Surf true false) (Derivatives (fun _ _ => 1) (fun _ _ => 0) (fun _ _ => 0) (fun _ _ => 0) (fun _ _ => 0)) 25 25 4 0 = Some d /\ unit_vector 64 d.
Proof.
  destruct (descriptor _ _ _ _ _ _ _ _) as [d|] eqn:E; [exists d; split; [reflexivity|apply sux_unit in E; exact E]|]. exfalso. apply sux_none in E. unfold all_samples in E. rewrite Forall_forall in E.
  set (s := fround (4 / 2)) in *. specialize (E (sample_values 50 50 (Variant Surf true false) (Derivatives (fun _ _ => 1) (fun _ _ => 0) (fun _ _ => 0) (fun _ _ => 0) (fun _ _ => 0)) 25 25 (cos 0) (sin 0) s (-10) (-10) (-10) (-10))).
  assert (sample_values 50 50 (Variant Surf true false) (Derivatives (fun _ _ => 1) (fun _ _ => 0) (fun _ _ => 0) (fun _ _ => 0) (fun _ _ => 0)) 25 25 (cos 0) (sin 0) s (-10) (-10) (-10) (-10) = (1, 0)) as V by (unfold sample_values, position, interpolate, bilinear; cbn [upright kind dLx dLy]; f_equal; ring).
  rewrite V in E. assert ((1, 0) = (0, 0)) as F; [|injection F; lra]. apply E. rewrite <- V. apply in_flat_map. unfold cells. eexists. split; [apply in_flat_map; exists (0%nat, -10)%Z; split; [left; reflexivity|]; apply in_map_iff; exists (0%nat, -10)%Z; split; [reflexivity|left; reflexivity]|].
  cbn [snd]. apply in_flat_map. exists (-10)%Z. split; [left; reflexivity|]. apply in_map_iff. exists (-10)%Z. split; [reflexivity|left; reflexivity].
Qed.
(** ** Samples *)
Definition indices (v : variant) : list (Z * Z) :=
  flat_map (fun '(_, i) => flat_map (fun '(_, j) => flat_map (fun k => map (fun l => (k, l)) (count j (cell_size v))) (count i (cell_size v))) (starts v)) (starts v).
Definition radius (v : variant) : Z := match kind v with Msurf => 12 | _ => 10 end.
Lemma indices_in v k l : In (k, l) (indices v) <-> (- radius v <= k < radius v)%Z /\ (- radius v <= l < radius v)%Z.
Proof.
  assert (forall a n z, In z (count a n) <-> (a <= z < a + Z.of_nat n)%Z) as C.
  { intros a n z. unfold count. rewrite in_map_iff. split; [intros (x & <- & X); apply in_seq in X; lia|]. intros B. exists (Z.to_nat (z - a)). split; [lia|]. apply in_seq. lia. }
  unfold indices. rewrite in_flat_map. split.
  - intros ([n i] & I & H). apply in_flat_map in H as ([m j] & J & H). apply in_flat_map in H as (k' & K & H). apply in_map_iff in H as (l' & [= -> ->] & L). apply C in K, L. unfold starts, cell_size, radius in *. destruct (kind v); cbn [In] in I, J; destruct I as [[= <- <-]|[[= <- <-]|[[= <- <-]|[[= <- <-]|[]]]]]; destruct J as [[= <- <-]|[[= <- <-]|[[= <- <-]|[[= <- <-]|[]]]]]; lia.
  - intros [K L]. assert (forall z, (- radius v <= z < radius v)%Z -> exists n i, In (n, i) (starts v) /\ In z (count i (cell_size v))) as E.
    { intros z Z. unfold starts, cell_size, radius in *. destruct (kind v).
      - destruct (Z_lt_dec z (-5)); [exists 0%nat, (-10)%Z; split; [cbn; tauto|apply C; lia]|]. destruct (Z_lt_dec z 0); [exists 1%nat, (-5)%Z; split; [cbn; tauto|apply C; lia]|]. destruct (Z_lt_dec z 5); [exists 2%nat, 0%Z; split; [cbn; tauto|apply C; lia]|]. exists 3%nat, 5%Z. split; [cbn; tauto|apply C; lia].
      - destruct (Z_lt_dec z (-7)); [exists 0%nat, (-12)%Z; split; [cbn; tauto|apply C; lia]|]. destruct (Z_lt_dec z (-2)); [exists 1%nat, (-7)%Z; split; [cbn; tauto|apply C; lia]|]. destruct (Z_lt_dec z 3); [exists 2%nat, (-2)%Z; split; [cbn; tauto|apply C; lia]|]. exists 3%nat, 3%Z. split; [cbn; tauto|apply C; lia].
      - destruct (Z_lt_dec z (-5)); [exists 0%nat, (-10)%Z; split; [cbn; tauto|apply C; lia]|]. destruct (Z_lt_dec z 0); [exists 1%nat, (-5)%Z; split; [cbn; tauto|apply C; lia]|]. destruct (Z_lt_dec z 5); [exists 2%nat, 0%Z; split; [cbn; tauto|apply C; lia]|]. exists 3%nat, 5%Z. split; [cbn; tauto|apply C; lia]. }
    destruct (E k K) as (n & i & I & KI). destruct (E l L) as (m & j & J & LJ). exists (n, i). split; [exact I|]. apply in_flat_map. exists (m, j). split; [exact J|]. apply in_flat_map. exists k. split; [exact KI|]. apply in_map. exact LJ.
Qed.
(** The samples are those at all positions (k, l) with -10 <= k, l < 10, each once; for M-SURF, whose cells overlap, -12 <= k, l < 12. *)
Theorem sux_samples height width v D xf yf size angle : (forall k l, In (k, l) (indices v) <-> (- radius v <= k < radius v)%Z /\ (- radius v <= l < radius v)%Z) /\
  (kind v <> Msurf -> NoDup (indices v) /\ all_samples height width v D xf yf size angle = map (fun '(k, l) => sample_values height width v D xf yf (cos angle) (sin angle) (fround (size / 2)) 0 0 k l) (indices v)).
Proof.
  split; [apply indices_in|]. intros K. split.
  - assert (indices v = indices (Variant Surf true true)) as -> by (unfold indices, starts, cell_size; cbn [kind]; destruct (kind v); [reflexivity|contradiction|reflexivity]).
    assert (forall l : list (Z * Z), (fix nodup (l : list (Z * Z)) : bool := match l with [] => true | p :: l => negb (existsb (fun q => (fst p =? fst q)%Z && (snd p =? snd q)%Z) l) && nodup l end) l = true -> NoDup l) as ND.
    { induction l as [|[a b] l IH]; intros H; [constructor|]. apply andb_true_iff in H as [H1 H2]. constructor; [|apply IH, H2]. intros I. apply negb_true_iff in H1. assert (existsb (fun q => (fst (a, b) =? fst q)%Z && (snd (a, b) =? snd q)%Z) l = true) as E; [|congruence]. apply existsb_exists. exists (a, b). split; [exact I|]. rewrite !Z.eqb_refl. reflexivity. }
    apply ND. vm_compute. reflexivity.
  - unfold all_samples, cells, indices. rewrite !(flat_map_concat_map _ (flat_map _ _)). assert (forall A B C (f : B -> list C) (g : A -> list B) l, flat_map f (flat_map g l) = flat_map (fun a => flat_map f (g a)) l) as FF.
    { intros A B C f g l. induction l as [|a l IH]; [reflexivity|]. cbn [flat_map]. rewrite flat_map_app, IH. reflexivity. }
    rewrite <- flat_map_concat_map, FF, map_flat_map. apply flat_map_ext. intros [n i]. rewrite map_flat_map. rewrite flat_map_concat_map, map_map, <- flat_map_concat_map. apply flat_map_ext. intros [m j]. cbn [snd]. rewrite map_flat_map. apply flat_map_ext. intros k. rewrite map_map. apply map_ext. intros l. unfold sample_values. destruct (position v xf yf (cos angle) (sin angle) (fround (size / 2)) k l). destruct (kind v); [reflexivity|contradiction|reflexivity].
Qed.
Print Assumptions sux_samples.
(** The weights within the cells of M-SURF are not centred: opposite corners of a cell have different weights. *)
Theorem sux_centre_refuted : exists D xf yf scale, (forall y x, dLx D y x = 1) /\ fst (sample_values 50 50 (Variant Msurf true false) D xf yf 1 0 scale (-12) (-12) (-12) (-12)) < fst (sample_values 50 50 (Variant Msurf true false) D xf yf 1 0 scale (-12) (-12) (-4) (-4)).
Proof.
  exists (Derivatives (fun _ _ => 1) (fun _ _ => 0) (fun _ _ => 0) (fun _ _ => 0) (fun _ _ => 0)), 25, 25, 2%Z. split; [reflexivity|]. unfold sample_values, position. cbn [upright kind extended dLx dLy]. assert (forall sy sx, interpolate 50 50 (Variant Msurf true false) (fun _ _ => 1) sy sx = 1) as I by (intros; unfold interpolate, bilinear; ring). cbv beta iota zeta. rewrite !I. cbn [fst]. rewrite !Rmult_1_r. unfold gaussian. apply exp_increasing. rewrite !mult_IZR, !plus_IZR. lra.
Qed.
Print Assumptions sux_centre_refuted.

(** ** Rotation *)
Definition sampled (xf yf : R) (F : field) : derivatives :=
  let at_pixel (f : R -> R -> R) (y x : Z) := f (IZR x - xf) (IZR y - yf) in Derivatives (at_pixel (fx F)) (at_pixel (fy F)) (at_pixel (fxx F)) (at_pixel (fxy F)) (at_pixel (fyy F)).
Lemma linear_turned t F : linear_field F -> linear_field (turned t F).
Proof.
  assert (forall f, linear f -> linear (fun dx dy => let '(u, v) := rotated_gradient t dx dy in f u v)) as B.
  { intros f (p & q & r & E). exists p, (q * cos t - r * sin t), (q * sin t + r * cos t). intros dx dy. unfold rotated_gradient. rewrite E. ring. }
  assert (forall a f b g, linear f -> linear g -> linear (fun dx dy => a * f dx dy + b * g dx dy)) as C.
  { intros a f b g (p & q & r & E) (p' & q' & r' & E'). exists (a * p + b * p'), (a * q + b * q'), (a * r + b * r'). intros dx dy. rewrite E, E'. ring. }
  assert (forall f g, (forall dx dy, f dx dy = g dx dy) -> linear g -> linear f) as X by (intros f g E (p & q & r & E'); exists p, q, r; intros; rewrite E; apply E').
  intros (L1 & L2 & L3 & L4 & L5). apply B in L1, L2, L3, L4, L5. unfold linear_field, turned, rotated_hessian. cbn [fx fy fxx fxy fyy fst snd].
  split; [|split; [|split; [|split]]].
  - eapply X; [|exact (C (cos (- t)) _ (sin (- t)) _ L1 L2)]. reflexivity.
  - eapply X; [|exact (C (- sin (- t)) _ (cos (- t)) _ L1 L2)]. reflexivity.
  - eapply X; [|exact (C 1 _ (sin (- t) * sin (- t)) _ (C (cos (- t) * cos (- t)) _ (2 * (cos (- t) * sin (- t))) _ L3 L4) L5)]. intros dx dy. cbv beta. ring.
  - eapply X; [|exact (C 1 _ (cos (- t) * sin (- t)) _ (C (- (cos (- t) * sin (- t))) _ (cos (- t) * cos (- t) - sin (- t) * sin (- t)) _ L3 L4) L5)]. intros dx dy. cbv beta. ring.
  - eapply X; [|exact (C 1 _ (cos (- t) * cos (- t)) _ (C (sin (- t) * sin (- t)) _ (- (2 * (cos (- t) * sin (- t)))) _ L3 L4) L5)]. intros dx dy. cbv beta. ring.
Qed.
Lemma interpolate_linear height width v f xf yf sy sx : kind v <> Msurf -> linear f -> / 2 <= sy < IZR height - / 2 -> / 2 <= sx < IZR width - / 2 ->
  interpolate height width v (fun y x => f (IZR x - xf) (IZR y - yf)) sy sx = f (sx - xf) (sy - yf).
Proof.
  intros K (p & q & r & E) Y X. rewrite E. replace (p + q * (sx - xf) + r * (sy - yf)) with (affine (p - q * xf - r * yf) q r sy sx) by (unfold affine; ring). rewrite <- (sux_affine height width v (p - q * xf - r * yf) q r sy sx) by (tauto || assumption). unfold interpolate, bilinear. rewrite !E. unfold affine. ring.
Qed.
Lemma flat_map_ext_in {A B} (f g : A -> list B) l : (forall a, In a l -> f a = g a) -> flat_map f l = flat_map g l.
Proof. induction l as [|a l IH]; intros H; [reflexivity|]. cbn [flat_map]. rewrite H by (left; reflexivity). f_equal. apply IH. intros; apply H; right; assumption. Qed.
(** All samples of a rotated SURF or G-SURF descriptor are in the image. *)
Definition inside (size : Z) (c : R) (s : Z) : Prop := / 2 <= c - 20 * IZR s /\ c + 20 * IZR s < IZR size - / 2.
Lemma sample_inside size c s k l a b : inside size c s -> (0 <= s)%Z -> (-10 <= k < 10)%Z -> (-10 <= l < 10)%Z -> -1 <= a <= 1 -> -1 <= b <= 1 -> / 2 <= c + (IZR (l * s) * a + IZR (k * s) * b) < IZR size - / 2.
Proof.
  intros [I1 I2] S K L A B. assert (0 <= IZR s) as S' by (apply IZR_le; exact S). assert (forall z u, (-10 <= z < 10)%Z -> -1 <= u <= 1 -> - (10 * IZR s) <= IZR (z * s) * u <= 10 * IZR s) as M.
  { intros z u Z U. rewrite mult_IZR. assert (-10 <= IZR z <= 10) as Z' by (split; apply IZR_le; lia). assert (-10 <= IZR z * u <= 10) as P by nra. replace (IZR z * IZR s * u) with (IZR z * u * IZR s) by ring. nra. }
  pose proof (M l a L A). pose proof (M k b K B). lra.
Qed.
Lemma turned_sample t a (k l : R) : let '(u, v) := rotated_gradient a (- l * sin (t + a) + k * cos (t + a)) (l * cos (t + a) + k * sin (t + a)) in u = - l * sin t + k * cos t /\ v = l * cos t + k * sin t.
Proof.
  unfold rotated_gradient. assert (cos t = cos a * cos (t + a) + sin a * sin (t + a)) as C by (replace t with ((t + a) - a) at 1 by ring; rewrite cos_minus; ring). assert (sin t = cos a * sin (t + a) - sin a * cos (t + a)) as S by (replace t with ((t + a) - a) at 1 by ring; rewrite sin_minus; ring). rewrite C, S. split; ring.
Qed.
(** The image and the keypoint turned by the same angle: the same descriptor. For derivatives that are linear around the keypoint, where interpolation is exact; not for M-SURF (sux_rotated_refuted). *)
Theorem sux_rotation height width f ext F xf yf size angle a : f <> Msurf -> linear_field F -> (0 <= fround (size / 2))%Z -> inside height yf (fround (size / 2)) -> inside width xf (fround (size / 2)) ->
  descriptor height width (Variant f false ext) (sampled xf yf (turned a F)) xf yf size (angle + a) = descriptor height width (Variant f false ext) (sampled xf yf F) xf yf size angle.
Proof.
  intros NM LF S IY IX. rewrite !descriptor_eq. set (s := fround (size / 2)) in *. set (v := Variant f false ext). assert (cells height width v (sampled xf yf (turned a F)) xf yf (cos (angle + a)) (sin (angle + a)) s = cells height width v (sampled xf yf F) xf yf (cos angle) (sin angle) s) as ->; [|reflexivity].
  pose proof (linear_turned a F LF) as LT. assert (kind v <> Msurf) as KV by exact NM.
  assert (forall i j k l, (-10 <= k < 10)%Z -> (-10 <= l < 10)%Z -> sample_values height width v (sampled xf yf (turned a F)) xf yf (cos (angle + a)) (sin (angle + a)) s i j k l = sample_values height width v (sampled xf yf F) xf yf (cos angle) (sin angle) s i j k l) as SV.
  { intros i j k l K L. unfold sample_values, position. cbn [v upright kind extended]. cbv zeta.
    assert (forall G t, linear_field G -> let sy := yf + (IZR (l * s) * cos t + IZR (k * s) * sin t) in let sx := xf + (- IZR (l * s) * sin t + IZR (k * s) * cos t) in forall g, linear g -> interpolate height width v (fun y x => g (IZR x - xf) (IZR y - yf)) sy sx = g (- IZR (l * s) * sin t + IZR (k * s) * cos t) (IZR (l * s) * cos t + IZR (k * s) * sin t)) as Q.
    { intros G t LG sy sx g Lg. pose proof (COS_bound t). pose proof (SIN_bound t). rewrite interpolate_linear; [|exact KV|exact Lg| |].
      - unfold sy, sx. f_equal; ring.
      - apply sample_inside; assumption.
      - unfold sx. replace (- IZR (l * s) * sin t) with (IZR (l * s) * - sin t) by ring. apply sample_inside; try assumption. lra. }
    destruct LF as (L1 & L2 & L3 & L4 & L5). destruct LT as (T1 & T2 & T3 & T4 & T5). unfold sampled. cbn [dLx dLy dLxx dLxy dLyy]. fold v.
    rewrite !(Q F) by (repeat split; assumption). pose proof (turned_sample angle a (IZR (k * s)) (IZR (l * s))) as TS. unfold turned. cbn [fx fy fxx fxy fyy]. destruct (rotated_gradient a (- IZR (l * s) * sin (angle + a) + IZR (k * s) * cos (angle + a)) (IZR (l * s) * cos (angle + a) + IZR (k * s) * sin (angle + a))) as [u w]. destruct TS as [-> ->].
    set (u' := - IZR (l * s) * sin angle + IZR (k * s) * cos angle). set (w' := IZR (l * s) * cos angle + IZR (k * s) * sin angle). destruct f; [|contradiction|].
    - unfold rotated_gradient. cbn [fst snd]. rewrite cos_neg, sin_neg, cos_plus, sin_plus. pose proof (sin2_cos2 a) as P. unfold Rsqr in P. generalize (fx F u' w') (fy F u' w'). intros gx gy. set (ca := cos a) in *. set (sa := sin a) in *. f_equal.
      + transitivity ((sa * sa + ca * ca) * (- gx * sin angle + gy * cos angle)); [ring|rewrite P; ring].
      + transitivity ((sa * sa + ca * ca) * (gx * cos angle + gy * sin angle)); [ring|rewrite P; ring].
    - pose proof (sux_gauge (- a) (fx F u' w') (fy F u' w') (fxx F u' w') (fxy F u' w') (fyy F u' w')) as GA. unfold rotated_gradient, rotated_hessian in *. cbn [fst snd]. rewrite GA. reflexivity. }
  unfold cells. apply flat_map_ext_in. intros [n i] I. apply map_ext_in. intros [m j] J. f_equal. apply flat_map_ext_in. intros k IK. apply map_ext_in. intros l IL.
  assert (forall z i n, In (n, i) (starts v) -> In z (count i (cell_size v)) -> (-10 <= z < 10)%Z) as R.
  { intros z i' n' I' Z. unfold count in Z. apply in_map_iff in Z as (x & <- & X). apply in_seq in X. unfold starts, cell_size in *. cbn [v kind] in *. destruct f; [|contradiction|]; cbn [In] in I'; destruct I' as [[= <- <-]|[[= <- <-]|[[= <- <-]|[[= <- <-]|[]]]]]; lia. }
  apply SV; [exact (R k i n I IK)|exact (R l j m J IL)].
Qed.
Example sux_rotation_ex : linear_field (Field (fun dx dy => 3 + dx) (fun dx dy => 1 - dy) (fun _ _ => 1) (fun _ _ => 0) (fun _ _ => -1)) /\ inside 100 50 2.
Proof.
  split; [|unfold inside; lra]. split; [exists 3, 1, 0; intros; cbn; ring|]. split; [exists 1, 0, (-1); intros; cbn; ring|]. split; [exists 1, 0, 0; intros; cbn; ring|]. split; [exists 0, 0, 0; intros; cbn; ring|exists (-1), 0, 0; intros; cbn; ring].
Qed.
Print Assumptions sux_rotation.
