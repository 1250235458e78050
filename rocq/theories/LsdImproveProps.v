(** C107: the pixels counted in a rectangle, and the improvement of rectangles. *)
From Coq Require Import ZArith Reals List Bool Lia Lra.
From Verif Require Import OrientModel LsdRegionModel LsdRegionSpec LsdGrowProofs LsdImproveModel LsdImproveSpec.
Import ListNotations.
Local Open Scope R_scope.

(** ** Pixels *)
Lemma between_NoDup a b : NoDup (between a b).
Proof. unfold between. generalize (seq_NoDup (Z.to_nat (b - a + 1)) 0). generalize (seq 0 (Z.to_nat (b - a + 1))). intros l N. induction N as [|k l NI N IH]; cbn [map]; constructor; [|exact IH]. intros I. apply in_map_iff in I as (j & E & I). apply NI. replace k with j by lia. exact I. Qed.
Lemma row_spec w y left right q : In q (row w y left right) <-> snd q = y /\ (left <= fst q <= right)%Z /\ (0 <= fst q < w)%Z.
Proof.
  unfold row. rewrite in_map_iff. split.
  - intros (x & <- & I). apply filter_In in I as [I B]. apply between_in in I. cbn. lia.
  - intros (E & B & C). exists (fst q). split; [destruct q; cbn in *; congruence|]. apply filter_In. split; [apply between_in; exact B|]. lia.
Qed.
Lemma row_NoDup w y left right : NoDup (row w y left right).
Proof.
  unfold row. pose proof (NoDup_filter (fun x => (0 <=? x) && (x <? w))%Z (between_NoDup left right)) as N. induction N as [|x l NI N IH]; cbn [map]; constructor; [|exact IH]. intros I. apply in_map_iff in I as (j & [= ->] & I). contradiction.
Qed.
Lemma scan_in w h ly ry sl sr n : forall y l r ls rs q, In q (scan n w h y ly ry sl sr l r ls rs) -> in_image w h q /\ (y <= snd q)%Z.
Proof.
  induction n as [|n IH]; intros y l r ls rs q I; [destruct I|]. cbn [scan] in I. destruct ((y <? 0) || (h <=? y))%Z eqn:E.
  - apply IH in I as [A B]. split; [exact A|lia].
  - apply in_app_iff in I as [I|I]; [|apply IH in I as [A B]; split; [exact A|lia]]. apply row_spec in I as (A & _ & B). split; [unfold in_image; lia|lia].
Qed.
Lemma NoDup_app_intro {A} (l m : list A) : NoDup l -> NoDup m -> (forall a, In a l -> In a m -> False) -> NoDup (l ++ m).
Proof. intros N M D. induction N as [|a l NI N IH]; cbn [app]; [exact M|]. constructor; [|apply IH; intros b I J; apply (D b); [right; exact I|exact J]]. rewrite in_app_iff. intros [I|I]; [contradiction|]. apply (D a); [left; reflexivity|exact I]. Qed.
Lemma scan_NoDup w h ly ry sl sr n : forall y l r ls rs, NoDup (scan n w h y ly ry sl sr l r ls rs).
Proof.
  induction n as [|n IH]; intros y l r ls rs; [constructor|]. cbn [scan]. destruct ((y <? 0) || (h <=? y))%Z; [apply IH|]. apply NoDup_app_intro; [apply row_NoDup|apply IH|]. intros q I J. apply row_spec in I as (I & _). apply scan_in in J as [_ J]. lia.
Qed.
(** Only pixels of the image are read, none of them twice. *)
Theorem lix_inside w h r : NoDup (counted w h r) /\ forall q, In q (counted w h r) -> in_image w h q.
Proof.
  unfold counted. destruct (take _ _) as [min_y l]. destruct (take _ l) as [leftmost l']. destruct (take _ l') as [rightmost l'']. destruct (take _ l'') as [tailp l''']. split; [apply scan_NoDup|]. intros q I. apply scan_in in I as [I _]. exact I.
Qed.
Lemma counts_le w h ang theta r : (alg_pts w h ang theta r <= total_pts w h r)%nat.
Proof. unfold alg_pts, total_pts. induction (counted w h r) as [|q l IH]; cbn; [lia|]. destruct (is_aligned _ _ _); cbn; lia. Qed.

(** While the rows are above the left and the right corner, the k-th row of the image reaches from the left edge to the right edge, which move by their steps. *)
Theorem lix_rows w h ly ry sl sr n y l r ls rs q : (0 <= y)%Z -> (y + Z.of_nat n <= h)%Z -> (y + Z.of_nat n <= ly)%Z -> (y + Z.of_nat n <= ry)%Z ->
  In q (scan n w h y ly ry sl sr l r ls rs) <->
  exists k : Z, (0 <= k < Z.of_nat n)%Z /\ snd q = (y + k)%Z /\ (l + k * ls <= fst q <= r + k * rs)%Z /\ (0 <= fst q < w)%Z.
Proof.
  revert y l r. induction n as [|n IH]; intros y l r Y H L R.
  { split; [intros []|]. intros (k & K & _). lia. }
  cbn [scan]. rewrite (proj2 (Z.ltb_ge y 0)), (proj2 (Z.leb_gt h y)), (proj2 (Z.leb_gt ly y)), (proj2 (Z.leb_gt ry y)) by lia. cbn [orb].
  rewrite in_app_iff, row_spec, IH by lia. split.
  - intros [(E & B & W)|(k & K & E & B & W)]; [exists 0%Z|exists (k + 1)%Z]; repeat split; try lia.
  - intros (k & K & E & B & W). destruct (Z.eq_dec k 0) as [->|N]; [left; repeat split; lia|]. right. exists (k - 1)%Z. repeat split; try lia.
Qed.
Print Assumptions lix_rows.
(** From the row of a corner on the edge has the second step. *)
Theorem lix_rows_below w h ly ry sl sr n y l r ls rs q : (0 <= y)%Z -> (y + Z.of_nat n <= h)%Z -> (ly <= y)%Z -> (ry <= y)%Z ->
  In q (scan n w h y ly ry sl sr l r ls rs) <->
  exists k : Z, (0 <= k < Z.of_nat n)%Z /\ snd q = (y + k)%Z /\ (l + k * sl <= fst q <= r + k * sr)%Z /\ (0 <= fst q < w)%Z.
Proof.
  revert y l r ls rs. induction n as [|n IH]; intros y l r ls rs Y H L R.
  { split; [intros []|]. intros (k & K & _). lia. }
  cbn [scan]. rewrite (proj2 (Z.ltb_ge y 0)), (proj2 (Z.leb_gt h y)), (proj2 (Z.leb_le ly y)), (proj2 (Z.leb_le ry y)) by lia. cbn [orb].
  rewrite in_app_iff, row_spec, IH by lia. split.
  - intros [(E & B & W)|(k & K & E & B & W)]; [exists 0%Z|exists (k + 1)%Z]; repeat split; try lia.
  - intros (k & K & E & B & W). destruct (Z.eq_dec k 0) as [->|N]; [left; repeat split; lia|]. right. exists (k - 1)%Z. repeat split; try lia.
Qed.
Print Assumptions lix_rows_below.
(** A small parallelogram: both edges go to the right by one each row. *)
Example lix_rows_ex : scan 3 20 20 5 9 9 0 0 2 4 1 1 = [(2, 5); (3, 5); (4, 5); (3, 6); (4, 6); (5, 6); (4, 7); (5, 7); (6, 7)]%Z.
Proof. reflexivity. Qed.

(** Rectangles along the axes *)
Lemma scan_column w h ly ry sl n x : forall y, (sl = 0%Z \/ n = Z.to_nat (ly - y + 1)) -> forall q, In q (scan n w h y ly ry sl 0 x x 0 0) -> fst q = x /\ (y <= snd q < y + Z.of_nat n)%Z.
Proof.
  induction n as [|n IH]; intros y N q I; [destruct I|]. cbn [scan] in I. destruct ((y <? 0) || (h <=? y))%Z.
  - apply (IH (y + 1)%Z) in I; [split; lia|lia].
  - apply in_app_iff in I as [I|I]; [apply row_spec in I; lia|]. replace (if (ry <=? y)%Z then 0%Z else 0%Z) with 0%Z in I by (destruct (ry <=? y)%Z; reflexivity). rewrite Z.add_0_r in I. destruct (Z.leb_spec ly y) as [B|B].
    + destruct N as [-> | N]; [|replace n with 0%nat in I by lia; destruct I]. rewrite Z.add_0_r in I. apply (IH (y + 1)%Z) in I; [split; lia|lia].
    + rewrite Z.add_0_r in I. apply (IH (y + 1)%Z) in I; [split; lia|lia].
Qed.
Lemma step_of_0 a b : step_of 0 a b = 0%Z.
Proof. unfold step_of. destruct (a =? b)%Z; [reflexivity|]. destruct (a - b)%Z; reflexivity. Qed.
Lemma step_of_same n a : step_of n a a = 0%Z.
Proof. unfold step_of. rewrite Z.eqb_refl. reflexivity. Qed.
Ltac sorts := repeat (cbn [insert fold_right];
  match goal with |- context [smaller ?a ?b] =>
    first [replace (smaller a b) with true by (symmetry; unfold smaller; cbn [fst snd]; destruct (Z.eqb_spec (fst a) (fst b)) as [Q|Q]; cbn [fst snd] in Q; first [lia|rewrite ?Z.eqb_refl; try (rewrite (proj2 (Z.eqb_neq _ _)) by lia); apply Z.ltb_lt; lia])
          |replace (smaller a b) with false by (symmetry; unfold smaller; cbn [fst snd]; destruct (Z.eqb_spec (fst a) (fst b)) as [Q|Q]; cbn [fst snd] in Q; first [lia|rewrite ?Z.eqb_refl; try (rewrite (proj2 (Z.eqb_neq _ _)) by lia); apply Z.ltb_ge; lia])] end).
(** The corners of a rectangle along the axes in the order of the code. *)
Definition upright (l : list pixel) (xa xb ya yb : Z) : Prop := (xa <= xb)%Z /\ (ya <= yb)%Z /\ (l = [(xa, yb); (xb, yb); (xb, ya); (xa, ya)] \/ l = [(xa, ya); (xa, yb); (xb, yb); (xb, ya)]).
Lemma sort_upright l xa xb ya yb : upright l xa xb ya yb -> sort_corners l = if (xa =? xb)%Z then [(xa, ya); (xa, ya); (xa, yb); (xa, yb)] else [(xa, ya); (xa, yb); (xb, ya); (xb, yb)].
Proof.
  intros (X & Y & E). unfold sort_corners. destruct (Z.eqb_spec xa xb) as [<- | NX]; destruct (Z.eq_dec ya yb) as [<- | NY]; destruct E as [-> | ->]; cbn [fold_right insert]; sorts; reflexivity.
Qed.
Lemma counted_upright w h r xa xb ya yb : upright (corners r) xa xb ya yb -> forall q, In q (counted w h r) -> fst q = xa /\ (ya <= snd q <= yb)%Z.
Proof.
  intros U q I. unfold counted in I. rewrite (sort_upright _ _ _ _ _ U) in I. destruct U as (X & Y & _). destruct (Z.eqb_spec xa xb) as [<- | NX].
  - repeat (cbn [take best_from hd fst snd firstn skipn app fold_left] in I; first [rewrite Z.ltb_irrefl in I|rewrite (proj2 (Z.ltb_ge yb ya)) in I by lia]). cbn [take best_from hd fst snd firstn skipn app fold_left] in I. rewrite !Z.sub_diag, !step_of_0 in I. apply scan_column in I; [|left; reflexivity]. split; lia.
  - repeat (cbn [take best_from hd fst snd firstn skipn app fold_left] in I; first [rewrite Z.ltb_irrefl in I|rewrite (proj2 (Z.ltb_ge yb ya)) in I by lia|rewrite (proj2 (Z.ltb_ge xb xa)) in I by lia]). cbn [take best_from hd fst snd firstn skipn app fold_left] in I. rewrite !Z.sub_diag, !step_of_0, step_of_same in I. apply scan_column in I; [split; lia|]. right. f_equal. lia.
Qed.
Lemma column_length (l : list pixel) x ya yb : NoDup l -> (forall q, In q l -> fst q = x /\ (ya <= snd q <= yb)%Z) -> (ya <= yb)%Z -> (Z.of_nat (length l) <= yb - ya + 1)%Z.
Proof.
  intros N H L. assert (NoDup (map snd l)) as N'. { induction N as [|a l NI N IH]; cbn [map]; constructor; [|apply IH; intros q I; apply H; right; exact I]. intros I. apply in_map_iff in I as (b & E & I). apply NI. destruct a as [a1 a2], b as [b1 b2]. cbn in E. subst b2. pose proof (H (a1, a2) (or_introl eq_refl)) as [H1 _]. pose proof (H (b1, a2) (or_intror I)) as [H2 _]. cbn in H1, H2. replace a1 with b1 by congruence. exact I. }
  assert (incl (map snd l) (between ya yb)) as J. { intros y I. apply in_map_iff in I as (q & <- & I). apply between_in. apply H. exact I. }
  pose proof (NoDup_incl_length N' J) as LE. rewrite map_length in LE. unfold between in LE. rewrite map_length, seq_length in LE. unfold pixel in *. lia.
Qed.
Lemma trunc_mono a b : a <= b -> (trunc a <= trunc b)%Z.
Proof.
  intros L. unfold trunc. destruct (Rle_dec 0 a), (Rle_dec 0 b); try lra.
  - apply Z.lt_succ_r, lt_IZR. rewrite succ_IZR. destruct (base_Int_part a), (base_Int_part b). lra.
  - assert (0 <= Int_part (- a))%Z. { apply Z.lt_succ_r, lt_IZR. rewrite succ_IZR. destruct (base_Int_part (- a)). lra. } assert (0 <= Int_part b)%Z. { apply Z.lt_succ_r, lt_IZR. rewrite succ_IZR. destruct (base_Int_part b). lra. } lia.
  - assert (Int_part (- b) <= Int_part (- a))%Z; [|lia]. apply Z.lt_succ_r, lt_IZR. rewrite succ_IZR. destruct (base_Int_part (- a)), (base_Int_part (- b)). lra.
Qed.
(** Of a rectangle along the x axis, however long, only the pixels above its start are counted, of one along the y axis only those of its left side: the counts say nothing about the rest of the rectangle. *)
Theorem lix_axis w h r :
  (bdx r = 1 -> bdy r = 0 -> by1 r = by2 r -> bx1 r <= bx2 r -> 0 <= bw r ->
   (forall q, In q (counted w h r) -> fst q = trunc (bx1 r)) /\ IZR (Z.of_nat (total_pts w h r)) <= bw r + 3) /\
  (bdx r = 0 -> bdy r = 1 -> bx1 r = bx2 r -> by1 r <= by2 r -> 0 <= bw r ->
   forall q, In q (counted w h r) -> fst q = trunc (bx1 r - bw r / 2)).
Proof.
  split; intros DX DY E L W.
  - assert (upright (corners r) (trunc (bx1 r)) (trunc (bx2 r)) (trunc (by1 r - bw r / 2)) (trunc (by1 r + bw r / 2))) as U.
    { split; [apply trunc_mono; lra|]. split; [apply trunc_mono; lra|]. left. unfold corners. rewrite DX, DY, <- E, !Rmult_0_l, !Rmult_1_l, !Rminus_0_r, !Rplus_0_r. reflexivity. }
    pose proof (counted_upright w h r _ _ _ _ U) as C. split; [intros q I; apply (C q I)|].
    pose proof (column_length _ _ _ _ (proj1 (lix_inside w h r)) C (proj1 (proj2 U))) as N. fold (total_pts w h r) in N. apply IZR_le in N. rewrite plus_IZR, minus_IZR in N.
    assert (forall a, a - 1 <= IZR (trunc a) <= a + 1) as T. { intros a. unfold trunc. destruct (Rle_dec 0 a); [destruct (base_Int_part a); lra|]. rewrite opp_IZR. destruct (base_Int_part (- a)). lra. }
    pose proof (T (by1 r + bw r / 2)). pose proof (T (by1 r - bw r / 2)). lra.
  - assert (upright (corners r) (trunc (bx1 r - bw r / 2)) (trunc (bx1 r + bw r / 2)) (trunc (by1 r)) (trunc (by2 r))) as U.
    { split; [apply trunc_mono; lra|]. split; [apply trunc_mono; lra|]. right. unfold corners. rewrite DX, DY, <- E, !Rmult_0_l, !Rmult_1_l, !Rminus_0_r, !Rplus_0_r. reflexivity. }
    intros q I. apply (counted_upright w h r _ _ _ _ U q I).
Qed.
(** So the pixels counted are not those of the rectangle. *)
Theorem lix_count_refuted : exists w h r, (forall x y, (0 <= x < 100)%Z -> (9 <= y <= 11)%Z -> covers (bx1 r) (by1 r) (bx2 r) (by2 r) (bw r) (bdx r) (bdy r) (IZR x) (IZR y) /\ in_image w h (x, y)) /\ (total_pts w h r <= 5)%nat.
Proof.
  exists 200%Z, 100%Z, (Box 0 10 99 10 2 1 0 (PI / 8) (/ 8)). split.
  - intros x y X Y. split; [|unfold in_image; cbn; lia]. cbn [bx1 by1 bx2 by2 bw bdx bdy]. exists (IZR x / 99), (IZR y - 10). assert (0 <= IZR x <= 99) by (split; apply IZR_le; lia). assert (9 <= IZR y <= 11) by (split; apply IZR_le; lia). split; [lra|]. split; [apply Rabs_le; lra|]. split; lra.
  - destruct (proj1 (lix_axis 200 100 (Box 0 10 99 10 2 1 0 (PI / 8) (/ 8))) eq_refl eq_refl eq_refl ltac:(cbn; lra) ltac:(cbn; lra)) as [_ B]. cbn [bw] in B. assert (Z.of_nat (total_pts 200 100 (Box 0 10 99 10 2 1 0 (PI / 8) (/ 8))) <= 5)%Z; [apply le_IZR; lra|lia].
Qed.

(** ** Improvement *)
Section Improve.
Variable f : box -> R.
(** What every change keeps, going from [a] to [b]. *)
Definition smaller_box (a b : box) : Prop :=
  bdx b = bdx a /\ bdy b = bdy a /\ bx2 b - bx1 b = bx2 a - bx1 a /\ by2 b - by1 b = by2 a - by1 a /\
  (/ 2 <= bw a -> / 2 <= bw b) /\ bw b <= bw a /\
  (exists s, Rabs s <= (bw a - bw b) / 2 /\ bx1 b = bx1 a - s * bdy a /\ by1 b = by1 a + s * bdx a) /\
  (exists k, bp b = bp a / 2 ^ k) /\ (bprec a = bp a * PI -> bprec b = bp b * PI).
Lemma smaller_box_refl a : smaller_box a a.
Proof. do 6 (split; [reflexivity || lra || auto|]). split; [exists 0; rewrite Rabs_R0; split; [lra|split; lra]|]. split; [exists 0%nat; cbn; field|auto]. Qed.
Lemma smaller_box_trans a b c : smaller_box a b -> smaller_box b c -> smaller_box a c.
Proof.
  intros (A1 & A2 & A3 & A4 & A5 & A6 & (s & S1 & S2 & S3) & (k & K) & A7) (B1 & B2 & B3 & B4 & B5 & B6 & (t & T1 & T2 & T3) & (m & M) & B7).
  split; [congruence|]. split; [congruence|]. split; [lra|]. split; [lra|]. split; [auto|]. split; [lra|]. split; [exists (s + t); split; [pose proof (Rabs_triang s t); lra|]; rewrite T2, T3, S2, S3, A1, A2; split; ring|]. split; [exists (k + m)%nat; rewrite M, K, pow_add; field; split; apply pow_nonzero; lra|auto].
Qed.
Lemma finer_smaller a : smaller_box a (finer a).
Proof. unfold finer, smaller_box. cbn. do 6 (split; [reflexivity || lra || auto|]). split; [exists 0; rewrite Rabs_R0; split; [lra|split; lra]|]. split; [exists 1%nat; cbn; field|auto]. Qed.
Lemma narrower_smaller a : enough_width a = true -> smaller_box a (narrower a).
Proof. unfold enough_width. destruct (Rle_dec _ _) as [E|]; [intros _|discriminate]. unfold narrower, smaller_box. cbn. do 6 (split; [reflexivity || lra || auto|]). split; [exists 0; rewrite Rabs_R0; split; [lra|split; lra]|]. split; [exists 0%nat; cbn; field|auto]. Qed.
Lemma one_side_smaller a : enough_width a = true -> smaller_box a (one_side a).
Proof. unfold enough_width. destruct (Rle_dec _ _) as [E|]; [intros _|discriminate]. unfold one_side, smaller_box. cbn. do 6 (split; [reflexivity || lra || auto|]). split; [exists (/ 4); rewrite Rabs_right by lra; split; [lra|split; lra]|]. split; [exists 0%nat; cbn; field|auto]. Qed.
Lemma other_side_smaller a : enough_width a = true -> smaller_box a (other_side a).
Proof. unfold enough_width. destruct (Rle_dec _ _) as [E|]; [intros _|discriminate]. unfold other_side, smaller_box. cbn. do 6 (split; [reflexivity || lra || auto|]). split; [exists (- / 4); rewrite Rabs_left by lra; split; [lra|split; lra]|]. split; [exists 0%nat; cbn; field|auto]. Qed.

(** A state of the improvement of the rectangle [a]. *)
Definition improved (a : box) (st : box * R) : Prop := smaller_box a (fst st) /\ snd st = f (fst st) /\ f a <= snd st /\ (fst st = a \/ f a < snd st).
Lemma tries_improved a guard change : (forall r, guard r = true -> smaller_box r (change r)) -> forall n r st, smaller_box a r -> improved a st -> improved a (tries f n guard change r st).
Proof.
  intros H. induction n as [|n IH]; intros r st A I; [exact I|]. cbn [tries]. destruct (guard r) eqn:G; [|apply IH; assumption]. cbv zeta. pose proof (smaller_box_trans a r (change r) A (H r G)) as A'. apply IH; [exact A'|]. destruct (Rlt_dec _ _) as [L|L]; [|exact I]. destruct I as (_ & _ & I & _). split; [exact A'|]. split; [reflexivity|]. cbn [fst snd]. split; [lra|right; lra].
Qed.
Lemma phase_improved a guard change st : (forall r, guard r = true -> smaller_box r (change r)) -> improved a st -> improved a (phase f guard change st).
Proof. intros H I. apply tries_improved; [exact H|apply I|exact I]. Qed.
Lemma unless_good_improved a log_eps next st : (improved a st -> improved a (next st)) -> improved a st -> improved a (unless_good log_eps next st).
Proof. intros H I. unfold unless_good. destruct (Rlt_dec _ _); auto. Qed.
Lemma rect_improve_improved log_eps r : improved r (rect_improve f log_eps r).
Proof.
  unfold rect_improve. repeat (apply unless_good_improved; [intros _|]).
  all: repeat first [apply phase_improved|apply unless_good_improved; [intros _|]].
  all: try (intros q _; apply finer_smaller). all: try apply narrower_smaller. all: try apply one_side_smaller. all: try apply other_side_smaller.
  all: try (split; [apply smaller_box_refl|split; [reflexivity|split; [cbn; lra|left; reflexivity]]]).
Qed.
(** The value returned is that of the rectangle left, which is the old one or better; a good rectangle is not touched. *)
Theorem lix_value log_eps r : let '(r', v) := rect_improve f log_eps r in v = f r' /\ f r <= v /\ (r' = r \/ f r < v) /\ (log_eps < f r -> r' = r).
Proof.
  pose proof (rect_improve_improved log_eps r) as (_ & B & C & D). destruct (rect_improve f log_eps r) as [r' v] eqn:E. cbn [fst snd] in *. split; [exact B|]. split; [exact C|]. split; [exact D|]. intros G. unfold rect_improve, unless_good in E. cbn [snd] in E. destruct (Rlt_dec log_eps (f r)); [|contradiction]. congruence.
Qed.
Lemma tries_rises guard change : forall n r st, snd st <= snd (tries f n guard change r st).
Proof. induction n as [|n IH]; intros r st; cbn [tries]; [lra|]. destruct (guard r); [|apply IH]. eapply Rle_trans; [|apply IH]. destruct (Rlt_dec _ _); cbn [snd]; lra. Qed.
Lemma unless_good_rises log_eps next st : (forall st, snd st <= snd (next st)) -> snd st <= snd (unless_good log_eps next st).
Proof. intros H. unfold unless_good. destruct (Rlt_dec _ _); [lra|apply H]. Qed.
Lemma phase_rises guard change st : snd st <= snd (phase f guard change st).
Proof. apply tries_rises. Qed.
(** A rectangle that is not good gets at least the value it has with half the tolerance. *)
Theorem lix_finer log_eps r : f r <= log_eps -> f (finer r) <= snd (rect_improve f log_eps r).
Proof.
  intros L. unfold rect_improve. unfold unless_good at 1. cbn [snd]. destruct (Rlt_dec _ _); [lra|].
  eapply Rle_trans; [|apply unless_good_rises].
  - unfold phase. change (tries f 5 (fun _ => true) finer (fst (r, f r)) (r, f r)) with (tries f 4 (fun _ => true) finer (finer r) (if Rlt_dec (f r) (f (finer r)) then (finer r, f (finer r)) else (r, f r))). eapply Rle_trans; [|apply tries_rises]. destruct (Rlt_dec _ _); cbn [snd]; lra.
  - intros st1. eapply Rle_trans; [apply (phase_rises enough_width narrower)|]. apply unless_good_rises. intros st2. eapply Rle_trans; [apply (phase_rises enough_width one_side)|]. apply unless_good_rises. intros st3. eapply Rle_trans; [apply (phase_rises enough_width other_side)|]. apply unless_good_rises. intros st4. apply phase_rises.
Qed.
(** The new rectangle is a part of the old one, of the same length and direction and at least half a pixel wide; the tolerance is halved a number of times. *)
Theorem lix_part log_eps r : let r' := fst (rect_improve f log_eps r) in
  (forall x y, covers (bx1 r') (by1 r') (bx2 r') (by2 r') (bw r') (bdx r') (bdy r') x y -> covers (bx1 r) (by1 r) (bx2 r) (by2 r) (bw r) (bdx r) (bdy r) x y) /\
  bdx r' = bdx r /\ bdy r' = bdy r /\ bx2 r' - bx1 r' = bx2 r - bx1 r /\ by2 r' - by1 r' = by2 r - by1 r /\
  (/ 2 <= bw r -> / 2 <= bw r') /\ (exists k, bp r' = bp r / 2 ^ k) /\ (bprec r = bp r * PI -> bprec r' = bp r' * PI).
Proof.
  intros r'. destruct (rect_improve_improved log_eps r) as ((A1 & A2 & A3 & A4 & A5 & A6 & (s & S1 & S2 & S3) & K & A7) & _). fold r' in A1, A2, A3, A4, A5, A6, S1, S2, S3, K, A7. split; [|auto 9].
  intros x y (t & u & T & U & E1 & E2). exists t, (s + u). split; [exact T|]. split; [pose proof (Rabs_triang s u); lra|]. rewrite A3 in E1. rewrite A4 in E2. rewrite E1, E2, S2, S3, A1, A2. split; ring.
Qed.
End Improve.

(** Examples *)
Example lix_axis_ex : let r := Box 3 10 90 10 2 1 0 (PI / 8) (/ 8) in bdx r = 1 /\ bdy r = 0 /\ by1 r = by2 r /\ bx1 r <= bx2 r /\ 0 <= bw r.
Proof. cbn. repeat split; lra. Qed.
(** A value that prefers small tolerances. *)
Example lix_part_ex : let f r := - bp r in f (Box 3 10 90 10 2 1 0 (PI / 8) (/ 8)) <= - / 10 /\ fst (rect_improve f (- / 10) (Box 3 10 90 10 2 1 0 (PI / 8) (/ 8))) <> Box 3 10 90 10 2 1 0 (PI / 8) (/ 8).
Proof.
  intros f. assert (f (Box 3 10 90 10 2 1 0 (PI / 8) (/ 8)) <= - / 10) as L by (unfold f; cbn; lra). split; [exact L|]. intros E. pose proof (lix_finer f _ _ L) as F. pose proof (lix_value f (- / 10) (Box 3 10 90 10 2 1 0 (PI / 8) (/ 8))) as V. destruct (rect_improve _ _ _) as [r' v]. cbn [fst snd] in *. subst r'. destruct V as (V & _). unfold f, finer in *. cbn [bp] in *. lra.
Qed.
Print Assumptions lix_inside.
Print Assumptions lix_axis.
Print Assumptions lix_count_refuted.
Print Assumptions lix_value.
Print Assumptions lix_part.
Print Assumptions lix_finer.
