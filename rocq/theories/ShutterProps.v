(** C111: delays of rolling shutter cameras. *)
From Coq Require Import Reals ZArith Bool Lia Lra.
From Verif Require Import ShutterModel ShutterSpec.
Local Open Scope R_scope.

(** The coordinate in which the lines are counted, and the number of lines that can be seen. *)
Definition across (m : mode) (x y : R) : R := match m with Rows => y | Columns => x end.
Definition extent (c : camera) : Z := match line_delay_mode c with Rows => height c | Columns => width c end.
Definition visible (c : camera) (x y : R) : Prop := 0 <= x < IZR (width c) /\ 0 <= y < IZR (height c).

Lemma line_int v n : in_line v n <-> n = Int_part v.
Proof.
  destruct (base_Int_part v) as [B1 B2]. unfold in_line. split; [|intros ->; lra]. intros [L1 L2]. assert (n < Int_part v + 1)%Z by (apply lt_IZR; rewrite plus_IZR; lra). assert (Int_part v < n + 1)%Z by (apply lt_IZR; rewrite plus_IZR; lra). lia.
Qed.
Lemma truncate_line v n : 0 <= v -> in_line v n -> truncate v = n.
Proof. intros P L. unfold truncate. destruct (Rle_dec 0 v); [|contradiction]. symmetry. apply line_int, L. Qed.
Lemma line_pos v n : 0 <= v -> in_line v n -> (0 <= n)%Z.
Proof. intros P [L1 L2]. assert (-1 < n)%Z; [apply lt_IZR; lra|lia]. Qed.
Lemma line_lt v n k : v < IZR k -> in_line v n -> (n < k)%Z.
Proof. intros P [L1 L2]. apply lt_IZR. lra. Qed.
Lemma times_exact n d : a_time (n * d) -> times n d = (n * d)%Z.
Proof.
  unfold a_time, times, to_uint64, as_int64. intros T. rewrite Zmult_mod_idemp_l. destruct (Z.leb_spec 0 (n * d)).
  - rewrite Z.mod_small by lia. destruct (Z.ltb_spec (n * d) (2 ^ 63)); lia.
  - assert ((n * d) mod 2 ^ 64 = n * d + 2 ^ 64)%Z as ->. { symmetry. apply Z.mod_unique_pos with (-1)%Z; lia. } destruct (Z.ltb_spec (n * d + 2 ^ 64) (2 ^ 63)); lia.
Qed.
Lemma delay_line c x y n : 0 <= across (line_delay_mode c) x y -> in_line (across (line_delay_mode c) x y) n -> (n < 2 ^ 63)%Z -> delay c (Some x) (Some y) = Some (times n (line_delay c)).
Proof.
  intros P L N. unfold delay. replace (match of_kind c with Plain => Some y | Lidar => Some x end) with (Some (across (line_delay_mode c) x y)) by (unfold line_delay_mode; destruct (of_kind c); reflexivity). unfold to_int64. rewrite (truncate_line _ n P L). pose proof (line_pos _ n P L). replace ((- 2 ^ 63 <=? n)%Z && (n <? 2 ^ 63)%Z)%bool with true; [reflexivity|]. symmetry. apply andb_true_iff. rewrite Z.leb_le, Z.ltb_lt. lia.
Qed.

(** The delay of a keypoint at or after the first line is the number of its line times the delay of a line. *)
Theorem rsx_delay c x y n : in_line (across (line_delay_mode c) x y) n -> (0 <= n < 2 ^ 63)%Z -> a_time (n * line_delay c) -> delay c (Some x) (Some y) = Some (n * line_delay c)%Z.
Proof.
  intros L N T. assert (0 <= across (line_delay_mode c) x y) as P by (destruct L as [L _]; assert (0 <= IZR n) by (apply IZR_le; lia); lra). rewrite (delay_line c x y n P L) by lia. f_equal. apply times_exact, T.
Qed.
(** All keypoints of the image are read during the first (number of lines) * (delay of a line) nanoseconds, in the order of their lines. *)
Theorem rsx_order c x y x' y' : (0 < line_delay c)%Z -> a_time (number_of_lines c * line_delay c) -> (extent c < 2 ^ 32)%Z -> visible c x y -> visible c x' y' ->
  exists t t', delay c (Some x) (Some y) = Some t /\ delay c (Some x') (Some y') = Some t' /\ (0 <= t <= number_of_lines c * line_delay c - line_delay c)%Z /\
    (across (line_delay_mode c) x y <= across (line_delay_mode c) x' y' -> (t <= t')%Z) /\
    (forall n, across (line_delay_mode c) x y < IZR n <= across (line_delay_mode c) x' y' -> (t + line_delay c <= t')%Z).
Proof.
  intros D T X V V'. assert (number_of_lines c = extent c) as NE. { unfold number_of_lines, extent, line_delay_mode. destruct (Z.ltb_spec 0 (line_delay c)); [destruct (of_kind c); reflexivity|lia]. }
  assert (forall x y, visible c x y -> 0 <= across (line_delay_mode c) x y < IZR (extent c)) as A. { intros a b [VX VY]. unfold extent, line_delay_mode. destruct (of_kind c); assumption. }
  pose proof (A x y V) as [P U]. pose proof (A x' y' V') as [P' U']. rewrite NE in *. set (v := across (line_delay_mode c) x y) in *. set (v' := across (line_delay_mode c) x' y') in *.
  destruct (proj2 (line_int v (Int_part v)) eq_refl) as [L1 L2]. destruct (proj2 (line_int v' (Int_part v')) eq_refl) as [M1 M2]. set (n := Int_part v) in *. set (n' := Int_part v') in *.
  assert (in_line v n) as L by (split; assumption). assert (in_line v' n') as M by (split; assumption).
  pose proof (line_pos v n P L). pose proof (line_pos v' n' P' M). pose proof (line_lt v n _ U L). pose proof (line_lt v' n' _ U' M). unfold a_time in T.
  exists (n * line_delay c)%Z, (n' * line_delay c)%Z. split; [apply rsx_delay; [exact L|lia|unfold a_time; nia]|]. split; [apply rsx_delay; [exact M|lia|unfold a_time; nia]|]. split; [nia|]. split.
  - intros LE. assert (n < n' + 1)%Z by (apply lt_IZR; rewrite plus_IZR; lra). nia.
  - intros k [K1 K2]. assert (n < k)%Z by (apply lt_IZR; lra). assert (k < n' + 1)%Z by (apply lt_IZR; rewrite plus_IZR; lra). nia.
Qed.
(** maxRollingShutterDelayNanoSeconds is the time in which all the lines of a camera with rows are read. *)
Theorem rsx_max c x y t : line_delay_mode c = Rows -> (0 < line_delay c)%Z -> a_time (height c * line_delay c) -> (height c < 2 ^ 32)%Z -> visible c x y -> delay c (Some x) (Some y) = Some t ->
  max_delay c = (number_of_lines c * line_delay c)%Z /\ (t < max_delay c)%Z.
Proof.
  intros M D T H V E. assert (number_of_lines c = height c) as NE. { unfold number_of_lines. destruct (Z.ltb_spec 0 (line_delay c)); [|lia]. unfold line_delay_mode in M. destruct (of_kind c); [reflexivity|discriminate]. }
  assert (extent c = height c) as EX by (unfold extent; rewrite M; reflexivity). unfold max_delay. rewrite times_exact, NE by exact T. split; [reflexivity|]. destruct (rsx_order c x y x y D ltac:(rewrite NE; exact T) ltac:(rewrite EX; exact H) V V) as (t1 & t2 & E1 & _ & B & _). rewrite E in E1. injection E1 as <-. rewrite NE in B. lia.
Qed.
(** The function of the lidar without keypoint is the time in which all its columns are read. *)
Theorem rsx_total c x y t : line_delay_mode c = Columns -> (0 < line_delay c)%Z -> a_time (width c * line_delay c) -> (width c < 2 ^ 32)%Z -> visible c x y -> delay c (Some x) (Some y) = Some t ->
  lidar_total_delay c = (number_of_lines c * line_delay c)%Z /\ (t < lidar_total_delay c)%Z.
Proof.
  intros M D T H V E. assert (number_of_lines c = width c) as NE. { unfold number_of_lines. destruct (Z.ltb_spec 0 (line_delay c)); [|lia]. unfold line_delay_mode in M. destruct (of_kind c); [discriminate|reflexivity]. }
  assert (extent c = width c) as EX by (unfold extent; rewrite M; reflexivity). unfold lidar_total_delay. rewrite times_exact, NE by exact T. split; [reflexivity|]. destruct (rsx_order c x y x y D ltac:(rewrite NE; exact T) ltac:(rewrite EX; exact H) V V) as (t1 & t2 & E1 & _ & B & _). rewrite E in E1. injection E1 as <-. rewrite NE in B. lia.
Qed.
(** Of a global shutter camera all keypoints have delay zero. *)
Theorem rsx_global c x y : line_delay c = 0%Z -> (Rabs x < 2 ^ 62) -> (Rabs y < 2 ^ 62) -> delay c (Some x) (Some y) = Some 0%Z /\ max_delay c = 0%Z /\ number_of_lines c = 1%Z.
Proof.
  intros D X Y. assert (forall v, Rabs v < 2 ^ 62 -> exists n, to_int64 (Some v) = Some n) as G.
  { intros v V. apply Rabs_def2 in V. assert (IZR (2 ^ 62) = 2 ^ 62) as P by (rewrite (pow_IZR 2 62); reflexivity). unfold to_int64. exists (truncate v). replace ((- 2 ^ 63 <=? truncate v)%Z && (truncate v <? 2 ^ 63)%Z)%bool with true; [reflexivity|]. symmetry. apply andb_true_iff. rewrite Z.leb_le, Z.ltb_lt. unfold truncate. destruct (Rle_dec 0 v) as [L|L].
    - destruct (base_Int_part v). assert (Int_part v < 2 ^ 62)%Z by (apply lt_IZR; lra). assert (-1 < Int_part v)%Z by (apply lt_IZR; lra). lia.
    - destruct (base_Int_part (- v)). assert (Int_part (- v) < 2 ^ 62)%Z by (apply lt_IZR; lra). assert (-1 < Int_part (- v))%Z by (apply lt_IZR; lra). lia. }
  assert (forall n, times n 0 = 0%Z) as Z0 by (intros n; unfold times; rewrite Z.mul_0_r; reflexivity). unfold max_delay, number_of_lines, delay. rewrite D, Z0. split; [|split; reflexivity].
  destruct (G x X) as [n Ex]. destruct (G y Y) as [m Ey]. destruct (of_kind c); [rewrite Ey|rewrite Ex]; rewrite Z0; reflexivity.
Qed.

(** ** Refutations *)
Lemma int_int n : Int_part (IZR n) = n.
Proof. symmetry. apply line_int. unfold in_line. lra. Qed.
(** The lidar counts columns, but its largest delay is computed from the rows: a visible keypoint is read after it. *)
Theorem rsx_lidar_refuted w h d : (0 < h)%Z -> (h + 1 < w < 2 ^ 32)%Z -> (0 < d)%Z -> a_time (w * d) ->
  let c := Camera Lidar w h d in exists x y t, visible c x y /\ delay c (Some x) (Some y) = Some t /\ (max_delay c < t)%Z /\ (max_delay c < number_of_lines c * line_delay c)%Z.
Proof.
  intros H W D T c. unfold a_time in T. exists (IZR (w - 1)), 0, ((w - 1) * d)%Z. assert (0 <= IZR (w - 1) < IZR w) as I by (split; [apply IZR_le; lia|apply IZR_lt; lia]). split; [|split; [|split]].
  - split; [exact I|]. cbn. apply IZR_lt in H. lra.
  - apply rsx_delay; cbn; [unfold in_line; lra|lia|unfold a_time; nia].
  - unfold max_delay. cbn. rewrite times_exact by (unfold a_time; nia). nia.
  - unfold max_delay, number_of_lines. cbn. destruct (Z.ltb_spec 0 d); [|lia]. rewrite times_exact by (unfold a_time; nia). nia.
Qed.
(** The time between the first and the last row is the largest delay less the delay of a line. *)
Theorem rsx_last_refuted c : line_delay_mode c = Rows -> (0 < height c < 2 ^ 32)%Z -> (0 < line_delay c)%Z -> a_time (height c * line_delay c) ->
  exists t, delay c (Some 0) (Some (IZR (height c - 1))) = Some t /\ t = (max_delay c - line_delay c)%Z /\ t <> max_delay c.
Proof.
  intros M H D T. exists ((height c - 1) * line_delay c)%Z. unfold a_time in T. split.
  - apply rsx_delay; [rewrite M; cbn; unfold in_line; lra|lia|unfold a_time; nia].
  - unfold max_delay. rewrite times_exact by exact T. nia.
Qed.
(** A keypoint in the line before the first has the delay of the first line. *)
Theorem rsx_before_refuted c x y : line_delay_mode c = Rows -> -1 < y < 0 -> in_line y (-1) /\ delay c (Some x) (Some y) = Some 0%Z.
Proof.
  intros M Y. split; [unfold in_line; lra|]. unfold delay. unfold line_delay_mode in M. destruct (of_kind c); [|discriminate]. unfold to_int64, truncate. destruct (Rle_dec 0 y); [lra|]. replace (Int_part (- y)) with 0%Z by (apply line_int; unfold in_line; lra). reflexivity.
Qed.
(** A delay that does not fit is negative, or too small. *)
Theorem rsx_overflow_refuted : let c := Camera Plain 4 5 (2 ^ 62) in visible c 0 2 /\ visible c 0 4 /\ delay c (Some 0) (Some 2) = Some (- 2 ^ 63)%Z /\ delay c (Some 0) (Some 4) = Some 0%Z.
Proof.
  cbn zeta. unfold visible. cbn [width height]. split; [lra|]. split; [lra|].
  unfold delay. cbn [of_kind]. unfold to_int64, truncate. destruct (Rle_dec 0 2); [|lra]. destruct (Rle_dec 0 4); [|lra]. rewrite !int_int. split; reflexivity.
Qed.
(** The delay of a keypoint that is NaN is undefined. *)
Theorem rsx_nan_refuted c x : line_delay_mode c = Rows -> delay c x None = None.
Proof. intros M. unfold delay, line_delay_mode in *. destruct (of_kind c); [reflexivity|discriminate]. Qed.

Example rsx_ex : let c := Camera Plain 640 480 30000 in line_delay_mode c = Rows /\ visible c 12.5 300.25 /\ a_time (height c * line_delay c) /\ a_time (number_of_lines c * line_delay c) /\ (extent c < 2 ^ 32)%Z /\ in_line (across (line_delay_mode c) 12.5 300.25) 300 /\ delay c (Some 12.5) (Some 300.25) = Some 9000000%Z.
Proof. cbn zeta. unfold visible. cbn [width height line_delay line_delay_mode of_kind across extent]. assert (in_line 300.25 300) as L by (unfold in_line; lra). unfold a_time. cbn. repeat split; try lia; try lra; try apply L. apply (rsx_delay (Camera Plain 640 480 30000) 12.5 300.25 300 L); [lia|unfold a_time; cbn; lia]. Qed.
Example rsx_lidar_ex : (0 < 64)%Z /\ (64 + 1 < 1024 < 2 ^ 32)%Z /\ (0 < 97656)%Z /\ a_time (1024 * 97656).
Proof. unfold a_time. lia. Qed.
Print Assumptions rsx_delay.
Print Assumptions rsx_order.
Print Assumptions rsx_max.
Print Assumptions rsx_total.
Print Assumptions rsx_global.
Print Assumptions rsx_lidar_refuted.
Print Assumptions rsx_last_refuted.
Print Assumptions rsx_before_refuted.
Print Assumptions rsx_overflow_refuted.
Print Assumptions rsx_nan_refuted.
