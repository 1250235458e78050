(** Proofs about printed targets: patterns and rectangles. *)
From Coq Require Import Reals NArith List Bool Arith Lia Lra Permutation.
From Verif Require Import TargetPdfTags TargetPdfModel TargetPdfSpec.
Import ListNotations.

(** ** Patterns *)
Lemma rotate_turned n k m : rotate n k m = turned n k m.
Proof. induction k as [|k IH]; [reflexivity|]. change (rotate n (S k) m) with (rot90 n (rotate n k m)). rewrite IH. reflexivity. Qed.
Lemma in_cells n i j : In (i, j) (cells n) <-> (i < n /\ j < n)%nat.
Proof. unfold cells. rewrite in_prod_iff, !in_seq. lia. Qed.
Lemma nodup_app {A} (l m : list A) : NoDup l -> NoDup m -> (forall x, In x l -> ~ In x m) -> NoDup (l ++ m).
Proof. intros L M D. induction L as [|a l N _ IH]; [exact M|]. cbn. constructor; [|apply IH; intros x H; apply D; right; exact H]. rewrite in_app_iff. intros [H|H]; [contradiction|]. exact (D a (or_introl eq_refl) H). Qed.
Lemma nodup_prod {A B} (l : list A) (m : list B) : NoDup l -> NoDup m -> NoDup (list_prod l m).
Proof.
  intros L M. induction L as [|a l N _ IH]; [constructor|]. cbn. apply nodup_app; [|exact IH|].
  - apply FinFun.Injective_map_NoDup; [|exact M]. intros x y [= H]. exact H.
  - intros [x y] H1 H2. apply in_map_iff in H1. destruct H1 as (z & [= <- <-] & _). apply in_prod_iff in H2. tauto.
Qed.
Definition quarter (n : nat) (c : nat * nat) : nat * nat := (snd c, (n - 1 - fst c)%nat).
Lemma quarter_cells n : Permutation (map (quarter n) (cells n)) (cells n).
Proof.
  assert (ND : NoDup (cells n)) by (apply nodup_prod; apply seq_NoDup). apply NoDup_Permutation; [|exact ND|].
  - assert (G : forall l, NoDup l -> incl l (cells n) -> NoDup (map (quarter n) l)); [|apply G; [exact ND|apply incl_refl]].
    induction 1 as [|c l N _ IH]; intros I; [constructor|]. cbn. constructor; [|apply IH; intros x H; apply I; right; exact H]. intros H. apply in_map_iff in H. destruct H as ([i j] & E & H). apply N. destruct c as [i' j'].
    assert (A : In (i', j') (cells n)) by (apply I; left; reflexivity). assert (B : In (i, j) (cells n)) by (apply I; right; exact H). apply in_cells in A, B. unfold quarter in E. cbn in E. injection E as E1 E2. replace i' with i by lia. subst j'. exact H.
  - intros [i j]. rewrite in_map_iff, in_cells. split.
    + intros ([a b] & [= <- <-] & H). apply in_cells in H. lia.
    + intros H. exists ((n - 1 - j)%nat, i). split; [unfold quarter; cbn; f_equal; lia|apply in_cells; lia].
Qed.
Lemma count_permutation {A} (f : A -> bool) l m : Permutation l m -> length (filter f l) = length (filter f m).
Proof. induction 1; cbn; repeat destruct (f _); cbn; lia. Qed.
Lemma count_map {A B} (f : B -> bool) (g : A -> B) l : length (filter f (map g l)) = length (filter (fun x => f (g x)) l).
Proof. induction l as [|a l IH]; [reflexivity|]. cbn. destruct (f (g a)); cbn; rewrite IH; reflexivity. Qed.
Lemma difference_turn n r s a b : difference n (turned n (S r) a) (turned n (S s) b) = difference n (turned n r a) (turned n s b).
Proof.
  unfold difference. symmetry. rewrite <- (count_permutation _ _ _ (quarter_cells n)). rewrite count_map. reflexivity.
Qed.
Lemma difference_sym n a b : difference n a b = difference n b a.
Proof. unfold difference. f_equal. apply filter_ext. intros c. apply xorb_comm. Qed.
Lemma difference_ext n a b b' : (forall i j, (i < n)%nat -> (j < n)%nat -> b i j = b' i j) -> difference n a b = difference n a b'.
Proof. intros E. unfold difference. f_equal. apply filter_ext_in. intros [i j] H. apply in_cells in H. cbn. rewrite E by lia. reflexivity. Qed.
Lemma turned_four n a i j : (i < n)%nat -> (j < n)%nat -> turned n 4 a i j = a i j.
Proof. intros I J. cbn. f_equal; lia. Qed.
Lemma difference_back n k a b : (0 < k < 4)%nat -> difference n a (turned n k b) = difference n b (turned n (4 - k) a).
Proof.
  intros K. rewrite difference_sym. assert (G : forall m, difference n (turned n k b) a = difference n (turned n (m + k) b) (turned n m a)).
  { induction m as [|m IH]; [reflexivity|]. rewrite IH. symmetry. apply (difference_turn n (m + k) m). }
  rewrite (G (4 - k)%nat). replace (4 - k + k)%nat with 4%nat by lia. rewrite difference_sym, (difference_sym n b). apply difference_ext. intros i j I J. apply turned_four; assumption.
Qed.
Lemma difference_triangle n a b c : (difference n a c <= difference n a b + difference n b c)%nat.
Proof. unfold difference. induction (cells n) as [|x l IH]; [reflexivity|]. cbn. destruct (a _ _), (b _ _), (c _ _); cbn; lia. Qed.

(** The check of a table: every pattern differs from all later ones and from its own turns. *)
Fixpoint far (h : nat) (a b : list bool) : bool :=
  match h, a, b with O, _, _ => true | S h', x :: a, y :: b => if xorb x y then far h' a b else far h a b | _, _, _ => false end.
Definition row (n : nat) (m : matrix) : list bool := map (fun c => m (fst c) (snd c)) (cells n).
Definition turns (n : nat) (c : N) : list (list bool) := map (fun k => row n (turned n k (code_matrix n c))) (seq 0 4).
Fixpoint check (h : nat) (l : list (list (list bool))) : bool :=
  match l with
  | [] => true
  | p :: l => match p with a :: q => forallb (far h a) q && forallb (fun r => forallb (far h a) r) l | [] => false end && check h l
  end.
Lemma far_spec a b : forall l h, far h (map (fun c : nat * nat => a (fst c) (snd c)) l) (map (fun c => b (fst c) (snd c)) l) = true -> (h <= length (filter (fun c => xorb (a (fst c) (snd c)) (b (fst c) (snd c))) l))%nat.
Proof.
  induction l as [|c l IH]; intros [|h] F; cbn in F |- *; try lia; try discriminate. destruct (xorb _ _); cbn; [apply IH in F; lia|apply IH in F; exact F].
Qed.
Lemma far_difference n h a b : far h (row n a) (row n b) = true -> (h <= difference n a b)%nat.
Proof. apply far_spec. Qed.
Lemma check_spec n h codes : check h (map (turns n) codes) = true ->
  (forall i c k, nth_error codes i = Some c -> (0 < k < 4)%nat -> (h <= difference n (code_matrix n c) (turned n k (code_matrix n c)))%nat) /\
  (forall i j c d k, nth_error codes i = Some c -> nth_error codes j = Some d -> (i < j)%nat -> (k < 4)%nat -> (h <= difference n (code_matrix n c) (turned n k (code_matrix n d)))%nat).
Proof.
  induction codes as [|c codes IH]; intros C; [split; intros [|]; discriminate|]. cbn [map check] in C. apply andb_true_iff in C. destruct C as [C R]. destruct (IH R) as [S P]. change (turns n c) with (row n (code_matrix n c) :: map (fun k => row n (turned n k (code_matrix n c))) (seq 1 3)) in C. cbn iota in C.
  apply andb_true_iff in C. destruct C as [C1 C2]. rewrite forallb_forall in C1, C2. split.
  - intros [|i] d k D K; [|apply (S i); assumption]. injection D as <-. apply far_difference, C1, in_map_iff. exists k. split; [reflexivity|]. apply in_seq. lia.
  - intros [|i] [|j] d e k D E L K; [lia| |lia|apply (P i j); [assumption|assumption|lia|assumption]]. injection D as <-. apply far_difference. cbn in E. apply nth_error_In in E. specialize (C2 (turns n e) (in_map _ _ _ E)). rewrite forallb_forall in C2. apply C2. apply in_map_iff. exists k. split; [reflexivity|apply in_seq; lia].
Qed.
Lemma check_all n h codes i j c d r s : check h (map (turns n) codes) = true -> nth_error codes i = Some c -> nth_error codes j = Some d -> (r < 4)%nat -> (s < 4)%nat -> (i, r) <> (j, s) ->
  (h <= difference n (turned n r (code_matrix n c)) (turned n s (code_matrix n d)))%nat.
Proof.
  intros C. destruct (check_spec _ _ _ C) as [SELF PAIR].
  assert (G : forall i j c d r s, nth_error codes i = Some c -> nth_error codes j = Some d -> (r < 4)%nat -> (s < 4)%nat -> (i, r) <> (j, s) -> (r <= s)%nat -> (h <= difference n (turned n r (code_matrix n c)) (turned n s (code_matrix n d)))%nat).
  { clear i j c d r s. intros i j c d r s Hi Hj R S NE L. assert (E : difference n (turned n r (code_matrix n c)) (turned n s (code_matrix n d)) = difference n (code_matrix n c) (turned n (s - r) (code_matrix n d))).
    { clear -L. revert s L. induction r as [|r IH]; intros s L; [rewrite Nat.sub_0_r; reflexivity|]. destruct s as [|s]; [lia|]. rewrite difference_turn. rewrite (IH s) by lia. reflexivity. }
    rewrite E. destruct (Nat.lt_trichotomy i j) as [LT|[EQ|GT]].
    - apply (PAIR i j); [assumption|assumption|assumption|lia].
    - subst j. rewrite Hi in Hj. injection Hj as <-. apply (SELF i); [assumption|]. assert (r <> s) by congruence. lia.
    - destruct (Nat.eq_dec (s - r) 0) as [Z|NZ]; [rewrite Z, difference_sym; apply (PAIR j i d c 0%nat); assumption || lia|].
      rewrite difference_back by lia. apply (PAIR j i); [assumption|assumption|assumption|lia]. }
  intros Hi Hj R S NE. destruct (Nat.le_ge_cases r s); [apply (G i j); assumption|]. rewrite difference_sym. apply (G j i); try assumption. congruence.
Qed.

(** ** Rectangles *)
Local Open Scope R_scope.
Lemma start_step size spacing k l : 0 < size -> 0 <= spacing -> (k < l)%nat -> tag_start size spacing k + (size * 100 + spacing * (size * 100)) <= tag_start size spacing l.
Proof.
  intros S P L. unfold tag_start. assert (INR (k + 1) <= INR l) by (apply le_INR; lia). rewrite plus_INR in H. cbn [INR] in H. assert (0 <= spacing * (size * 100)) by nra. set (w := size * 100 + spacing * (size * 100)) in *. assert (0 <= w) by (unfold w; nra). nra.
Qed.
(** The rectangles of a tag lie in the tag, or in the space around its corners. *)
Definition within (size start a b : R) : Prop := start <= a /\ b <= start + size * 100.
Definition beside (size spacing start a b : R) : Prop := (start - spacing * (size * 100) <= a /\ b <= start) \/ (start + size * 100 <= a /\ b <= start + size * 100 + spacing * (size * 100)).
Lemma bit_size_pos n size : 0 < size -> 0 < bit_size n 2 size /\ bit_size n 2 size * INR (n + 4) = size /\ 0 <= INR n.
Proof.
  intros S. pose proof (pos_INR n). assert (E : INR n + INR 2 * 2 = INR (n + 4)) by (rewrite plus_INR; cbn; lra). unfold bit_size. rewrite E. assert (0 < INR (n + 4)) by (rewrite plus_INR; cbn; lra).
  split; [apply Rdiv_lt_0_compat; assumption|]. split; [field; lra|assumption].
Qed.
Definition body n size x y m := border_rects n 2 size x y ++ bit_rects n 2 size x y m.
Lemma body_within n size x y m r : 0 < size -> In r (body n (size * 100) x y m) -> within size x (left r) (left r + width r) /\ within size y (bottom r) (bottom r + height r).
Proof.
  intros S I. destruct (bit_size_pos n (size * 100) ltac:(lra)) as (B & E & N). unfold body in I. set (w := bit_size n 2 (size * 100)) in *. rewrite plus_INR in E. replace (INR 4) with 4 in E by (cbn; lra). assert (0 <= w * INR n) by nra.
  assert (T : INR 2 = 2) by (cbn; lra). unfold within.
  apply in_app_iff in I. destruct I as [I|I].
  - unfold border_rects in I. fold w in I. rewrite T in I. cbn [In] in I. destruct I as [<-|[<-|[<-|[<-|[]]]]]; cbn [left bottom width height]; repeat split; lra.
  - unfold bit_rects in I. apply in_map_iff in I. destruct I as ([i j] & <- & I). apply filter_In in I. destruct I as [I _]. apply in_cells in I. unfold bit_rect. fold w. rewrite T. cbn [fst snd left bottom width height].
    assert (0 <= INR i /\ INR i + 1 <= INR n) as [I1 I2] by (split; [apply pos_INR|]; replace (INR i + 1) with (INR (i + 1)) by (rewrite plus_INR; reflexivity); apply le_INR; lia).
    assert (0 <= INR j /\ INR j + 1 <= INR n) as [J1 J2] by (split; [apply pos_INR|]; replace (INR j + 1) with (INR (j + 1)) by (rewrite plus_INR; reflexivity); apply le_INR; lia).
    repeat split; nra.
Qed.
Lemma corners_beside size spacing x y r : 0 < size -> 0 <= spacing -> In r (corner_rects (size * 100) spacing x y) -> beside size spacing x (left r) (left r + width r) /\ beside size spacing y (bottom r) (bottom r + height r).
Proof.
  intros S P I. unfold corner_rects in I. cbn [map In fst snd] in I. unfold beside. destruct I as [<-|[<-|[<-|[<-|[]]]]]; cbn [left bottom width height]; (split; [first [left; lra|right; lra]|first [left; lra|right; lra]]).
Qed.
(** Tags of other columns do not reach into a tag, and neither do the corner squares of its own column. *)
Lemma column size spacing k l a b c : 0 < size -> 0 <= spacing -> in_tag size (tag_start size spacing k) c -> a <= c <= b ->
  (within size (tag_start size spacing l) a b -> l = k) /\ ~ beside size spacing (tag_start size spacing l) a b.
Proof.
  intros S P T C. unfold in_tag in T. unfold within, beside. assert (0 <= spacing * (size * 100)) by nra. destruct (Nat.lt_trichotomy k l) as [L|[->|L]].
  - pose proof (start_step size spacing k l S P L). split; [lra|]. intros [H1|H1]; lra.
  - split; [reflexivity|]. intros [H1|H1]; lra.
  - pose proof (start_step size spacing l k S P L). split; [lra|]. intros [H1|H1]; lra.
Qed.
(** Tags do not reach into the spaces. *)
Lemma space_column size spacing k l a b c : 0 < size -> 0 <= spacing -> in_space size spacing (tag_start size spacing k) c -> a <= c <= b -> ~ within size (tag_start size spacing l) a b.
Proof.
  intros S P T C. unfold in_space in T. unfold within. assert (0 <= spacing * (size * 100)) by nra. destruct (Nat.lt_trichotomy k l) as [L|[->|L]].
  - pose proof (start_step size spacing k l S P L). lra.
  - lra.
  - pose proof (start_step size spacing l k S P L). lra.
Qed.
(** The cell of a coordinate. *)
Lemma nat_between a c u : 0 < u < 1 -> INR a <= INR c + u <= INR a + 1 -> a = c.
Proof.
  intros U [A B]. assert (INR a < INR (c + 1)) by (rewrite plus_INR; cbn; lra). assert (INR c < INR (a + 1)) by (rewrite plus_INR; cbn; lra). apply INR_lt in H, H0. lia.
Qed.
Lemma nat_below a c u : 0 < u < 1 -> INR c + u <= INR a <-> (c < a)%nat.
Proof. intros U. split; intros H; [apply INR_lt; lra|]. assert (INR (c + 1) <= INR a) by (apply le_INR; lia). rewrite plus_INR in H0. cbn in H0. lra. Qed.
Lemma nat_above a c u : 0 < u < 1 -> INR a <= INR c + u <-> (a <= c)%nat.
Proof. intros U. split; intros H; [|apply le_INR in H; lra]. assert (INR a < INR (c + 1)) by (rewrite plus_INR; cbn; lra). apply INR_lt in H0. lia. Qed.
Lemma in_cell_offset size n k start c : 0 < size -> in_cell size n k start c -> exists u, 0 < u < 1 /\ c = start + (INR k + u) * bit_size n 2 (size * 100).
Proof.
  intros S [A B]. destruct (bit_size_pos n (size * 100) ltac:(lra)) as (W & _ & _). assert (E : size * 100 / INR (n + 4) = bit_size n 2 (size * 100)) by (unfold bit_size; rewrite plus_INR; cbn [INR]; f_equal; lra). rewrite E in A, B. rewrite plus_INR in B. cbn [INR] in B. set (w := bit_size n 2 (size * 100)) in *.
  exists ((c - start) / w - INR k). split; [|field; lra]. split.
  - apply Rmult_lt_reg_r with w; [exact W|]. replace (((c - start) / w - INR k) * w) with (c - start - INR k * w) by (field; lra). lra.
  - apply Rmult_lt_reg_r with w; [exact W|]. replace (((c - start) / w - INR k) * w) with (c - start - INR k * w) by (field; lra). lra.
Qed.
(** Inside of its own tag. *)
Lemma body_cell n size x y m i j c d : 0 < size -> (i < n + 4)%nat -> (j < n + 4)%nat -> in_cell size n i x c -> in_cell size n j y d ->
  black (body n (size * 100) x y m) c d <-> (i < 2 \/ n + 2 <= i \/ j < 2 \/ n + 2 <= j)%nat \/ (2 <= i < n + 2 /\ 2 <= j < n + 2 /\ m (n + 1 - j) (i - 2) = true)%nat.
Proof.
  intros S LI LJ C D. destruct (in_cell_offset _ _ _ _ _ S C) as (u & U & ->). destruct (in_cell_offset _ _ _ _ _ S D) as (v & V & ->). destruct (bit_size_pos n (size * 100) ltac:(lra)) as (W & E & N). unfold black, body, covers. set (w := bit_size n 2 (size * 100)) in *.
  rewrite plus_INR in E. replace (INR 4) with 4 in E by (cbn; lra). assert (T : INR 2 = 2) by (cbn; lra).
  assert (IB : 0 <= INR i + u <= INR n + 4) by (split; [pose proof (pos_INR i); lra|]; assert (INR i + 1 <= INR (n + 4)) by (replace (INR i + 1) with (INR (i + 1)) by (rewrite plus_INR; reflexivity); apply le_INR; lia); rewrite plus_INR in H; cbn in H; lra).
  assert (JB : 0 <= INR j + v <= INR n + 4) by (split; [pose proof (pos_INR j); lra|]; assert (INR j + 1 <= INR (n + 4)) by (replace (INR j + 1) with (INR (j + 1)) by (rewrite plus_INR; reflexivity); apply le_INR; lia); rewrite plus_INR in H; cbn in H; lra).
  assert (CAN : forall a b, a * w <= b * w <-> a <= b) by (intros a b; split; intros H; [apply Rmult_le_reg_r with w; assumption|apply Rmult_le_compat_r; lra]).
  assert (N2 : INR (n + 2) = INR n + 2) by (rewrite plus_INR; cbn; lra). split.
  - intros (r & I & [X1 X2] & [Y1 Y2]). apply in_app_iff in I. destruct I as [I|I].
    + left. unfold border_rects in I. fold w in I. rewrite T in I. cbn [In] in I. destruct I as [<-|[<-|[<-|[<-|[]]]]]; cbn [left bottom width height] in *.
      * right. right. left. apply (nat_below 2 j v V). rewrite T. apply CAN. lra.
      * right. right. right. apply (nat_above (n + 2) j v V). rewrite N2. apply CAN. lra.
      * right. left. apply (nat_above (n + 2) i u U). rewrite N2. apply CAN. lra.
      * left. apply (nat_below 2 i u U). rewrite T. apply CAN. lra.
    + right. unfold bit_rects in I. apply in_map_iff in I. destruct I as ([a b] & <- & I). apply filter_In in I. destruct I as [I M]. apply in_cells in I. cbn [fst snd] in *. unfold bit_rect in *. fold w in X1, X2, Y1, Y2. rewrite T in *. cbn [left bottom width height] in *.
      assert (A1 : INR (b + 2) <= INR i + u <= INR (b + 2) + 1) by (rewrite plus_INR, T; split; apply CAN; lra). apply nat_between in A1; [|exact U].
      assert (EA : INR (n + 1 - a) = INR n + 1 - INR a) by (rewrite minus_INR, plus_INR by lia; reflexivity).
      assert (A2 : INR (n + 1 - a) <= INR j + v <= INR (n + 1 - a) + 1) by (rewrite EA; split; apply CAN; lra). apply nat_between in A2; [|exact V].
      replace (n + 1 - j)%nat with a by lia. replace (i - 2)%nat with b by lia. split; [lia|]. split; [lia|exact M].
  - intros [H|(I & J & M)].
    + assert (G : exists r, In r (border_rects n 2 (size * 100) x y) /\ (left r <= x + (INR i + u) * w <= left r + width r /\ bottom r <= y + (INR j + v) * w <= bottom r + height r)); [|destruct G as (r & G1 & G2); exists r; split; [apply in_or_app; left; exact G1|exact G2]].
      assert (IX : 0 <= (INR i + u) * w <= size * 100) by (split; [apply Rmult_le_pos; lra|]; replace (size * 100) with ((INR n + 4) * w) by lra; apply CAN; lra).
      assert (JX : 0 <= (INR j + v) * w <= size * 100) by (split; [apply Rmult_le_pos; lra|]; replace (size * 100) with ((INR n + 4) * w) by lra; apply CAN; lra).
      unfold border_rects. fold w. rewrite T. destruct H as [H|[H|[H|H]]].
      * eexists. split; [right; right; right; left; reflexivity|]. cbn [left bottom width height]. apply (nat_below 2 i u U) in H. rewrite T in H. apply CAN in H. lra.
      * eexists. split; [right; right; left; reflexivity|]. cbn [left bottom width height]. apply (nat_above (n + 2) i u U) in H. rewrite N2 in H. apply CAN in H. lra.
      * eexists. split; [left; reflexivity|]. cbn [left bottom width height]. apply (nat_below 2 j v V) in H. rewrite T in H. apply CAN in H. lra.
      * eexists. split; [right; left; reflexivity|]. cbn [left bottom width height]. apply (nat_above (n + 2) j v V) in H. rewrite N2 in H. apply CAN in H. lra.
    + exists (bit_rect n 2 (size * 100) x y (n + 1 - j) (i - 2)). split.
      * apply in_or_app. right. unfold bit_rects. apply in_map_iff. exists ((n + 1 - j)%nat, (i - 2)%nat). split; [reflexivity|]. apply filter_In. split; [apply in_cells; lia|exact M].
      * unfold bit_rect. fold w. cbn [left bottom width height]. rewrite T. rewrite !minus_INR, plus_INR, T by lia. cbn [INR]. split; split; nra.
Qed.
