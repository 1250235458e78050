(** C120: drawing and comparing line segments. *)
From Coq Require Import ZArith NArith List Bool Arith Lia Permutation.
From Verif Require Import LCompareModel LCompareSpec.
Import ListNotations.

Section Oracles.
Context (line : size -> segment -> nat -> bool) (to_gray : Z * Z * Z -> Z).

Lemma visited_vector l : visited (of_vector l) = l.
Proof. unfold visited, of_vector. cbn. apply firstn_all. Qed.
Lemma canvas_covered sz l px : canvas line sz (of_vector l) px = true <-> covered line sz l px.
Proof. unfold canvas, covered. rewrite visited_vector. apply existsb_exists. Qed.
Lemma xor_one a b P Q : (a = true <-> P) -> (b = true <-> Q) -> (xorb a b = true <-> one_of P Q).
Proof. intros A B. unfold one_of. destruct a, b; cbn; intuition congruence. Qed.
Definition agrees (sz : size) (l1 l2 : list segment) : Prop := forall px, px < area sz -> (covered line sz l1 px <-> covered line sz l2 px).

(** Without image, vectors of segments: the number of pixels that belong to exactly one of the two sets. *)
Theorem lcx_number sz l1 l2 : area sz <> 0 -> exists n, compare_segments line sz (of_vector l1) (of_vector l2) None = Ok (n, None) /\ number_of sz (fun px => one_of (covered line sz l1 px) (covered line sz l2 px)) n.
Proof.
  intros A. unfold compare_segments. destruct (Nat.eqb_spec (area sz) 0); [contradiction|]. eexists. split; [reflexivity|].
  eexists. split; [apply NoDup_filter, seq_NoDup|]. split; [|reflexivity]. intros px. rewrite filter_In, in_seq. rewrite (xor_one _ _ _ _ (canvas_covered sz l1 px) (canvas_covered sz l2 px)). intuition lia.
Qed.
Print Assumptions lcx_number.
Lemma number_unique sz P n m : number_of sz P n -> number_of sz P m -> n = m.
Proof. intros [l [N [H <-]]] [l' [N' [H' <-]]]. apply Permutation_length, NoDup_Permutation; try assumption. intros px. rewrite H, H'. reflexivity. Qed.
Lemma number_ext sz P Q n : (forall px, px < area sz -> (P px <-> Q px)) -> number_of sz P n -> number_of sz Q n.
Proof. intros E [l [N [H L]]]. exists l. split; [exact N|]. split; [|exact L]. intros px. rewrite H. split; intros [A B]; (split; [exact A|apply E; assumption]). Qed.
(** It is a distance between sets of pixels: symmetric, zero exactly for the same pixels, and the triangle inequality holds. *)
Theorem lcx_metric sz a b c nab nba nbc nac : area sz <> 0 ->
  compare_segments line sz (of_vector a) (of_vector b) None = Ok (nab, None) -> compare_segments line sz (of_vector b) (of_vector a) None = Ok (nba, None) ->
  compare_segments line sz (of_vector b) (of_vector c) None = Ok (nbc, None) -> compare_segments line sz (of_vector a) (of_vector c) None = Ok (nac, None) ->
  nab = nba /\ (nab = 0 <-> agrees sz a b) /\ nac <= nab + nbc /\ nab <= area sz.
Proof.
  intros A. destruct (lcx_number sz a b A) as [n1 [E1 N1]], (lcx_number sz b a A) as [n2 [E2 N2]], (lcx_number sz b c A) as [n3 [E3 N3]], (lcx_number sz a c A) as [n4 [E4 N4]]. rewrite E1, E2, E3, E4.
  intros X1 X2 X3 X4. injection X1 as <-. injection X2 as <-. injection X3 as <-. injection X4 as <-. split; [|split; [split|split]].
  - apply (number_unique sz (fun px => one_of (covered line sz a px) (covered line sz b px))); [exact N1|]. apply (number_ext sz (fun px => one_of (covered line sz b px) (covered line sz a px))); [|exact N2]. intros px _. unfold one_of. tauto.
  - intros Z px P. destruct N1 as [l [_ [H L]]]. rewrite Z in L. destruct l; [|discriminate]. specialize (H px). cbn in H. split; intros C.
    + pose proof (canvas_covered sz b px) as CB. destruct (canvas line sz (of_vector b) px) eqn:F; [apply CB; reflexivity|]. exfalso. apply H. split; [assumption|]. left. split; [exact C|]. intros D. apply CB in D. discriminate.
    + pose proof (canvas_covered sz a px) as CB. destruct (canvas line sz (of_vector a) px) eqn:F; [apply CB; reflexivity|]. exfalso. apply H. split; [assumption|]. right. split; [exact C|]. intros D. apply CB in D. discriminate.
  - intros G. apply (number_unique sz (fun px => one_of (covered line sz a px) (covered line sz b px))); [exact N1|]. exists []. split; [constructor|]. split; [|reflexivity]. intros px. split; [intros []|]. intros [P Q]. pose proof (G px P). unfold one_of in Q. tauto.
  - destruct N1 as [l1 [D1 [H1 <-]]], N3 as [l3 [D3 [H3 <-]]], N4 as [l4 [D4 [H4 <-]]]. rewrite <- app_length. apply NoDup_incl_length; [exact D4|]. intros px I. apply H4 in I. destruct I as [I J]. apply in_or_app. rewrite H1, H3.
    pose proof (canvas_covered sz b px) as CB. destruct (canvas line sz (of_vector b) px); unfold one_of in *; [assert (covered line sz b px) by (apply CB; reflexivity)|assert (~ covered line sz b px) by (intros D; apply CB in D; discriminate)]; intuition.
  - destruct N1 as [l1 [D1 [H1 <-]]]. rewrite <- (seq_length (area sz) 0). apply NoDup_incl_length; [exact D1|]. intros px I. apply H1 in I. apply in_seq. lia.
Qed.
Print Assumptions lcx_metric.
(** Order and repetition of segments do not matter, nor do segments without pixels in the image. *)
Theorem lcx_set sz a a' b : area sz <> 0 -> (forall s px, line sz s px = true -> (In s a <-> In s a')) ->
  compare_segments line sz (of_vector a) (of_vector b) None = compare_segments line sz (of_vector a') (of_vector b) None.
Proof.
  intros A H. destruct (lcx_number sz a b A) as [n [E N]], (lcx_number sz a' b A) as [n' [E' N']]. rewrite E, E'. repeat f_equal. apply (number_unique sz (fun px => one_of (covered line sz a px) (covered line sz b px))); [exact N|].
  apply (number_ext sz (fun px => one_of (covered line sz a' px) (covered line sz b px))); [|exact N']. intros px _.
  assert (C : covered line sz a px <-> covered line sz a' px). { unfold covered. split; intros [s [I L]]; exists s; (split; [|exact L]); apply (H s px L); assumption. }
  unfold one_of. rewrite C. reflexivity.
Qed.
Print Assumptions lcx_set.
(** With a continuous colour image: blue where the first set is, red where the second is, both where both are; other pixels
    unchanged. The size is that of the image. *)
Theorem lcx_image sz l1 l2 m : area (isize m) <> 0 -> channels m = 3 -> continuous m = true ->
  exists n m', compare_segments line sz (of_vector l1) (of_vector l2) (Some m) = Ok (n, Some m') /\ isize m' = isize m /\ channels m' = 3 /\ continuous m' = true /\
    number_of (isize m) (fun px => one_of (covered line (isize m) l1 px) (covered line (isize m) l2 px)) n /\
    forall px, px < area (isize m) ->
      (covered line (isize m) l1 px -> covered line (isize m) l2 px -> values m' px = (255, 0, 255)%Z) /\
      (covered line (isize m) l1 px -> ~ covered line (isize m) l2 px -> values m' px = (255, 0, 0)%Z) /\
      (~ covered line (isize m) l1 px -> covered line (isize m) l2 px -> values m' px = (0, 0, 255)%Z) /\
      (~ covered line (isize m) l1 px -> ~ covered line (isize m) l2 px -> values m' px = values m px).
Proof.
  intros A C K. unfold compare_segments. assert (Z : (if size_eqb (isize m) sz then sz else isize m) = isize m).
  { unfold size_eqb. destruct (Nat.eqb_spec (width (isize m)) (width sz)) as [W|W], (Nat.eqb_spec (height (isize m)) (height sz)) as [H|H]; cbn; try reflexivity. destruct sz, (isize m). cbn in *. congruence. }
  rewrite Z. destruct (Nat.eqb_spec (area (isize m)) 0); [contradiction|]. rewrite C, K. cbn [Nat.eqb negb].
  destruct (lcx_number (isize m) l1 l2 A) as [n1 [E N]]. unfold compare_segments in E. destruct (Nat.eqb_spec (area (isize m)) 0); [contradiction|]. injection E as E.
  eexists n1, _. rewrite E. split; [reflexivity|]. cbn [isize channels continuous values]. do 3 (split; [reflexivity|]). split; [exact N|]. intros px P. destruct (Nat.ltb_spec px (area (isize m))); [|lia].
  rewrite <- (canvas_covered (isize m) l1 px), <- (canvas_covered (isize m) l2 px). unfold colour. destruct (canvas line (isize m) (of_vector l1) px), (canvas line (isize m) (of_vector l2) px); cbn; repeat split; intros; congruence.
Qed.
Print Assumptions lcx_image.
(** The matrix with one column that detect fills is compared by its first segment only. *)
Theorem lcx_column_refuted sz s l1 l2 : area sz <> 0 -> compare_segments line sz (of_column (s :: l1)) (of_column (s :: l2)) None = Ok (0, None).
Proof.
  intros A. unfold compare_segments. destruct (Nat.eqb_spec (area sz) 0); [contradiction|]. unfold canvas, of_column, visited. cbn [ccols elems firstn]. repeat f_equal. induction (seq 0 (area sz)) as [|px l IH]; [reflexivity|]. cbn [filter]. rewrite xorb_nilpotent. exact IH.
Qed.
Print Assumptions lcx_column_refuted.
(** Showing two sets without an image never works: the canvas made for it has one channel and three are required. *)
Theorem lcx_show_refuted sz l1 l2 : show_segments line sz l1 l2 None = Thrown.
Proof. unfold show_segments, compare_segments. cbn [isize channels]. destruct (Nat.eqb _ 0); reflexivity. Qed.
Print Assumptions lcx_show_refuted.
(** With a colour image, continuous or not, it shows and returns the same number as the comparison. *)
Theorem lcx_show sz l1 l2 m n m' : area (isize m) <> 0 -> channels m = 3 -> continuous m = true -> compare_segments line sz (of_vector l1) (of_vector l2) (Some m) = Ok (n, m') ->
  show_segments line sz l1 l2 (Some m) = Ok n /\ show_segments line sz l1 l2 (Some {| isize := isize m; channels := channels m; continuous := false; values := values m |}) = Ok n.
Proof.
  intros A C K. unfold show_segments. destruct m as [ms mc mk mv]. cbn [isize channels continuous values] in *. subst mc mk. intros ->. split; reflexivity.
Qed.
Print Assumptions lcx_show.
(** But comparing needs a continuous image: a region of interest throws. *)
Theorem lcx_region_refuted sz l1 l2 m : continuous m = false -> compare_segments line sz (of_vector l1) (of_vector l2) (Some m) = Thrown.
Proof. intros K. unfold compare_segments. destruct (Nat.eqb _ 0); [reflexivity|]. rewrite K. destruct (Nat.eqb (channels m) 3); reflexivity. Qed.
Print Assumptions lcx_region_refuted.
(** Drawing: red where a segment is, grey elsewhere; for images with one or three channels. *)
Theorem lcx_draw m l : area (isize m) <> 0 -> channels m = 1 \/ channels m = 3 -> exists m', draw_segments line to_gray m (of_vector l) = Ok m' /\ isize m' = isize m /\ channels m' = 3 /\
  forall px, (covered line (isize m) l px -> values m' px = (0, 0, 255)%Z) /\
    (~ covered line (isize m) l px -> exists g, values m' px = (g, g, g) /\ g = if Nat.eqb (channels m) 1 then fst (fst (values m px)) else to_gray (values m px)).
Proof.
  intros A C. unfold draw_segments. destruct (Nat.eqb_spec (area (isize m)) 0); [contradiction|]. assert (X : Nat.eqb (channels m) 1 || Nat.eqb (channels m) 3 = true) by (destruct C as [-> | ->]; reflexivity). rewrite X. cbn [orb negb].
  eexists. split; [reflexivity|]. cbn [isize channels values]. split; [reflexivity|]. split; [reflexivity|]. rewrite visited_vector. intros px.
  set (g := fun px => if Nat.eqb (channels m) 1 then fst (fst (values m px)) else to_gray (values m px)).
  change (fun px : nat => (if Nat.eqb (channels m) 1 then fst (fst (values m px)) else to_gray (values m px), if Nat.eqb (channels m) 1 then fst (fst (values m px)) else to_gray (values m px), if Nat.eqb (channels m) 1 then fst (fst (values m px)) else to_gray (values m px))) with (fun px => (g px, g px, g px)).
  assert (G : forall l v, (covered line (isize m) l px -> fold_left (fun v s => fun px => if line (isize m) s px then (0, 0, 255)%Z else v px) l v px = (0, 0, 255)%Z) /\ (v px = (0, 0, 255)%Z -> fold_left (fun v s => fun px => if line (isize m) s px then (0, 0, 255)%Z else v px) l v px = (0, 0, 255)%Z) /\
    (~ covered line (isize m) l px -> fold_left (fun v s => fun px => if line (isize m) s px then (0, 0, 255)%Z else v px) l v px = v px)).
  { clear. induction l as [|s l IH]; intros v; cbn [fold_left]; [split; [intros [s [[] _]]|split; [tauto|reflexivity]]|]. destruct (IH (fun px => if line (isize m) s px then (0, 0, 255)%Z else v px)) as [I1 [I2 I3]]. split; [|split].
    - intros [t [[<-|T] L]]; [apply I2; rewrite L; reflexivity|]. apply I1. exists t. split; assumption.
    - intros V. apply I2. destruct (line (isize m) s px); [reflexivity|exact V].
    - intros N. rewrite I3; [|intros [t [T L]]; apply N; exists t; split; [right; exact T|exact L]]. destruct (line (isize m) s px) eqn:L; [|reflexivity]. exfalso. apply N. exists s. split; [left; reflexivity|exact L]. }
  destruct (G l (fun px => (g px, g px, g px))) as [G1 [_ G3]]. split; [exact G1|]. intros N. exists (g px). split; [exact (G3 N)|reflexivity].
Qed.
Print Assumptions lcx_draw.
(** Nothing else can be drawn on: an empty image or another number of channels throws. *)
Theorem lcx_draw_throws m l : area (isize m) = 0 \/ (channels m <> 1 /\ channels m <> 3) -> draw_segments line to_gray m l = Thrown.
Proof.
  intros H. unfold draw_segments. destruct (Nat.eqb_spec (area (isize m)) 0); [reflexivity|]. destruct H as [H|[H1 H3]]; [contradiction|].
  apply Nat.eqb_neq in H1, H3. rewrite H1, H3. reflexivity.
Qed.
Print Assumptions lcx_draw_throws.
End Oracles.

(** The byte index of the coloured image is an unsigned int: right below 2^32 / 3 pixels, at pixel 0 again after 1431655766. *)
Theorem lcx_index i : (i * 3 + 2 < 2 ^ 32)%N -> base_idx i = (3 * i)%N.
Proof. intros L. unfold base_idx. rewrite N.mod_small by lia. lia. Qed.
Print Assumptions lcx_index.
Theorem lcx_index_refuted : exists i, (i < 2 ^ 31)%N /\ base_idx i <> (3 * i)%N /\ (base_idx i mod 3 <> 0)%N.
Proof. exists 1431655766%N. vm_compute. repeat split; discriminate. Qed.
Print Assumptions lcx_index_refuted.

(** ** A concrete case: a segment covers the pixel of its first number *)
Definition dot : size -> segment -> nat -> bool := fun _ s px => let '(x, _, _, _) := s in Z.eqb x (Z.of_nat px).
Example lcx_ex : compare_segments dot {| width := 3; height := 2 |} (of_vector [(0, 0, 0, 0); (4, 0, 0, 0)]%Z) (of_vector [(4, 0, 0, 0); (5, 0, 0, 0); (9, 0, 0, 0)]%Z) None = Ok (2, None).
Proof. reflexivity. Qed.
Example lcx_ex_column : compare_segments dot {| width := 3; height := 2 |} (of_column [(0, 0, 0, 0); (4, 0, 0, 0)]%Z) (of_column [(0, 0, 0, 0); (5, 0, 0, 0)]%Z) None = Ok (0, None).
Proof. reflexivity. Qed.
