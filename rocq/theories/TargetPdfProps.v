(** Properties of printed calibration targets. *)
From Coq Require Import Reals ZArith NArith List Bool Arith Lia Lra String.
From Verif Require Import StlHelpersModel AprilGridModel AprilGridSpec AprilGridProofs AprilGridProps TargetPdfTags TargetPdfModel TargetPdfSpec TargetPdfProofs.
Import ListNotations.
Local Open Scope R_scope.

(** ** The tags of a board *)
Definition tag_at (n : nat) (size spacing : R) (x y : nat) (code : N) : list rect := april_tag n 2 (size * 100) spacing 2 (tag_start size spacing x) (tag_start size spacing y) code.
Lemma draw_tags_spec codes n nc size spacing ps page : draw_tags codes n nc (size * 100) spacing ps = Some page ->
  (forall x y, In (x, y) ps -> exists code, nth_error codes (nc * y + x) = Some code) /\
  forall r, In r page <-> exists x y code, In (x, y) ps /\ nth_error codes (nc * y + x) = Some code /\ In r (tag_at n size spacing x y code).
Proof.
  revert page. induction ps as [|[a b] ps IH]; intros page E; cbn [draw_tags] in E.
  - injection E as <-. split; [intros x y []|]. intros r. split; [intros []|]. intros (x & y & code & [] & _).
  - destruct (nth_error codes (nc * b + a)) as [co|] eqn:C; [|discriminate]. destruct (draw_tags codes n nc (size * 100) spacing ps) as [l|]; [|discriminate]. apply (f_equal (fun o => match o with Some v => v | None => [] end)) in E. cbn beta iota in E. subst page. destruct (IH l eq_refl) as [D R]. split.
    + intros x y [[= <- <-]|H]; [eauto|apply D, H].
    + assert (P : forall k, INR k * (1 + spacing) * (size * 100) = tag_start size spacing k) by (intros k; unfold tag_start; ring).
      intros r. rewrite in_app_iff, R, !P. split.
      * intros [H|(x & y & code & I & N & H)]; [exists a, b, co; split; [left; reflexivity|split; assumption]|exists x, y, code; split; [right; exact I|split; assumption]].
      * intros (x & y & code & I & N & H). destruct I as [I|I]; [injection I as <- <-; left; rewrite C in N; injection N as <-; exact H|right; exists x, y, code; auto].
Qed.
Lemma in_positions nc nr x y : In (x, y) (positions nc nr) <-> (x < nc /\ y < nr)%nat.
Proof.
  unfold positions. rewrite in_flat_map. split.
  - intros (b & I & H). apply in_map_iff in H. destruct H as (a & [= <- <-] & J). apply in_seq in I, J. lia.
  - intros H. exists y. split; [apply in_seq; lia|]. apply in_map_iff. exists x. split; [reflexivity|apply in_seq; lia].
Qed.
Lemma board_spec nc nr size spacing name page : april_board nc nr size spacing name = Some page -> 0 <= spacing /\ exists codes n, family name = Some (codes, n) /\
  (forall x y, (x < nc)%nat -> (y < nr)%nat -> exists code, nth_error codes (nc * y + x) = Some code) /\
  forall r, In r page <-> exists x y code, (x < nc /\ y < nr)%nat /\ nth_error codes (nc * y + x) = Some code /\ In r (tag_at n size spacing x y code).
Proof.
  unfold april_board. destruct (Rlt_dec spacing 0) as [|S]; [discriminate|]. destruct (Rlt_dec 1 spacing) as [|S1]; [discriminate|]. destruct (family name) as [[codes n]|]; [|discriminate]. intros E. apply draw_tags_spec in E. destruct E as [D R]. split; [lra|]. exists codes, n. split; [reflexivity|]. split.
  - intros x y X Y. apply D, in_positions. auto.
  - intros r. rewrite R. split; intros (x & y & code & I & H); exists x, y, code; (split; [apply in_positions; exact I|exact H]).
Qed.
Lemma tag_parts n size spacing x y code r : 0 < size -> 0 <= spacing -> In r (tag_at n size spacing x y code) ->
  (In r (body n (size * 100) (tag_start size spacing x) (tag_start size spacing y) (rotate n 2 (code_matrix n code))) /\ within size (tag_start size spacing x) (left r) (left r + width r) /\ within size (tag_start size spacing y) (bottom r) (bottom r + height r)) \/
  (beside size spacing (tag_start size spacing x) (left r) (left r + width r) /\ beside size spacing (tag_start size spacing y) (bottom r) (bottom r + height r)).
Proof.
  intros S P I. unfold tag_at, april_tag in I. rewrite app_assoc in I. apply in_app_iff in I. destruct I as [I|I]; [left; split; [exact I|apply (body_within n size _ _ _ r S I)]|right; apply corners_beside; assumption].
Qed.
Lemma rotated n code a b : (a < n)%nat -> (b < n)%nat -> rotate n 2 (code_matrix n code) a b = negb (shown_bit n code a b).
Proof. intros A B. unfold rotate, shown_bit. cbn [Nat.iter nat_rect]. unfold rot90, code_matrix. do 3 f_equal. nia. Qed.
Lemma cell_in_tag size n k start c : 0 < size -> (k < n + 4)%nat -> in_cell size n k start c -> in_tag size start c.
Proof.
  intros S K C. destruct (in_cell_offset _ _ _ _ _ S C) as (u & U & ->). destruct (bit_size_pos n (size * 100) ltac:(lra)) as (W & E & N). set (w := bit_size n 2 (size * 100)) in *.
  assert (INR k + 1 <= INR (n + 4)) by (replace (INR k + 1) with (INR (k + 1)) by (rewrite plus_INR; reflexivity); apply le_INR; lia). pose proof (pos_INR k). unfold in_tag. split; nra.
Qed.

(** Every tag of the board shows its code: in a frame of two black cells, row by row from the top left, the most significant bit first, ones white. No other tag and no corner square interferes. *)
Theorem tpx_tag nc nr size spacing name page codes n x y i j c d : april_board nc nr size spacing name = Some page -> 0 < size -> family name = Some (codes, n) -> (x < nc)%nat -> (y < nr)%nat ->
  (i < n + 4)%nat -> (j < n + 4)%nat -> in_cell size n i (tag_start size spacing x) c -> in_cell size n j (tag_start size spacing y) d ->
  exists code, nth_error codes (nc * y + x) = Some code /\
    (black page c d <-> (i < 2 \/ n + 2 <= i \/ j < 2 \/ n + 2 <= j)%nat \/ (2 <= i < n + 2 /\ 2 <= j < n + 2 /\ shown_bit n code (n + 1 - j) (i - 2) = false)%nat).
Proof.
  intros E S F X Y I J C D. destruct (board_spec _ _ _ _ _ _ E) as (P & codes' & n' & F' & DEF & R). rewrite F in F'. injection F' as <- <-. destruct (DEF x y X Y) as [code N]. exists code. split; [exact N|].
  assert (B : black page c d <-> black (body n (size * 100) (tag_start size spacing x) (tag_start size spacing y) (rotate n 2 (code_matrix n code))) c d).
  { unfold black. split; intros (r & H & K).
    - exists r. split; [|exact K]. apply R in H. destruct H as (x' & y' & code' & _ & N' & H). destruct K as [K1 K2]. destruct (column size spacing x x' _ _ c S P (cell_in_tag _ _ _ _ _ S I C) K1) as [A1 A2]. destruct (column size spacing y y' _ _ d S P (cell_in_tag _ _ _ _ _ S J D) K2) as [B1 B2].
      destruct (tag_parts n size spacing x' y' code' r S P H) as [(H1 & W1 & W2)|[W _]]; [|contradiction]. specialize (A1 W1). specialize (B1 W2). subst x' y'. rewrite N in N'. injection N' as <-. exact H1.
    - exists r. split; [|exact K]. apply R. exists x, y, code. split; [auto|]. split; [exact N|]. unfold tag_at, april_tag. rewrite app_assoc. apply in_or_app. left. exact H. }
  rewrite B, (body_cell n size _ _ _ i j c d S I J C D). split; (intros [H|(H1 & H2 & H3)]; [left; exact H|right; split; [exact H1|split; [exact H2|]]]).
  - rewrite rotated in H3 by lia. apply negb_true_iff. exact H3.
  - rewrite rotated by lia. apply negb_true_iff. exact H3.
Qed.
Print Assumptions tpx_tag.
(** Between the tags the page is white, except for the squares at their corners, which are black. *)
Theorem tpx_space nc nr size spacing name page x y c d : april_board nc nr size spacing name = Some page -> 0 < size ->
  (in_space size spacing (tag_start size spacing x) c -> in_tag size (tag_start size spacing y) d -> ~ black page c d) /\
  (in_tag size (tag_start size spacing x) c -> in_space size spacing (tag_start size spacing y) d -> ~ black page c d) /\
  ((x < nc)%nat -> (y < nr)%nat -> in_space size spacing (tag_start size spacing x) c -> in_space size spacing (tag_start size spacing y) d -> black page c d).
Proof.
  intros E S. destruct (board_spec _ _ _ _ _ _ E) as (P & codes & n & F & DEF & R). split; [|split].
  - intros C D (r & H & K1 & K2). apply R in H. destruct H as (x' & y' & code' & _ & N' & H). destruct (column size spacing y y' _ _ d S P D K2) as [_ B2]. pose proof (space_column size spacing x x' _ _ c S P C K1) as A. destruct (tag_parts n size spacing x' y' code' r S P H) as [(_ & W1 & _)|[_ W]]; contradiction.
  - intros C D (r & H & K1 & K2). apply R in H. destruct H as (x' & y' & code' & _ & N' & H). destruct (column size spacing x x' _ _ c S P C K1) as [_ B2]. pose proof (space_column size spacing y y' _ _ d S P D K2) as A. destruct (tag_parts n size spacing x' y' code' r S P H) as [(_ & _ & W1)|[W _]]; contradiction.
  - intros X Y C D. destruct (DEF x y X Y) as [code N].
    assert (G : exists r, In r (corner_rects (size * 100) spacing (tag_start size spacing x) (tag_start size spacing y)) /\ covers r c d).
    { unfold corner_rects, covers. cbn [map fst snd]. destruct C as [C|C], D as [D|D].
      - eexists. split; [left; reflexivity|]. cbn [left bottom width height]. lra.
      - eexists. split; [right; right; right; left; reflexivity|]. cbn [left bottom width height]. lra.
      - eexists. split; [right; left; reflexivity|]. cbn [left bottom width height]. lra.
      - eexists. split; [right; right; left; reflexivity|]. cbn [left bottom width height]. lra. }
    destruct G as (r & G1 & G2). exists r. split; [|exact G2]. apply R. exists x, y, code. split; [auto|]. split; [exact N|]. unfold tag_at, april_tag. rewrite app_assoc. apply in_or_app. right. exact G1.
Qed.
Print Assumptions tpx_space.
(** Outside of the board and its corner squares nothing is printed. *)
Theorem tpx_outside nc nr size spacing name page c d : april_board nc nr size spacing name = Some page -> 0 < size -> black page c d ->
  - (spacing * (size * 100)) <= c <= tag_start size spacing nc /\ - (spacing * (size * 100)) <= d <= tag_start size spacing nr.
Proof.
  intros E S (r & H & K1 & K2). destruct (board_spec _ _ _ _ _ _ E) as (P & codes & n & F & DEF & R). apply R in H. destruct H as (x & y & code & [X Y] & _ & H).
  assert (Z : forall k, 0 <= tag_start size spacing k) by (intros k; unfold tag_start; apply Rmult_le_pos; [apply pos_INR|nra]). assert (SP : 0 <= spacing * (size * 100)) by nra.
  pose proof (start_step size spacing x nc S P X). pose proof (start_step size spacing y nr S P Y). pose proof (Z x). pose proof (Z y).
  destruct (tag_parts n size spacing x y code r S P H) as [(_ & W1 & W2)|[W1 W2]]; unfold within, beside in *; [lra|]. destruct W1, W2; lra.
Qed.
Print Assumptions tpx_outside.
(** A file is made exactly if the spacing is between zero and one, the family exists, and it has a code for every tag. *)
Theorem tpx_defined nc nr size spacing name : (exists page, april_board nc nr size spacing name = Some page) <-> 0 <= spacing <= 1 /\ exists codes n, family name = Some (codes, n) /\ (nc * nr <= List.length codes)%nat.
Proof.
  unfold april_board. destruct (Rlt_dec spacing 0) as [S|S]; [split; [intros [p H]; discriminate|lra]|]. destruct (Rlt_dec 1 spacing) as [S1|S1]; [split; [intros [p H]; discriminate|lra]|].
  destruct (family name) as [[codes n]|]; [|split; [intros [p H]; discriminate|intros (_ & c & m & H & _); discriminate]].
  assert (G : forall ps, (exists page, draw_tags codes n nc (size * 100) spacing ps = Some page) <-> forall x y, In (x, y) ps -> (nc * y + x < List.length codes)%nat).
  { induction ps as [|[a b] ps IH]; cbn [draw_tags]; [split; [intros _ x y []|eauto]|]. destruct (nth_error codes (nc * b + a)) as [co|] eqn:C.
    - assert (L : (nc * b + a < List.length codes)%nat) by (apply nth_error_Some; congruence). destruct (draw_tags codes n nc (size * 100) spacing ps) as [l|].
      + split; [|eauto]. intros _ x y [[= <- <-]|H]; [exact L|apply IH; eauto].
      + split; [intros [p H]; discriminate|]. intros H. apply IH. intros x y I. apply H. right. exact I.
    - apply nth_error_None in C. split; [intros [p H]; discriminate|]. intros H. specialize (H a b (or_introl eq_refl)). lia. }
  rewrite G. split.
  - intros H. split; [lra|]. exists codes, n. split; [reflexivity|]. destruct nc as [|nc]; [cbn; lia|]. destruct nr as [|nr]; [rewrite Nat.mul_0_r; lia|]. specialize (H nc nr (proj2 (in_positions (Datatypes.S nc) (Datatypes.S nr) nc nr) ltac:(lia))). nia.
  - intros (_ & c & m & [= <- <-] & L) x y I. apply in_positions in I. nia.
Qed.
Print Assumptions tpx_defined.
Example tpx_tag_case : exists page code, april_board 6 7 (2 / 100) (25 / 100) "t36h11" = Some page /\ nth_error t36h11 (6 * 1 + 2) = Some code /\ code = 9313320621%N /\ in_cell (2 / 100) 6 2 (tag_start (2 / 100) (25 / 100) 2) (tag_start (2 / 100) (25 / 100) 2 + 1 / 2).
Proof.
  destruct (proj2 (tpx_defined 6 7 (2 / 100) (25 / 100) "t36h11")) as [page E]; [split; [lra|]; exists t36h11, 6%nat; split; [reflexivity|]; apply Nat.leb_le; vm_compute; reflexivity|].
  exists page. eexists. split; [exact E|]. split; [vm_compute; reflexivity|]. split; [vm_compute; reflexivity|]. unfold in_cell. cbn [INR Nat.add]. lra.
Qed.

(** ** The target of the detector *)
(** Corner [k] of the printed tag, in cm, counterclockwise from the lower left. *)
Definition printed_corner (size spacing : R) (x y k : nat) : R * R :=
  (tag_start size spacing x + match k with 1%nat | 2%nat => size * 100 | _ => 0 end, tag_start size spacing y + match k with 2%nat | 3%nat => size * 100 | _ => 0 end).
(** The detector finds the corners of the tag with the code of this position at the point of its target where they are printed, for the same numbers of tags, size and spacing. *)
Theorem tpx_corners nc nr size spacing t x y k : make_target {| tag_rows := nr; tag_cols := nc; tag_size := size; tag_space := spacing * size |} = Ok t -> (Z.of_nat (AprilGridModel.size t) < 2 ^ 31)%Z -> (x < nc)%nat -> (y < nr)%nat -> (k < 4)%nat ->
  exists i px py, corner_index (cols t) (Z.of_nat (nc * y + x)) k = Z.of_nat i /\ target_point t i = Ok (px, py, 0) /\ printed_corner size spacing x y k = (px * 100, py * 100).
Proof.
  intros T B X Y K. destruct (ex_corner_position _ t (nc * y + x) k T B) as (i & C & _ & P); [cbn; nia|exact K|]. cbn [tag_cols tag_size tag_space] in P.
  assert (D : ((nc * y + x) / nc = y /\ (nc * y + x) mod nc = x)%nat) by (split; symmetry; [apply (Nat.div_unique _ _ _ x); lia|apply (Nat.mod_unique _ _ y); lia]). destruct D as [D1 D2]. rewrite D1, D2 in P.
  exists i. unfold tag_corner in P. destruct k as [|[|[|[|k]]]]; [| | | |lia]; do 2 eexists; (split; [exact C|]); (split; [exact P|]); unfold printed_corner, tag_start; f_equal; ring.
Qed.
Print Assumptions tpx_corners.
Example tpx_corners_case : exists t, make_target {| tag_rows := 7; tag_cols := 6; tag_size := 2 / 100; tag_space := 25 / 100 * (2 / 100) |} = Ok t /\ (Z.of_nat (AprilGridModel.size t) < 2 ^ 31)%Z.
Proof. unfold make_target. cbn [tag_size tag_space tag_rows tag_cols]. destruct (Rlt_dec 0 (2 / 100)) as [_|H]; [|lra]. destruct (Rlt_dec 0 (25 / 100 * (2 / 100))) as [_|H]; [|lra]. eexists. split; [reflexivity|vm_compute; reflexivity]. Qed.

(** ** The codes *)
Lemma shown_turned n code r i j : (i < n)%nat -> (j < n)%nat -> turned n r (shown_bit n code) i j = negb (turned n (r + 2) (code_matrix n code) i j).
Proof.
  revert i j. induction r as [|r IH]; intros i j I J.
  - change (0 + 2)%nat with 2%nat. rewrite <- (rotate_turned n 2), rotated by assumption. change (turned n 0 (shown_bit n code)) with (shown_bit n code). symmetry. apply negb_involutive.
  - cbn [Nat.add turned]. apply IH; lia.
Qed.
Lemma difference_negb n a b a' b' : (forall i j, (i < n)%nat -> (j < n)%nat -> a i j = negb (a' i j)) -> (forall i j, (i < n)%nat -> (j < n)%nat -> b i j = negb (b' i j)) -> difference n a b = difference n a' b'.
Proof. intros A B. unfold difference. f_equal. apply filter_ext_in. intros [i j] H. apply in_cells in H. cbn [fst snd]. rewrite A, B by lia. destruct (a' i j), (b' i j); reflexivity. Qed.
(** The distances that the names of the families stand for. *)
Definition distances : list (string * nat) := [("t16h5", 5%nat); ("t25h7", 7%nat); ("t25h9", 9%nat); ("t36h11", 11%nat)]%string.
(** Two tags of a family, or two orientations of a tag, differ in at least as many cells as the name of the family says. *)
Theorem tpx_codes name codes n h i j a b r s : In (name, h) distances -> family name = Some (codes, n) ->
  nth_error codes i = Some a -> nth_error codes j = Some b -> (r < 4)%nat -> (s < 4)%nat -> (i, r) <> (j, s) ->
  (h <= difference n (turned n r (shown_bit n a)) (turned n s (shown_bit n b)))%nat.
Proof.
  intros I F A B R S NE. assert (C : check h (map (turns n) codes) = true).
  { unfold distances in I. cbn [In] in I. destruct I as [I|[I|[I|[I|[]]]]]; injection I as <- <-; vm_compute in F; injection F as <- <-; vm_compute; reflexivity. }
  rewrite (difference_negb n _ _ _ _ (shown_turned n a r) (shown_turned n b s)). rewrite !(Nat.add_comm _ 2). cbn [Nat.add]. rewrite !difference_turn. apply (check_all n h codes i j a b r s C A B R S NE).
Qed.
Print Assumptions tpx_codes.
(** So a pattern with less than half as many wrong cells still belongs to one tag in one orientation. *)
Theorem tpx_decode name codes n h i j a b r s w : In (name, h) distances -> family name = Some (codes, n) ->
  nth_error codes i = Some a -> nth_error codes j = Some b -> (r < 4)%nat -> (s < 4)%nat -> (i, r) <> (j, s) ->
  (2 * difference n w (turned n r (shown_bit n a)) < h)%nat -> (difference n w (turned n r (shown_bit n a)) < difference n w (turned n s (shown_bit n b)))%nat.
Proof.
  intros I F A B R S NE W. pose proof (tpx_codes name codes n h i j a b r s I F A B R S NE) as D. pose proof (difference_triangle n (turned n r (shown_bit n a)) w (turned n s (shown_bit n b))) as T. rewrite (difference_sym n _ w) in T. lia.
Qed.
Print Assumptions tpx_decode.
(** Every code fits into the cells of its tag, so its number can be read back from them. *)
Theorem tpx_fits name codes n code : family name = Some (codes, n) -> In code codes -> (code < 2 ^ N.of_nat (n * n))%N.
Proof.
  unfold family. intros F I. assert (C : forallb (fun c => N.ltb c (2 ^ N.of_nat (n * n))) codes = true).
  { destruct (String.eqb name "t16h5"); [injection F as <- <-; vm_compute; reflexivity|]. destruct (String.eqb name "t25h7"); [injection F as <- <-; vm_compute; reflexivity|]. destruct (String.eqb name "t25h9"); [injection F as <- <-; vm_compute; reflexivity|]. destruct (String.eqb name "t36h11"); [injection F as <- <-; vm_compute; reflexivity|discriminate]. }
  apply N.ltb_lt. rewrite forallb_forall in C. apply C, I.
Qed.
Print Assumptions tpx_fits.
(** How many tags the families have, and of how many cells they are. *)
Theorem tpx_sizes name codes n : family name = Some (codes, n) ->
  In (name, List.length codes, n) [("t16h5", 30, 4); ("t25h7", 242, 5); ("t25h9", 35, 5); ("t36h11", 587, 6)]%nat%string /\ forall m, In m ["t16h5"; "t25h7"; "t25h9"; "t36h11"]%string -> exists f, family m = Some f.
Proof.
  intros F. split.
  - unfold family in F. cbn [In]. destruct (String.eqb_spec name "t16h5") as [->|_]; [injection F as <- <-; left; vm_compute; reflexivity|]. destruct (String.eqb_spec name "t25h7") as [->|_]; [injection F as <- <-; right; left; vm_compute; reflexivity|].
    destruct (String.eqb_spec name "t25h9") as [->|_]; [injection F as <- <-; right; right; left; vm_compute; reflexivity|]. destruct (String.eqb_spec name "t36h11") as [->|_]; [injection F as <- <-; right; right; right; left; vm_compute; reflexivity|discriminate].
  - intros m M. cbn [In] in M. destruct M as [<-|[<-|[<-|[<-|[]]]]]; eexists; reflexivity.
Qed.
Print Assumptions tpx_sizes.
(** Tags 3 and 8 of the usual family, the second turned by 180 degrees. *)
Example tpx_codes_case : exists a b, In ("t36h11"%string, 11%nat) distances /\ family "t36h11" = Some (t36h11, 6%nat) /\ nth_error t36h11 3 = Some a /\ nth_error t36h11 8 = Some b /\ (3, 0)%nat <> (8, 2)%nat /\ difference 6 (shown_bit 6 a) (turned 6 2 (shown_bit 6 b)) = 14%nat.
Proof. do 2 eexists. split; [cbn; auto|]. split; [reflexivity|]. split; [vm_compute; reflexivity|]. split; [vm_compute; reflexivity|]. split; [discriminate|]. vm_compute. reflexivity. Qed.

(** ** Checkerboards *)
(** One more box than inner corners in every direction; the lower left box and every second one are black, the others are white. *)
Theorem tpx_checkerboard nc nr sc sr x y c d : 0 < sc -> 0 < sr -> INR x * (sc * 100) < c < INR (x + 1) * (sc * 100) -> INR y * (sr * 100) < d < INR (y + 1) * (sr * 100) ->
  (black (checkerboard nc nr sc sr) c d <-> (x <= nc /\ y <= nr)%nat /\ Nat.Even (x + y)).
Proof.
  intros S1 S2 C D. assert (EV : forall k, negb ((k + 1) mod 2 =? 0)%nat = true <-> Nat.Even k).
  { intros k. rewrite negb_true_iff, Nat.eqb_neq. split.
    - intros H. exists (k / 2)%nat. pose proof (Nat.div_mod k 2 ltac:(lia)). pose proof (Nat.div_mod (k + 1) 2 ltac:(lia)). pose proof (Nat.mod_upper_bound k 2 ltac:(lia)). pose proof (Nat.mod_upper_bound (k + 1) 2 ltac:(lia)). lia.
    - intros [m ->]. replace (2 * m + 1)%nat with (1 + m * 2)%nat by lia. rewrite Nat.mod_add by lia. discriminate. }
  assert (ONE : forall (s v : R) (k l : nat), 0 < s -> INR k * (s * 100) < v < INR (k + 1) * (s * 100) -> INR l * (s * 100) <= v <= INR l * (s * 100) + s * 100 -> l = k).
  { intros s v k l S K L. rewrite plus_INR in K. cbn [INR] in K. destruct (Nat.lt_trichotomy l k) as [H|[H|H]]; [|exact H|].
    - assert (INR l + 1 <= INR k) by (replace (INR l + 1) with (INR (l + 1)) by (rewrite plus_INR; reflexivity); apply le_INR; lia). nra.
    - assert (INR k + 1 <= INR l) by (replace (INR k + 1) with (INR (k + 1)) by (rewrite plus_INR; reflexivity); apply le_INR; lia). nra. }
  unfold black, checkerboard. split.
  - intros (r & I & K1 & K2). apply in_map_iff in I. destruct I as ([x' y'] & <- & I). apply filter_In in I. destruct I as [I E]. cbn [fst snd left bottom width height] in *. apply in_prod_iff in I. rewrite !in_seq in I. rewrite (ONE sc c x x' S1 C K1), (ONE sr d y y' S2 D K2) in *. rewrite EV in E. split; [lia|exact E].
  - intros [B E]. eexists. split; [apply in_map_iff; exists (x, y); split; [reflexivity|]; apply filter_In; split; [apply in_prod_iff; rewrite !in_seq; lia|apply EV, E]|].
    unfold covers. cbn [fst snd left bottom width height]. rewrite plus_INR in C, D. cbn [INR] in C, D. lra.
Qed.
Print Assumptions tpx_checkerboard.
Example tpx_checkerboard_case : black (checkerboard 6 7 (2 / 100) (2 / 100)) 3 3 /\ ~ black (checkerboard 6 7 (2 / 100) (2 / 100)) 3 1.
Proof.
  split.
  - apply (tpx_checkerboard 6 7 (2 / 100) (2 / 100) 1 1); cbn [INR Nat.add]; try lra. split; [lia|]. exists 1%nat. reflexivity.
  - rewrite (tpx_checkerboard 6 7 (2 / 100) (2 / 100) 1 0) by (cbn [INR Nat.add]; lra). intros [_ [m H]]. lia.
Qed.

(** ** Boards and the detector *)
(** A board without space between its tags is printed, but the detector does not accept its description. *)
Theorem tpx_spacing_refuted : exists page, april_board 6 7 (2 / 100) 0 "t36h11" = Some page /\ make_target {| tag_rows := 7; tag_cols := 6; tag_size := 2 / 100; tag_space := 0 * (2 / 100) |} = Abort.
Proof.
  destruct (proj2 (tpx_defined 6 7 (2 / 100) 0 "t36h11")) as [page E]; [split; [lra|]; exists t36h11, 6%nat; split; [reflexivity|]; apply Nat.leb_le; vm_compute; reflexivity|].
  exists page. split; [exact E|]. unfold make_target. cbn [tag_size tag_space]. destruct (Rlt_dec 0 (2 / 100)); [|lra]. destruct (Rlt_dec 0 (0 * (2 / 100))); [lra|reflexivity].
Qed.
Print Assumptions tpx_spacing_refuted.
(** The detector accepts the description of a board that has more tags than the family has codes, but no such board can be printed. *)
Theorem tpx_large_refuted : (exists t, make_target {| tag_rows := 20; tag_cols := 30; tag_size := 2 / 100; tag_space := 25 / 100 * (2 / 100) |} = Ok t) /\ april_board 30 20 (2 / 100) (25 / 100) "t36h11" = None.
Proof.
  split.
  - eexists. apply make_target_ok. cbn [tag_size tag_space tag_rows tag_cols]. split; [lra|]. split; [lra|]. split; [lia|]. split; [lia|reflexivity].
  - destruct (april_board 30 20 (2 / 100) (25 / 100) "t36h11") as [page|] eqn:E; [|reflexivity]. exfalso. destruct (proj1 (tpx_defined 30 20 (2 / 100) (25 / 100) "t36h11") (ex_intro _ page E)) as (_ & codes & n & F & L). injection F as <- <-. apply Nat.leb_le in L. vm_compute in L. discriminate.
Qed.
Print Assumptions tpx_large_refuted.
(** The board printed by default is not the one the detector expects by default (ag header 38-44): its tags have another size. *)
Theorem tpx_default_refuted : exists page t i px py, default_board = Some page /\ make_target {| tag_rows := 6; tag_cols := 6; tag_size := 88 / 1000; tag_space := 264 / 10000 |} = Ok t /\
  corner_index (cols t) 0 1 = Z.of_nat i /\ target_point t i = Ok (px, py, 0) /\ printed_corner (2 / 100) (25 / 100) 0 0 1 <> (px * 100, py * 100).
Proof.
  destruct (proj2 (tpx_defined 6 7 (2 / 100) (25 / 100) "t36h11")) as [page E]; [split; [lra|]; exists t36h11, 6%nat; split; [reflexivity|]; apply Nat.leb_le; vm_compute; reflexivity|].
  assert (T : exists t, make_target {| tag_rows := 6; tag_cols := 6; tag_size := 88 / 1000; tag_space := 264 / 10000 |} = Ok t /\ (Z.of_nat (AprilGridModel.size t) < 2 ^ 31)%Z).
  { unfold make_target. cbn [tag_size tag_space tag_rows tag_cols]. destruct (Rlt_dec 0 (88 / 1000)) as [_|H]; [|lra]. destruct (Rlt_dec 0 (264 / 10000)) as [_|H]; [|lra]. eexists. split; [reflexivity|vm_compute; reflexivity]. }
  destruct T as (t & T & B). destruct (ex_corner_position _ t 0 1 T B) as (i & C & _ & P); [cbn; lia|lia|]. cbn [tag_cols tag_size tag_space] in P. unfold tag_corner in P. exists page, t, i. do 2 eexists. split; [exact E|]. split; [exact T|]. split; [exact C|]. split; [exact P|].
  unfold printed_corner, tag_start. cbn [INR Nat.modulo Nat.divmod fst snd Nat.sub]. intros H. injection H as H _. lra.
Qed.
Print Assumptions tpx_default_refuted.
