(** C115: the first estimate of the focal length from vanishing points. *)
From Coq Require Import Reals ZArith List Lra Lia Permutation Sorted.
From Verif Require Import CircleModel CircleSpec CircleProps VanishModel VanishSpec.
Import ListNotations.
Local Open Scope R_scope.

(** ** The median *)
Lemma insert_perm x l : Permutation (insert x l) (x :: l).
Proof. induction l as [|y l IH]; cbn; [reflexivity|]. destruct (Rle_dec x y); [reflexivity|]. rewrite IH. apply perm_swap. Qed.
Lemma sort_perm l : Permutation (sort l) l.
Proof. induction l as [|x l IH]; cbn; [reflexivity|]. fold (sort l). rewrite insert_perm. constructor. exact IH. Qed.
Lemma insert_sorted x l : StronglySorted Rle l -> StronglySorted Rle (insert x l).
Proof.
  induction 1 as [|y l S IH F]; cbn; [repeat constructor|]. destruct (Rle_dec x y) as [H|H].
  - constructor; [constructor; assumption|]. constructor; [exact H|]. apply Forall_forall. intros z Z. rewrite Forall_forall in F. specialize (F z Z). lra.
  - constructor; [exact IH|]. apply Forall_forall. intros z Z. apply (Permutation_in _ (insert_perm x l)) in Z. destruct Z as [<-|Z]; [lra|]. rewrite Forall_forall in F. exact (F z Z).
Qed.
Lemma sort_sorted l : StronglySorted Rle (sort l).
Proof. induction l as [|x l IH]; cbn; [constructor|]. apply insert_sorted. exact IH. Qed.
Lemma sort_nth l i : (i < length l)%nat -> In (nth i (sort l) 0) l.
Proof. intros H. apply (Permutation_in _ (sort_perm l)). apply nth_In. rewrite (Permutation_length (sort_perm l)). exact H. Qed.
Lemma half_lt n : (0 < n)%nat -> (n / 2 < n)%nat.
Proof. intros H. apply Nat.div_lt; lia. Qed.
(** The median is one of the numbers or the mean of two of them. *)
Lemma median_two l : l <> [] -> exists x y, In x l /\ In y l /\ median l = (x + y) / 2.
Proof.
  intros N. assert (P : (0 < length l)%nat) by (destruct l; [congruence|cbn; lia]). pose proof (half_lt _ P) as H.
  unfold median. destruct (Nat.odd (length l)).
  - exists (nth (length l / 2) (sort l) 0), (nth (length l / 2) (sort l) 0). split; [apply sort_nth; exact H|]. split; [apply sort_nth; exact H|]. field.
  - exists (nth (length l / 2) (sort l) 0), (nth (length l / 2 - 1) (sort l) 0). split; [apply sort_nth; exact H|]. split; [apply sort_nth; lia|]. reflexivity.
Qed.
Lemma sorted_nth l : StronglySorted Rle l -> forall i j, (i <= j < length l)%nat -> nth i l 0 <= nth j l 0.
Proof.
  induction 1 as [|x l S IH F]; cbn; intros i j H; [lia|]. destruct i as [|i], j as [|j]; try lia; [lra| |apply IH; lia].
  rewrite Forall_forall in F. apply F, nth_In. lia.
Qed.

(** ** Rows *)
Lemma corner_by_id_in i l c p : corner_by_id i l c = Some p -> exists k, nth_error l k = Some i /\ nth_error c k = Some p.
Proof.
  revert c. induction l as [|k l IH]; intros [|q c]; cbn; try discriminate. destruct (Nat.eqb_spec i k) as [->|_].
  - intros [= ->]. exists 0%nat. split; reflexivity.
  - intros H. destruct (IH c H) as [n [A B]]. exists (S n). split; assumption.
Qed.
Lemma corner_by_id_found i l c p k : NoDup l -> nth_error l k = Some i -> nth_error c k = Some p -> corner_by_id i l c = Some p.
Proof.
  intros N. revert c k. induction N as [|x l NI N IH]; intros c k A B; [destruct k; discriminate A|].
  destruct c as [|q c]; [destruct k; discriminate B|]. destruct k as [|k]; cbn in *.
  - injection A as ->. injection B as ->. rewrite Nat.eqb_refl. reflexivity.
  - destruct (Nat.eqb_spec i x) as [->|_]; [|exact (IH c k A B)]. contradiction NI. exact (nth_error_In _ _ A).
Qed.
Lemma row_points_in v r p : proper v -> In p (row_points v r) <-> row_corner v r p.
Proof.
  intros [N _]. unfold row_points. rewrite in_flat_map. split.
  - intros [c [C H]]. apply in_seq in C. destruct (corner_by_id _ _ _) as [q|] eqn:E; [|destruct H]. destruct H as [<-|[]].
    destruct (corner_by_id_in _ _ _ _ E) as [k [A B]]. exists c, k. repeat split; [lia|exact A|exact B].
  - intros [c [k [C [A B]]]]. exists c. split; [apply in_seq; lia|]. rewrite (corner_by_id_found _ _ _ p k N A B). left. reflexivity.
Qed.
Lemma row_collinear v r : proper v -> collinear (row_points v r) <-> straight_row v r.
Proof.
  intros P. unfold collinear, straight_row. split; intros [a [b [c [N H]]]]; exists a, b, c; (split; [exact N|]); intros p Hp; apply H; apply (row_points_in v r p P); exact Hp.
Qed.
Lemma row_fit v r cx cy rad : proper v -> arc v r cx cy rad -> fit_circle (row_points v r) = Some {| center_x := cx; center_y := cy; radius := rad |}.
Proof.
  intros P [R [A S]]. apply jx_exact; [exact R| |].
  - intros p Hp. apply A. apply (row_points_in v r p P). exact Hp.
  - intros C. apply S. apply (row_collinear v r P). exact C.
Qed.
Lemma whole_complete v : whole v <-> complete v = true.
Proof. unfold whole, complete. rewrite Nat.eqb_eq. split; intros ->; reflexivity. Qed.
Lemma view_guess_in v g : In g (view_guesses v) <-> exists j k, (j < k < rows v)%nat /\ In g (guess (fit_circle (row_points v j)) (fit_circle (row_points v k))).
Proof.
  unfold view_guesses. rewrite in_flat_map. split.
  - intros [j [J H]]. apply in_flat_map in H. destruct H as [k [K H]]. apply in_seq in J, K. exists j, k. split; [lia|exact H].
  - intros [j [k [L H]]]. exists j. split; [apply in_seq; lia|]. apply in_flat_map. exists k. split; [apply in_seq; lia|exact H].
Qed.
Lemma guess_in vs g : In g (guesses vs) <-> exists v, In v vs /\ whole v /\ exists j k, (j < k < rows v)%nat /\ In g (guess (fit_circle (row_points v j)) (fit_circle (row_points v k))).
Proof.
  unfold guesses. rewrite in_flat_map. split.
  - intros [v [V H]]. exists v. split; [exact V|]. destruct (complete v) eqn:C; [|destruct H]. split; [apply whole_complete; exact C|]. apply view_guess_in. exact H.
  - intros [v [V [W H]]]. exists v. split; [exact V|]. apply whole_complete in W. rewrite W. apply view_guess_in. exact H.
Qed.
Lemma numbers_map l : numbers (map Some l) = Some l.
Proof. induction l as [|x l IH]; cbn; [reflexivity|]. rewrite IH. reflexivity. Qed.
Lemma numbers_some gs l : numbers gs = Some l -> gs = map Some l.
Proof.
  revert l. induction gs as [|[x|] gs IH]; cbn; intros l H; [injection H as <-; reflexivity| |discriminate].
  destruct (numbers gs) as [r|]; [|discriminate]. injection H as <-. rewrite (IH r eq_refl). reflexivity.
Qed.
Lemma numbers_nan gs : In None gs -> numbers gs = None.
Proof. induction gs as [|[x|] gs IH]; cbn; intros H; [destruct H| |reflexivity]. destruct H as [H|H]; [discriminate|]. rewrite (IH H). reflexivity. Qed.

(** ** Two circles *)
Lemma sum_two_squares a b : a * a + b * b = 0 -> a = 0 /\ b = 0. Proof. intros. split; nra. Qed.
Lemma distance_hypot p q : hypot (fst p - fst q) (snd p - snd q) = distance p q. Proof. reflexivity. Qed.
Lemma distance_sym p q : distance p q = distance q p. Proof. unfold distance. f_equal. ring. Qed.
Lemma distance_self p : distance p p = 0. Proof. unfold distance. replace (_ + _) with 0 by ring. apply sqrt_0. Qed.
Lemma intersect_length x1 y1 r1 x2 y2 r2 : let l := intersect_circles x1 y1 r1 x2 y2 r2 [] in length l = 0%nat \/ length l = 1%nat \/ length l = 2%nat.
Proof.
  cbv zeta. unfold intersect_circles. destruct (Rlt_dec _ _); [left; reflexivity|]. destruct (Rlt_dec _ _); [left; reflexivity|].
  destruct (Req_EM_T _ _); [right; right; reflexivity|]. cbv zeta. destruct (Rlt_dec _ _); right; [left|right]; reflexivity.
Qed.
(** The circles around different centres through p and q, not too near: the guess is the distance over PI. *)
Lemma guess_exact a b p q : 0 <= radius a -> 0 <= radius b -> (center_x a, center_y a) <> (center_x b, center_y b) ->
  on_circle (center_x a) (center_y a) (radius a) p -> on_circle (center_x a) (center_y a) (radius a) q ->
  on_circle (center_x b) (center_y b) (radius b) p -> on_circle (center_x b) (center_y b) (radius b) q ->
  2 * / 10 ^ 10 <= distance p q -> guess (Some a) (Some b) = [Some (distance p q / PI)].
Proof.
  intros Ra Rb N Pa Qa Pb Qb D. destruct (ix_intersection_partial _ _ (radius a) _ _ (radius b) [] Ra Rb N) as [new [E [A [_ O]]]].
  pose proof (intersect_length (center_x a) (center_y a) (radius a) (center_x b) (center_y b) (radius b)) as L. cbv zeta in L.
  unfold guess. rewrite E in *. cbn [app] in *. rewrite map_length in L.
  assert (T : 0 < / 10 ^ 10) by (apply Rinv_0_lt_compat; lra).
  assert (NE : p <> q). { intros ->. rewrite distance_self in D. lra. }
  assert (L1 : length new <> 1%nat).
  { intros H. destruct new as [|m [|? ?]]; try discriminate H. destruct (O m eq_refl) as [h [Hh [ux [uy [U I]]]]].
    assert (DD : distance p q <= 2 * h).
    { destruct (proj1 (I p) (conj Pa Pb)) as [-> | ->], (proj1 (I q) (conj Qa Qb)) as [-> | ->]; unfold distance; cbn [fst snd].
      all: apply Rle_trans with (sqrt ((2 * h) * (2 * h))); [apply sqrt_le_1_alt|rewrite sqrt_square; lra].
      - match goal with |- ?x <= _ => replace x with 0 by ring end. nra.
      - match goal with |- ?x <= _ => replace x with (4 * (h * h) * (ux * ux + uy * uy)) by ring end. rewrite U. lra.
      - match goal with |- ?x <= _ => replace x with (4 * (h * h) * (ux * ux + uy * uy)) by ring end. rewrite U. lra.
      - match goal with |- ?x <= _ => replace x with 0 by ring end. nra. }
    lra. }
  destruct (A p Pa Pb) as [H|Ip]; [contradiction|]. destruct (A q Qa Qb) as [H|Iq]; [contradiction|].
  destruct new as [|m [|n [|? ?]]]; cbn in L, L1; try lia; [destruct Ip|].
  cbn [map]. rewrite distance_hypot. cbn in Ip, Iq. destruct Ip as [-> | [-> | []]], Iq as [-> | [-> | []]]; try congruence. rewrite distance_sym. reflexivity.
Qed.
(** A guess that is a number is the distance of two points of both circles. *)
Lemma guess_number a b g : 0 <= radius a -> 0 <= radius b -> In (Some g) (guess (Some a) (Some b)) ->
  exists p q, on_circle (center_x a) (center_y a) (radius a) p /\ on_circle (center_x a) (center_y a) (radius a) q /\
    on_circle (center_x b) (center_y b) (radius b) p /\ on_circle (center_x b) (center_y b) (radius b) q /\ g = distance p q / PI.
Proof.
  intros Ra Rb. cbn [guess]. intros I.
  assert (N : (center_x a, center_y a) <> (center_x b, center_y b)).
  { intros [= X Y]. revert I. unfold intersect_circles. rewrite <- X, <- Y.
    assert (D : hypot (center_x a - center_x a) (center_y a - center_y a) = 0). { unfold hypot, square. rewrite !(Rminus_diag_eq _ _ eq_refl), Rmult_0_l, Rplus_0_l. apply sqrt_0. }
    rewrite D. destruct (Rlt_dec _ _); [intros []|]. destruct (Rlt_dec _ _); [intros []|]. destruct (Req_EM_T 0 0) as [_|K]; [|contradiction K; reflexivity]. cbn. intros [K|[]]. discriminate K. }
  destruct (ix_intersection_partial _ _ (radius a) _ _ (radius b) [] Ra Rb N) as [new [E [_ [A _]]]].
  pose proof (intersect_length (center_x a) (center_y a) (radius a) (center_x b) (center_y b) (radius b)) as L. cbv zeta in L.
  rewrite E in *. cbn [app] in *. rewrite map_length in L. destruct new as [|m [|n [|? ?]]]; cbn in L; try lia; try (destruct I; fail).
  cbn [map] in I. destruct I as [I|[]]. injection I as <-. exists m, n.
  assert (H : length [m; n] <> 1%nat) by (cbn; lia). destruct (A H m (or_introl eq_refl)), (A H n (or_intror (or_introl eq_refl))). repeat split; assumption.
Qed.
Lemma sum_nonneg f l : (forall p, 0 <= f p) -> 0 <= sum f l.
Proof. intros H. induction l as [|p l IH]; [rewrite sum_nil; lra|]. rewrite sum_cons. specialize (H p). lra. Qed.
Lemma fit_radius l c : fit_circle l = Some c -> 0 <= radius c.
Proof.
  unfold fit_circle. destruct (Req_EM_T _ 0); [discriminate|]. intros [= <-]. cbn [radius].
  match goal with |- 0 <= sum ?f ?l / _ => assert (S : 0 <= sum f l) by (apply sum_nonneg; intros; apply hypot_nonneg) end.
  pose proof (pos_INR (length l)) as P. destruct P as [P|P]; [|rewrite <- P; unfold Rdiv; rewrite Rinv_0, Rmult_0_r; lra]. apply Rmult_le_pos; [exact S|]. left. apply Rinv_0_lt_compat, P.
Qed.

(** ** C115 *)
(** A view with rows that are arcs of circles through two points: the estimate is the distance over PI, whatever the order
    of the corners, and whatever incomplete views are among the observations. *)
Theorem vnx_exact v0 vs f : 2 * / 10 ^ 10 <= f * PI ->
  (exists v, In v (v0 :: vs) /\ whole v /\ (2 <= rows v)%nat) ->
  (forall v, In v (v0 :: vs) -> whole v -> proper v /\ exists p q, arcs_through v p q /\ distance p q = f * PI) ->
  init_vanishing (v0 :: vs) = Estimate f f ((IZR (width v0) - 1) / 2) ((IZR (height v0) - 1) / 2).
Proof.
  intros F [v [V [W R]]] H. pose proof PI_RGT_0 as PP.
  assert (ALL : forall g, In g (guesses (v0 :: vs)) -> g = Some f).
  { intros g G. apply guess_in in G. destruct G as [u [U [WU [j [k [L G]]]]]]. destruct (H u U WU) as [PU [p [q [[cx [cy [rad [A D]]]] E]]]].
    destruct (A j) as [Aj [Pj Qj]]; [lia|]. destruct (A k) as [Ak [Pk Qk]]; [lia|].
    rewrite (row_fit u j _ _ _ PU Aj), (row_fit u k _ _ _ PU Ak) in G. rewrite (guess_exact _ _ p q) in G; cbn [center_x center_y radius]; try assumption.
    - rewrite E in G. destruct G as [<-|[]]. f_equal. field. lra.
    - apply Aj.
    - apply Ak.
    - apply D. exact L.
    - rewrite E. exact F. }
  assert (NE : guesses (v0 :: vs) <> []).
  { destruct (H v V W) as [PU [p [q [[cx [cy [rad [A D]]]] E]]]]. destruct (A 0%nat) as [Aj [Pj Qj]]; [lia|]. destruct (A 1%nat) as [Ak [Pk Qk]]; [lia|].
    assert (I : In (Some (distance p q / PI)) (guesses (v0 :: vs))).
    { apply guess_in. exists v. split; [exact V|]. split; [exact W|]. exists 0%nat, 1%nat. split; [lia|].
      rewrite (row_fit v 0 _ _ _ PU Aj), (row_fit v 1 _ _ _ PU Ak). rewrite (guess_exact _ _ p q); cbn [center_x center_y radius]; try assumption; [left; reflexivity|apply Aj|apply Ak|apply D; lia|rewrite E; exact F]. }
    intros Z. rewrite Z in I. destruct I. }
  unfold init_vanishing. set (gs := guesses (v0 :: vs)) in *. clearbody gs.
  assert (M : exists l, gs = map Some l /\ forall x, In x l -> x = f).
  { clear -ALL. induction gs as [|g gs IH]; [exists []; split; [reflexivity|intros ? []]|]. destruct IH as [l [-> Hl]]; [intros; apply ALL; right; assumption|].
    exists (f :: l). rewrite (ALL g (or_introl eq_refl)). split; [reflexivity|]. intros x [->|X]; [reflexivity|exact (Hl x X)]. }
  destruct M as [l [-> Hl]]. destruct l as [|x l]; [contradiction NE; reflexivity|]. cbn [map]. change (Some x :: map Some l) with (map Some (x :: l)). rewrite numbers_map.
  destruct (median_two (x :: l)) as [a [b [Ia [Ib ->]]]]; [discriminate|]. rewrite (Hl a Ia), (Hl b Ib). f_equal; field.
Qed.
Print Assumptions vnx_exact.

(** What an estimate means: both focal lengths are the same, the principal point is the centre of the first image, and the
    focal length lies between two guesses: each is 1/PI of the distance of two points that are on the circles fitted to two
    rows of one complete view. *)
Theorem vnx_between v0 vs fu fv cu cv : init_vanishing (v0 :: vs) = Estimate fu fv cu cv ->
  fu = fv /\ cu = (IZR (width v0) - 1) / 2 /\ cv = (IZR (height v0) - 1) / 2 /\ 0 <= fu /\
  exists lo hi, lo <= fu <= hi /\ forall g, g = lo \/ g = hi ->
    exists v j k a b p q, In v (v0 :: vs) /\ whole v /\ (j < k < rows v)%nat /\
      fit_circle (row_points v j) = Some a /\ fit_circle (row_points v k) = Some b /\
      on_circle (center_x a) (center_y a) (radius a) p /\ on_circle (center_x a) (center_y a) (radius a) q /\
      on_circle (center_x b) (center_y b) (radius b) p /\ on_circle (center_x b) (center_y b) (radius b) q /\ g = distance p q / PI.
Proof.
  unfold init_vanishing. intros H.
  assert (EX : exists l, l <> [] /\ numbers (guesses (v0 :: vs)) = Some l /\
    Estimate (median l) (median l) ((IZR (width v0) - 1) / 2) ((IZR (height v0) - 1) / 2) = Estimate fu fv cu cv).
  { destruct (guesses (v0 :: vs)) as [|g gs]; [discriminate H|]. destruct (numbers (g :: gs)) as [l|] eqn:E; [|discriminate H].
    exists l. split; [|split; [reflexivity|exact H]]. intros ->. apply numbers_some in E. discriminate E. }
  destruct EX as [l [NE [E HH]]]. set (gs := guesses (v0 :: vs)) in *.
  injection HH as <- <- <- <-. split; [reflexivity|]. split; [reflexivity|]. split; [reflexivity|].
  assert (Q : forall g, In g l -> exists v j k a b p q, In v (v0 :: vs) /\ whole v /\ (j < k < rows v)%nat /\
      fit_circle (row_points v j) = Some a /\ fit_circle (row_points v k) = Some b /\
      on_circle (center_x a) (center_y a) (radius a) p /\ on_circle (center_x a) (center_y a) (radius a) q /\
      on_circle (center_x b) (center_y b) (radius b) p /\ on_circle (center_x b) (center_y b) (radius b) q /\ g = distance p q / PI).
  { intros g G. assert (I : In (Some g) gs). { rewrite (numbers_some _ _ E). apply in_map. exact G. }
    apply guess_in in I. destruct I as [v [V [W [j [k [L I]]]]]].
    destruct (fit_circle (row_points v j)) as [a|] eqn:Ea; [|destruct I as [I|[]]; discriminate I].
    destruct (fit_circle (row_points v k)) as [b|] eqn:Eb; [|destruct I as [I|[]]; discriminate I].
    destruct (guess_number a b g (fit_radius _ _ Ea) (fit_radius _ _ Eb) I) as [p [q [A [B [C [D G']]]]]].
    exists v, j, k, a, b, p, q. split; [exact V|]. split; [exact W|]. split; [exact L|]. split; [exact Ea|]. split; [exact Eb|]. repeat split; assumption. }
  assert (POS : forall g, In g l -> 0 <= g).
  { intros g G. destruct (Q g G) as [v [j [k [a [b [p [q [_ [_ [_ [_ [_ [_ [_ [_ [_ ->]]]]]]]]]]]]]]]]. pose proof PI_RGT_0. apply Rmult_le_pos; [apply sqrt_pos|]. left. apply Rinv_0_lt_compat. lra. }
  destruct (median_two l NE) as [x [y [X [Y M]]]]. pose proof (POS x X). pose proof (POS y Y). split; [rewrite M; lra|].
  destruct (Rle_dec x y).
  - exists x, y. split; [rewrite M; lra|]. intros g [-> | ->]; apply Q; assumption.
  - exists y, x. split; [rewrite M; lra|]. intros g [-> | ->]; apply Q; assumption.
Qed.
Print Assumptions vnx_between.

(** The median: half of the numbers are not greater, and half are not less. *)
Theorem vnx_median l : l <> [] ->
  exists below above, Permutation (below ++ above) l /\ (length below = length l / 2)%nat /\
    (forall x, In x below -> x <= median l) /\ (forall x, In x above -> median l <= x).
Proof.
  intros N. assert (P : (0 < length l)%nat) by (destruct l; [congruence|cbn; lia]). pose proof (half_lt _ P) as H.
  pose proof (sort_sorted l) as S. pose proof (Permutation_length (sort_perm l)) as LN.
  exists (firstn (length l / 2) (sort l)), (skipn (length l / 2) (sort l)). rewrite firstn_skipn. split; [apply sort_perm|].
  split; [rewrite firstn_length; lia|].
  assert (LO : forall x, In x (firstn (length l / 2) (sort l)) -> exists i, (i < length l / 2)%nat /\ nth i (sort l) 0 = x).
  { intros x X. apply (In_nth _ _ 0) in X. destruct X as [i [I E]]. rewrite firstn_length in I. exists i. split; [lia|]. rewrite <- E.
    rewrite <- (firstn_skipn (length l / 2) (sort l)) at 1. rewrite app_nth1; [reflexivity|rewrite firstn_length; lia]. }
  assert (HI : forall x, In x (skipn (length l / 2) (sort l)) -> exists i, (length l / 2 <= i < length l)%nat /\ nth i (sort l) 0 = x).
  { intros x X. apply (In_nth _ _ 0) in X. destruct X as [i [I E]]. rewrite skipn_length in I. exists (length l / 2 + i)%nat. split; [lia|]. rewrite <- E.
    rewrite <- (firstn_skipn (length l / 2) (sort l)) at 1. rewrite app_nth2; rewrite firstn_length; [|lia]. f_equal. lia. }
  unfold median. destruct (Nat.odd (length l)) eqn:O.
  - split.
    + intros x X. destruct (LO x X) as [i [I <-]]. apply sorted_nth; [exact S|lia].
    + intros x X. destruct (HI x X) as [i [I <-]]. apply sorted_nth; [exact S|lia].
  - assert (TWO : (2 <= length l)%nat). { destruct l as [|? [|? ?]]; [cbn in P; lia|discriminate O|cbn; lia]. }
    assert (G : (0 < length l / 2)%nat) by (apply Nat.div_str_pos; lia).
    assert (MM : nth (length l / 2 - 1) (sort l) 0 <= nth (length l / 2) (sort l) 0) by (apply sorted_nth; [exact S|lia]).
    split.
    + intros x X. destruct (LO x X) as [i [I <-]]. assert (nth i (sort l) 0 <= nth (length l / 2 - 1) (sort l) 0) by (apply sorted_nth; [exact S|lia]). lra.
    + intros x X. destruct (HI x X) as [i [I <-]]. assert (nth (length l / 2) (sort l) 0 <= nth i (sort l) 0) by (apply sorted_nth; [exact S|lia]). lra.
Qed.
Print Assumptions vnx_median.

(** No estimate: in no complete view do the circles of two rows have two common points further apart than 2e-10. *)
Theorem vnx_none v0 vs : init_vanishing (v0 :: vs) = NoEstimate ->
  forall v j k, In v (v0 :: vs) -> whole v -> proper v -> (j < k < rows v)%nat ->
  ~ straight_row v j /\ ~ straight_row v k /\
  forall cx cy rad cx' cy' rad', arc v j cx cy rad -> arc v k cx' cy' rad' -> forall p q,
    on_circle cx cy rad p -> on_circle cx cy rad q -> on_circle cx' cy' rad' p -> on_circle cx' cy' rad' q -> distance p q < 2 * / 10 ^ 10.
Proof.
  intros H v j k V W P L.
  assert (E : guesses (v0 :: vs) = []). { unfold init_vanishing in H. destruct (guesses (v0 :: vs)) as [|g gs]; [reflexivity|]. destruct (numbers (g :: gs)); discriminate H. }
  assert (G : forall g, ~ In g (guess (fit_circle (row_points v j)) (fit_circle (row_points v k)))).
  { intros g I. assert (J : In g (guesses (v0 :: vs))) by (apply guess_in; exists v; split; [exact V|]; split; [exact W|]; exists j, k; split; [exact L|exact I]). rewrite E in J. destruct J. }
  split; [|split].
  - intros S. apply (row_collinear v j P) in S. apply jx_defined in S. rewrite S in G. apply (G None). left. reflexivity.
  - intros S. apply (row_collinear v k P) in S. apply jx_defined in S. rewrite S in G. apply (G None). destruct (fit_circle _); left; reflexivity.
  - intros cx cy rad cx' cy' rad' A B p q Pa Qa Pb Qb. apply Rnot_le_lt. intros D.
    rewrite (row_fit v j _ _ _ P A), (row_fit v k _ _ _ P B) in G.
    destruct (Req_EM_T cx cx') as [X|X]; [destruct (Req_EM_T cy cy') as [Y|Y]|].
    + subst cx' cy'. assert (R : rad = rad'). { destruct A as [A _], B as [B _]. unfold on_circle in *. assert (K : Rsqr rad = Rsqr rad') by (unfold Rsqr; lra). apply Rsqr_inj; assumption. }
      subst rad'. cbn [guess] in G. cbn [center_x center_y radius] in G. rewrite ix_equal_refuted in G by (destruct A; assumption). apply (G None). left. reflexivity.
    + apply (G (Some (distance p q / PI))). rewrite (guess_exact _ _ p q); cbn [center_x center_y radius]; try assumption; [left; reflexivity|apply A|apply B|intros [= ? ?]; contradiction].
    + apply (G (Some (distance p q / PI))). rewrite (guess_exact _ _ p q); cbn [center_x center_y radius]; try assumption; [left; reflexivity|apply A|apply B|intros [= ? ?]; contradiction].
Qed.
Print Assumptions vnx_none.

(** With incomplete observations only, there is no estimate. *)
Theorem vnx_skip v0 vs : (forall v, In v (v0 :: vs) -> ~ whole v) -> init_vanishing (v0 :: vs) = NoEstimate.
Proof.
  intros H. assert (E : guesses (v0 :: vs) = []).
  { destruct (guesses (v0 :: vs)) as [|g gs] eqn:E; [reflexivity|]. assert (I : In g (guesses (v0 :: vs))) by (rewrite E; left; reflexivity).
    apply guess_in in I. destruct I as [v [V [W _]]]. contradiction (H v V W). }
  unfold init_vanishing. rewrite E. reflexivity.
Qed.
Print Assumptions vnx_skip.

(** One straight row in one complete view, e.g. in an image without distortion, spoils the result: whatever the other views
    are, the initializer returns true and the focal lengths come from NaN guesses. *)
Theorem vnx_straight_refuted v0 vs v r : In v (v0 :: vs) -> whole v -> proper v -> (2 <= rows v)%nat -> (r < rows v)%nat -> straight_row v r ->
  init_vanishing (v0 :: vs) = Garbage.
Proof.
  intros V W P R L S. apply (row_collinear v r P) in S. apply jx_defined in S.
  assert (I : In None (guesses (v0 :: vs))).
  { apply guess_in. exists v. split; [exact V|]. split; [exact W|]. destruct r as [|r].
    - exists 0%nat, 1%nat. split; [lia|]. rewrite S. left. reflexivity.
    - exists 0%nat, (Datatypes.S r). split; [lia|]. rewrite S. unfold guess. destruct (fit_circle (row_points v 0)); left; reflexivity. }
  unfold init_vanishing. destruct (guesses (v0 :: vs)) as [|g gs]; [destruct I|]. rewrite (numbers_nan _ I). reflexivity.
Qed.
Print Assumptions vnx_straight_refuted.

(** Two rows on the same circle do the same. *)
Theorem vnx_same_refuted v0 vs v j k cx cy rad : In v (v0 :: vs) -> whole v -> proper v -> (j < k < rows v)%nat -> arc v j cx cy rad -> arc v k cx cy rad ->
  init_vanishing (v0 :: vs) = Garbage.
Proof.
  intros V W P L A B.
  assert (I : In None (guesses (v0 :: vs))).
  { apply guess_in. exists v. split; [exact V|]. split; [exact W|]. exists j, k. split; [exact L|]. rewrite (row_fit v j _ _ _ P A), (row_fit v k _ _ _ P B).
    cbn [guess center_x center_y radius]. rewrite ix_equal_refuted by (destruct A; assumption). left. reflexivity. }
  unfold init_vanishing. destruct (guesses (v0 :: vs)) as [|g gs]; [destruct I|]. rewrite (numbers_nan _ I). reflexivity.
Qed.
Print Assumptions vnx_same_refuted.

(** ** Concrete cases *)
(** Two rows of three corners: the circles through (0,4) and (0,-4) around (3,0) and (-3,0), both of radius 5. *)
Definition good : view := {| width := 11; height := 21; rows := 2; cols := 3; ids := [3; 4; 5; 0; 1; 2]%nat;
  corners := [(2, 0); (0, 4); (0, -4); (8, 0); (3, 5); (3, -5)] |}.
Lemma three_points v r p q s : row_corner v r p -> row_corner v r q -> row_corner v r s ->
  (fst q - fst p) * (snd s - snd p) - (fst s - fst p) * (snd q - snd p) <> 0 -> ~ straight_row v r.
Proof.
  intros P Q S D [a [b [c [N H]]]]. pose proof (H p P). pose proof (H q Q). pose proof (H s S).
  set (u1 := fst q - fst p) in *. set (u2 := snd q - snd p) in *. set (w1 := fst s - fst p) in *. set (w2 := snd s - snd p) in *.
  assert (E1 : a * u1 + b * u2 = 0) by (unfold u1, u2; lra). assert (E2 : a * w1 + b * w2 = 0) by (unfold w1, w2; lra).
  assert (A : a * (u1 * w2 - w1 * u2) = 0). { replace (a * (u1 * w2 - w1 * u2)) with ((a * u1 + b * u2) * w2 - (a * w1 + b * w2) * u2) by ring. rewrite E1, E2. ring. }
  assert (B : b * (u1 * w2 - w1 * u2) = 0). { replace (b * (u1 * w2 - w1 * u2)) with ((a * w1 + b * w2) * u1 - (a * u1 + b * u2) * w1) by ring. rewrite E1, E2. ring. }
  apply Rmult_integral in A, B. destruct A as [A|A]; [|contradiction]. destruct B as [B|B]; [|contradiction]. destruct N; contradiction.
Qed.
Lemma good_row v r k c p : (c < cols v)%nat -> nth_error (ids v) k = Some (r * cols v + c)%nat -> nth_error (corners v) k = Some p -> row_corner v r p.
Proof. intros. exists c, k. repeat split; assumption. Qed.
Example vnx_good : init_vanishing [good] = Estimate (8 / PI) (8 / PI) 5 10.
Proof.
  assert (R : forall x, x = 8 / PI -> x * PI = 8) by (intros x ->; field; apply PI_neq0).
  replace 5 with ((IZR (width good) - 1) / 2) by (cbn; lra). replace 10 with ((IZR (height good) - 1) / 2) by (cbn; lra).
  apply vnx_exact.
  - rewrite (R _ eq_refl). assert (/ 10 ^ 10 <= 1). { rewrite <- Rinv_1. apply Rinv_le_contravar; lra. } lra.
  - exists good. split; [left; reflexivity|]. split; [reflexivity|cbn; lia].
  - intros v [<-|[]] _. split; [split; [|reflexivity]|].
    { unfold good; cbn [ids]. repeat constructor; cbn; intros H; repeat (destruct H as [H|H]; [discriminate H|]); exact H. }
    exists (0, 4), (0, -4). split.
    2:{ rewrite (R _ eq_refl). unfold distance; cbn [fst snd]. replace (_ + _) with (8 * 8) by ring. apply sqrt_square. lra. }
    exists (fun r => match r with 0%nat => 3 | _ => -3 end), (fun _ => 0), (fun _ => 5). split.
    2:{ intros j k L. cbn in L. assert (j = 0%nat /\ k = 1%nat) as [-> ->] by lia. intros [= K]. lra. }
    intros r L. cbn in L. split; [split; [lra|]; split|].
    + intros p [c [k [C [A B]]]]. cbn in C, A, B.
      do 6 (destruct k as [|k]; [cbn in A, B; injection A as A; injection B as <-;
        first [assert (r = 0%nat) as -> by lia | assert (r = 1%nat) as -> by lia]; unfold on_circle; cbn [fst snd]; lra|]).
      destruct k; discriminate A.
    + assert (r = 0%nat \/ r = 1%nat) as [-> | ->] by lia.
      * apply (three_points good 0 (8, 0) (3, 5) (3, -5)); [apply (good_row good 0 3 0); [cbn; lia|reflexivity|reflexivity]|apply (good_row good 0 4 1); [cbn; lia|reflexivity|reflexivity]|apply (good_row good 0 5 2); [cbn; lia|reflexivity|reflexivity]|cbn [fst snd]; lra].
      * apply (three_points good 1 (2, 0) (0, 4) (0, -4)); [apply (good_row good 1 0 0); [cbn; lia|reflexivity|reflexivity]|apply (good_row good 1 1 1); [cbn; lia|reflexivity|reflexivity]|apply (good_row good 1 2 2); [cbn; lia|reflexivity|reflexivity]|cbn [fst snd]; lra].
    + assert (r = 0%nat \/ r = 1%nat) as [-> | ->] by lia; unfold on_circle; cbn [fst snd]; lra.
Qed.
(** A view without distortion, parallel to the target: adding it to the good one ruins the estimate. *)
Definition flat : view := {| width := 11; height := 21; rows := 2; cols := 3; ids := [0; 1; 2; 3; 4; 5]%nat;
  corners := [(1, 1); (2, 1); (3, 1); (1, 2); (2, 2); (3, 2)] |}.
Example vnx_flat : init_vanishing [good; flat] = Garbage /\ init_vanishing [flat] = Garbage.
Proof.
  assert (P : proper flat). { split; [|reflexivity]. unfold flat; cbn [ids]. repeat constructor; cbn; intros H; repeat (destruct H as [H|H]; [discriminate H|]); exact H. }
  assert (S : straight_row flat 0).
  { exists 0, 1, 1. split; [right; lra|]. intros p [c [k [C [A B]]]]. cbn in C, A, B. do 6 (destruct k as [|k]; [cbn in A, B; injection A as A; injection B as <-; cbn [fst snd]; first [lra|lia]|]). destruct k; discriminate A. }
  split.
  - apply (vnx_straight_refuted good [flat] flat 0); try assumption; [right; left; reflexivity|reflexivity|cbn; lia|cbn; lia].
  - apply (vnx_straight_refuted flat [] flat 0); try assumption; [left; reflexivity|reflexivity|cbn; lia|cbn; lia].
Qed.
(** Incomplete views are skipped. *)
Example vnx_partial_view : init_vanishing [{| width := 3; height := 3; rows := 2; cols := 3; ids := [0]%nat; corners := [(0, 0)] |}] = NoEstimate.
Proof. apply vnx_skip. intros v [<-|[]]. unfold whole. cbn. lia. Qed.
