(** Newton's iteration for the radial-tangential distortion: error of a step, and of the loop. *)
From Coq Require Import Reals Lra Psatz.
From Verif Require Import DistortionModel DistortionSpec DistortionProofs RadTanInvSpec.
Local Open Scope R_scope.

(** ** Plane vectors *)
Definition add (a b : R * R) : R * R := (fst a + fst b, snd a + snd b).
Definition mul (s : R) (a : R * R) : R * R := (s * fst a, s * snd a).
Definition dot (a b : R * R) : R := fst a * fst b + snd a * snd b.
Lemma radius_sq a : radius a * radius a = fst a * fst a + snd a * snd a.
Proof. unfold radius. apply sqrt_sqrt. nra. Qed.
Lemma radius_pos a : 0 <= radius a.
Proof. apply sqrt_pos. Qed.
Lemma le_of_squares a b : 0 <= b -> a * a <= b * b -> a <= b.
Proof. intros B H. destruct (Rle_dec a b); [assumption|]. nra. Qed.
Lemma cauchy a b : Rabs (dot a b) <= radius a * radius b.
Proof.
  pose proof (radius_pos a). pose proof (radius_pos b). pose proof (radius_sq a) as A. pose proof (radius_sq b) as B. apply le_of_squares; [nra|].
  rewrite <- Rabs_mult, Rabs_pos_eq by nra. replace (radius a * radius b * (radius a * radius b)) with ((radius a * radius a) * (radius b * radius b)) by ring. rewrite A, B. unfold dot.
  pose proof (Rle_0_sqr (fst a * snd b - snd a * fst b)) as Q. unfold Rsqr in Q. nra.
Qed.
Lemma triangle a b : radius (add a b) <= radius a + radius b.
Proof.
  pose proof (radius_pos a). pose proof (radius_pos b). apply le_of_squares; [lra|]. rewrite radius_sq. cbn [add fst snd]. pose proof (radius_sq a). pose proof (radius_sq b). pose proof (cauchy a b) as C. pose proof (Rle_abs (dot a b)). unfold dot in *. nra.
Qed.
Lemma radius_mul s a : radius (mul s a) = Rabs s * radius a.
Proof.
  pose proof (radius_pos a). pose proof (Rabs_pos s). pose proof (radius_pos (mul s a)). pose proof (radius_sq (mul s a)) as E. cbn [mul fst snd] in E. pose proof (radius_sq a).
  assert (Rabs s * Rabs s = s * s) by (rewrite <- Rabs_mult; apply Rabs_pos_eq; nra). apply Rle_antisym; apply le_of_squares; nra.
Qed.
Lemma radius_zero a : radius a <= 0 -> a = (0, 0).
Proof. intros H. pose proof (radius_pos a). pose proof (radius_sq a). assert (radius a = 0) as E by lra. rewrite E in *. destruct a as [x y]. cbn [fst snd] in *. f_equal; nra. Qed.
Lemma radius_le2 s a A t b B : Rabs s <= A -> Rabs t <= B -> radius (add (mul s a) (mul t b)) <= A * radius a + B * radius b.
Proof.
  intros HA HB. eapply Rle_trans; [apply triangle|]. rewrite !radius_mul. pose proof (radius_pos a). pose proof (radius_pos b). apply Rplus_le_compat; apply Rmult_le_compat_r; assumption.
Qed.

Lemma diff_add d e : diff (add d e) d = e.
Proof. destruct d as [a b], e as [u v]. unfold diff, add. cbn [fst snd]. f_equal; ring. Qed.

(** ** The distortion *)
Section Lens.
Variables (k1 k2 p1 p2 : R).
Let f := radtan_distort k1 k2 p1 p2.
Let J := radtan_jacobian k1 k2 p1 p2.
Definition tang : R * R := (p2, p1).
Definition curve (r : R) : R := 3 * Rabs k1 * r + 10 * Rabs k2 * r ^ 3 + 3 * radius tang.
Lemma bend_tang r : bend k1 k2 p1 p2 r = 3 * Rabs k1 * r ^ 2 + 5 * Rabs k2 * r ^ 4 + 6 * radius tang * r.
Proof. unfold bend, radius, tang. cbn [fst snd]. rewrite (Rplus_comm (p2 * p2)). reflexivity. Qed.

Definition cub (x v : vec2) : vec2 := add (mul (dot x x) v) (mul (2 * dot x v) x).
Definition quint (x v : vec2) : vec2 := add (mul (dot x x * dot x x) v) (mul (4 * dot x x * dot x v) x).
Definition tan1 (x v : vec2) : vec2 := add (add (mul (2 * dot x v) tang) (mul (2 * dot tang v) x)) (mul (2 * dot tang x) v).
Lemma jac_eq x v : apply2 (J x) v = add v (add (mul k1 (cub x v)) (add (mul k2 (quint x v)) (tan1 x v))).
Proof. destruct x as [x y], v as [u w]. unfold J, apply2, radtan_jacobian, cub, quint, tan1, add, mul, dot, tang. cbn [fst snd]. f_equal; ring. Qed.
(** g x - g p for g = f - id. *)
Lemma diff_eq x p : let d := diff x p in diff (f x) (f p) = add d (add (mul k1 (add (mul (dot x x) d) (mul (dot d (add x p)) p)))
   (add (mul k2 (add (mul (dot x x * dot x x) d) (mul ((dot x x + dot p p) * dot d (add x p)) p)))
        (add (add (mul (dot d (add x p)) tang) (mul (2 * dot tang x) d)) (mul (2 * dot tang d) p)))).
Proof. cbv zeta. destruct x as [x y], p as [u w]. unfold f, radtan_distort, diff, add, mul, dot, tang. cbn [fst snd]. f_equal; ring. Qed.
(** The remainder of the linearisation at x. *)
Lemma rest_eq x p : let d := diff x p in diff (apply2 (J x) d) (diff (f x) (f p)) =
  add (mul k1 (add (mul (dot d d) p) (mul (2 * dot x d) d)))
      (add (mul k2 (add (mul (dot d (add x p) * dot d (add x p) + 2 * dot x x * dot d d) p) (mul (4 * dot x x * dot x d) d)))
           (add (mul (dot d d) tang) (mul (2 * dot tang d) d))).
Proof. cbv zeta. destruct x as [x y], p as [u w]. unfold f, J, apply2, radtan_jacobian, radtan_distort, diff, add, mul, dot, tang. cbn [fst snd]. f_equal; ring. Qed.

Lemma dot_le a b A B : radius a <= A -> radius b <= B -> Rabs (dot a b) <= A * B.
Proof. intros HA HB. eapply Rle_trans; [apply cauchy|]. pose proof (radius_pos a). pose proof (radius_pos b). nra. Qed.
Lemma abs_mul_le s t A B : Rabs s <= A -> Rabs t <= B -> Rabs (s * t) <= A * B.
Proof. intros HA HB. rewrite Rabs_mult. pose proof (Rabs_pos s). pose proof (Rabs_pos t). nra. Qed.
Lemma abs_add_le s t A B : Rabs s <= A -> Rabs t <= B -> Rabs (s + t) <= A + B.
Proof. intros HA HB. pose proof (Rabs_triang s t). lra. Qed.
Lemma abs_const c : 0 <= c -> Rabs c <= c.
Proof. intros H. rewrite Rabs_pos_eq; lra. Qed.
Lemma mul_le s a A B : Rabs s <= A -> radius a <= B -> radius (mul s a) <= A * B.
Proof. intros HA HB. rewrite radius_mul. pose proof (Rabs_pos s). pose proof (radius_pos a). nra. Qed.
Lemma add_le a b A B : radius a <= A -> radius b <= B -> radius (add a b) <= A + B.
Proof. intros HA HB. pose proof (triangle a b). lra. Qed.
Ltac bound := repeat (first [eassumption | apply add_le | apply mul_le | apply dot_le | apply abs_add_le | apply abs_mul_le | apply abs_const; lra | apply Rle_refl]).

Lemma jac_near x v rho : radius x <= rho -> radius (diff (apply2 (J x) v) v) <= bend k1 k2 p1 p2 rho * radius v.
Proof.
  intros X. pose proof (radius_pos x). pose proof (Rle_refl (radius v)) as V. pose proof (Rle_refl (radius tang)) as T.
  replace (diff (apply2 (J x) v) v) with (add (mul k1 (cub x v)) (add (mul k2 (quint x v)) (tan1 x v))).
  2:{ rewrite jac_eq. destruct v as [v w]. unfold diff, add, mul. cbn [fst snd]. f_equal; ring. }
  eapply Rle_trans; [unfold cub, quint, tan1; bound|]. rewrite bend_tang. apply Req_le. ring.
Qed.
Lemma diff_near x p rho : radius x <= rho -> radius p <= rho -> radius (diff (diff (f x) (f p)) (diff x p)) <= bend k1 k2 p1 p2 rho * distance x p.
Proof.
  intros X P. pose proof (radius_pos x). unfold distance. pose proof (Rle_refl (radius (diff x p))) as V. pose proof (Rle_refl (radius tang)) as T. pose proof (diff_eq x p) as E. cbv zeta in E. rewrite E. clear E. set (d := diff x p) in *.
  rewrite diff_add.
  eapply Rle_trans; [bound|]. rewrite bend_tang. apply Req_le. ring.
Qed.
Lemma rest_small x p rho : radius x <= rho -> radius p <= rho -> radius (diff (apply2 (J x) (diff x p)) (diff (f x) (f p))) <= curve rho * (distance x p * distance x p).
Proof.
  intros X P. pose proof (radius_pos x). unfold distance. pose proof (Rle_refl (radius (diff x p))) as V. pose proof (Rle_refl (radius tang)) as T. pose proof (rest_eq x p) as E. cbv zeta in E. rewrite E. clear E. set (d := diff x p) in *.
  eapply Rle_trans; [bound|]. unfold curve. apply Req_le. ring.
Qed.
Lemma lower a b : radius a - radius (diff b a) <= radius b <= radius a + radius (diff b a).
Proof.
  split.
  - pose proof (triangle b (mul (-1) (diff b a))) as T. rewrite radius_mul, Rabs_left in T by lra. replace (add b (mul (-1) (diff b a))) with a in T; [lra|]. destruct a, b. unfold add, mul, diff. cbn [fst snd]. f_equal; ring.
  - pose proof (triangle a (diff b a)) as T. replace (add a (diff b a)) with b in T; [lra|]. destruct a, b. unfold add, diff. cbn [fst snd]. f_equal; ring.
Qed.
Lemma between x p rho : radius x <= rho -> radius p <= rho ->
  (1 - bend k1 k2 p1 p2 rho) * distance x p <= distance (f x) (f p) <= (1 + bend k1 k2 p1 p2 rho) * distance x p.
Proof. intros X P. pose proof (diff_near x p rho X P). pose proof (lower (diff x p) (diff (f x) (f p))). unfold distance in *. lra. Qed.
Lemma jac_lower x v rho : radius x <= rho -> (1 - bend k1 k2 p1 p2 rho) * radius v <= radius (apply2 (J x) v).
Proof. intros X. pose proof (jac_near x v rho X). pose proof (lower v (apply2 (J x) v)). lra. Qed.

(** One step. *)
Lemma step_error x p rho : radius x <= rho -> radius p <= rho -> bend k1 k2 p1 p2 rho < 1 ->
  exists du, newton_step (J x) (fst (f p) - fst (f x), snd (f p) - snd (f x)) = Some du /\
    (1 - bend k1 k2 p1 p2 rho) * distance (fst x + fst du, snd x + snd du) p <= curve rho * (distance x p * distance x p).
Proof.
  intros X P B. destruct (J x) as [[a b] [c d]] eqn:EJ.
  assert (a * d - b * c <> 0) as N.
  { intros Z. assert (forall v, apply2 (J x) v = (0, 0) -> v = (0, 0)) as Inj.
    { intros v E. apply radius_zero. pose proof (jac_lower x v rho X) as Q. rewrite E in Q. assert (radius (0, 0) = 0) as R0 by (unfold radius; cbn [fst snd]; rewrite Rmult_0_l, Rplus_0_l; apply sqrt_0). rewrite R0 in Q. pose proof (radius_pos v). nra. }
    rewrite EJ in Inj. unfold apply2 in Inj. cbn [fst snd] in Inj.
    assert ((- b, a) = (0, 0)) as E1 by (apply Inj; cbn [fst snd]; f_equal; [ring|lra]). assert ((d, - c) = (0, 0)) as E2 by (apply Inj; cbn [fst snd]; f_equal; [lra|ring]).
    assert ((1, 0) = (0, 0)) as E3. { apply Inj. cbn [fst snd]. assert (a = 0) by congruence. assert (- c = 0) by congruence. f_equal; lra. } assert (1 = 0) by congruence. lra. }
  destruct (newton_step_solves a b c d (fst (f p) - fst (f x)) (snd (f p) - snd (f x)) N) as (u & v & E & E1 & E2). exists (u, v). split; [exact E|].
  pose proof (rest_small x p rho X P) as R. pose proof (jac_lower x (diff (fst x + u, snd x + v) p) rho X) as L. cbn [fst snd]. unfold distance at 1.
  replace (apply2 (J x) (diff (fst x + u, snd x + v) p)) with (diff (apply2 (J x) (diff x p)) (diff (f x) (f p))) in L; [lra|].
  rewrite EJ. unfold apply2, diff. cbn [fst snd]. f_equal; lra.
Qed.

(** The loop, from anywhere not farther than [dl] from the solution. *)
Section Loop.
Variables (tol rho dl : R) (p : vec2).
Let c := bend k1 k2 p1 p2 rho.
Hypotheses (C : c < 1) (Q : 4 * curve rho * dl <= 1 - c) (P : radius p + dl <= rho) (D : 0 <= dl).
Lemma curve_pos : 0 <= rho -> 0 <= curve rho.
Proof. intros H. unfold curve. pose proof (Rabs_pos k1). pose proof (Rabs_pos k2). pose proof (radius_pos tang). pose proof (pow_le rho 3 H). nra. Qed.
Lemma near_rho x : distance x p <= dl -> radius x <= rho.
Proof. intros H. pose proof (lower p x). unfold distance in H. lra. Qed.
Lemma rho_pos : 0 <= rho.
Proof. pose proof (radius_pos p). lra. Qed.
Lemma p_rho : radius p <= rho.
Proof. lra. Qed.
Lemma loop_error n : forall x, distance x p <= dl ->
  exists q b, newton_loop f J tol n (f p) x = Some (q, b) /\
   (b = true -> exists z, distance z p <= dl /\ distance (f p) (f z) * distance (f p) (f z) <= tol /\ (1 - c) * distance q p <= curve rho * (distance z p * distance z p)) /\
   (b = false -> 4 ^ n * distance q p <= distance x p /\ (n <> O -> tol * (4 ^ n * 4 ^ n) < 16 * ((1 + c) * distance x p * ((1 + c) * distance x p)))).
Proof.
  induction n as [|n IH]; intros x X.
  { exists x, false. split; [reflexivity|]. split; [discriminate|]. intros _. split; [simpl; lra|congruence]. }
  pose proof (near_rho x X) as Xr. pose proof p_rho as Pr. pose proof rho_pos as Rp. pose proof (curve_pos Rp) as Kp. destruct (step_error x p rho Xr Pr C) as (du & E & Er). fold c in Er. cbn [newton_loop]. rewrite E.
  assert (0 <= distance x p) as Dx by apply radius_pos. set (x' := (fst x + fst du, snd x + snd du)) in *. assert (0 <= distance x' p) as Dx' by apply radius_pos.
  assert (4 * distance x' p <= distance x p) as Four. { revert Kp Q C X Dx Dx' Er. generalize c (curve rho) (distance x p) (distance x' p). clear. intros c K d d' Kp Q C X Dx Dx' Er.
    assert (K * (d * d) <= K * dl * d) by (rewrite Rmult_assoc; apply Rmult_le_compat_l; [exact Kp|]; apply Rmult_le_compat_r; assumption). assert (4 * (K * dl * d) <= (1 - c) * d) by (replace (4 * (K * dl * d)) with (4 * K * dl * d) by ring; apply Rmult_le_compat_r; assumption).
    apply (Rmult_le_reg_l (1 - c)); lra. }
  assert (distance (f p) (f x) = distance (f x) (f p)) as Sy. { unfold distance, radius, diff. cbn [fst snd]. f_equal. ring. }
  assert (distance (f p) (f x) * distance (f p) (f x) = (fst (f p) - fst (f x)) * (fst (f p) - fst (f x)) + (snd (f p) - snd (f x)) * (snd (f p) - snd (f x))) as Sq. { unfold distance. rewrite radius_sq. reflexivity. }
  destruct (Rle_dec _ tol) as [T|T]; cbn [fst snd] in T; rewrite <- Sq in T.
  { exists x', true. split; [reflexivity|]. split; [|discriminate]. intros _. exists x. auto. }
  destruct (IH x') as (q & b & F & G & H); [lra|]. exists q, b. split; [exact F|]. split; [exact G|]. intros Eb. destruct (H Eb) as (H1 & H2). split; [cbn [pow]; lra|]. intros _.
  apply Rnot_le_lt in T. pose proof (between x p rho Xr Pr) as (_ & Up). fold c in Up. rewrite <- Sy in Up. assert (0 <= distance (f p) (f x)) as De by apply radius_pos.
  destruct n as [|n]. { cbn [pow]. nra. }
  specialize (H2 ltac:(discriminate)). cbn [pow] in *. set (w := 4 ^ n) in *. assert (0 < 1 + c). { assert (0 <= c); [|lra]. unfold c. rewrite bend_tang. pose proof (Rabs_pos k1). pose proof (Rabs_pos k2). pose proof (radius_pos tang). pose proof (pow_le rho 2 Rp). pose proof (pow_le rho 4 Rp). nra. }
  assert ((1 + c) * distance x' p * ((1 + c) * distance x' p) * 16 <= (1 + c) * distance x p * ((1 + c) * distance x p)). { set (A := (1 + c) * distance x' p). set (B := (1 + c) * distance x p). assert (4 * A <= B) by (unfold A, B; nra). assert (0 <= A) by (unfold A; nra). nra. }
  nra.
Qed.
End Loop.
End Lens.
