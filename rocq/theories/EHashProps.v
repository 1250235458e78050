(** C121: hashes of matrices. *)
From Coq Require Import NArith List Bool Arith Lia.
From Verif Require Import EHashModel EHashSpec.
Import ListNotations.
Local Open Scope N_scope.

Lemma lxor_lt a b : a < 2 ^ 64 -> b < 2 ^ 64 -> N.lxor a b < 2 ^ 64.
Proof.
  intros A B. destruct (N.eq_dec (N.lxor a b) 0) as [->|N0]; [reflexivity|]. apply N.log2_lt_pow2; [lia|]. pose proof (N.log2_lxor a b) as L.
  assert (LA : N.log2 a < 64) by (destruct (N.eq_dec a 0) as [->|]; [reflexivity|apply N.log2_lt_pow2; lia]). assert (LB : N.log2 b < 64) by (destruct (N.eq_dec b 0) as [->|]; [reflexivity|apply N.log2_lt_pow2; lia]). lia.
Qed.
Lemma combine_lt s h : s < 2 ^ 64 -> combine s h < 2 ^ 64.
Proof. intros L. unfold combine. apply lxor_lt; [exact L|]. apply N.mod_lt. discriminate. Qed.
Lemma fold_lt {S} (h : S -> N) l s : s < 2 ^ 64 -> fold_left (fun seed elem => combine seed (h elem)) l s < 2 ^ 64.
Proof. revert s. induction l as [|x l IH]; intros s L; [exact L|]. cbn. apply IH, combine_lt, L. Qed.
(** The hash is a size_t. *)
Theorem ehx_range {S} (h : S -> N) m : hash h m < 2 ^ 64.
Proof. apply fold_lt. reflexivity. Qed.
Print Assumptions ehx_range.
(** Equal matrices have equal hashes. *)
Theorem ehx_equal {S} (h : S -> N) eq a b : good_hash h eq -> equal_matrices eq a b -> hash h a = hash h b.
Proof.
  intros [G _] [_ [_ F]]. unfold hash. generalize 0. induction F as [|x y l l' E F IH]; intros s; [reflexivity|]. cbn. rewrite (G x y E). apply IH.
Qed.
Print Assumptions ehx_equal.
Lemma combine_inj s x y : s < 2 ^ 64 -> x < 2 ^ 64 -> y < 2 ^ 64 -> combine s x = combine s y -> x = y.
Proof.
  intros L X Y E. unfold combine in E. set (c := N.shiftl s 6 + N.shiftr s 2 + 2654435769) in *.
  assert (E2 : (x + c) mod word = (y + c) mod word).
  { apply (f_equal (N.lxor s)) in E. rewrite <- !N.lxor_assoc, N.lxor_nilpotent, !N.lxor_0_l in E. unfold c. rewrite <- !N.add_assoc in *. rewrite (N.add_comm (N.shiftl s 6)). rewrite (N.add_comm (N.shiftl s 6 + N.shiftr s 2)) in E || idtac.
    replace (x + (N.shiftr s 2 + 2654435769 + N.shiftl s 6)) with (x + (2654435769 + (N.shiftl s 6 + N.shiftr s 2))) by lia. replace (y + (N.shiftr s 2 + 2654435769 + N.shiftl s 6)) with (y + (2654435769 + (N.shiftl s 6 + N.shiftr s 2))) by lia. exact E. }
  unfold word in E2. pose proof (N.div_mod (x + c) (2 ^ 64)) as DX. pose proof (N.div_mod (y + c) (2 ^ 64)) as DY. specialize (DX ltac:(discriminate)). specialize (DY ltac:(discriminate)). rewrite E2 in DX.
  set (qx := (x + c) / 2 ^ 64) in *. set (qy := (y + c) / 2 ^ 64) in *. set (r := (y + c) mod 2 ^ 64) in *. assert (qx = qy); [|subst; lia].
  destruct (N.lt_trichotomy qx qy) as [T|[T|T]]; [|exact T|]; exfalso.
  - assert (2 ^ 64 * qx + 2 ^ 64 <= 2 ^ 64 * qy) by nia. lia.
  - assert (2 ^ 64 * qy + 2 ^ 64 <= 2 ^ 64 * qx) by nia. lia.
Qed.
(** Matrices that differ only in the last element have different hashes, if the hashes of the elements differ; in particular vectors with one
    element. *)
Theorem ehx_last {S} (h : S -> N) eq r c l x y : good_hash h eq -> h x <> h y -> hash h (Build_matrix r c (l ++ [x])) <> hash h (Build_matrix r c (l ++ [y])).
Proof.
  intros [_ G] D E. unfold hash in E. cbn [data] in E. rewrite !fold_left_app in E. cbn [fold_left] in E. apply D. revert E. apply combine_inj; [apply fold_lt; reflexivity|apply G|apply G].
Qed.
Print Assumptions ehx_last.
(** Different small integer vectors, such as cells of a grid, collide all the time (std::hash of an integer is the integer). *)
Definition cell (x y : N) : matrix N := Build_matrix 2%nat 1%nat [x; y].
Theorem ehx_collision_refuted : Forall (fun p => hash (fun x => x) (cell 0 (fst p)) = hash (fun x => x) (cell 1 (snd p))) [(61, 0); (68, 1); (67, 2); (66, 3); (65, 4)].
Proof. repeat constructor; vm_compute; reflexivity. Qed.
Print Assumptions ehx_collision_refuted.
(** The size is not part of the hash: a row and a column with the same elements collide, and comparing them is an assertion of Eigen. *)
Theorem ehx_shape_refuted {S} (h : S -> N) eq r c r' c' l : (r, c) <> (r', c') -> hash h (Build_matrix r c l) = hash h (Build_matrix r' c' l) /\ matrix_eq eq (Build_matrix r c l) (Build_matrix r' c' l) = None.
Proof.
  intros N. split; [reflexivity|]. unfold matrix_eq, same_size. cbn. destruct (Nat.eqb_spec r r') as [->|], (Nat.eqb_spec c c') as [->|]; try reflexivity. contradiction N. reflexivity.
Qed.
Print Assumptions ehx_shape_refuted.

(** ** Tables *)
Lemma all_eq_iff {S} (eq : S -> S -> bool) a b : all_eq eq a b = true <-> Forall2 (fun x y => eq x y = true) a b.
Proof.
  revert b. induction a as [|x a IH]; intros [|y b]; cbn; split; intros H; try discriminate; try constructor; try (inversion H; fail).
  - apply andb_true_iff in H. apply H.
  - apply IH. apply andb_true_iff in H. apply H.
  - inversion H; subst. apply andb_true_iff. split; [assumption|apply IH; assumption].
Qed.
Lemma matrix_eq_iff {S} (eq : S -> S -> bool) a b : sized (rows b) (cols b) a -> exists r, matrix_eq eq a b = Some r /\ (r = true <-> equal_matrices eq a b).
Proof.
  intros [R C]. unfold matrix_eq, same_size. rewrite R, C, !Nat.eqb_refl. cbn. eexists. split; [reflexivity|]. rewrite all_eq_iff. unfold equal_matrices. tauto.
Qed.
Section Table.
Context {S V : Type} (h : S -> N) (eq : S -> S -> bool) (G : good_hash h eq) (PE : partial_equivalence eq) (r c : nat).
Lemma equal_trans a b d : equal_matrices eq a b -> equal_matrices eq b d -> equal_matrices eq a d.
Proof.
  intros [R [C F]] [R' [C' F']]. repeat split; try congruence. clear R C R' C'. revert F'. generalize (data d). induction F as [|x y l l' E F IH]; intros l'' F'; inversion F'; subst; constructor; [apply (proj2 PE x y); assumption|apply IH; assumption].
Qed.
Lemma equal_sym a b : equal_matrices eq a b -> equal_matrices eq b a.
Proof. intros [R [C F]]. repeat split; try congruence. induction F; constructor; [apply (proj1 PE); assumption|assumption]. Qed.
Lemma first_none (k : matrix S) (l : list (matrix S * V)) : first_of eq k l None <-> forall e, In e l -> ~ equal_matrices eq (fst e) k.
Proof.
  induction l as [|[k' v] l IH]; split; intros H.
  - intros e [].
  - constructor.
  - inversion H; subst. intros e [<-|I]; [assumption|apply IH; assumption].
  - apply fo_other; [apply IH; intros e I; apply H; right; exact I|]. apply (H (k', v)). left. reflexivity.
Qed.
Lemma first_some (k : matrix S) (l : list (matrix S * V)) v : first_of eq k l (Some v) -> exists k', In (k', v) l /\ equal_matrices eq k' k.
Proof.
  induction l as [|[k' u] l IH]; intros H; inversion H; subst.
  - destruct IH as [k2 [I E]]; [assumption|]. exists k2. split; [right; exact I|exact E].
  - exists k'. split; [left; reflexivity|assumption].
Qed.
(** A table with keys of one size works, whatever the collisions and the number of buckets: it finds the value that was emplaced first for
    an equal key, and nothing if there is no equal key. *)
Theorem ehx_table n (l : list (matrix S * V)) : (forall e, In e l -> sized r c (fst e)) -> exists t, build h eq n l = Some t /\ forall k, sized r c k -> exists o, find h eq n t k = Some o /\ first_of eq k l o.
Proof.
  induction l as [|[k0 v0] l IH]; intros SZ; [exists (fun _ => []); split; [reflexivity|]; intros q Q; exists None; split; [reflexivity|constructor]|].
  destruct IH as [t [B T]]; [intros e I; apply SZ; right; exact I|]. assert (SK : sized r c k0) by (apply (SZ (k0, v0)); left; reflexivity). cbn [build]. rewrite B. unfold emplace. destruct (T k0 SK) as [o [E O]]. rewrite E. destruct o as [u|].
  - exists t. split; [reflexivity|]. intros k K. destruct (T k K) as [p [EP P]]. exists p. split; [exact EP|]. destruct p as [w|]; [apply fo_old; exact P|]. apply fo_other; [exact P|]. intros Q. destruct (first_some k0 l u O) as [k2 [I2 Q2]].
    exact (proj1 (first_none k l) P (k2, u) I2 (equal_trans k2 k0 k Q2 Q)).
  - eexists. split; [reflexivity|]. intros k K. destruct (T k K) as [p [EP P]]. unfold find in *.
    assert (MQ : exists m, matrix_eq eq k0 k = Some m /\ (m = true <-> equal_matrices eq k0 k)) by (apply matrix_eq_iff; destruct SK, K; split; congruence). destruct MQ as [m [EM M]].
    destruct (N.eqb_spec (hash h k mod n) (hash h k0 mod n)) as [EB|NB].
    + cbn [lookup]. rewrite EM. rewrite <- EB. destruct m.
      * assert (Q : equal_matrices eq k0 k) by (apply M; reflexivity). rewrite (ehx_equal h eq k0 k G Q), N.eqb_refl. exists (Some v0). split; [reflexivity|]. apply fo_new; [|exact Q]. apply first_none. intros e I Q'. apply (proj1 (first_none k0 l) O e I). exact (equal_trans (fst e) k k0 Q' (equal_sym k0 k Q)).
      * assert (Q : ~ equal_matrices eq k0 k) by (intros Q; apply M in Q; discriminate). exists p. split; [destruct (N.eqb _ _); exact EP|]. destruct p as [w|]; [apply fo_old; exact P|apply fo_other; assumption].
    + exists p. split; [exact EP|]. destruct p as [w|]; [apply fo_old; exact P|apply fo_other; [exact P|]]. intros Q. apply NB. rewrite (ehx_equal h eq k0 k G Q). reflexivity.
Qed.
(** A key that is not equal to itself (with a NaN) is never found, though it is inserted. *)
Theorem ehx_nan n (l : list (matrix S * V)) t k : (forall e, In e l -> sized r c (fst e)) -> build h eq n l = Some t -> sized r c k -> ~ proper eq k -> find h eq n t k = Some None.
Proof.
  intros SZ B SK NP. destruct (ehx_table n l SZ) as [t' [B' T]]. rewrite B in B'. injection B' as <-. destruct (T k SK) as [[v|] [E O]]; [|exact E]. exfalso. destruct (first_some k l v O) as [k' [_ Q]]. apply NP.
  pose proof (equal_trans k k' k (equal_sym k' k Q) Q) as [_ [_ F]]. unfold proper. revert F. generalize (data k). induction l0 as [|x l0 IH]; intros F; constructor; inversion F; subst; [assumption|apply IH; assumption].
Qed.
End Table.
Print Assumptions ehx_table.
Print Assumptions ehx_nan.
(** With keys of several sizes, looking one up can fail an assertion. *)
Theorem ehx_mixed_refuted {S V} (h : S -> N) eq (n : N) (x y : S) (v : V) : exists t, build h eq n [(Build_matrix 1%nat 2%nat [x; y], v)] = Some t /\ find h eq n t (Build_matrix 2%nat 1%nat [x; y]) = None.
Proof. eexists. split; [reflexivity|]. unfold find. change (hash h {| rows := 2; cols := 1; data := [x; y] |}) with (hash h {| rows := 1; cols := 2; data := [x; y] |}). rewrite N.eqb_refl. cbn [lookup]. change (hash h {| rows := 2; cols := 1; data := [x; y] |}) with (hash h {| rows := 1; cols := 2; data := [x; y] |}). rewrite N.eqb_refl. reflexivity. Qed.
Print Assumptions ehx_mixed_refuted.

(** ** A concrete case *)
Example ehx_ex_good : good_hash (fun x => x mod 2 ^ 64) N.eqb /\ partial_equivalence N.eqb.
Proof. split; split; intros *; try (intros A; apply N.eqb_eq in A; subst); try reflexivity; try (intros A; apply N.eqb_eq in A; subst); try apply N.eqb_refl. apply N.mod_lt. discriminate. Qed.
Example ehx_ex_value : hash (fun x => x) (cell 3 7) = 175247769235.
Proof. vm_compute. reflexivity. Qed.
