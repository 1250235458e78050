(** C145: erasing columns or rows of matrices keeps exactly the other lines, and adapters free what they allocate. *)
From Coq Require Import List Arith Bool Sorted Lia.
From Verif Require Import MatEraseModel MatEraseSpec MatEraseProofs.
Import ListNotations.

(** ** Erasure *)
Theorem odx_erase : forall (A : Type) (d : dim) (indices : list nat) (m : mat A), proper (lines d m) indices ->
  exists m', erase d indices (lines d m) m = Done m' /\ erased d indices m m' /\ lines d m' + length indices = lines d m.
Proof.
  intros A d l m (N & S & B). assert (I : inc 0 (lines d m) l) by (apply inc_of; [exact S|intros i I; split; [lia|apply B, I]|lia]). pose proof (inc_length _ _ _ I) as L.
  unfold erase. change (dynamic_size d m) with (lines d m). rewrite Nat.eqb_refl. cbn [negb]. destruct (rev l) as [|x y] eqn:R; [apply (f_equal (@rev nat)) in R; rewrite rev_involutive in R; contradiction|].
  destruct (rev_last _ _ _ R) as [_ X]. pose proof (B _ (last_In _ N)) as Y. rewrite X in Y. rewrite (proj2 (Nat.ltb_lt _ _) Y), (proj2 (Nat.leb_le (length l) (lines d m)) ltac:(lia)). cbn [negb].
  assert (R1 : lines d (resize_like d (lines d m - length l) m) = lines d m - length l) by (destruct d; reflexivity). assert (R2 : width d (resize_like d (lines d m - length l) m) = width d m) by (destruct d; reflexivity).
  destruct (loop_done d (lines d m) m eq_refl l 0 0 (resize_like d (lines d m - length l) m) I) as (m' & -> & E1 & E2 & E3); [lia|]. exists m'. split; [reflexivity|].
  assert (K : kept (lines d m) l = stay 0 (lines d m) l) by (unfold kept, stay; rewrite Nat.sub_0_r; reflexivity). unfold erased. rewrite K, (stay_length _ _ _ I). repeat split; try lia; try congruence.
  intros k i Q j. destruct (E3 k j) as [_ F]. apply F; [lia|]. rewrite Nat.sub_0_r. exact Q.
Qed.
Print Assumptions odx_erase.
(** Whatever returns was asked for properly. *)
Theorem odx_proper : forall (A : Type) (d : dim) (indices : list nat) (n : nat) (m m' : mat A), erase d indices n m = Done m' -> n = lines d m /\ proper n indices.
Proof.
  intros A d l n m m' E. unfold erase in E. change (dynamic_size d m) with (lines d m) in E. destruct (Nat.eqb_spec (lines d m) n) as [<-|]; [|discriminate]. cbn [negb] in E. destruct (rev l) as [|x y] eqn:R; [discriminate|]. destruct (rev_last _ _ _ R) as [N X].
  destruct (Nat.ltb_spec x (lines d m)); [|discriminate]. destruct (Nat.leb_spec (length l) (lines d m)); [|discriminate]. cbn [negb] in E. split; [reflexivity|]. split; [exact N|]. apply (inc_proper l 0). eapply loop_order; [exact E|lia|lia].
Qed.
Print Assumptions odx_proper.
(** But not everything else is refused: a repeated index passes the checks before the first block is written, and that block does not fit; an empty list has no last element. *)
Theorem odx_checked_refuted : exists (indices : list nat) (m : mat nat),
  Sorted le indices /\ (forall i, In i indices -> i < lines Columns m) /\ length indices <= lines Columns m /\ ~ proper (lines Columns m) indices /\ erase Columns indices (lines Columns m) m = Undefined /\ erase Columns [] (lines Columns m) m = Undefined.
Proof.
  exists [2; 2], (Mat 1 3 (fun _ c => Some c)). split; [repeat constructor|]. split; [cbn; lia|]. split; [cbn; lia|]. split; [|split; reflexivity]. intros (_ & S & _). inversion S as [|x y _ F]; subst. inversion F; lia.
Qed.
Print Assumptions odx_checked_refuted.
(** Rows are erased as the columns of the transpose are. *)
Theorem odx_transpose : forall (A : Type) (indices : list nat) (n : nat) (m : mat A), erase Rows indices n (transpose m) = transposed (erase Columns indices n m).
Proof.
  intros A l n m. assert (C : forall ss ds sz src dst, copy_middle Rows ss ds sz (@transpose A src) (transpose dst) = transposed (copy_middle Columns ss ds sz src dst)).
  { intros. unfold copy_middle. cbn [dynamic_size transpose nrows ncols]. destruct (_ && _); reflexivity. }
  assert (G : forall l fill start dst, erase_loop Rows n (transpose m) fill start l (transpose dst) = transposed (erase_loop Columns n m fill start l dst)).
  { induction l0 as [|i r IH]; intros; cbn [erase_loop]; [apply C|]. destruct (negb _); [reflexivity|]. rewrite C. destruct (copy_middle _ _ _ _ _ _); [apply IH|reflexivity|reflexivity]. }
  unfold erase. cbn [dynamic_size transpose nrows ncols]. destruct (negb _); [reflexivity|]. destruct (rev l); [reflexivity|]. destruct (negb _); [reflexivity|]. destruct (negb _); [reflexivity|]. rewrite <- G. reflexivity.
Qed.
Print Assumptions odx_transpose.
(** Erasing columns and rows does not depend on the order of the two. *)
Theorem odx_commute : forall (A : Type) (ci ri : list nat) (m : mat A), proper (ncols m) ci -> proper (nrows m) ri ->
  exists c cr r rc, erase Columns ci (ncols m) m = Done c /\ erase Rows ri (nrows m) c = Done cr /\ erase Rows ri (nrows m) m = Done r /\ erase Columns ci (ncols m) r = Done rc /\ same cr rc.
Proof.
  intros A ci ri m PC PR. destruct (odx_erase A Columns ci m PC) as (c & E1 & (C1 & C2 & C3) & _). destruct (odx_erase A Rows ri m PR) as (r & E2 & (R1 & R2 & R3) & _). cbn [lines width get] in *.
  destruct (odx_erase A Rows ri c) as (cr & E3 & (D1 & D2 & D3) & _); [cbn [lines]; rewrite C2; exact PR|]. destruct (odx_erase A Columns ci r) as (rc & E4 & (F1 & F2 & F3) & _); [cbn [lines]; rewrite R2; exact PC|]. cbn [lines width get] in *. rewrite C2 in *. rewrite R2 in *.
  exists c, cr, r, rc. repeat (split; [assumption|]). split; [congruence|]. split; [congruence|]. intros i j Hi Hj. rewrite D1 in Hi. rewrite D2, C1 in Hj.
  destruct (nth_error (kept (nrows m) ri) i) as [i'|] eqn:Ni; [|apply nth_error_None in Ni; lia]. destruct (nth_error (kept (ncols m) ci) j) as [j'|] eqn:Nj; [|apply nth_error_None in Nj; lia].
  rewrite (D3 _ _ Ni), (C3 _ _ Nj), (F3 _ _ Nj), (R3 _ _ Ni). reflexivity.
Qed.
Print Assumptions odx_commute.

(** ** Adapters *)
Lemma put_length {B} (l : list B) : forall n b, length (put l n b) = length l.
Proof. induction l as [|x l IH]; intros [|n] b; cbn; try reflexivity. f_equal. apply IH. Qed.
Lemma put_nth {B} (l : list B) : forall n b k, nth_error (put l n b) k = if (k =? n) && (n <? length l) then Some b else nth_error l k.
Proof.
  induction l as [|x l IH]; intros n b k; [cbn; rewrite andb_comm; destruct n; reflexivity|]. destruct n as [|n], k as [|k]; try reflexivity. cbn [put nth_error]. rewrite IH. cbn [Nat.eqb length]. change (S n <? S (length l)) with (n <? length l). reflexivity.
Qed.
Section Memory.
Context {A : Type}.
Implicit Types s : state A.
Lemma load_done s p : live s p -> exists m, load (heap s) p = Done m.
Proof. intros (m & E). exists m. unfold load. rewrite E. reflexivity. Qed.
Lemma some_lt {B} (l : list B) p x : nth_error l p = Some x -> p < length l.
Proof. intros E. apply nth_error_Some. congruence. Qed.
(** The erasure through an adapter with a matrix [m] puts the result in its place and leaves everything else. *)
Theorem odx_adapter : forall s v a m m' indices n, nth_error (vars s) v = Some (Some a) -> nth_error (heap s) (a_ptr a) = Some (Some m) -> erase (a_dim a) indices n m = Done m' ->
  exists s', step s (Erase v indices n) = Done s' /\ users s' = users s /\ vars s' = vars s /\ nth_error (heap s') (a_ptr a) = Some (Some m') /\
  (forall p, p <> a_ptr a -> p < length (heap s) -> nth_error (heap s') p = nth_error (heap s) p) /\ (forall p, live s' p <-> live s p).
Proof.
  intros s v a m m' l n V H E. pose proof (some_lt _ _ _ H) as L. cbn [step]. unfold var. rewrite V. cbn [bind]. unfold load at 1. rewrite H. cbn [bind]. rewrite E. cbn [bind]. unfold swap, load. rewrite nth_error_app1 by exact L. rewrite H. cbn [bind]. rewrite nth_error_app2 by lia. rewrite Nat.sub_diag. cbn [nth_error bind].
  set (h := put (put (heap s ++ [Some m']) (a_ptr a) (Some m')) (length (heap s)) (Some m)).
  assert (LH : length (heap s ++ [Some m']) = S (length (heap s))) by (rewrite app_length; cbn; lia).
  assert (Hh : forall k, nth_error h k = if k =? length (heap s) then Some (Some m) else if k =? a_ptr a then Some (Some m') else nth_error (heap s ++ [Some m']) k).
  { intros k. unfold h. rewrite !put_nth, put_length, LH. rewrite (proj2 (Nat.ltb_lt (length (heap s)) (S (length (heap s)))) ltac:(lia)), (proj2 (Nat.ltb_lt (a_ptr a) (S (length (heap s)))) ltac:(lia)), !andb_true_r. reflexivity. }
  unfold release. rewrite Hh, Nat.eqb_refl. cbn [bind]. eexists. split; [reflexivity|]. cbn [users vars heap]. split; [reflexivity|]. split; [reflexivity|].
  assert (Hf : forall k, nth_error (put h (length (heap s)) None) k = if k =? length (heap s) then Some None else if k =? a_ptr a then Some (Some m') else nth_error (heap s ++ [Some m']) k).
  { intros k. rewrite put_nth. assert (X : length h = S (length (heap s))) by (unfold h; rewrite !put_length; exact LH). rewrite X, (proj2 (Nat.ltb_lt (length (heap s)) (S (length (heap s)))) ltac:(lia)), andb_true_r, Hh. destruct (k =? length (heap s)); reflexivity. }
  split; [|split].
  - rewrite Hf. destruct (Nat.eqb_spec (a_ptr a) (length (heap s))); [lia|]. rewrite Nat.eqb_refl. reflexivity.
  - intros p P Q. rewrite Hf. destruct (Nat.eqb_spec p (length (heap s))); [lia|]. destruct (Nat.eqb_spec p (a_ptr a)); [contradiction|]. apply nth_error_app1, Q.
  - intros p. unfold live. cbn [heap]. rewrite Hf. destruct (Nat.eqb_spec p (length (heap s))) as [->|P].
    + split; intros (x & X); [discriminate|]. apply some_lt in X. lia.
    + destruct (Nat.eqb_spec p (a_ptr a)) as [->|Q]; [split; intros _; [exists m; exact H|exists m'; reflexivity]|]. destruct (Nat.lt_ge_cases p (length (heap s))) as [X|X]; [rewrite nth_error_app1 by exact X; reflexivity|].
      split; intros (x & Y); apply some_lt in Y; [rewrite LH in Y|]; lia.
Qed.
Definition good s : Prop :=
  (forall p, In p (users s) -> live s p) /\
  (forall v a, nth_error (vars s) v = Some (Some a) -> a_self a = false -> In (a_ptr a) (users s)) /\
  (forall v a, nth_error (vars s) v = Some (Some a) -> a_self a = true -> live s (a_ptr a) /\ ~ In (a_ptr a) (users s)) /\
  (forall v w a b, nth_error (vars s) v = Some (Some a) -> nth_error (vars s) w = Some (Some b) -> a_self a = true -> a_self b = true -> a_ptr a = a_ptr b -> v = w) /\
  (forall p, live s p -> In p (users s) \/ exists v a, nth_error (vars s) v = Some (Some a) /\ a_self a = true /\ a_ptr a = p).
Lemma good_ext s s' : users s' = users s -> vars s' = vars s -> (forall p, live s' p <-> live s p) -> good s -> good s'.
Proof.
  intros U V L (G1 & G2 & G3 & G4 & G5). unfold good. rewrite U, V. split; [intros p P; apply L, G1, P|]. split; [exact G2|]. split; [intros v a H S; destruct (G3 v a H S) as [X Y]; split; [apply L, X|exact Y]|]. split; [exact G4|]. intros p P. apply G5, L, P.
Qed.
Lemma good_live s v a : good s -> nth_error (vars s) v = Some (Some a) -> live s (a_ptr a).
Proof. intros (G1 & G2 & G3 & _) V. destruct (a_self a) eqn:S; [apply (G3 v a V S)|apply G1, (G2 v a V S)]. Qed.
Lemma live_lt s p : live s p -> p < length (heap s).
Proof. intros (m & E). apply some_lt in E. exact E. Qed.
Lemma swap_live s p q : live s p -> live s q -> exists h, swap (heap s) p q = Done h /\ forall u v x, live (State h u v) x <-> live s x.
Proof.
  intros P Q. pose proof (live_lt _ _ P) as LP. pose proof (live_lt _ _ Q) as LQ. destruct P as (m & P), Q as (k & Q). unfold swap, load. rewrite P. cbn [bind]. rewrite Q. cbn [bind]. eexists. split; [reflexivity|]. intros u v x. unfold live. cbn [heap]. rewrite !put_nth, put_length, (proj2 (Nat.ltb_lt _ _) LP), (proj2 (Nat.ltb_lt _ _) LQ), !andb_true_r.
  destruct (Nat.eqb_spec x q) as [->|]; [split; eauto|]. destruct (Nat.eqb_spec x p) as [->|]; [split; eauto|reflexivity].
Qed.
Lemma live_app s x u v p : live (State (heap s ++ [Some x]) u v) p <-> live s p \/ p = length (heap s).
Proof.
  unfold live. cbn [heap]. destruct (Nat.lt_ge_cases p (length (heap s))) as [L|L].
  - rewrite nth_error_app1 by exact L. split; [tauto|]. intros [H|H]; [exact H|lia].
  - rewrite nth_error_app2 by exact L. split.
    + intros (m & E). right. apply some_lt in E. cbn in E. lia.
    + intros [(m & E)| ->]; [apply some_lt in E; lia|]. rewrite Nat.sub_diag. exists x. reflexivity.
Qed.
Lemma nth_app_one {B} (l : list B) x k y : nth_error (l ++ [x]) k = Some y -> (k < length l /\ nth_error l k = Some y) \/ (k = length l /\ y = x).
Proof.
  intros E. pose proof (some_lt _ _ _ E) as L. rewrite app_length in L. cbn in L. destruct (Nat.lt_ge_cases k (length l)) as [H|H]; [left; rewrite nth_error_app1 in E by exact H; tauto|right].
  assert (k = length l) by lia. subst k. rewrite nth_error_app2, Nat.sub_diag in E by lia. injection E as <-. tauto.
Qed.
Lemma nth_app_old {B} (l : list B) x k y : nth_error l k = Some y -> nth_error (l ++ [x]) k = Some y.
Proof. intros E. rewrite nth_error_app1; [exact E|exact (some_lt _ _ _ E)]. Qed.
Lemma good_step s c : good s -> ~ copies c -> careful c -> step s c <> Undefined /\ forall s', step s c = Done s' -> good s'.
Proof.
  intros G NC CA. pose proof G as (G1 & G2 & G3 & G4 & G5). destruct c as [m|d u|d|v|v w|v l n|v]; [| | |exfalso; apply NC; exact I| | |].
  - split; [discriminate|]. intros s' E. injection E as <-. split; [|split; [|split; [|split]]]; cbn [users vars].
    + intros p P. apply live_app. apply in_app_or in P. destruct P as [P|[<-|[]]]; [left; apply G1, P|right; reflexivity].
    + intros v a V S. apply in_or_app. left. exact (G2 v a V S).
    + intros v a V S. destruct (G3 v a V S) as [X Y]. split; [apply live_app; left; exact X|]. intros P. apply in_app_or in P. destruct P as [P|[P|[]]]; [exact (Y P)|]. apply live_lt in X. lia.
    + exact G4.
    + intros p P. apply live_app in P. destruct P as [P| ->]; [destruct (G5 p P) as [H|H]; [left; apply in_or_app; left; exact H|right; exact H]|left; apply in_or_app; right; left; reflexivity].
  - cbn [step]. destruct (nth_error (users s) u) as [p|] eqn:U; (split; [discriminate|]); intros s' E; [|discriminate]. injection E as <-. split; [|split; [|split; [|split]]]; cbn [users vars].
    + exact G1.
    + intros v a V S. apply nth_app_one in V. destruct V as [[_ V]|[_ V]]; [exact (G2 v a V S)|]. injection V as ->. apply nth_error_In in U. exact U.
    + intros v a V S. apply nth_app_one in V. destruct V as [[_ V]|[_ V]]; [exact (G3 v a V S)|]. injection V as ->. discriminate.
    + intros v w a b V W SA SB. apply nth_app_one in V. apply nth_app_one in W. destruct V as [[_ V]|[_ V]]; [|injection V as ->; discriminate]. destruct W as [[_ W]|[_ W]]; [|injection W as ->; discriminate]. exact (G4 v w a b V W SA SB).
    + intros q Q. destruct (G5 q Q) as [H|(v & a & V & S & P)]; [left; exact H|right]. exists v, a. split; [apply nth_app_old, V|tauto].
  - split; [discriminate|]. intros s' E. injection E as <-. split; [|split; [|split; [|split]]]; cbn [users vars].
    + intros p P. apply live_app. left. apply G1, P.
    + intros v a V S. apply nth_app_one in V. destruct V as [[_ V]|[_ V]]; [exact (G2 v a V S)|]. injection V as ->. discriminate.
    + intros v a V S. apply nth_app_one in V. destruct V as [[_ V]|[_ V]].
      * destruct (G3 v a V S) as [X Y]. split; [apply live_app; left; exact X|exact Y].
      * injection V as ->. cbn [a_ptr]. split; [apply live_app; right; reflexivity|]. intros P. apply G1, live_lt in P. lia.
    + intros v w a b V W SA SB P. apply nth_app_one in V. apply nth_app_one in W. destruct V as [[LV V]|[LV V]], W as [[LW W]|[LW W]].
      * exact (G4 v w a b V W SA SB P).
      * injection W as ->. cbn [a_ptr] in P. destruct (G3 v a V SA) as [X _]. apply live_lt in X. lia.
      * injection V as ->. cbn [a_ptr] in P. destruct (G3 w b W SB) as [X _]. apply live_lt in X. lia.
      * lia.
    + intros p P. apply live_app in P. destruct P as [P| ->].
      * destruct (G5 p P) as [H|(v & a & V & S & Q)]; [left; exact H|right]. exists v, a. split; [apply nth_app_old, V|tauto].
      * right. exists (length (vars s)), (Adapter d (length (heap s)) true). split; [rewrite nth_error_app2, Nat.sub_diag by lia; reflexivity|split; reflexivity].
  - cbn [step]. unfold var. destruct (nth_error (vars s) v) as [[a|]|] eqn:V; cbn [bind]; try (split; discriminate). destruct (nth_error (vars s) w) as [[b|]|] eqn:W; cbn [bind]; try (split; discriminate).
    destruct (swap_live s (a_ptr a) (a_ptr b) (good_live _ _ _ G V) (good_live _ _ _ G W)) as (h & -> & L). cbn [bind]. split; [discriminate|]. intros s' E. injection E as <-. apply (good_ext s); [reflexivity|reflexivity|apply L|exact G].
  - destruct (nth_error (vars s) v) as [[a|]|] eqn:V; [|cbn [step]; unfold var; rewrite V; split; discriminate|cbn [step]; unfold var; rewrite V; split; discriminate]. destruct (good_live _ _ _ G V) as (m & H). destruct (erase (a_dim a) l n m) as [m'| |] eqn:E.
    + destruct (odx_adapter s v a m m' l n V H E) as (s' & -> & U & VV & _ & _ & L). split; [discriminate|]. intros s'' Q. injection Q as <-. apply (good_ext s); assumption.
    + cbn [step]. unfold var, load. rewrite V. cbn [bind]. rewrite H. cbn [bind]. rewrite E. split; discriminate.
    + exfalso. cbn [careful] in CA. destruct (Nat.eq_dec (lines (a_dim a) m) n) as [<-|Q]; [destruct (odx_erase A (a_dim a) l m CA) as (x & X & _); congruence|]. unfold erase in E. change (dynamic_size (a_dim a) m) with (lines (a_dim a) m) in E. rewrite (proj2 (Nat.eqb_neq _ _) Q) in E. discriminate.
  - cbn [step]. unfold var. destruct (nth_error (vars s) v) as [[a|]|] eqn:V; cbn [bind]; try (split; discriminate). pose proof (some_lt _ _ _ V) as LV.
    assert (PV : forall k x, nth_error (put (vars s) v None) k = Some (Some x) -> k <> v /\ nth_error (vars s) k = Some (Some x)).
    { intros k x E. rewrite put_nth, (proj2 (Nat.ltb_lt _ _) LV), andb_true_r in E. destruct (Nat.eqb_spec k v); [discriminate|tauto]. }
    assert (PW : forall k x, k <> v -> nth_error (vars s) k = Some (Some x) -> nth_error (put (vars s) v None) k = Some (Some x)).
    { intros k x K E. rewrite put_nth. destruct (Nat.eqb_spec k v); [contradiction|exact E]. }
    destruct (a_self a) eqn:S.
    + destruct (G3 v a V S) as [(m & H) NU]. pose proof (some_lt _ _ _ H) as LH. unfold release. rewrite H. cbn [bind]. split; [discriminate|]. intros s' E. injection E as <-.
      assert (L : forall u vs p, live (State (put (heap s) (a_ptr a) None) u vs) p <-> live s p /\ p <> a_ptr a).
      { intros u vs p. unfold live. cbn [heap]. rewrite put_nth, (proj2 (Nat.ltb_lt _ _) LH), andb_true_r. destruct (Nat.eqb_spec p (a_ptr a)) as [->|]; [split; [intros (x & X); discriminate|tauto]|tauto]. }
      split; [|split; [|split; [|split]]]; cbn [users vars].
      * intros p P. apply L. split; [apply G1, P|intros ->; contradiction].
      * intros k x K SX. apply PV in K. exact (G2 _ _ (proj2 K) SX).
      * intros k x K SX. apply PV in K. destruct K as [K1 K2]. destruct (G3 _ _ K2 SX) as [X Y]. split; [|exact Y]. apply L. split; [exact X|]. intros Q. apply K1. exact (G4 k v x a K2 V SX S Q).
      * intros k w x b K W. apply PV in K. apply PV in W. exact (G4 k w x b (proj2 K) (proj2 W)).
      * intros p P. apply L in P. destruct P as [P NP]. destruct (G5 p P) as [H1|(k & x & K & SX & Q)]; [left; exact H1|right]. exists k, x. split; [|tauto]. apply PW; [|exact K]. intros ->. rewrite V in K. injection K as <-. symmetry in Q. contradiction.
    + split; [discriminate|]. intros s' E. injection E as <-. split; [|split; [|split; [|split]]]; cbn [users vars].
      * exact G1.
      * intros k x K SX. apply PV in K. exact (G2 _ _ (proj2 K) SX).
      * intros k x K SX. apply PV in K. exact (G3 _ _ (proj2 K) SX).
      * intros k w x b K W. apply PV in K. apply PV in W. exact (G4 k w x b (proj2 K) (proj2 W)).
      * intros p P. destruct (G5 p P) as [H1|(k & x & K & SX & Q)]; [left; exact H1|right]. exists k, x. split; [|tauto]. apply PW; [|exact K]. intros ->. rewrite V in K. injection K as <-. congruence.
Qed.
Lemma good_run : forall l s, good s -> (forall c, In c l -> ~ copies c /\ careful c) -> run s l <> Undefined /\ forall s', run s l = Done s' -> good s'.
Proof.
  induction l as [|c l IH]; intros s G H; cbn [run]; [split; [discriminate|intros s' E; injection E as <-; exact G]|]. destruct (H c (or_introl eq_refl)) as [H1 H2]. destruct (good_step s c G H1 H2) as [X Y]. destruct (step s c) as [s1| |]; cbn [bind]; [|split; discriminate|contradiction]. apply IH; [apply Y; reflexivity|]. intros c' I. apply H. right; exact I.
Qed.
Lemma good_init : good (@init A).
Proof.
  assert (N : forall B k (x : B), nth_error (@nil B) k <> Some x) by (intros B [|k] x; discriminate). unfold good, live. cbn [init heap users vars]. split; [intros p []|]. split; [intros v a V; destruct (N _ _ _ V)|]. split; [intros v a V; destruct (N _ _ _ V)|]. split; [intros v w a b V; destruct (N _ _ _ V)|]. intros p (m & E). destruct (N _ _ _ E).
Qed.
End Memory.
Print Assumptions odx_adapter.
(** Programs that copy no adapter use no freed matrix and free none twice; the caller's matrices stay, and when all adapters are gone nothing else is left. *)
Theorem odx_memory : forall (A : Type) (l : list (command A)), (forall c, In c l -> ~ copies c /\ careful c) ->
  run init l <> Undefined /\ forall s, run init l = Done s -> (forall p, In p (users s) -> live s p) /\ (finished s -> forall p, live s p -> In p (users s)).
Proof.
  intros A l H. destruct (good_run l init good_init H) as [X Y]. split; [exact X|]. intros s E. destruct (Y s E) as (G1 & _ & _ & _ & G5). split; [exact G1|]. intros F p P. destruct (G5 p P) as [Q|(v & a & V & _)]; [exact Q|]. exfalso. exact (F v a V).
Qed.
Print Assumptions odx_memory.
(** A copy of an adapter that allocated its matrix frees it a second time. *)
Theorem odx_copy_refuted : exists l : list (command nat), (forall c, In c l -> careful c) /\ length l = 4 /\ run init l = Undefined /\ run init (firstn 3 l) <> Undefined.
Proof.
  exists [Default Columns; Copy 0; Destroy 0; Destroy 1]. split; [intros c [<-|[<-|[<-|[<-|[]]]]]; exact I|]. split; [reflexivity|]. split; [reflexivity|discriminate].
Qed.
Print Assumptions odx_copy_refuted.

(** ** Cases *)
Definition grid : mat nat := Mat 3 5 (fun r c => Some (10 * r + c)).
Lemma proper_ex : proper 5 [1; 2; 4].
Proof. split; [discriminate|]. split; [repeat constructor|]. cbn. lia. Qed.
Lemma proper_ex3 : proper 3 [1].
Proof. split; [discriminate|]. split; [repeat constructor|]. cbn. lia. Qed.
Example odx_erase_ex : proper (lines Columns grid) [1; 2; 4] /\ kept 5 [1; 2; 4] = [0; 3] /\ exists m, erase Columns [1; 2; 4] 5 grid = Done m /\ entry m 2 1 = Some 23.
Proof. split; [exact proper_ex|]. split; [reflexivity|]. eexists. split; reflexivity. Qed.
Example odx_proper_ex : exists m, erase Rows [1] 3 grid = Done m /\ nrows m = 2 /\ entry m 1 4 = Some 24.
Proof. eexists. repeat split. Qed.
Example odx_commute_ex : proper (ncols grid) [1; 2; 4] /\ proper (nrows grid) [1].
Proof. split; [exact proper_ex|exact proper_ex3]. Qed.
Example odx_memory_ex : exists s, run init [User (Mat 1 2 (fun _ c => Some c)); Wrap Columns 0; Default Rows; Swap 1 0; Destroy 1; Swap 0 0; Destroy 0] = Done s /\ finished s /\ live s 0.
Proof. eexists. split; [reflexivity|]. split; [intros [|[|[|v]]] a; discriminate|eexists; reflexivity]. Qed.
Example odx_adapter_ex : exists s m, run init [User grid; Wrap Columns 0] = Done s /\ nth_error (vars s) 0 = Some (Some (Adapter Columns 0 false)) /\ nth_error (heap s) 0 = Some (Some grid) /\ erase Columns [1; 2; 4] 5 grid = Done m.
Proof. destruct (odx_erase _ Columns [1; 2; 4] grid proper_ex) as (m & E & _). eexists _, m. split; [reflexivity|]. split; [reflexivity|]. split; [reflexivity|exact E]. Qed.
