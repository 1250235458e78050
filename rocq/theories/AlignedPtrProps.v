(** C136: owners of aligned memory. *)
From Coq Require Import List Bool Arith Lia Permutation.
From Verif Require Import AlignedPtrModel AlignedPtrSpec.
Import ListNotations.

(** ** Lists *)
Lemma get_remove {A} k j (l : list (nat * A)) : get k (remove j l) = if k =? j then None else get k l.
Proof.
  unfold remove. induction l as [|[i x] l IH]; cbn; [destruct (k =? j); reflexivity|]. destruct (Nat.eqb_spec i j) as [->|N]; cbn.
  - rewrite IH. destruct (Nat.eqb_spec k j) as [->|]; [reflexivity|]. destruct (Nat.eqb_spec j k); [congruence|reflexivity].
  - destruct (Nat.eqb_spec i k) as [->|M]; [destruct (Nat.eqb_spec k j); [congruence|reflexivity]|exact IH].
Qed.
Lemma get_in {A} k (x : A) l : get k l = Some x -> In (k, x) l.
Proof. induction l as [|[i y] l IH]; cbn; [discriminate|]. destruct (Nat.eqb_spec i k) as [->|]; [intros [= ->]; auto|auto]. Qed.
Lemma in_get {A} k (x : A) l : NoDup (map fst l) -> In (k, x) l -> get k l = Some x.
Proof.
  induction l as [|[i y] l IH]; cbn; [easy|]. intros N [[= -> ->]|I]; [rewrite Nat.eqb_refl; reflexivity|]. inversion N as [|? ? NI N']; subst.
  destruct (Nat.eqb_spec i k) as [->|]; [exfalso; apply NI, (in_map fst _ _ I)|auto].
Qed.
Lemma remove_none {A} k (l : list (nat * A)) : ~ In k (map fst l) -> remove k l = l.
Proof. unfold remove. induction l as [|[i y] l IH]; cbn; [reflexivity|]. intros N. destruct (Nat.eqb_spec i k); [subst; tauto|]. cbn. f_equal. auto. Qed.
Lemma remove_keys {A} k (l : list (nat * A)) i : In i (map fst (remove k l)) <-> In i (map fst l) /\ i <> k.
Proof.
  unfold remove. rewrite !in_map_iff. split.
  - intros ([j x] & <- & I). apply filter_In in I. destruct I as [I N]. cbn in *. split; [exists (j, x); auto|]. intros ->. rewrite Nat.eqb_refl in N. discriminate.
  - intros [([j x] & <- & I) N]. exists (j, x). split; [reflexivity|]. apply filter_In. split; [exact I|]. cbn in *. destruct (Nat.eqb_spec j k); [congruence|reflexivity].
Qed.
Lemma remove_nodup {A} k (l : list (nat * A)) : NoDup (map fst l) -> NoDup (map fst (remove k l)).
Proof.
  intros N. induction l as [|[i y] l IH]; [constructor|]. inversion N as [|? ? NI N']; subst. unfold remove. cbn. destruct (negb (i =? k)); cbn; [|apply IH, N'].
  constructor; [|apply IH, N']. intros I. apply remove_keys in I. apply NI, I.
Qed.
Lemma remove_perm {A} k (x : A) l : NoDup (map fst l) -> get k l = Some x -> Permutation (map snd l) (x :: map snd (remove k l)).
Proof.
  induction l as [|[i y] l IH]; cbn; [discriminate|]. intros N. inversion N as [|? ? NI N']; subst. destruct (Nat.eqb_spec i k) as [->|M]; cbn.
  - intros [= ->]. fold (remove k l). rewrite (remove_none k l NI). reflexivity.
  - intros G. fold (remove k l). rewrite perm_swap. constructor. apply IH; assumption.
Qed.

(** ** The invariant *)
Section I.
Context (classes : nat -> class).
Definition deletable (p : pointer) (b : block) : Prop :=
  p_aligned p = true -> from_eigen b = true /\ p_start p = true /\ (p_class p = of_class b \/ virtual_destructor (classes (p_class p)) = true).
Definition live (h : list (nat * block)) (p : pointer) : Prop := exists b, get (p_block p) h = Some b /\ deletable p b /\ (p_shared p = false -> p_aligned p = true).
Definition pairs (l : list pointer) : Prop := forall p m, Permutation l (p :: m) -> forall q, In q m -> p_block q = p_block p -> p_shared p = true.
Record inv (s : state) (loose : list pointer) : Prop := {
  i_keys : NoDup (map fst (vars s));
  i_live : Forall (live (heap s)) (loose ++ map snd (vars s));
  i_pairs : pairs (loose ++ map snd (vars s));
  i_owned : forall k b, get k (heap s) = Some b -> exists p, In p (loose ++ map snd (vars s)) /\ p_block p = k;
  i_fresh : forall k b, get k (heap s) = Some b -> k < next s }.

Lemma pairs_perm l l' : Permutation l l' -> pairs l -> pairs l'.
Proof. intros P H p m Q. apply H. rewrite P. exact Q. Qed.
Lemma pairs_tail p l : pairs (p :: l) -> pairs l.
Proof. intros H q m Q r I. apply (H q (p :: m)); [rewrite Q; apply perm_swap|right; exact I]. Qed.
Lemma pairs_both p l q : pairs (p :: l) -> In q l -> p_block q = p_block p -> p_shared p = true /\ p_shared q = true.
Proof.
  intros H I E. split; [apply (H p l (Permutation_refl _) q I E)|]. apply in_split in I as (a & b & ->). apply (H q (p :: a ++ b)) with (q := p); [|left; reflexivity|congruence].
  rewrite <- Permutation_middle. apply perm_swap.
Qed.
Lemma pairs_cons p l : pairs l -> (forall q, In q l -> p_block q = p_block p -> p_shared p = true /\ p_shared q = true) -> pairs (p :: l).
Proof.
  intros H N q m P r I E. assert (Iq : In q (p :: l)) by (rewrite P; left; reflexivity). destruct Iq as [<-|Iq].
  - apply Permutation_cons_inv in P. apply (N r); [rewrite P; exact I|exact E].
  - apply in_split in Iq as (a & b & ->). assert (P' : Permutation m (p :: a ++ b)).
    { apply (Permutation_cons_inv (a := q)). rewrite <- P, <- Permutation_middle. apply perm_swap. }
    rewrite P' in I. destruct I as [<-|I]; [apply (N q); [apply in_elt|congruence]|]. apply (H q (a ++ b)) with (q := r); [symmetry; apply Permutation_middle|exact I|exact E].
Qed.
Lemma inv_perm s l l' t : inv s l -> heap t = heap s -> next t = next s -> NoDup (map fst (vars t)) -> Permutation (l ++ map snd (vars s)) (l' ++ map snd (vars t)) -> inv t l'.
Proof.
  intros [A B C D E] H N K P. constructor; [exact K| | | |].
  - rewrite H. rewrite <- P. exact B.
  - apply (pairs_perm _ _ P C).
  - rewrite H. intros k b G. destruct (D k b G) as (p & I & Q). exists p. rewrite <- P. auto.
  - rewrite H, N. exact E.
Qed.

Lemma release_inv s p : inv s [p] -> exists s', release classes p s = Ok s' /\ inv s' [] /\ vars s' = vars s.
Proof.
  intros [A B C D E]. cbn [app] in *. unfold release.
  destruct (p_shared p && existsb (fun e => p_block (snd e) =? p_block p) (vars s)) eqn:X.
  - exists s. split; [reflexivity|]. split; [|reflexivity]. apply andb_true_iff in X. destruct X as [_ X]. apply existsb_exists in X. destruct X as ([v q] & I & Q). cbn in Q. apply Nat.eqb_eq in Q.
    constructor; [exact A|inversion B; assumption|apply (pairs_tail _ _ C)| |exact E]. intros k b G. destruct (D k b G) as (r & [<-|R] & K); [|exists r; auto].
    exists q. split; [apply (in_map snd _ _ I)|congruence].
  - inversion B as [|? ? (b & G & DL & UA) B']; subst. unfold free. rewrite G. replace (if p_aligned p then _ else _) with (Some (remove (p_block p) (heap s))).
    2:{ destruct (p_aligned p) eqn:PA; [|reflexivity]. destruct (DL PA) as (-> & -> & [V|V]).
        - rewrite V, Nat.eqb_refl. reflexivity.
        - rewrite V, orb_true_r. reflexivity. }
    eexists. split; [reflexivity|]. split; [|reflexivity].
    assert (O : forall q, In q (map snd (vars s)) -> p_block q <> p_block p).
    { intros q I Q. destruct (pairs_both _ _ _ C I Q) as [SH _]. rewrite SH in X. cbn in X. apply in_map_iff in I. destruct I as (e & <- & I).
      assert (T : existsb (fun e => p_block (snd e) =? p_block p) (vars s) = true) by (apply existsb_exists; exists e; split; [exact I|apply Nat.eqb_eq, Q]). congruence. }
    constructor; cbn [heap next vars app]; [exact A| |apply (pairs_tail _ _ C)| |].
    + apply Forall_forall. intros q I. rewrite Forall_forall in B'. destruct (B' q I) as (b' & G' & R). exists b'. split; [|exact R]. rewrite get_remove. destruct (Nat.eqb_spec (p_block q) (p_block p)) as [Q|]; [|exact G'].
      exfalso. apply (O q I Q).
    + intros k b' G'. rewrite get_remove in G'. destruct (Nat.eqb_spec k (p_block p)) as [|N]; [discriminate|]. destruct (D k b' G') as (r & [<-|R] & K); [congruence|]. exists r; auto.
    + intros k b' G'. rewrite get_remove in G'. destruct (k =? p_block p); [discriminate|]. apply (E k b' G').
Qed.
Lemma assign_inv s v p : inv s [p] -> exists s', assign classes v p s = Ok s' /\ inv s' [].
Proof.
  intros I. unfold assign. assert (K : NoDup (map fst ((v, p) :: remove v (vars s)))).
  { cbn. constructor; [intros M; apply remove_keys in M; tauto|apply remove_nodup, (i_keys _ _ I)]. }
  destruct (get v (vars s)) as [old|] eqn:G.
  - destruct (release_inv (State (heap s) (next s) ((v, p) :: remove v (vars s))) old) as (s' & R & I' & _); [|eauto].
    apply (inv_perm s [p] [old] _ I); [reflexivity|reflexivity|exact K|]. cbn. rewrite (remove_perm v old (vars s) (i_keys _ _ I) G). apply perm_swap.
  - eexists. split; [reflexivity|]. apply (inv_perm s [p] [] _ I); [reflexivity|reflexivity|exact K|]. cbn. rewrite remove_none; [reflexivity|].
    intros M. apply in_map_iff in M. destruct M as ([j x] & <- & M). cbn in G. apply (in_get j x _ (i_keys _ _ I)) in M. congruence.
Qed.
Lemma drop_inv s v : inv s [] -> exists s', drop classes v s = Ok s' /\ inv s' [] /\ get v (vars s') = None.
Proof.
  intros I. unfold drop. destruct (get v (vars s)) as [p|] eqn:G; [|eauto].
  destruct (release_inv (State (heap s) (next s) (remove v (vars s))) p) as (s' & R & I' & V).
  - apply (inv_perm s [] [p] _ I); [reflexivity|reflexivity|apply remove_nodup, (i_keys _ _ I)|]. cbn. apply (remove_perm v p _ (i_keys _ _ I) G).
  - exists s'. split; [exact R|]. split; [exact I'|]. rewrite V. cbn. rewrite get_remove, Nat.eqb_refl. reflexivity.
Qed.
Lemma allocate_inv s eigen c sh al : inv s [] -> (al = true -> eigen = true) -> (sh = false -> al = true) -> inv (allocate eigen c s) [Pointer (next s) c true sh al].
Proof.
  intros [A B C D E] H1 H2. cbn [app] in *. assert (O : forall q, In q (map snd (vars s)) -> p_block q <> next s).
  { intros q I Q. rewrite Forall_forall in B. destruct (B q I) as (b & G & _). apply E in G. lia. }
  constructor; cbn [allocate heap next vars app]; [exact A| | | |].
  - constructor.
    + exists (Block eigen c). cbn. rewrite Nat.eqb_refl. split; [reflexivity|]. split; [|exact H2]. intros X. cbn in *. auto.
    + apply Forall_forall. intros q I. rewrite Forall_forall in B. destruct (B q I) as (b & G & R). exists b. split; [|exact R]. cbn. destruct (Nat.eqb_spec (next s) (p_block q)) as [Q|]; [|exact G].
      exfalso. apply (O q I). auto.
  - apply pairs_cons; [exact C|]. intros q I Q. exfalso. apply (O q I Q).
  - intros k b. cbn. destruct (Nat.eqb_spec (next s) k) as [<-|N].
    + intros _. eexists. split; [left; reflexivity|reflexivity].
    + intros G. destruct (D k b G) as (q & I & Q). exists q. split; [right; exact I|exact Q].
  - intros k b. cbn. destruct (Nat.eqb_spec (next s) k) as [<-|N]; [lia|]. intros G. apply E in G. lia.
Qed.
(** A pointer that is taken out of its variable. *)
Lemma take_inv s v p : inv s [] -> get v (vars s) = Some p -> inv (State (heap s) (next s) (remove v (vars s))) [p].
Proof. intros I G. apply (inv_perm s [] [p] _ I); [reflexivity|reflexivity|apply remove_nodup, (i_keys _ _ I)|]. cbn. apply (remove_perm v p _ (i_keys _ _ I) G). Qed.
(** A loose pointer may be exchanged for one of the same block. *)
Lemma convert_inv s p q : inv s [p] -> p_block q = p_block p -> p_shared p = false -> (forall b, get (p_block p) (heap s) = Some b -> deletable p b -> p_aligned p = true -> deletable q b) -> (p_shared q = false -> p_aligned q = true) -> inv s [q].
Proof.
  intros [A B C D E] Q S H1 H2. cbn [app] in *. inversion B as [|? ? (b & G & DL & UA) B']; subst. constructor; cbn [app]; [exact A| | | |exact E].
  - constructor; [|exact B']. exists b. rewrite Q. split; [exact G|]. split; [apply (H1 b G DL), UA, S|exact H2].
  - apply pairs_cons; [apply (pairs_tail _ _ C)|]. intros r I R. assert (X : p_shared p = true /\ p_shared r = true) by (apply (pairs_both _ _ _ C I); congruence). destruct X. congruence.
  - intros k b' G'. destruct (D k b' G') as (r & [<-|R] & K); [exists q; split; [left; reflexivity|congruence]|exists r; split; [right; exact R|exact K]].
Qed.

Lemma step_inv s o : inv s [] -> legal classes s o -> exists s', (step classes s o = Ok s' \/ step classes s o = Thrown s') /\ inv s' [].
Proof.
  intros I L. destruct o as [v c t|v c t|v c t|v c t|v w|v w|v w|v w|v]; cbn [step legal] in *.
  - subst t. destruct (assign_inv _ v _ (allocate_inv s true c false true I (fun _ => eq_refl) (fun _ => eq_refl))) as (s' & E & I'). exists s'. cbn. auto.
  - destruct t; [exists s; auto|]. destruct (assign_inv _ v _ (allocate_inv s true c true true I (fun _ => eq_refl) (fun _ => eq_refl))) as (s' & E & I'). eauto.
  - rewrite L. destruct t; [exists s; auto|]. destruct (assign_inv _ v _ (allocate_inv s true c false true I (fun _ => eq_refl) (fun _ => eq_refl))) as (s' & E & I'). eauto.
  - destruct t; [exists s; auto|]. destruct (assign_inv _ v _ (allocate_inv s (aligned_new (classes c)) c true false I ltac:(discriminate) ltac:(discriminate))) as (s' & E & I'). eauto.
  - destruct (v =? w); [eauto|]. destruct (get v (vars s)) as [p|] eqn:G; [|destruct (drop_inv s w I) as (s' & E & I' & _); eauto]. destruct (assign_inv _ w p (take_inv s v p I G)) as (s' & E & I'). eauto.
  - destruct (get v (vars s)) as [p|] eqn:G; [|destruct (drop_inv s w I) as (s' & E & I' & _); eauto]. destruct (L p G) as (SH & N & b & -> & V). rewrite SH. destruct (Nat.eqb_spec v w); [congruence|]. cbn [orb].
    destruct (assign_inv (State (heap s) (next s) (remove v (vars s))) w (Pointer (p_block p) b (p_start p && true) false true)) as (s' & E & I'); [|eauto].
    apply (convert_inv _ p); [apply (take_inv s v p I G)|reflexivity|exact SH| |reflexivity]. intros bl _ DL PA _. destruct (DL PA) as (F & ST & _). cbn. rewrite ST. auto.
  - destruct (get v (vars s)) as [p|] eqn:G; [|destruct (drop_inv s w I) as (s' & E & I' & _); eauto]. destruct (L p G) as (SH & N). rewrite SH. destruct (Nat.eqb_spec v w); [congruence|]. cbn [orb].
    destruct (assign_inv (State (heap s) (next s) (remove v (vars s))) w (Pointer (p_block p) (p_class p) (p_start p) true (p_aligned p))) as (s' & E & I'); [|eauto].
    apply (convert_inv _ p); [apply (take_inv s v p I G)|reflexivity|exact SH| |discriminate]. intros bl _ DL PA. exact DL.
  - destruct (Nat.eqb_spec v w) as [|N]; [eauto|]. destruct (get v (vars s)) as [p|] eqn:G; [|destruct (drop_inv s w I) as (s' & E & I' & _); eauto]. specialize (L p N G). rewrite L.
    destruct (assign_inv s w p) as (s' & E & I'); [|eauto]. destruct I as [A B C D E]. cbn [app] in *. assert (M : In p (map snd (vars s))) by (apply get_in in G; apply (in_map snd _ _ G)).
    constructor; cbn [app]; [exact A| | | |exact E].
    + constructor; [|exact B]. rewrite Forall_forall in B. apply B, M.
    + apply pairs_cons; [exact C|]. intros q J Q. split; [exact L|]. apply in_split in M as (a & b & M). rewrite M in *. apply in_app_or in J. cbn in J.
      assert (P : pairs (p :: a ++ b)) by (apply (pairs_perm _ _ (Permutation_sym (Permutation_middle a b p)) C)).
      destruct J as [J|[<-|J]]; [| exact L |]; apply (pairs_both _ _ _ P); auto; apply in_or_app; auto.
    + intros k b G'. destruct (D k b G') as (q & J & K). exists q. split; [right; exact J|exact K].
  - destruct (drop_inv s v I) as (s' & E & I' & _). eauto.
Qed.
Lemma inv_start : inv start [].
Proof. constructor; cbn; [constructor|constructor| |discriminate|discriminate]. intros p m P. apply Permutation_nil_cons in P. easy. Qed.
Lemma run_inv l : forall s, inv s [] -> legal_run classes s l -> exists s', run classes s l = Some s' /\ inv s' [].
Proof.
  induction l as [|o l IH]; intros s I L; [exists s; auto|]. destruct L as [L1 L2]. destruct (step_inv s o I L1) as (s1 & E & I1). destruct (IH s1 I1 (L2 s1 E)) as (s2 & R & I2). exists s2. split; [|exact I2].
  cbn [run]. destruct E as [-> | ->]; exact R.
Qed.
Lemma inv_spec s : inv s [] -> nothing_leaked s /\ nothing_dangles s /\ unique_is_unique s.
Proof.
  intros [A B C D E]. cbn [app] in *. split; [|split].
  - intros k b G. destruct (D k b G) as (p & I & Q). apply in_map_iff in I. destruct I as ([v q] & <- & I). exists v, q. split; [apply in_get; assumption|exact Q].
  - intros v p H. apply get_in in H. apply (in_map snd) in H. rewrite Forall_forall in B. destruct (B p H) as (b & G & _). exists b. exact G.
  - intros v w p q V W N Q. assert (P := remove_perm v p _ A V). apply (pairs_perm _ _ P) in C. apply (pairs_both _ _ _ C); [|auto].
    assert (W' : get w (remove v (vars s)) = Some q) by (rewrite get_remove; destruct (Nat.eqb_spec w v); [congruence|exact W]). apply get_in in W'. apply (in_map snd _ _ W').
Qed.
End I.

(** ** C136 *)
(** Legal programs are defined, leak nothing, have no dangling pointer, and a unique pointer has no other owner beside it. *)
Theorem apx_safe classes l : legal_run classes start l -> exists s, run classes start l = Some s /\ nothing_leaked s /\ nothing_dangles s /\ unique_is_unique s.
Proof. intros L. destruct (run_inv classes l start (inv_start classes) L) as (s & R & I). exists s. split; [exact R|]. apply (inv_spec classes s I). Qed.
Print Assumptions apx_safe.
(** When all owners are gone, so are all objects. *)
Theorem apx_all_returned classes l s : legal_run classes start l -> run classes start l = Some s -> (forall v, get v (vars s) = None) -> forall k, get k (heap s) = None.
Proof.
  intros L R N k. destruct (apx_safe classes l L) as (s' & R' & O & _). rewrite R in R'. injection R' as <-. destruct (get k (heap s)) as [b|] eqn:G; [|reflexivity].
  destruct (O k b G) as (v & p & H & _). unfold holds in H. rewrite N in H. discriminate.
Qed.
Print Assumptions apx_all_returned.
(** An object lives exactly as long as it has an owner: a pointer that is let go takes its object with it, unless it is shared with another. *)
Theorem apx_drop classes l s v p : legal_run classes start l -> run classes start l = Some s -> holds s v p ->
  exists s', step classes s (Drop v) = Ok s' /\ get v (vars s') = None /\ (forall w, w <> v -> get w (vars s') = get w (vars s)) /\
    ((exists b, get (p_block p) (heap s') = Some b) <-> exists w q, w <> v /\ holds s w q /\ p_block q = p_block p) /\
    forall k, k <> p_block p -> get k (heap s') = get k (heap s).
Proof.
  intros L R H. destruct (run_inv classes l start (inv_start classes) L) as (s0 & R' & I). rewrite R in R'. injection R' as <-. destruct (inv_spec classes s I) as (NL & ND & U). destruct (drop_inv classes s v I) as (s' & D & I' & V).
  exists s'. split; [exact D|]. split; [exact V|]. unfold drop in D. rewrite H in D. destruct (release_inv classes _ _ (take_inv classes s v p I H)) as (s1 & R1 & I1 & V1). rewrite R1 in D. injection D as ->.
  cbn [vars] in V1. assert (W : forall w, w <> v -> get w (vars s') = get w (vars s)) by (intros w N; rewrite V1, get_remove; destruct (Nat.eqb_spec w v); [congruence|reflexivity]).
  destruct (inv_spec classes s' I') as (NL' & ND' & _). split; [exact W|]. split.
  - split.
    + intros (b & G). destruct (NL' _ _ G) as (w & q & Q & E). assert (N : w <> v) by (intros ->; unfold holds in Q; congruence). exists w, q. unfold holds in *. rewrite <- (W w N). auto.
    + intros (w & q & N & Q & E). unfold holds in Q. rewrite <- (W w N) in Q. destruct (ND' w q Q) as (b & G). rewrite E in G. eauto.
  - intros k N. unfold release in R1. cbn [heap next vars] in R1. destruct (p_shared p && _); [injection R1 as <-; reflexivity|]. destruct (free classes p (heap s)) as [h|] eqn:F; [|discriminate]. injection R1 as <-. cbn [heap].
    unfold free in F. destruct (get (p_block p) (heap s)); [|discriminate]. destruct (p_aligned p); [destruct (_ && _ && _)|]; try discriminate; injection F as <-; rewrite get_remove; destruct (Nat.eqb_spec k (p_block p)); congruence.
Qed.
Print Assumptions apx_drop.
(** Moving an object to a pointer of the base class or to a shared pointer keeps the object; the old pointer is empty. *)
Theorem apx_moved classes l s v w p : legal_run classes start l -> run classes start l = Some s -> holds s v p -> v <> w ->
  forall o, (o = Move v w \/ o = ToBase v w \/ o = Share v w) -> legal classes s o ->
  exists s' q, step classes s o = Ok s' /\ get v (vars s') = None /\ holds s' w q /\ p_block q = p_block p /\ alive s' q /\ (p_shared q = true <-> p_shared p = true \/ o = Share v w).
Proof.
  intros L R H N o O LE. destruct (run_inv classes l start (inv_start classes) L) as (s0 & R' & I). rewrite R in R'. injection R' as <-.
  assert (A : forall q, inv classes (State (heap s) (next s) (remove v (vars s))) [q] -> exists s', assign classes w q (State (heap s) (next s) (remove v (vars s))) = Ok s' /\ get v (vars s') = None /\ holds s' w q /\ alive s' q).
  { intros q J. destruct (assign_inv classes _ w q J) as (s' & E & I'). exists s'. split; [exact E|]. unfold assign in E. cbn [vars heap next] in E. rewrite get_remove in E. destruct (Nat.eqb_spec w v); [congruence|].
    assert (V : vars s' = (w, q) :: remove w (remove v (vars s))).
    { destruct (get w (vars s)); [|injection E as <-; reflexivity]. unfold release in E. cbn [vars heap next] in E. destruct (_ && _); [injection E as <-; reflexivity|]. destruct (free _ _ _); [injection E as <-; reflexivity|discriminate]. }
    assert (W : holds s' w q) by (unfold holds; rewrite V; cbn; rewrite Nat.eqb_refl; reflexivity). split; [|split; [exact W|]].
    - rewrite V. cbn. destruct (Nat.eqb_spec w v); [congruence|]. rewrite !get_remove, Nat.eqb_refl. destruct (v =? w); reflexivity.
    - apply (inv_spec classes s' I') in W. exact W. }
  assert (T := take_inv classes s v p I H). destruct O as [-> | [-> | ->]]; cbn [step legal] in *; unfold holds in H; rewrite H; destruct (Nat.eqb_spec v w) as [|_]; try congruence.
  - destruct (A p T) as (s' & E & V & W & X). exists s', p. split; [exact E|]. split; [exact V|]. split; [exact W|]. split; [reflexivity|]. split; [exact X|]. split; [auto|intros [|]; [assumption|discriminate]].
  - destruct (LE p H) as (SH & _ & b & -> & VD). rewrite SH. cbn [orb]. destruct (A (Pointer (p_block p) b (p_start p && true) false true)) as (s' & E & V & W & X).
    { apply (convert_inv classes _ p); [exact T|reflexivity|exact SH| |reflexivity]. intros bl _ DL PA _. destruct (DL PA) as (F & ST & _). cbn. rewrite ST. auto. }
    eexists s', _. split; [exact E|]. split; [exact V|]. split; [exact W|]. split; [reflexivity|]. split; [exact X|]. split; [discriminate|intros [|]; [congruence|discriminate]].
  - destruct (LE p H) as (SH & _). rewrite SH. cbn [orb]. destruct (A (Pointer (p_block p) (p_class p) (p_start p) true (p_aligned p))) as (s' & E & V & W & X).
    { apply (convert_inv classes _ p); [exact T|reflexivity|exact SH| |discriminate]. intros bl _ DL PA. exact DL. }
    eexists s', _. split; [exact E|]. split; [exact V|]. split; [exact W|]. split; [reflexivity|]. split; [exact X|]. split; [auto|reflexivity].
Qed.
Print Assumptions apx_moved.
(** An empty pointer empties the pointer it is moved or copied to, and the object of that one is let go. *)
Theorem apx_empty classes l s v w : legal_run classes start l -> run classes start l = Some s -> get v (vars s) = None -> v <> w ->
  forall o, (o = Move v w \/ o = ToBase v w \/ o = Share v w \/ o = Copy v w) ->
  exists s', step classes s o = Ok s' /\ step classes s (Drop w) = Ok s' /\ get w (vars s') = None /\ nothing_leaked s'.
Proof.
  intros L R H N o O. destruct (run_inv classes l start (inv_start classes) L) as (s0 & R' & I). rewrite R in R'. injection R' as <-. destruct (drop_inv classes s w I) as (s' & D & I' & V).
  exists s'. split; [|split; [exact D|split; [exact V|apply (inv_spec classes s' I')]]].
  destruct O as [-> | [-> | [-> | ->]]]; cbn [step]; rewrite H; [destruct (Nat.eqb_spec v w); [congruence|]| | |destruct (Nat.eqb_spec v w); [congruence|]]; exact D.
Qed.
Print Assumptions apx_empty.

(** The classes of lenses: Distortion (0) with RadTanDistortion (1); a class of the pipeline without the macro (2), and one with a base that is not at its start (3), or has no virtual destructor (4, 5). *)
Definition demo (c : nat) : class :=
  nth c [Class true true None; Class true true (Some (0, true)); Class false true None; Class true true (Some (0, false)); Class true false None; Class true true (Some (4, true))] (Class true true None).
Definition program : list op := [Adopt 0 1 false; ToBase 0 1; Make 2 1 false; ToBase 2 1; Share 1 3; Copy 3 4; AdoptShared 5 2 false; MakeShared 6 1 true; Move 4 7; Drop 3; Adopt 0 1 true; Copy 5 3].
Lemma legal_next classes s o l s' : legal classes s o -> (match step classes s o with Ok t | Thrown t => t = s' | Undef => False end) -> legal_run classes s' l -> legal_run classes s (o :: l).
Proof. intros L E R. split; [exact L|]. intros t [T|T]; rewrite T in E; subst; exact R. Qed.
Ltac check_legal := first [exact I|reflexivity|cbn [legal]; intros p; unfold holds; cbn; intros; repeat match goal with H : Some _ = Some _ |- _ => injection H as <- end; repeat split; try reflexivity; try discriminate; exists 0; split; reflexivity].
Example apx_safe_ex : legal_run demo start program.
Proof. unfold program. do 12 (eapply legal_next; [check_legal|vm_compute; reflexivity|]). exact I. Qed.
Example apx_drop_ex : exists s p q, run demo start program = Some s /\ holds s 7 p /\ p_shared p = true /\ holds s 3 q /\ p_block p <> p_block q /\ length (heap s) = 2.
Proof. eexists. eexists. eexists. split; [vm_compute; reflexivity|]. split; [vm_compute; reflexivity|]. split; [reflexivity|]. split; [vm_compute; reflexivity|]. split; [discriminate|reflexivity]. Qed.

Example apx_empty_ex : exists s p, run demo start program = Some s /\ get 0 (vars s) = None /\ holds s 7 p.
Proof. eexists. eexists. split; [vm_compute; reflexivity|]. split; vm_compute; reflexivity. Qed.

(** ** What does not hold *)
(** aligned_unique loses the memory if the constructor throws. *)
Theorem apx_throw_refuted classes v c : exists s, run classes start [Make v c true] = Some s /\ ~ nothing_leaked s /\ vars s = [].
Proof. eexists. split; [reflexivity|]. split; [|reflexivity]. intros N. destruct (N 0 (Block true c) eq_refl) as (w & p & H & _). discriminate H. Qed.
Print Assumptions apx_throw_refuted.
(** A UniquePtr of an object that was made with the plain operator new is freed by the wrong function: this happens for every class without the macro of Eigen. *)
Theorem apx_plain_new_refuted classes v c : aligned_new (classes c) = false -> run classes start [Adopt v c false; Drop v] = None /\ exists s, run classes start [AdoptShared v c false; Drop v] = Some s /\ heap s = [].
Proof.
  intros A. cbn [run step assign start vars get allocate]. unfold drop. cbn [vars get]. rewrite Nat.eqb_refl. unfold release, free, remove. cbn. rewrite !Nat.eqb_refl, A. cbn. rewrite ?Nat.eqb_refl. cbn. rewrite ?andb_false_r.
  split; [reflexivity|]. eexists. split; reflexivity.
Qed.
Print Assumptions apx_plain_new_refuted.
(** A base class that is not at the start of the object, or without virtual destructor, cannot own it. *)
Theorem apx_base_refuted : run demo start [Make 0 3 false; ToBase 0 1; Drop 1] = None /\ run demo start [Make 0 5 false; ToBase 0 1; Drop 1] = None /\ run demo start [Make 0 1 false; ToBase 0 1; Drop 1] <> None.
Proof. repeat split; discriminate. Qed.
Print Assumptions apx_base_refuted.
