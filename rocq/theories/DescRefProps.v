(** C80 and C81: ownership in descriptor references, and flipping random bits. *)
From Coq Require Import NArith Bool Lia.
From stdpp Require Import gmap list list_numbers.
From Verif Require Import StlHelpersModel GyroTrackerModel DescriptorModel DescriptorSpec DescriptorProofs DescRefModel DescRefSpec DescRefProofs.
Local Open Scope nat_scope.

(** C80, safety. A legal history runs without undefined behaviour and without a failed check (so nothing is freed twice, nothing is used
    after it was freed, and no null pointer is followed), every allocated block belongs to exactly one object, and when all objects are
    gone no allocated block is left. [g] is what the uninitialised member owned_ of the copy constructor happens to hold.
    Partial: without Release and set_data on owners, and with a definite [g], see the refutations below. *)
Theorem drx_safe_partial g ops : legal_run (Some g) start ops ->
  exists s, run (Some g) start ops = Ok s /\ exactly_owned s /\
    (objects s = ∅ -> forall a b, memory s !! a = Some b -> heap b = false) /\
    forall i, live s i -> exists bs, contents s i = Ok bs.
Proof.
  intros L. destruct (run_ok g ops start wf_start L) as (s & E & W). exists s. split; [done|]. split; [|split].
  - intros a bs M. destruct (wf_owned s W a bs M) as (i & r & O & OW & D). exists i. split.
    + exists r, bs. repeat split; try done. pose proof (wf_obj s W i r O) as K. unfold obj_ok in K. rewrite OW in K.
      destruct K as [[? _]|(a' & bs' & D' & M' & _ & Q)]; [congruence|]. rewrite <- (Q eq_refl). congruence.
    + intros j (t & xs & Oj & OWj & Dj & _). exact (wf_distinct s W j i t r a Oj O OWj OW Dj D).
  - intros Z a [h bs] M. destruct h; [|done]. destruct (wf_owned s W a bs M) as (i & r & O & _). rewrite Z, lookup_empty in O. done.
  - intros i (r & O). destruct (contents_ok s i r W O) as (bs & C & _). by exists bs.
Qed.
Print Assumptions drx_safe_partial.
(** An external descriptor, a view on it, a heap descriptor assigned from the view, a copy of that, changed, and everything destroyed. *)
Definition demo : list op :=
  [External 0 [7; 8]%N; View 0 0 2 false; Heap 1 5; Assign 1 0; Copy 2 1; Write 2 0 9%N; Default 3; Assign 3 2; SetZero 2; Copy 4 0;
   Destroy 0; Destroy 1; Destroy 2; Destroy 3; Destroy 4].
Fixpoint all_legal (g : option bool) (s : state) (ops : list op) : Prop :=
  match ops with [] => True | o :: ops' => legal s o /\ match apply_op g s o with Ok s' => all_legal g s' ops' | _ => True end end.
Lemma all_legal_run g ops : forall s, all_legal g s ops -> legal_run g s ops.
Proof. induction ops as [|o ops IH]; intros s; [done|]. intros [L R]. split; [done|]. intros s' E. rewrite E in R. by apply IH. Qed.
Ltac solve_legal :=
  repeat lazymatch goal with
  | |- _ /\ _ => split
  | |- True => exact I
  | |- ~ owner _ _ => intros (? & H & ?); vm_compute in H; injection H as <-; discriminate
  | |- live _ _ => eexists; vm_compute; reflexivity
  | |- unused _ _ => vm_compute; reflexivity
  | |- external _ _ _ => eexists; split; [vm_compute; reflexivity|cbn; lia]
  | |- ?x = ?y => vm_compute; reflexivity
  | |- exists r, _ /\ _ < _ => eexists; split; [vm_compute; reflexivity|cbn; lia]
  | |- all_legal _ _ [] => exact I
  | |- all_legal _ _ _ => cbn [all_legal]
  | |- legal _ _ => cbn [legal]
  | |- match ?x with _ => _ end => let y := eval vm_compute in x in change x with y; cbn beta iota
  end.
Example drx_safe_ex g : legal_run (Some g) start demo /\
  (exists s, run (Some g) start (take 10 demo) = Ok s /\ contents s 1 = Ok [Some 7; Some 8]%N /\ contents s 2 = Ok [Some 0; Some 0]%N /\ contents s 3 = Ok [Some 9; Some 8]%N) /\
  (exists s, run (Some g) start demo = Ok s /\ objects s = ∅).
Proof.
  split; [apply all_legal_run; unfold demo, start; destruct g; solve_legal|]. split.
  - destruct g; (eexists; split; [vm_compute; reflexivity|]; split; [|split]; vm_compute; reflexivity).
  - destruct g; (eexists; split; [vm_compute; reflexivity|]; apply map_to_list_empty_iff; vm_compute; reflexivity).
Qed.

(** C80, value semantics: after [Copy i j] or [Assign i j] in a reachable state, object [i] holds the bytes of [j]; it is an owner if the
    source (or, for an assignment, the destination) was one; and nothing else has changed, neither the contents of other objects nor
    external memory. If the bytes have been initialised and there are some, the two compare equal. *)
Lemma equal_ok s i j r t bs : wf s -> objects s !! i = Some r -> objects s !! j = Some t -> size r = size t -> 0 < size t -> contents s i = Ok bs -> contents s j = Ok bs ->
  Forall is_Some bs -> equal s i j = Ok true.
Proof.
  intros W Or Ot S P Ci Cj I. assert (forall k x, objects s !! k = Some x -> 0 < size x -> bool_decide (data x = None) = false) as ND.
  { intros k x Ox Px. apply bool_decide_eq_false. intros D. rewrite (obj_data s k x W Ox D) in Px. lia. }
  revert Ci Cj. unfold equal, contents, get_object. rewrite Or, Ot. cbn [rbind]. intros -> ->. rewrite (ND i r Or), (ND j t Ot) by lia. rewrite S, Nat.eqb_refl. cbn.
  replace (forallb _ (bs ++ bs)) with true; [by rewrite bool_decide_true|]. symmetry. apply forallb_forall. intros b Hb. apply bool_decide_eq_true.
  assert (b ∈ bs) as Hb' by (apply elem_of_list_In; apply in_app_or in Hb as [?|?]; done). exact (proj1 (Forall_forall _ _) I b Hb').
Qed.
Theorem drx_copy g ops s i j : legal_run (Some g) start ops -> run (Some g) start ops = Ok s -> legal s (Copy i j) ->
  exists s', apply_op (Some g) s (Copy i j) = Ok s' /\ contents s' i = contents s j /\ (owner s' i <-> owner s j) /\
    (forall k, k <> i -> contents s' k = contents s k) /\ (forall a bs, memory s !! a = Some (Block false bs) -> memory s' !! a = Some (Block false bs)) /\
    (forall bs, contents s j = Ok bs -> Forall is_Some bs -> bs <> [] -> equal s' i j = Ok true).
Proof.
  intros L R Lg. destruct (run_ok g ops start wf_start L) as (s0 & E0 & W). assert (s0 = s) as -> by congruence.
  destruct (copy_ok g s i j W Lg) as (s' & E & C & O & r & t & Or & Ot & S & _). destruct (step_ok g s (Copy i j) W Lg) as (s1 & E1 & W1 & F1 & F2).
  assert (s1 = s') as -> by congruence. exists s'. split; [done|]. split; [done|]. split; [done|]. split; [intros k Nk; apply F1; [cbn; congruence|by left]|]. split; [by apply F2|].
  intros bs Cb I Nb. assert (j <> i) as Nij by (intros ->; destruct Lg as [U _]; unfold unused in U; congruence).
  assert (contents s' j = contents s j) as Cj by (apply F1; [cbn; congruence|by left]).
  assert (exists t', objects s' !! j = Some t' /\ size t' = size t) as (t' & Ot' & St').
  { destruct (objects s' !! j) as [t'|] eqn:Ot'.
    - exists t'. split; [done|]. destruct (contents_ok s' j t' W1 Ot') as (b1 & C1 & L1). destruct (contents_ok s j t W Ot) as (b2 & C2 & L2).
      rewrite <- L1, <- L2. congruence.
    - exfalso. rewrite Cb in Cj. unfold contents, get_object in Cj. rewrite Ot' in Cj. done. }
  destruct (contents_ok s j t W Ot) as (b2 & C2 & L2). assert (b2 = bs) as -> by congruence.
  apply (equal_ok s' i j r t' bs W1); try done; [congruence| |congruence|congruence]. rewrite St', <- L2. destruct bs; [done|cbn; lia].
Qed.
Print Assumptions drx_copy.
Theorem drx_assign g ops s i j : legal_run (Some g) start ops -> run (Some g) start ops = Ok s -> legal s (Assign i j) ->
  exists s', apply_op (Some g) s (Assign i j) = Ok s' /\ contents s' i = contents s j /\ (owner s' i <-> owner s i \/ owner s j) /\
    (forall k, k <> i -> contents s' k = contents s k) /\ (forall a bs, memory s !! a = Some (Block false bs) -> memory s' !! a = Some (Block false bs)) /\
    (forall bs, contents s j = Ok bs -> Forall is_Some bs -> bs <> [] -> equal s' i j = Ok true).
Proof.
  intros L R Lg. destruct (run_ok g ops start wf_start L) as (s0 & E0 & W). assert (s0 = s) as -> by congruence.
  destruct (assign_ok g s i j W Lg) as (s' & E & C & O & r & t & Or & Ot & S & _). destruct (step_ok g s (Assign i j) W Lg) as (s1 & E1 & W1 & F1 & F2).
  assert (s1 = s') as -> by congruence. exists s'. split; [done|]. split; [done|]. split; [done|]. split; [intros k Nk; apply F1; [cbn; congruence|by left]|]. split; [by apply F2|].
  intros bs Cb I Nb. destruct (contents_ok s j t W Ot) as (b2 & C2 & L2). assert (b2 = bs) as -> by congruence. assert (0 < size t) as Pt by (rewrite <- L2; destruct bs; [done|cbn; lia]).
  destruct (decide (i = j)) as [->|Nij]; [apply (equal_ok s' j j r r bs W1); try done; congruence || lia|].
  assert (contents s' j = contents s j) as Cj by (apply F1; [cbn; congruence|by left]).
  assert (exists t', objects s' !! j = Some t' /\ size t' = size t) as (t' & Ot' & St').
  { destruct (objects s' !! j) as [t'|] eqn:Ot'.
    - exists t'. split; [done|]. destruct (contents_ok s' j t' W1 Ot') as (b1 & C1 & L1). rewrite <- L1, <- L2. congruence.
    - exfalso. rewrite Cb in Cj. unfold contents, get_object in Cj. rewrite Ot' in Cj. done. }
  apply (equal_ok s' i j r t' bs W1); try done; [congruence|lia|congruence|congruence].
Qed.
Print Assumptions drx_assign.
Example drx_copy_ex g : exists s, legal_run (Some g) start (take 6 demo) /\ run (Some g) start (take 6 demo) = Ok s /\ legal s (Copy 9 2) /\ owner s 2 /\
  contents s 2 = Ok [Some 9; Some 8]%N /\ legal s (Assign 0 2) /\ ~ owner s 0.
Proof.
  destruct g; (eexists; split; [apply all_legal_run; unfold demo, start; cbn [take]; solve_legal|]; split; [vm_compute; reflexivity|]; split; [cbn [legal]; solve_legal|]; split;
    [eexists; split; vm_compute; reflexivity|]; split; [vm_compute; reflexivity|]; split; [cbn [legal]; solve_legal|solve_legal]).
Qed.

(** C80, independence: the contents of an owner change only by operations on the owner itself. Objects in general change only by operations on
    them or by writes through an object that shares their memory. *)
Theorem drx_independent g ops s o s' k : legal_run (Some g) start ops -> run (Some g) start ops = Ok s -> legal s o -> apply_op (Some g) s o = Ok s' -> target o <> Some k ->
  (owner s k \/ writes o = false \/ forall t, target o = Some t -> ~ shared s t k) -> contents s' k = contents s k.
Proof.
  intros L R Lg E T H. destruct (run_ok g ops start wf_start L) as (s0 & E0 & W). assert (s0 = s) as -> by congruence.
  destruct (step_ok g s o W Lg) as (s1 & E1 & W1 & F1 & F2). assert (s1 = s') as -> by congruence. apply F1; [done|].
  destruct H as [(r & O & OW)|H]; [|done]. right. intros t Ht (x & y & a & Ox & Oy & Dx & Dy). apply T. assert (y = r) as -> by congruence.
  assert (t = k) as -> by exact (exclusive s k t r x a W O OW Dy Ox Dx). done.
Qed.
Print Assumptions drx_independent.
Theorem drx_write g ops s i k x r : legal_run (Some g) start ops -> run (Some g) start ops = Ok s -> objects s !! i = Some r ->
  (k < size r -> exists s' bs, apply_op (Some g) s (Write i k x) = Ok s' /\ contents s i = Ok bs /\ contents s' i = Ok (<[k := Some x]> bs)) /\
  (size r <= k -> apply_op (Some g) s (Write i k x) = Abort).
Proof.
  intros L R O. destruct (run_ok g ops start wf_start L) as (s0 & E0 & W). assert (s0 = s) as -> by congruence. split.
  - intros K. exact (write_ok g s i k x r W O K).
  - intros K. cbn [apply_op]. unfold get_object. rewrite O. cbn [rbind]. rewrite (proj2 (Nat.ltb_ge _ _) K). done.
Qed.
Print Assumptions drx_write.
Example drx_independent_ex g : exists s s', run (Some g) start (take 6 demo) = Ok s /\ legal s (Write 2 1 4%N) /\ apply_op (Some g) s (Write 2 1 4%N) = Ok s' /\ owner s 1 /\
  contents s' 2 = Ok [Some 9; Some 4]%N /\ contents s' 1 = Ok [Some 7; Some 8]%N.
Proof.
  destruct g; (eexists _, _; split; [vm_compute; reflexivity|]; split; [cbn [legal]; eexists; split; [vm_compute; reflexivity|cbn; lia]|]; split; [vm_compute; reflexivity|]; split;
    [eexists; split; vm_compute; reflexivity|]; split; vm_compute; reflexivity).
Qed.

(** Refutations. Copying an owner reads the member owned_ before anything was stored in it. *)
Theorem drx_copy_uninitialised_refuted : exists ops, legal_run None start ops /\ run None start ops = Ub.
Proof. exists [Heap 0 2; Copy 1 0]. split; [apply all_legal_run; unfold start; solve_legal|vm_compute; reflexivity]. Qed.
Print Assumptions drx_copy_uninitialised_refuted.
(** Release keeps the size, so a released object still accepts indices and follows a null pointer; and so does assigning it to an owner. *)
Theorem drx_release_refuted g : run (Some g) start [Heap 0 2; Release 0; Write 0 0 1%N] = Ub /\ run (Some g) start [Heap 0 2; Heap 1 2; Release 0; Assign 1 0] = Ub.
Proof. destruct g; split; vm_compute; reflexivity. Qed.
Print Assumptions drx_release_refuted.
(** Releasing again and destroying are harmless after Release, and an owner has no memory any more. *)
Theorem drx_release g ops s i r : legal_run (Some g) start ops -> run (Some g) start ops = Ok s -> objects s !! i = Some r ->
  exists s1 s2, apply_op (Some g) s (Release i) = Ok s1 /\ apply_op (Some g) s1 (Release i) = Ok s1 /\ apply_op (Some g) s1 (Destroy i) = Ok s2 /\
  exists r', objects s1 !! i = Some r' /\ size r' = size r /\ (owned r = Some true -> data r' = None) /\ (owned r = Some false -> r' = r /\ memory s1 = memory s).
Proof.
  intros L E O. destruct (run_ok g ops start wf_start L) as (t & E' & W). rewrite E in E'. injection E' as <-.
  destruct (release_ok s i r W O) as (m & r' & R & _). cbn [apply_op]. unfold get_object. rewrite O. cbn [rbind]. rewrite R. cbn [rbind fst snd].
  assert (K : owned r' = Some false /\ size r' = size r /\ (owned r = Some true -> data r' = None) /\ (owned r = Some false -> r' = r /\ m = memory s)).
  { unfold release, read_owned in R. destruct (owned r) as [[|]|] eqn:OW; cbn [rbind] in R; [|injection R as <- <-; repeat split; congruence|discriminate].
    destruct (delete (memory s) (data r)); cbn [rbind] in R; try discriminate. injection R as <- <-. cbn. repeat split; congruence. }
  destruct K as (K1 & K2 & K3 & K4). eexists. eexists. split; [reflexivity|]. cbn [objects memory]. rewrite lookup_insert. cbn [rbind].
  assert (Q : release m r' = Ok (m, r')) by (unfold release, read_owned; rewrite K1; reflexivity). rewrite Q. cbn [rbind fst snd]. rewrite insert_insert. split; [reflexivity|]. split; [reflexivity|].
  exists r'. split; [reflexivity|]. auto.
Qed.
Print Assumptions drx_release.
(** Comparison of descriptors without memory. *)
Theorem drx_equal_null s i j r t : objects s !! i = Some r -> objects s !! j = Some t ->
  (data r = None -> data t = None -> equal s i j = Ok true <-> size r = size t) /\
  (size r <> size t -> equal s i j = Ok false) /\
  (data r = None -> data t <> None -> equal s i j = Ok false /\ equal s j i = Ok false).
Proof.
  intros R T. unfold equal, get_object. rewrite R, T. cbn [rbind]. split; [|split].
  - intros -> ->. rewrite !bool_decide_true by done. cbn. destruct (Nat.eqb_spec (size r) (size t)); cbn; split; congruence.
  - intros N. destruct (Nat.eqb_spec (size r) (size t)); [congruence|]. rewrite orb_true_r. reflexivity.
  - intros -> N. rewrite (bool_decide_true (None = None)) by done. rewrite bool_decide_false by done. cbn. split; reflexivity.
Qed.
Print Assumptions drx_equal_null.
(** set_data forgets the buffer of an owner, which is then never freed. *)
Theorem drx_set_data_leak_refuted g : exists s, run (Some g) start [External 0 [1; 2]%N; Heap 0 2; SetData 0 0 false; Destroy 0] = Ok s /\
  objects s = ∅ /\ exists a bs, memory s !! a = Some (Block true bs).
Proof. destruct g; (eexists; split; [vm_compute; reflexivity|]; split; [apply map_to_list_empty_iff; vm_compute; reflexivity|]; exists 1; eexists; vm_compute; reflexivity). Qed.
Print Assumptions drx_set_data_leak_refuted.
(** A view on the buffer of an owner: assigning it back to the owner reads freed memory, and two owners of one buffer free it twice. *)
Theorem drx_alias_refuted g : run (Some g) start [Heap 0 4; View 1 0 2 false; Assign 0 1] = Ub /\ run (Some g) start [Heap 0 4; View 1 0 4 true; Destroy 0; Destroy 1] = Ub.
Proof. destruct g; split; vm_compute; reflexivity. Qed.
Print Assumptions drx_alias_refuted.
(** Assigning an empty descriptor does not make the two compare equal. *)
Theorem drx_assign_empty_not_equal_refuted g : exists ops i j s, legal_run (Some g) start ops /\ run (Some g) start (ops ++ [Assign i j]) = Ok s /\ contents s i = contents s j /\ equal s i j = Ok false.
Proof.
  exists [Heap 0 2; Default 1], 0, 1. destruct g; (eexists; split; [apply all_legal_run; unfold start; solve_legal|]; split; [vm_compute; reflexivity|]; split; vm_compute; reflexivity).
Qed.
Print Assumptions drx_assign_empty_not_equal_refuted.

(** C81: FlipNRandomBits flips exactly the first [n] of the shuffled bits, so the Hamming distance is [n], whatever the shuffle. *)
Lemma flip_bits_ok ps : forall d, Forall (fun p => p < length d * 8) ps -> NoDup ps -> exists d', flip_bits ps d = Some d' /\ length d' = length d /\
  forall j, bit_at j d' = xorb (bool_decide (j ∈ ps)) (bit_at j d).
Proof.
  induction ps as [|p ps IH]; intros d F N.
  - exists d. split; [done|]. split; [done|]. intros j. rewrite bool_decide_false; [by destruct (bit_at j d)|apply not_elem_of_nil].
  - apply Forall_cons in F as [Fp F]. apply NoDup_cons in N as [Np N]. destruct (flip_bit_ok p d Fp) as (d1 & E1 & L1 & B1).
    destruct (IH d1) as (d2 & E2 & L2 & B2); [by rewrite L1|done|]. exists d2. cbn [flip_bits]. rewrite E1. split; [done|]. split; [congruence|].
    intros j. rewrite B2, B1. destruct (Nat.eqb_spec j p) as [->|Ne].
    + rewrite (bool_decide_false (p ∈ ps)) by done. rewrite (bool_decide_true (p ∈ p :: ps)) by left. by destruct (bit_at p d).
    + rewrite (bool_decide_ext (j ∈ p :: ps) (j ∈ ps)); [by destruct (bool_decide (j ∈ ps)), (bit_at j d)|]. rewrite elem_of_cons. tauto.
Qed.
Lemma sum_to_count ps m : NoDup ps -> Forall (fun p => p < m) ps -> sum_to m (fun i => b2n (bool_decide (i ∈ ps))) = length ps.
Proof.
  revert ps. induction m as [|m IH]; intros ps N F.
  - destruct ps as [|p ps]; [done|]. apply Forall_cons in F as [? _]. lia.
  - cbn [sum_to]. destruct (decide (m ∈ ps)) as [I|I].
    + rewrite bool_decide_true by done. apply elem_of_list_split in I as (l1 & l2 & ->). apply NoDup_app in N as (N1 & N12 & N2). apply NoDup_cons in N2 as [Nm N2].
      rewrite app_length. cbn [length b2n]. assert (m ∉ l1) as M1 by (intros X; apply (N12 m X); left).
      assert (sum_to m (fun i => b2n (bool_decide (i ∈ l1 ++ m :: l2))) = sum_to m (fun i => b2n (bool_decide (i ∈ l1 ++ l2)))) as ->.
      { apply sum_to_ext. intros i Hi. f_equal. apply bool_decide_ext. rewrite !elem_of_app, elem_of_cons. split; [intros [?|[->|?]]; [tauto|lia|tauto]|tauto]. }
      rewrite IH.
      * rewrite app_length. lia.
      * apply NoDup_app. split; [done|]. split; [|done]. intros x X Y. apply (N12 x X). by right.
      * apply Forall_app in F as [F1 F2]. apply Forall_cons in F2 as [_ F2]. apply Forall_app. rewrite !Forall_forall in *. split; intros x X.
        -- specialize (F1 x X). assert (x <> m) by (by intros ->). cbn in *. lia.
        -- specialize (F2 x X). assert (x <> m) by (by intros ->). cbn in *. lia.
    + rewrite bool_decide_false by done. cbn. apply IH; [done|]. rewrite !Forall_forall in *. intros x X. specialize (F x X). assert (x <> m) by (by intros ->). cbn in *. lia.
Qed.
Theorem fnx_flip_random n shuffled d : shuffled ≡ₚ seq 0 (length d * 8) ->
  (n < length d * 8 -> exists d', flip_random n shuffled d = Ok d' /\ length d' = length d /\ diff_bits d d' = n /\
     forall j, bit_at j d' = xorb (bool_decide (j ∈ take n shuffled)) (bit_at j d)) /\
  (length d * 8 <= n -> flip_random n shuffled d = Abort).
Proof.
  intros P. unfold flip_random. split; intros H.
  - rewrite (proj2 (Nat.ltb_lt _ _) H). assert (NoDup shuffled) as N by (rewrite P; apply NoDup_seq).
    assert (Forall (fun p => p < length d * 8) shuffled) as F by (rewrite P; apply Forall_forall; intros x X; apply elem_of_seq in X; lia).
    assert (NoDup (take n shuffled)) as N' by (rewrite <- (take_drop n shuffled) in N; by apply NoDup_app in N as [? _]).
    assert (Forall (fun p => p < length d * 8) (take n shuffled)) as F' by (by apply Forall_take).
    destruct (flip_bits_ok (take n shuffled) d F' N') as (d' & E & L & B). rewrite E. exists d'. split; [done|]. split; [done|]. split; [|done].
    rewrite diff_bits_sum by done. transitivity (sum_to (length d * 8) (fun i => b2n (bool_decide (i ∈ take n shuffled)))).
    + apply sum_to_ext. intros i _. rewrite B. f_equal. by destruct (bool_decide (i ∈ take n shuffled)), (bit_at i d).
    + rewrite sum_to_count by done. rewrite take_length, (Permutation_length P), seq_length. lia.
  - by rewrite (proj2 (Nat.ltb_ge _ _) H).
Qed.
Print Assumptions fnx_flip_random.
Example fnx_flip_random_ex : [3; 1; 0; 2; 7; 6; 5; 4] ≡ₚ seq 0 (length [5%N] * 8) /\ flip_random 2 [3; 1; 0; 2; 7; 6; 5; 4] [5%N] = Ok [15%N].
Proof.
  split; [|vm_compute; reflexivity]. apply NoDup_Permutation.
  - apply (bool_decide_unpack _). vm_compute. done.
  - apply NoDup_seq.
  - intros x. rewrite elem_of_seq. cbn [length]. split.
    + intros X. apply (proj1 (Forall_forall (fun x => 0 <= x < 0 + 1 * 8) [3; 1; 0; 2; 7; 6; 5; 4])); [repeat constructor; lia|done].
    + intros X. do 8 (destruct x as [|x]; [apply (bool_decide_unpack _); vm_compute; done|]). lia.
Qed.
(** The message of the check allows to flip everything, the check does not. *)
Theorem fnx_flip_everything_refuted : exists d shuffled, shuffled ≡ₚ seq 0 (length d * 8) /\ flip_random (length d * 8) shuffled d = Abort.
Proof. exists [5%N], (seq 0 8). split; [done|vm_compute; reflexivity]. Qed.
Print Assumptions fnx_flip_everything_refuted.
