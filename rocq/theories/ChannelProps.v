(** C33, C34: channel groups. *)
From Coq Require Import ZArith Bool Lia.
From stdpp Require Import list gmap strings.
From Verif Require Import ChannelModel ChannelSpec ChannelProofs ChannelLockProofs.

(** ** C33.

    As long as no group is copied by plain assignment and nobody writes into the pixels of a stored
    image, any number of groups behave like independent finite maps, for every history: the same
    answers, and aborts exactly where the specification has no answer. Missing: the two kinds of
    aliasing below. *)
Theorem cx_refines_partial : forall acts, forallb no_alias acts = true ->
  snd <$> run init acts = snd <$> spec_run [] acts.
Proof.
  intros acts H. pose proof (run_refines acts init inv_init H) as R. change (alpha init) with (@nil (gmap string data)) in R.
  destruct (run init acts) as [[s os]|]; [by destruct R as [-> _]|by rewrite R].
Qed.
Print Assumptions cx_refines_partial.

Definition demo : list act :=
  [ANew; AAdd 0 "kp" (TData 3); AWrite 0 "kp" (DData 3 7); AAdd 0 "img" TImage; AWrite 0 "img" (DImage 5);
   AClone 0; AEqual 0 1 ["kp"; "img"]; AWrite 1 "kp" (DData 3 8); AGet 0 "kp" (TData 3); AGet 1 "kp" (TData 3);
   ARemove 0 "img"; AGet 1 "img" TImage; AHas 0 "img"; AEqual 0 1 ["kp"]].
Example cx_refines_partial_ex : forallb no_alias demo = true /\
  snd <$> run init demo = Some [OUnit; OUnit; OUnit; OUnit; OUnit; OUnit; OBool true; OUnit;
    OData (DData 3 7); OData (DData 3 8); OUnit; OData (DImage 5); OBool false; OBool false].
Proof. split; vm_compute; reflexivity. Qed.
(** Wrong type, missing channel and double insertion abort. *)
Example cx_aborts_ex :
  run init [ANew; AAdd 0 "a" (TData 1); AGet 0 "a" (TData 2)] = None /\
  run init [ANew; AGet 0 "a" (TData 2)] = None /\
  run init [ANew; AAdd 0 "a" (TData 1); AAdd 0 "a" (TData 1)] = None.
Proof. split_and!; vm_compute; reflexivity. Qed.

(** A clone compares equal to its original, in both directions and for every iteration order. *)
Theorem cx_clone_equal : forall acts s os g m order, forallb no_alias acts = true ->
  run init acts = Some (s, os) -> groups s !! g = Some m -> is_order order (map_to_list m).*1 = true ->
  exists s', clone_group s g = Some s' /\
    equal_groups s' g (length (groups s)) order = Some true /\
    equal_groups s' (length (groups s)) g order = Some true.
Proof.
  intros acts s os g m order Hna E Hg Ho.
  pose proof (run_refines acts init inv_init Hna) as R. rewrite E in R. destruct R as [_ I].
  destruct (clone_ok s g m I Hg) as (s' & Hc & I' & Ha). exists s'. split; [done|].
  set (am := rd (heap s) (bufs s) <$> m) in *.
  assert (Hlen : length (alpha s) = length (groups s)) by (unfold alpha; by rewrite fmap_length).
  pose proof (lookup_lt_Some _ _ _ Hg) as Hlt.
  assert (A1 : alpha s' !! g = Some am).
  { rewrite Ha, lookup_app_l by lia. by rewrite alpha_lookup, Hg. }
  assert (A2 : alpha s' !! length (groups s) = Some am).
  { rewrite Ha, lookup_app_r, Hlen, Nat.sub_diag by lia. done. }
  assert (Ho' : is_order order (map_to_list am).*1 = true).
  { unfold am. by rewrite (is_order_perm order _ _ (names_fmap _ m)). }
  assert (Hse : spec_equal order am am = Some true).
  { apply spec_equal_refl, Forall_forall. intros n Hn.
    rewrite <- (is_order_elem _ _ (NoDup_fst_map_to_list am) Ho' n) in Hn.
    apply elem_of_list_fmap in Hn as ([n' x] & -> & Hx). apply elem_of_map_to_list in Hx. cbn. eauto. }
  assert (C : forall x y, x <> y -> alpha s' !! x = Some am -> alpha s' !! y = Some am ->
     equal_groups s' x y order = Some true).
  { intros x y Hne Hx Hy. pose proof (step_refines s' (AEqual x y order) I' eq_refl) as S.
    cbn [step spec_step] in S. rewrite (proj2 (Nat.eqb_neq x y) Hne) in S. rewrite Hx, Hy in S. cbn in S.
    rewrite Nat.eqb_refl, Ho' in S. cbn in S. rewrite Hse in S. cbn in S.
    destruct (equal_groups s' x y order) as [b|]; cbn in S; [|done]. destruct S as [S _]. congruence. }
  split; apply C; (lia || done).
Qed.
Print Assumptions cx_clone_equal.
Example cx_clone_equal_ex :
  is_order ["b"; "a"] (map_to_list ({["a" := 0; "b" := 1]} : gmap string nat)).*1 = true.
Proof. vm_compute. reflexivity. Qed.

(** Whenever a comparison answers, the answer is right: true exactly if both groups hold the same names
    with the same data. *)
Theorem cx_equal_answer : forall acts s os g g' order b, forallb no_alias acts = true ->
  run init acts = Some (s, os) -> equal_groups s g g' order = Some b -> g <> g' ->
  exists a, spec_run [] acts = Some (a, os) /\ (b = true <-> a !! g = a !! g').
Proof.
  intros acts s os g g' order b Hna E Eq Hne.
  pose proof (run_refines acts init inv_init Hna) as R. rewrite E in R. destruct R as [R I].
  exists (alpha s). split; [done|].
  pose proof (step_refines s (AEqual g g' order) I eq_refl) as S. cbn [step spec_step] in S.
  rewrite Eq, (proj2 (Nat.eqb_neq g g') Hne) in S. cbn in S.
  destruct (alpha s !! g) as [l|]; cbn in S; [|by destruct S].
  destruct (alpha s !! g') as [r|]; cbn in S; [|by destruct S].
  destruct (Nat.eqb_spec (size l) (size r)) as [Hs|Hs]; cbn in S.
  - destruct (is_order order (map_to_list l).*1) eqn:Ho; [|by destruct S].
    destruct (spec_equal order l r) as [b'|] eqn:Es; cbn in S; [|by destruct S].
    destruct S as [S _]. injection S as ->.
    pose proof (spec_equal_iff order l r b Ho Hs Es) as Hiff. rewrite Hiff. split; [by intros ->|by intros [= ->]].
  - destruct S as [S _]. injection S as <-. split; [done|]. intros [= ->]. done.
Qed.
Print Assumptions cx_equal_answer.
Example cx_equal_answer_ex :
  (r ← run init [ANew; AAdd 0 "a" (TData 1); ANew; AAdd 1 "a" (TData 1); AWrite 1 "a" (DData 1 4)];
   equal_groups r.1 0 1 ["a"]) = Some false.
Proof. vm_compute. reflexivity. Qed.

(** Violations. A clone shares the pixels of its images with the original: writing into the clone's image
    changes what the original returns. *)
Theorem cx_clone_shares_pixels_refuted : exists acts, forallb (fun a => match a with AAssign _ _ => false | _ => true end) acts = true /\
  last (default [] (snd <$> run init acts)) = Some (OData (DImage 9)) /\
  last (default [] (snd <$> spec_run [] acts)) = Some (OData (DImage 5)).
Proof.
  exists [ANew; AAdd 0 "img" TImage; AWrite 0 "img" (DImage 5); AClone 0; APixels 1 "img" 9; AGet 0 "img" TImage].
  split_and!; vm_compute; reflexivity.
Qed.
Print Assumptions cx_clone_shares_pixels_refuted.
(** A copy by assignment shares all channels, not only images. *)
Theorem cx_assign_aliases_refuted : exists acts,
  last (default [] (snd <$> run init acts)) = Some (OData (DData 1 4)) /\
  last (default [] (snd <$> spec_run [] acts)) = Some (OData (DData 1 3)).
Proof.
  exists [ANew; AAdd 0 "a" (TData 1); AWrite 0 "a" (DData 1 3); ANew; AAssign 1 0; AWrite 1 "a" (DData 1 4);
     AGet 0 "a" (TData 1)].
  split; vm_compute; reflexivity.
Qed.
Print Assumptions cx_assign_aliases_refuted.
(** Whether comparing two different groups answers "no" or aborts depends on the iteration order of the
    hash map, when one name has values of different types. *)
Theorem cx_equal_order_refuted : exists acts s o1 o2, forallb no_alias acts = true /\
  fst <$> run init acts = Some s /\ o1 ≡ₚ o2 /\
  equal_groups s 0 1 o1 = Some false /\ equal_groups s 0 1 o2 = None.
Proof.
  exists [ANew; AAdd 0 "a" (TData 1); AAdd 0 "b" (TData 1); ANew; AAdd 1 "a" (TData 2); AAdd 1 "b" (TData 1);
     AWrite 1 "b" (DData 1 3)].
  eexists _, ["b"; "a"], ["a"; "b"]. split; [reflexivity|]. split; [vm_compute; reflexivity|].
  split; [by apply perm_swap|]. split; vm_compute; reflexivity.
Qed.
Print Assumptions cx_equal_order_refuted.

(** ** C34: two threads that compare the same two groups in opposite order can block each other. *)
Theorem cx_compare_deadlock_refuted : exists programs sched ts,
  lock_run (start programs) sched = Some ts /\
  Forall (fun t => finished t = false) ts /\ forall i, lock_step i ts = None.
Proof.
  exists [[Compare 0 1]; [Compare 1 0]], [0; 1].
  eexists. split; [vm_compute; reflexivity|]. split; [repeat constructor|].
  intros [|[|i]]; reflexivity.
Qed.
Print Assumptions cx_compare_deadlock_refuted.

(** If all comparisons name the groups in one fixed order, no interleaving of any number of threads
    blocks, and every run ends after at most four steps per call. Missing: the unordered case, which is
    false. *)
Theorem cx_ordered_no_deadlock_partial : forall (rank : nat -> nat) programs,
  Forall (Forall (fun c => match c with Compare l r => l = r \/ rank l < rank r | Single _ => True end)) programs ->
  forall sched ts, lock_run (start programs) sched = Some ts ->
  length sched <= 4 * sum_list (length <$> programs) /\
  (forallb finished ts = true \/ exists i ts', lock_step i ts = Some ts').
Proof.
  intros rank programs HP sched ts E.
  assert (HO : Forall (ordered_thread rank) (start programs)).
  { unfold start. apply Forall_fmap. eapply Forall_impl; [exact HP|]. intros cs Hcs. by split. }
  split.
  - pose proof (lock_run_length _ _ _ E) as L.
    assert (T : total (start programs) = 4 * sum_list (length <$> programs)).
    { clear. unfold total, start. induction programs as [|p ps IH]; [done|].
      rewrite !fmap_cons.
      change (weight (Thread Idle p) + sum_list_with weight (Thread Idle <$> ps)
        = 4 * (length p + sum_list (length <$> ps))).
      rewrite IH. unfold weight. cbn [ph todo]. lia. }
    lia.
  - exact (progress rank ts (lock_run_invariant rank sched _ _ HO E)).
Qed.
Print Assumptions cx_ordered_no_deadlock_partial.
Example cx_ordered_no_deadlock_partial_ex :
  Forall (Forall (fun c => match c with Compare l r => l = r \/ id l < id r | Single _ => True end))
    [[Compare 0 1; Single 1]; [Compare 1 2; Compare 2 2]; [Compare 0 2]] /\
  forallb finished <$> lock_run (start [[Compare 0 1; Single 1]; [Compare 1 2; Compare 2 2]; [Compare 0 2]])
    [0; 1; 1; 1; 1; 0; 0; 0; 2; 2; 2; 2; 0; 0; 1] = Some true.
Proof. split; [repeat constructor; cbn; lia|]. vm_compute. reflexivity. Qed.

(** For any programs: two threads never hold the mutex of the same group. *)
Theorem cx_mutual_exclusion : forall programs sched ts m i j t u,
  lock_run (start programs) sched = Some ts -> ts !! i = Some t -> ts !! j = Some u ->
  holds t m = true -> holds u m = true -> i = j.
Proof.
  intros programs sched ts m i j t u E. exact (excl_run sched _ _ (excl_start programs) E m i j t u).
Qed.
Print Assumptions cx_mutual_exclusion.
Example cx_mutual_exclusion_ex : exists ts t,
  lock_run (start [[Compare 0 1]; [Single 1]]) [0; 0] = Some ts /\ ts !! 0 = Some t /\ holds t 1 = true.
Proof. eexists _, _. split_and!; reflexivity. Qed.
