(** Property theorems about the image synchronisation (C12-C15). *)
From Coq Require Import ZArith Lia Bool Sorting.Sorted.
From stdpp Require Import list.
From Verif Require Import NPipelineModel NPipelineSpec NPipelineProofs NPipelineHist NPipelineDrop.
Open Scope Z_scope.

(** ** C12: synchronised images lie within the tolerance *)
Theorem np_synchronised : forall ncam tol acts st evs k f,
  0 <= tol -> Forall (legal ncam) acts -> run ncam tol init acts = Ok st evs ->
  (k, f) ∈ emitted evs -> synchronised ncam tol (submitted acts) k f.
Proof. exact synchronised_lemma. Qed.
Print Assumptions np_synchronised.

(** Two images of one multi-camera frame differ by at most twice the tolerance. *)
Theorem np_pairwise_close : forall ncam tol acts st evs k f c1 c2 i1 i2,
  0 <= tol -> Forall (legal ncam) acts -> run ncam tol init acts = Ok st evs ->
  (k, f) ∈ emitted evs -> f !! c1 = Some (Some i1) -> f !! c2 = Some (Some i2) ->
  Z.abs (stamp i1 - stamp i2) <= 2 * tol.
Proof.
  intros ncam tol acts st evs k f c1 c2 i1 i2 T L H E E1 E2.
  destruct (np_synchronised _ _ _ _ _ _ _ T L H E) as [Ln S].
  assert (c1 < ncam)%nat as L1 by (apply lookup_lt_Some in E1; lia).
  assert (c2 < ncam)%nat as L2 by (apply lookup_lt_Some in E2; lia).
  destruct (S _ L1) as (j1 & F1 & _ & A1 & _). destruct (S _ L2) as (j2 & F2 & _ & A2 & _).
  rewrite E1 in F1. rewrite E2 in F2. injection F1 as ->. injection F2 as ->. lia.
Qed.
Print Assumptions np_pairwise_close.

(** No image is delivered twice. *)
Theorem np_delivered_once : forall ncam tol acts st evs,
  0 <= tol -> Forall (legal ncam) acts -> run ncam tol init acts = Ok st evs ->
  NoDup (submitted acts) -> NoDup (images_of (emitted evs)).
Proof. exact emitted_once_lemma. Qed.
Print Assumptions np_delivered_once.

(** Legal calls never fail a CHECK or dereference an end iterator. *)
Theorem np_no_failure : forall ncam tol acts,
  0 <= tol -> Forall (legal ncam) acts -> exists st evs, run ncam tol init acts = Ok st evs.
Proof.
  intros ncam tol acts T L. destruct (run_ok ncam tol acts init (inv_init ncam tol) T L)
    as (st & evs & H & _). eauto.
Qed.
Print Assumptions np_no_failure.

(** The index check of work() lets the first index beyond the rig pass. *)
Theorem np_camera_check_refuted : forall ncam tol st t n,
  step ncam tol st (AWork (Image ncam t n)) = UB.
Proof.
  intros ncam tol st t n. cbn [step]. unfold work. cbn [cam].
  replace (ncam <? ncam)%nat with false by (symmetry; apply Nat.ltb_irrefl).
  replace (ncam =? ncam)%nat with true by (symmetry; apply Nat.eqb_refl). done.
Qed.
Print Assumptions np_camera_check_refuted.

Definition demo : list act :=
  [AWork (Image 0 1000 0); AWork (Image 1 1003 1); AGetNext; AWork (Image 1 2000 2); AGetNext;
   AWork (Image 0 1996 3); AGetLatest].
Example demo_legal : Forall (legal 2) demo.
Proof. repeat constructor; simpl; lia. Qed.
Example demo_runs : exists st evs,
  run 2 5 init demo = Ok st evs /\
  emitted evs = [(1000, [Some (Image 0 1000 0); Some (Image 1 1003 1)]);
                 (2000, [Some (Image 0 1996 3); Some (Image 1 2000 2)])].
Proof. do 2 eexists. split; [vm_compute; reflexivity|]. reflexivity. Qed.
Example demo_distinct : NoDup (submitted demo).
Proof.
  change (submitted demo) with [Image 0 1000 0; Image 1 1003 1; Image 1 2000 2; Image 0 1996 3].
  repeat constructor; rewrite ?not_elem_of_cons; repeat split; try done; apply not_elem_of_nil.
Qed.

(** ** C13: images are grouped with the nearest group *)
(** The image is put into the right group and nothing else changes: the pending groups before are
    [a ++ (k, f0) :: b] (or [a ++ b] if the group is new and empty), the pending groups after the
    insertion are [a ++ (k, f1) :: b], where f1 is f0 with the image at its camera; they are then
    split into dropped ones, ones handed on and the remaining ones. *)
Theorem np_nearest_group : forall ncam tol acts st evs i st' e,
  0 <= tol -> Forall (legal ncam) acts -> run ncam tol init acts = Ok st evs ->
  (cam i < ncam)%nat -> step ncam tol st (AWork i) = Ok st' e ->
  exists k f0 f1 a b moved,
    right_group tol (fst <$> processing st) (stamp i) k /\
    ((processing st = a ++ (k, f0) :: b) \/ (processing st = a ++ b /\ f0 = replicate ncam None)) /\
    length f1 = length f0 /\ f1 !! cam i = Some (Some i) /\
    (forall c, c <> cam i -> f1 !! c = f0 !! c) /\
    a ++ (k, f1) :: b = dropped_groups e ++ moved ++ processing st'.
Proof.
  intros ncam tol acts st evs i st' e T L H C W.
  assert (Inv ncam tol st) as I by exact (run_inv _ _ _ _ _ _ (inv_init ncam tol) T L H).
  exact (nearest_lemma ncam tol i st st' e I T C W).
Qed.
Print Assumptions np_nearest_group.

(** There is exactly one right group. *)
Theorem np_right_group_unique : forall tol keys t k1 k2,
  right_group tol keys t k1 -> right_group tol keys t k2 -> k1 = k2.
Proof.
  intros tol keys t k1 k2 [(I1 & A1 & N1)|(-> & F1)] [(I2 & A2 & N2)|(-> & F2)].
  - destruct (N1 _ I2), (N2 _ I1). lia.
  - specialize (F2 _ I1). lia.
  - specialize (F1 _ I2). lia.
  - done.
Qed.
Print Assumptions np_right_group_unique.

Example nearest_demo : exists st evs,
  run 2 5 init [AWork (Image 0 1000 0); AWork (Image 0 1006 1); AWork (Image 1 1003 2)] = Ok st evs /\
  right_group 5 [1000; 1006] 1003 1000 /\
  completed st = [(1000, [Some (Image 0 1000 0); Some (Image 1 1003 2)])] /\
  processing st = [(1006, [Some (Image 0 1006 1); None])].
Proof.
  do 2 eexists. split; [vm_compute; reflexivity|]. split; [|done].
  left. split; [by left|]. split; [simpl; lia|]. intros k' Hk.
  apply elem_of_cons in Hk as [->|Hk]; [simpl; lia|]. apply elem_of_list_singleton in Hk as ->. simpl. lia.
Qed.

(** ** C14: completed frames come out in time order *)
(** getNext() returns the oldest completed frame. *)
Theorem np_next_is_oldest : forall ncam tol acts st evs st' e k f,
  0 <= tol -> Forall (legal ncam) acts -> run ncam tol init acts = Ok st evs ->
  step ncam tol st AGetNext = Ok st' e -> (k, f) ∈ emitted e ->
  (k, f) ∈ completed st /\ forall k' f', (k', f') ∈ completed st -> k <= k'.
Proof. exact next_oldest_lemma. Qed.
Print Assumptions np_next_is_oldest.

(** getLatestAndClear() returns the newest one and nothing older remains. *)
Theorem np_latest_is_newest : forall ncam tol acts st evs st' e k f,
  0 <= tol -> Forall (legal ncam) acts -> run ncam tol init acts = Ok st evs ->
  step ncam tol st AGetLatest = Ok st' e -> (k, f) ∈ emitted e ->
  (k, f) ∈ completed st /\ (forall k' f', (k', f') ∈ completed st -> k' <= k) /\
  completed st' = [] /\ forall k' f', (k', f') ∈ processing st' <-> (k', f') ∈ processing st /\ k < k'.
Proof. exact latest_newest_lemma. Qed.
Print Assumptions np_latest_is_newest.

(** When an image has been processed, a complete group is only held back by an older incomplete
    one. *)
Theorem np_held_back_only_by_older : forall ncam tol acts st evs i st' e k f,
  0 <= tol -> Forall (legal ncam) acts -> run ncam tol init acts = Ok st evs ->
  (cam i < ncam)%nat -> step ncam tol st (AWork i) = Ok st' e ->
  (k, f) ∈ processing st' -> complete f ->
  exists k' f', (k', f') ∈ processing st' /\ k' < k /\ ~ complete f'.
Proof.
  intros ncam tol acts st evs i st' e k f T L H C W.
  exact (work_moves_front ncam tol i st st' e
    (run_inv _ _ _ _ _ _ (inv_init ncam tol) T L H) T C W k f).
Qed.
Print Assumptions np_held_back_only_by_older.

(** If every new group is later than all groups before, the frames returned have increasing times. *)
Theorem np_increasing_partial : forall ncam tol acts st evs,
  0 <= tol -> Forall (legal ncam) acts -> run ncam tol init acts = Ok st evs ->
  in_order Z.lt ncam tol None init acts ->
  StronglySorted Z.lt (fst <$> emitted evs).
Proof. intros ncam tol acts st evs T L H O. exact (proj1 (order_lemma ncam tol acts st evs T L H O)). Qed.
Print Assumptions np_increasing_partial.

Example in_order_demo : in_order Z.lt 2 5 None init demo.
Proof. vm_compute. repeat split. Qed.

(** Late images break the order: group 1000 is delivered after group 2000. *)
Theorem np_increasing_refuted : exists acts st evs,
  Forall (legal 1) acts /\ run 1 5 init acts = Ok st evs /\
  fst <$> emitted evs = [2000; 1000].
Proof.
  exists [AWork (Image 0 2000 0); AGetNext; AWork (Image 0 1000 1); AGetNext].
  do 2 eexists. split; [repeat constructor; simpl; lia|]. split; [vm_compute; reflexivity|]. done.
Qed.
Print Assumptions np_increasing_refuted.

(** After getLatestAndClear() a complete group can be held back by nothing: the pending groups start
    with the complete group 3000, yet getNext() returns nothing. *)
Definition stuck_demo : list act :=
  [AWork (Image 0 2000 0); AWork (Image 1 2000 1); AWork (Image 0 1000 2);
   AWork (Image 0 3000 3); AWork (Image 1 3000 4); AGetLatest; AGetNext].
Theorem np_front_complete_not_delivered_refuted : exists st evs f,
  Forall (legal 2) stuck_demo /\ run 2 5 init stuck_demo = Ok st evs /\
  processing st = [(3000, f)] /\ complete f /\ completed st = [] /\ last evs = Some EvEmpty.
Proof.
  do 3 eexists. split; [repeat constructor; simpl; lia|]. split; [vm_compute; reflexivity|].
  split; [reflexivity|]. split; [|done]. by apply all_set_complete.
Qed.
Print Assumptions np_front_complete_not_delivered_refuted.

(** ** C15: no complete multi-frame is lost *)
(** Refuted: of the pending groups 1000 (incomplete), 2000 (complete), 3000 (incomplete), 4000 and
    5000 (complete) the complete group 2000 is dropped together with the incomplete ones. *)
Definition lossy : list act :=
  [AWork (Image 0 1000 0);
   AWork (Image 0 2000 1); AWork (Image 1 2000 2);
   AWork (Image 0 3000 3);
   AWork (Image 0 4000 4); AWork (Image 1 4000 5);
   AWork (Image 0 5000 6); AWork (Image 1 5000 7)].
Theorem np_complete_dropped_refuted : exists st evs f,
  Forall (legal 2) lossy /\ run 2 5 init lossy = Ok st evs /\
  in_order Z.lt 2 5 None init lossy /\
  (2000, f) ∈ lost_groups evs /\ complete f /\ fst <$> completed st = [4000; 5000].
Proof.
  do 2 eexists. exists [Some (Image 0 2000 1); Some (Image 1 2000 2)]. split; [repeat constructor; simpl; lia|]. split; [vm_compute; reflexivity|].
  split; [vm_compute; repeat split|]. split; [|split; [|reflexivity]].
  - right. by left.
  - by apply all_set_complete.
Qed.
Print Assumptions np_complete_dropped_refuted.

(** Refuted: a complete group is lost if a completed group with the same time has not been fetched. *)
Theorem np_complete_shadowed_refuted : exists st evs f,
  run 1 5 init [AWork (Image 0 1000 0); AWork (Image 0 1000 1)] = Ok st evs /\
  (1000, f) ∈ lost_groups evs /\ complete f /\ f = [Some (Image 0 1000 1)].
Proof.
  do 3 eexists. split; [vm_compute; reflexivity|]. split; [|split; [|reflexivity]].
  - by left.
  - by apply all_set_complete.
Qed.
Print Assumptions np_complete_shadowed_refuted.

(** Refuted, even for the oldest pending group (after getLatestAndClear()): group 3000 is complete and
    older than every other pending group when it is dropped. *)
Definition lossy_front : list act :=
  [AWork (Image 0 2000 0); AWork (Image 1 2000 1); AWork (Image 0 1000 2);
   AWork (Image 0 3000 3); AWork (Image 1 3000 4); AWork (Image 0 4000 5);
   AWork (Image 0 5000 6); AWork (Image 1 5000 7); AWork (Image 0 6000 8);
   AGetLatest; AWork (Image 1 6000 9)].
Theorem np_oldest_complete_dropped_refuted : exists st evs f,
  Forall (legal 2) lossy_front /\ run 2 5 init lossy_front = Ok st evs /\
  fst <$> dropped_groups evs = [3000; 4000] /\ (3000, f) ∈ dropped_groups evs /\ complete f.
Proof.
  do 3 eexists. split; [repeat constructor; simpl; lia|]. split; [vm_compute; reflexivity|].
  split; [reflexivity|]. split; [by left|]. by apply all_set_complete.
Qed.
Print Assumptions np_oldest_complete_dropped_refuted.

(** Every processed image is in exactly one place: pending, completed, in a group that left the
    pipeline, or overwritten by a later image of the same camera. *)
Theorem np_images_conserved : forall ncam tol acts st evs,
  0 <= tol -> Forall (legal ncam) acts -> run ncam tol init acts = Ok st evs ->
  images_of (processing st) ++ images_of (completed st) ++ images_of (left_groups evs) ++
  overwritten_images evs ≡ₚ submitted acts.
Proof. exact conservation_lemma. Qed.
Print Assumptions np_images_conserved.

(** Groups are dropped only when at least three groups were pending and two newer complete groups are
    handed on. *)
Theorem np_drop_two_newer : forall ncam tol acts st evs i st' e k f,
  0 <= tol -> Forall (legal ncam) acts -> run ncam tol init acts = Ok st evs ->
  (cam i < ncam)%nat -> step ncam tol st (AWork i) = Ok st' e ->
  (k, f) ∈ dropped_groups e ->
  (3 <= length (processing st))%nat /\
  exists k1 k2, k < k1 < k2 /\ k1 ∈ fst <$> completed st' /\ k2 ∈ fst <$> completed st'.
Proof.
  intros ncam tol acts st evs i st' e k f T L H C W.
  exact (drop_two_newer_lemma ncam tol i st st' e k f
    (run_inv _ _ _ _ _ _ (inv_init ncam tol) T L H) T C W).
Qed.
Print Assumptions np_drop_two_newer.

(** Without getLatestAndClear() a complete group is dropped only behind an older incomplete group
    that is dropped with it. *)
Theorem np_complete_dropped_behind_incomplete_partial : forall ncam tol acts st evs i st' e k f,
  0 <= tol -> Forall (legal ncam) acts -> run ncam tol init acts = Ok st evs ->
  AGetLatest ∉ acts -> (cam i < ncam)%nat -> step ncam tol st (AWork i) = Ok st' e ->
  (k, f) ∈ dropped_groups e -> complete f ->
  exists k' f', (k', f') ∈ dropped_groups e /\ k' < k /\ ~ complete f'.
Proof.
  intros ncam tol acts st evs i st' e k f T L H N C W.
  exact (proj2 (work_calm ncam tol i st st' e
    (run_inv _ _ _ _ _ _ (inv_init ncam tol) T L H) (run_calm _ _ _ _ _ T L H N) T C W) k f).
Qed.
Print Assumptions np_complete_dropped_behind_incomplete_partial.
Example lossy_no_latest : AGetLatest ∉ lossy.
Proof. unfold lossy. rewrite !not_elem_of_cons. repeat split; try done. apply not_elem_of_nil. Qed.

(** If new groups come in time order, no completed group is lost because of its key. *)
Theorem np_no_shadow_partial : forall ncam tol acts st evs k f,
  0 <= tol -> Forall (legal ncam) acts -> run ncam tol init acts = Ok st evs ->
  in_order Z.lt ncam tol None init acts -> EvShadowed k f ∉ evs.
Proof.
  intros ncam tol acts st evs k f T L H O. exact (proj2 (order_lemma ncam tol acts st evs T L H O) k f).
Qed.
Print Assumptions np_no_shadow_partial.

(** Calling getNext() often enough delivers everything that has been completed, in order. *)
Theorem np_completed_delivered : forall ncam tol acts st evs,
  0 <= tol -> Forall (legal ncam) acts -> run ncam tol init acts = Ok st evs ->
  exists evs', run ncam tol init (acts ++ replicate (length (completed st)) AGetNext) =
                 Ok (State (processing st) []) (evs ++ evs') /\
               emitted evs' = completed st.
Proof. exact delivered_lemma. Qed.
Print Assumptions np_completed_delivered.
