(** C152: extrinsics of camera rigs by index and by id. *)
From Coq Require Import ZArith Bool Lia.
From stdpp Require Import list gmap.
From Verif Require Import RigModel RigSpec RigProofs RigProps RigExtrModel.
Local Open Scope nat_scope.

Section Extrinsics.
Context {T C : Type}.
Implicit Types w : @eworld T C.
(** Histories of operations on rigs. *)
Definition happens w : Prop := exists l, erun start l = Ok w.

Definition sizes (b : world) : list nat := (fun g => length (cams g)) <$> rigs b.
Definition aligned w : Prop := length <$> poses w = sizes (base w) /\ length (covariances w) = length (rigs (base w)).
Lemma clone_sizes b r b' : clone_rig b r = Some b' -> exists k, sizes b !! r = Some k /\ sizes b' = sizes b ++ [k].
Proof.
  intros H. apply clone_rig_inv in H as (new & cs & m & g & Hg & Hl & _ & -> & -> & _). exists (length (cams g)). unfold sizes. rewrite list_lookup_fmap, Hg. split; [done|]. cbn [rigs]. rewrite fmap_app. cbn. by rewrite seq_length, Hl.
Qed.
Lemma overwrite_sizes b new b' : overwrite_ids b new = Some b' -> sizes b' = sizes b.
Proof. unfold overwrite_ids. destruct (last (rigs b)); [|done]. cbn. destruct (_ =? _); [|done]. by intros [= <-]. Qed.
Lemma replace_sizes b m : sizes (replace_last_index b m) = sizes b.
Proof.
  unfold replace_last_index. destruct (last (rigs b)) as [g|] eqn:E; [|done]. unfold sizes. cbn [rigs]. rewrite list_fmap_insert. cbn [cams]. apply list_insert_id. rewrite list_lookup_fmap. rewrite last_lookup in E. rewrite Nat.sub_1_r, E. done.
Qed.
(** How the numbers of cameras change. *)
Lemma step_sizes b a b' : step b a = Some b' ->
  match a with
  | AConstruct cs => sizes b' = sizes b ++ [length cs]
  | AClone r | ACloneNewIds r _ | AUndistort r _ => exists k, sizes b !! r = Some k /\ sizes b' = sizes b ++ [k]
  | _ => sizes b' = sizes b
  end.
Proof.
  destruct a as [id|cs|r|r new|r i c|r new|c id]; cbn [step].
  - by intros [= <-].
  - destruct (init_internal _ _); [|done]. cbn. intros [= <-]. unfold sizes. cbn [rigs]. by rewrite fmap_app.
  - apply clone_sizes.
  - destruct (clone_rig b r) as [w1|] eqn:E1; [|done]. cbn. destruct (overwrite_ids w1 new) as [w2|] eqn:E2; [|done]. cbn. destruct (last (rigs w2)) as [g|]; [|done]. cbn. destruct (init_internal _ _); [|done]. cbn. intros [= <-]. rewrite replace_sizes, (overwrite_sizes _ _ _ E2). by apply clone_sizes.
  - destruct (rigs b !! r) as [g|] eqn:G; [|done]. cbn. destruct (ids b !! c); [|done]. cbn. destruct (cams g !! i) as [old|]; [|done]. cbn. destruct (ids b !! old); [|done]. cbn. intros [= <-]. unfold sizes. cbn [rigs]. rewrite list_fmap_insert. cbn [cams]. rewrite insert_length. apply list_insert_id. by rewrite list_lookup_fmap, G.
  - destruct (clone_rig b r) as [w1|] eqn:E1; [|done]. cbn. intros E2. rewrite (overwrite_sizes _ _ _ E2). by apply clone_sizes.
  - destruct (_ <? _); [|done]. by intros [= <-].
Qed.
Lemma sizes_length b : length (sizes b) = length (rigs b).
Proof. apply fmap_length. Qed.
Lemma aligned_at w r g : aligned w -> rigs (base w) !! r = Some g -> exists ts, poses w !! r = Some ts /\ length ts = length (cams g).
Proof.
  intros [A _] G. assert (E : (length <$> poses w) !! r = Some (length (cams g))) by (rewrite A; unfold sizes; by rewrite list_lookup_fmap, G). rewrite list_lookup_fmap in E. destruct (poses w !! r) as [ts|]; [|done]. cbn in E. injection E as E. eauto.
Qed.
Lemma pose_defined w r i : aligned w -> pose w r i <> Undef.
Proof.
  intros A. unfold pose. destruct (rigs (base w) !! r) as [g|] eqn:G; [|done]. destruct (aligned_at w r g A G) as (ts & -> & L). destruct (Nat.ltb_spec i (length (cams g))); [|done]. destruct (lookup_lt_is_Some_2 ts i) as [t ->]; [lia|done].
Qed.
Lemma put_aligned w r i ts t : aligned w -> poses w !! r = Some ts -> aligned (put_poses w r (<[i := t]> ts)).
Proof.
  intros [A B] E. split; [|exact B]. cbn [poses put_poses base]. rewrite list_fmap_insert, insert_length, list_insert_id; [exact A|]. by rewrite list_lookup_fmap, E.
Qed.
Lemma write_aligned w r i t : aligned w -> match write w r i t with Ok w' => aligned w' | Abort => True | Undef => False end.
Proof.
  intros A. unfold write. pose proof (pose_defined w r i A) as D. destruct (pose w r i); [|done|done]. destruct (poses w !! r) as [ts|] eqn:E; [|done]. by apply put_aligned.
Qed.
Lemma copy_aligned w r b : aligned w -> (exists k, sizes (base w) !! r = Some k /\ sizes b = sizes (base w) ++ [k]) -> aligned (copy_of w r b).
Proof.
  intros [A B] (k & K & S). split.
  - cbn [poses copy_of base]. rewrite fmap_app, S, A. f_equal. rewrite <- A, list_lookup_fmap in K. destruct (poses w !! r); [|done]. cbn in *. by injection K as ->.
  - cbn [covariances copy_of base]. rewrite app_length, <- sizes_length, S, app_length, sizes_length, B. done.
Qed.
Lemma estep_aligned w a : aligned w -> match estep w a with Ok w' => aligned w' | Abort => True | Undef => False end.
Proof.
  intros A. pose proof A as [A1 A2]. destruct a as [cs ts c|a|r i t|r i t|r id t|r c]; cbn [estep].
  - destruct (Nat.eqb_spec (length cs) (length ts)) as [E|]; [|done]. unfold lift. destruct (step (base w) (AConstruct cs)) as [b|] eqn:S; [|done]. pose proof (step_sizes _ _ _ S) as Z. cbn in Z. split; cbn [poses covariances base]; [by rewrite fmap_app, Z, A1, E|]. by rewrite app_length, <- sizes_length, Z, app_length, sizes_length, A2.
  - destruct a as [id|cs|r|r new|r i c|r new|c id]; try done; unfold lift; destruct (step (base w) _) as [b|] eqn:S; try done; pose proof (step_sizes _ _ _ S) as Z; cbn in Z; try (by apply copy_aligned); (split; cbn [poses covariances base]; [by rewrite Z|by rewrite <- sizes_length, Z, sizes_length]).
  - destruct (poses w !! r) as [ts|] eqn:E; [|done]. destruct (_ <? _); [|done]. by apply put_aligned.
  - by apply write_aligned.
  - destruct (camera_index (base w) r id) as [i|]; [|done]. destruct (_ <? _)%Z; [done|]. by apply write_aligned.
  - destruct (_ <? _); [|done]. split; [exact A1|]. cbn [covariances]. by rewrite insert_length.
Qed.
Lemma erun_aligned l : forall w, aligned w -> match erun w l with Ok w' => aligned w' | Abort => True | Undef => False end.
Proof.
  induction l as [|a l IH]; intros w A; cbn [erun]; [done|]. pose proof (estep_aligned w a A) as H. destruct (estep w a); [by apply IH|done|done].
Qed.
Lemma happens_aligned w : happens w -> aligned w.
Proof. intros [l E]. pose proof (erun_aligned l start) as H. rewrite E in H. apply H. done. Qed.

(** No history reads outside of the transformations, though indices are compared with the number of cameras. *)
Theorem rex_defined : (forall l, erun (start : @eworld T C) l <> Undef) /\ forall w r, happens w -> (forall i, pose w r i <> Undef) /\ forall id, pose_of_id w r id <> Undef.
Proof.
  split; [intros l E; pose proof (erun_aligned l start) as H; rewrite E in H; apply H; done|]. intros w r H. apply happens_aligned in H. split; [intros i; by apply pose_defined|]. intros id. unfold pose_of_id. destruct (camera_index _ _ _); [|done]. destruct (_ <? _)%Z; [done|]. by apply pose_defined.
Qed.
(** There is one transformation for each camera. *)
Theorem rex_each w r i : happens w -> (exists x, camera_id (base w) r i = Some x) -> exists t, pose w r i = Ok t.
Proof.
  intros H [x E]. apply happens_aligned in H. unfold camera_id in E. unfold pose. destruct (rigs (base w) !! r) as [g|] eqn:G; [|done]. cbn in E. destruct (cams g !! i) as [c|] eqn:Ci; [|done]. apply lookup_lt_Some in Ci. destruct (aligned_at w r g H G) as (ts & -> & L). rewrite (proj2 (Nat.ltb_lt _ _) Ci). destruct (lookup_lt_is_Some_2 ts i) as [t ->]; [lia|]. eauto.
Qed.
(** By id: the transformation of the camera with this id, as long as nobody changes ids of cameras in rigs; other ids abort. *)
Theorem rex_by_id w r : reach (base w) -> (forall i x, camera_id (base w) r i = Some x -> pose_of_id w r x = pose w r i) /\
  (forall x, r < length (rigs (base w)) -> x <> 0%Z -> (forall i, camera_id (base w) r i <> Some x) -> pose_of_id w r x = Abort) /\ pose_of_id w r 0 = Abort.
Proof.
  intros R. destruct (qx_camera_index_partial (base w) r R) as [H1 H2]. split; [|split; [|done]].
  - intros i x E. destruct (H1 i x E) as [H _]. unfold pose_of_id. rewrite H. rewrite (proj2 (Z.ltb_ge _ _)) by lia. by rewrite Nat2Z.id.
  - intros x L N F. destruct (H2 x L N F) as [H _]. unfold pose_of_id. by rewrite H.
Qed.
(** The three ways to store a transformation: it is read back, nothing else changes. *)
Definition stored w w' r i t : Prop := pose w' r i = Ok t /\ (forall r' j, r' <> r \/ j <> i -> pose w' r' j = pose w r' j) /\ base w' = base w /\ covariances w' = covariances w.
Lemma put_stored w r i ts t : aligned w -> poses w !! r = Some ts -> i < length ts -> stored w (put_poses w r (<[i := t]> ts)) r i t.
Proof.
  intros A E L. assert (R : r < length (poses w)) by (by apply lookup_lt_Some in E). assert (G : is_Some (rigs (base w) !! r)) by (apply lookup_lt_is_Some_2; rewrite <- sizes_length, <- (proj1 A), fmap_length; done). destruct G as [g G]. destruct (aligned_at w r g A G) as (ts' & E' & L'). rewrite E in E'. injection E' as <-.
  split; [|split; [|split; done]].
  - unfold pose. cbn [base poses put_poses]. rewrite G, list_lookup_insert by done. rewrite (proj2 (Nat.ltb_lt _ _)) by lia. by rewrite list_lookup_insert.
  - intros r' j N. unfold pose. cbn [base poses put_poses]. destruct (decide (r' = r)) as [->|Nr]; [|by rewrite list_lookup_insert_ne]. destruct N as [N|N]; [done|]. rewrite list_lookup_insert by done. rewrite E, G. by rewrite list_lookup_insert_ne.
Qed.
Lemma write_stored w r i t w' : aligned w -> write w r i t = Ok w' -> stored w w' r i t.
Proof.
  intros A W. unfold write in W. destruct (pose w r i) as [old| |] eqn:P; try done. destruct (poses w !! r) as [ts|] eqn:E; [|done]. injection W as <-. apply put_stored; [done|done|]. unfold pose in P. rewrite E in P. destruct (rigs (base w) !! r); [|done]. destruct (_ <? _); [|done]. destruct (ts !! i) eqn:Ti; [|done]. by apply lookup_lt_Some in Ti.
Qed.
Theorem rex_set w r i t : happens w -> (forall w', estep w (ESetPose r i t) = Ok w' -> stored w w' r i t) /\ (forall w', estep w (EWrite r i t) = Ok w' -> stored w w' r i t) /\
  (forall w' x, reach (base w) -> camera_id (base w) r i = Some x -> estep w (EWriteOfId r x t) = Ok w' -> stored w w' r i t) /\
  ((exists x, camera_id (base w) r i = Some x) -> exists w', estep w (ESetPose r i t) = Ok w' /\ estep w (EWrite r i t) = Ok w').
Proof.
  intros H. pose proof (happens_aligned w H) as A. split; [|split; [|split]].
  - intros w' E. cbn [estep] in E. destruct (poses w !! r) as [ts|] eqn:P; [|done]. destruct (Nat.ltb_spec i (length ts)); [|done]. injection E as <-. by apply put_stored.
  - intros w' E. by apply write_stored.
  - intros w' x R X E. cbn [estep] in E. destruct (proj1 (qx_camera_index_partial (base w) r R) i x X) as [I _]. rewrite I in E. rewrite (proj2 (Z.ltb_ge _ _)) in E by lia. rewrite Nat2Z.id in E. by apply write_stored.
  - intros X. destruct (rex_each w r i H X) as [old P]. cbn [estep]. unfold write. rewrite P. unfold pose in P. destruct (rigs (base w) !! r) as [g|]; [|done]. destruct (poses w !! r) as [ts|]; [|done]. destruct (i <? length (cams g)); [|done]. destruct (ts !! i) eqn:Ti; [|done]. apply lookup_lt_Some in Ti. rewrite (proj2 (Nat.ltb_lt _ _) Ti). eauto.
Qed.
(** Copies have the transformations and the covariance of the original; those of the existing rigs stay. *)
Theorem rex_copy w r a w' : happens w -> (a = AClone r \/ exists new, a = ACloneNewIds r new \/ a = AUndistort r new) -> estep w (EAct a) = Ok w' -> let n := length (rigs (base w)) in
  (forall i, pose w' n i = pose w r i) /\ (forall p, covariance w' n p = covariance w r p) /\ (forall r' i, r' < n -> pose w' r' i = pose w r' i) /\ forall r' p, r' < n -> covariance w' r' p = covariance w r' p.
Proof.
  intros H Ha E n. pose proof (happens_aligned w H) as A. pose proof A as [A1 A2].
  assert (X : exists b, w' = copy_of w r b /\ exists k, sizes (base w) !! r = Some k /\ sizes b = sizes (base w) ++ [k]).
  { destruct Ha as [->|(new & [->| ->])]; cbn [estep] in E; unfold lift in E; destruct (step (base w) _) as [b|] eqn:S; try done; injection E as <-; exists b; (split; [done|]); apply (step_sizes _ _ _ S). }
  destruct X as (b & -> & k & K & S). assert (Lp : length (poses w) = n) by (unfold n; rewrite <- sizes_length, <- A1, fmap_length; done).
  assert (K' := K). rewrite <- A1, list_lookup_fmap in K'. destruct (poses w !! r) as [ts|] eqn:P; [|done]. cbn in K'. injection K' as K'.
  assert (Rn : r < n) by (apply lookup_lt_Some in P; lia).
  assert (P1 : forall (v : @eworld T C) q j, pose v q j = match sizes (base v) !! q, poses v !! q with Some m, Some l => if j <? m then match l !! j with Some t => Ok t | None => Undef end else Abort | _, _ => Abort end).
  { intros v q j. unfold pose, sizes. rewrite list_lookup_fmap. by destruct (rigs (base v) !! q). }
  assert (Ln : length (sizes (base w)) = n) by apply sizes_length.
  split; [|split; [|split]].
  - intros i. rewrite !P1. cbn [base poses copy_of]. rewrite S, P, K. cbn [default]. rewrite <- Ln at 1. rewrite list_lookup_middle by done. rewrite <- Lp. by rewrite list_lookup_middle.
  - intros p. unfold covariance. cbn [covariances copy_of]. destruct (lookup_lt_is_Some_2 (covariances w) r) as [c Cc]; [lia|]. rewrite Cc. cbn [default]. replace n with (length (covariances w)) by lia. by rewrite list_lookup_middle.
  - intros r' i L. rewrite !P1. cbn [base poses copy_of]. rewrite S, !lookup_app_l by lia. done.
  - intros r' p L. unfold covariance. cbn [covariances copy_of]. by rewrite lookup_app_l by lia.
Qed.
(** Another camera in a slot, and another id of a camera, leave the transformations as they are. *)
Theorem rex_keep w a w' : (match a with ASetCamera _ _ _ | ASetId _ _ | ANewCam _ => True | _ => False end) -> estep w (EAct a) = Ok w' -> forall r, (forall i, pose w' r i = pose w r i) /\ forall p, covariance w' r p = covariance w r p.
Proof.
  intros Ha E r. assert (X : exists b, w' = EWorld b (poses w) (covariances w) /\ sizes b = sizes (base w)).
  { destruct a; try done; cbn [estep] in E; unfold lift in E; destruct (step (base w) _) as [b|] eqn:S; try done; injection E as <-; exists b; (split; [done|]); apply (step_sizes _ _ _ S). }
  destruct X as (b & -> & S). split; [|done]. intros i. assert (Q := f_equal (fun l => l !! r) S). unfold sizes in Q. cbn in Q. rewrite !list_lookup_fmap in Q. unfold pose. cbn [base poses]. destruct (rigs b !! r), (rigs (base w) !! r); try done. cbn in Q. injection Q as Q. by rewrite Q.
Qed.
(** The covariance: absent unless given or set; then the last one, for which a pointer is needed. *)
Theorem rex_covariance w r c w' : estep w (ESetCovariance r c) = Ok w' -> covariance w' r true = Ok (Some c) /\ covariance w' r false = Abort /\ (forall r' p, r' <> r -> covariance w' r' p = covariance w r' p) /\ (forall r' i, pose w' r' i = pose w r' i) /\ base w' = base w.
Proof.
  cbn [estep]. destruct (Nat.ltb_spec r (length (covariances w))) as [L|]; [|done]. intros [= <-]. unfold covariance. cbn [covariances]. rewrite list_lookup_insert by done. split; [done|]. split; [done|]. split; [|done]. intros r' p N. by rewrite list_lookup_insert_ne.
Qed.
Theorem rex_construct w cs ts c : happens w -> (forall w', estep w (EConstruct cs ts c) = Ok w' -> let n := length (rigs (base w)) in (forall i t, ts !! i = Some t <-> pose w' n i = Ok t) /\ covariance w' n true = Ok c) /\ (length cs <> length ts -> estep w (EConstruct cs ts c) = Abort).
Proof.
  intros H. pose proof (happens_aligned w H) as [A1 A2]. assert (Lp : length (poses w) = length (rigs (base w))) by (rewrite <- sizes_length, <- A1, fmap_length; done). split.
  - intros w' E n. cbn [estep] in E. destruct (Nat.eqb_spec (length cs) (length ts)) as [L|]; [|done]. unfold lift in E. destruct (step (base w) (AConstruct cs)) as [b|] eqn:S; [|done]. injection E as <-. cbn [step] in S. destruct (init_internal _ _) as [m|]; [|done]. cbn in S. injection S as <-. split.
    + intros i t. unfold pose. cbn [base rigs poses]. unfold n. rewrite list_lookup_middle by done. rewrite <- Lp, list_lookup_middle by done. cbn [cams]. rewrite L. destruct (Nat.ltb_spec i (length ts)) as [Li|Li].
      * destruct (ts !! i); split; congruence.
      * rewrite lookup_ge_None_2 by lia. done.
    + unfold covariance. cbn [covariances]. unfold n. rewrite <- A2, list_lookup_middle by done. by destruct c.
  - intros N. cbn [estep]. by rewrite (proj2 (Nat.eqb_neq _ _) N).
Qed.
End Extrinsics.
(** If ids of cameras in a rig are changed, the transformation of another camera is returned for an id. *)
Theorem rex_id_refuted : exists (w : @eworld Z Z) i x t, happens w /\ distinct (base w) /\ valid_ids (base w) /\ camera_id (base w) 0 i = Some x /\ pose_of_id w 0 x = Ok t /\ pose w 0 i <> Ok t.
Proof.
  eexists _, 0, 20%Z, 102%Z. split; [exists [EAct (ANewCam 10); EAct (ANewCam 20); EConstruct [0; 1] [101; 102]%Z None; EAct (ASetId 0 20); EAct (ASetId 1 10)]; reflexivity|].
  split; [intros [|[|r]] [|[|[|i]]] [|[|[|j]]] x E1 E2; cbn in E1, E2; try done; congruence|]. split; [intros [|[|r]] [|[|[|i]]] x E; cbn in E; try done; injection E as <-; done|]. split; [done|]. split; [vm_compute; reflexivity|]. vm_compute. intros E. congruence.
Qed.
Print Assumptions rex_defined.
Print Assumptions rex_each.
Print Assumptions rex_by_id.
Print Assumptions rex_set.
Print Assumptions rex_copy.
Print Assumptions rex_keep.
Print Assumptions rex_covariance.
Print Assumptions rex_construct.
Print Assumptions rex_id_refuted.

(** ** Cases *)
Definition acts_ex : list (@eact Z Z) := [EAct (ANewCam 10); EAct (ANewCam 20); EConstruct [0; 1] [101; 102]%Z (Some 7%Z)].
Example rex_history_ex : exists w, erun start acts_ex = Ok w /\ pose w 0 1 = Ok 102%Z /\ pose_of_id w 0 10 = Ok 101%Z /\ pose_of_id w 0 30 = Abort /\ covariance w 0 true = Ok (Some 7%Z) /\
  (exists w', estep w (EWriteOfId 0 20 103%Z) = Ok w' /\ pose w' 0 1 = Ok 103%Z /\ pose w' 0 0 = Ok 101%Z) /\ exists w', estep w (EAct (ACloneNewIds 0 [30; 40]%Z)) = Ok w' /\ pose_of_id w' 1 40 = Ok 102%Z.
Proof.
  eexists. split; [reflexivity|]. repeat (split; [vm_compute; reflexivity|]). split; (eexists; split; [vm_compute; reflexivity|]); repeat split; vm_compute; reflexivity.
Qed.
