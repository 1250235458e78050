(** Properties C38 and C39. *)
From Coq Require Import ZArith Bool Lia.
From stdpp Require Import list gmap.
From Verif Require Import RigModel RigSpec RigProofs.
Local Open Scope nat_scope.

(** ** C38 *)
(** [frames !! i = Some (Some t)]: frame i is set and has timestamp t. *)
(** The maximum succeeds exactly with the largest timestamp of a set frame, provided that it is valid. *)
Theorem qx_max_timestamp (frames : list (option Z)) n m :
  n <= length frames ->
  (forall i t, frames !! i = Some (Some t) -> (- 2 ^ 63 <= t < 2 ^ 63)%Z) ->
  max_timestamp frames n = Some m <->
  (m <> (- 2 ^ 63)%Z /\ (exists i, i < n /\ frames !! i = Some (Some m)) /\
   forall i t, i < n -> frames !! i = Some (Some t) -> (t <= m)%Z).
Proof.
  intros Hn Hr.
  change (- 2 ^ 63)%Z with invalid_time in *. change (2 ^ 63 - 1)%Z with int64_max in *.
  assert (Hr' : forall i t, frames !! i = Some (Some t) -> (invalid_time <= t <= int64_max)%Z) by (intros i' t' H'; specialize (Hr i' t' H'); unfold int64_max; lia).
  clear Hr; rename Hr' into Hr.
  unfold max_timestamp.
  destruct (max_loop_total frames n 0 invalid_time) as [m' Hm]; [lia|]. rewrite Hm. cbn.
  apply max_loop_spec in Hm as (Ha & Hle & Hb). unfold set_at in *. cbn in Ha.
  destruct (is_valid_time m') eqn:Hv.
  - apply is_valid_spec in Hv. split.
    + intros [= ->]. split; [done|]. split.
      * destruct Ha as [->|(j & Hj & Hs)]; [done|]. exists j. split; [lia|done].
      * intros i t Hi. apply Hb. lia.
    + intros (Hmi & (i & Hi & Hs) & Hup). f_equal. apply Z.le_antisymm.
      * destruct Ha as [->|(j & Hj & Hs')]; [|apply (Hup j); [lia|done]]. by apply Hr in Hs as [? ?].
      * apply (Hb i); [lia|done].
  - split; [done|]. intros (Hmi & (i & Hi & Hs) & Hup).
    assert (m' = invalid_time) as ->.
    { destruct (decide (m' = invalid_time)) as [|H]; [done|]. apply is_valid_spec in H. congruence. }
    assert (m <= invalid_time)%Z by (apply (Hb i); [lia|done]). apply Hr in Hs. lia.
Qed.
Print Assumptions qx_max_timestamp.

(** Without a set frame the maximum fails. *)
Theorem qx_max_without_frames (frames : list (option Z)) n :
  n <= length frames -> (forall i, i < n -> frames !! i = Some None) -> max_timestamp frames n = None.
Proof.
  intros Hn H. unfold max_timestamp.
  destruct (max_loop_total frames n 0 invalid_time) as [m' Hm]; [lia|]. rewrite Hm. cbn.
  apply max_loop_spec in Hm as (Ha & _). destruct Ha as [->|(j & Hj & Hs)]; [done|].
  unfold set_at in Hs. rewrite H in Hs by lia. done.
Qed.
Print Assumptions qx_max_without_frames.

(** The minimum: exact behaviour. It is the smallest timestamp of a set frame if that is valid; if no
    frame is set it is the largest 64-bit number (the property asks for a failure there). *)
Theorem qx_min_timestamp_partial (frames : list (option Z)) n m :
  n <= length frames ->
  (forall i t, frames !! i = Some (Some t) -> (- 2 ^ 63 <= t < 2 ^ 63)%Z) ->
  min_timestamp frames n = Some m <->
  (m <> (- 2 ^ 63)%Z /\ (exists i, i < n /\ frames !! i = Some (Some m)) /\
   forall i t, i < n -> frames !! i = Some (Some t) -> (m <= t)%Z) \/
  (m = (2 ^ 63 - 1)%Z /\ forall i, i < n -> frames !! i = Some None).
Proof.
  intros Hn Hr.
  change (- 2 ^ 63)%Z with invalid_time in *. change (2 ^ 63 - 1)%Z with int64_max in *.
  assert (Hr' : forall i t, frames !! i = Some (Some t) -> (invalid_time <= t <= int64_max)%Z) by (intros i' t' H'; specialize (Hr i' t' H'); unfold int64_max; lia).
  clear Hr; rename Hr' into Hr.
  unfold min_timestamp.
  destruct (min_loop_total frames n 0 int64_max) as [m' Hm]; [lia|]. rewrite Hm. cbn.
  apply min_loop_spec in Hm as (Ha & Hle & Hb). unfold set_at in *. cbn in Ha.
  assert (Hm' : m' = int64_max -> (exists i, i < n /\ frames !! i = Some (Some m')) \/ forall i, i < n -> frames !! i = Some None).
  { intros ->. destruct (decide (Exists (fun f => f <> None) (take n frames))) as [E|E].
    - left. apply Exists_exists in E as (f & Hf & Hne). apply elem_of_list_lookup in Hf as [i Hi].
      apply lookup_take_Some in Hi as [Hi Hlt]. destruct f as [t|]; [|done].
      exists i. split; [done|]. rewrite Hi. do 2 f_equal. apply Z.le_antisymm; [by apply Hr in Hi as [? ?]|].
      apply (Hb i); [lia|done].
    - right. intros i Hi. destruct (lookup_lt_is_Some_2 frames i) as [[t|] Hf]; [lia| |done].
      exfalso. apply E. apply Exists_exists. exists (Some t). split; [|done].
      apply elem_of_list_lookup. exists i. by apply lookup_take_Some. }
  assert (Hatt : (exists i, i < n /\ frames !! i = Some (Some m')) \/ (m' = int64_max /\ forall i, i < n -> frames !! i = Some None)).
  { destruct Ha as [Ha|(j & Hj & Hs)]; [|left; exists j; split; [lia|done]].
    destruct (Hm' Ha) as [?|?]; [by left|by right]. }
  assert (Huniq : forall x, (exists i, i < n /\ frames !! i = Some (Some x)) ->
    (forall i t, i < n -> frames !! i = Some (Some t) -> (x <= t)%Z) -> x = m').
  { intros x (i & Hi & Hs) Hlow. apply Z.le_antisymm; [|apply (Hb i); [lia|done]].
    destruct Hatt as [(j & Hj & Hs')|[-> Hnone]]; [by apply (Hlow j)|]. by apply Hr in Hs as [? ?]. }
  destruct (is_valid_time m') eqn:Hv.
  - apply is_valid_spec in Hv. split.
    + intros [= ->]. destruct Hatt as [Hat|Hnone]; [left|by right].
      split; [done|]. split; [done|]. intros i t Hi. apply Hb. lia.
    + intros [(_ & Hex & Hlow)|[-> Hnone]]; [f_equal; symmetry; by apply Huniq|].
      destruct Hatt as [(j & Hj & Hs)|[-> _]]; [|done]. by rewrite Hnone in Hs.
  - assert (m' = invalid_time) as E.
    { destruct (decide (m' = invalid_time)) as [|H]; [done|]. apply is_valid_spec in H. congruence. }
    split; [done|]. intros [(Hmi & Hex & Hlow)|[-> Hnone]].
    + exfalso. apply Hmi. rewrite <- E. by apply Huniq.
    + exfalso. destruct Hatt as [(j & Hj & Hs)|[E' _]]; [by rewrite Hnone in Hs|].
      rewrite E in E'. discriminate.
Qed.
Print Assumptions qx_min_timestamp_partial.

(** A multi-frame without any frame has a minimum timestamp, the largest 64-bit number. *)
Theorem qx_min_without_frames_refuted :
  exists (frames : list (option Z)) n m, 0 < n /\ n = length frames /\
    (forall i t, frames !! i <> Some (Some t)) /\
    min_timestamp frames n = Some m /\ max_timestamp frames n = None.
Proof.
  exists [None; None], 2, int64_max. split; [lia|]. split; [done|]. split; [|by split].
  intros [|[|i]] t; cbn; try done.
Qed.
Print Assumptions qx_min_without_frames_refuted.

(** One set frame without a timestamp makes the minimum fail and is ignored by the maximum. *)
Theorem qx_min_invalid (frames : list (option Z)) n i :
  n <= length frames -> i < n -> frames !! i = Some (Some (- 2 ^ 63)%Z) ->
  (forall i t, frames !! i = Some (Some t) -> (- 2 ^ 63 <= t < 2 ^ 63)%Z) ->
  min_timestamp frames n = None.
Proof.
  intros Hn Hi Hs Hr. destruct (min_timestamp frames n) as [m|] eqn:E; [|done].
  apply qx_min_timestamp_partial in E as [(Hm & (j & Hj & Hs') & Hlow)|[-> Hnone]]; [| |done|done].
  - pose proof (Hlow i _ Hi Hs). apply Hr in Hs'. lia.
  - by rewrite Hnone in Hs.
Qed.
Print Assumptions qx_min_invalid.

(** areAllFramesSet. *)
Theorem qx_all_set (frames : list (option Z)) :
  all_set frames = true <-> forall i, i < length frames -> exists t, frames !! i = Some (Some t).
Proof.
  unfold all_set. rewrite forallb_forall. split.
  - intros H i Hi. destruct (lookup_lt_is_Some_2 frames i Hi) as [f Hf].
    specialize (H f). rewrite <- elem_of_list_In in H. destruct f as [t|]; [by exists t|].
    discriminate H. by eapply elem_of_list_lookup_2.
  - intros H f Hf. rewrite <- elem_of_list_In in Hf. apply elem_of_list_lookup in Hf as [i Hi].
    destruct (H i) as [t Ht]; [by eapply lookup_lt_Some|]. rewrite Ht in Hi. by injection Hi as <-.
Qed.
Print Assumptions qx_all_set.

Example ex_timestamps :
  let frames := [Some 7%Z; None; Some 3%Z; Some 9%Z] in
  min_timestamp frames 4 = Some 3%Z /\ max_timestamp frames 4 = Some 9%Z /\ all_set frames = false /\
  min_timestamp [Some 3%Z; Some invalid_time] 2 = None /\ max_timestamp [Some 3%Z; Some invalid_time] 2 = Some 3%Z /\
  min_timestamp frames 5 = None.
Proof. by vm_compute. Qed.

(** ** C39 *)
Theorem qx_camera_index_partial w r : reach w ->
  (forall i x, camera_id w r i = Some x ->
     camera_index w r x = Some (Z.of_nat i) /\ has_camera w r x = Some true) /\
  (forall x, r < length (rigs w) -> x <> 0%Z -> (forall i, camera_id w r i <> Some x) ->
     camera_index w r x = Some (-1)%Z /\ has_camera w r x = Some false).
Proof.
  intros Hr. apply reach_good in Hr as (G & D & V). split.
  - intros i x Hi. pose proof (V _ _ _ Hi) as Hx. unfold camera_index, has_camera.
    apply Z.eqb_neq in Hx. rewrite Hx. unfold camera_id in Hi.
    destruct (rigs w !! r) as [g|] eqn:Hg; [|done]. cbn in *.
    pose proof (Forall_lookup_1 _ _ _ _ G Hg) as [_ Hc]. cbn in Hc.
    assert (index g !! x = Some i) as -> by (by apply Hc). done.
  - intros x Hl Hx Hn. unfold camera_index, has_camera. apply Z.eqb_neq in Hx. rewrite Hx.
    destruct (lookup_lt_is_Some_2 (rigs w) r Hl) as [g Hg]. rewrite Hg. cbn.
    pose proof (Forall_lookup_1 _ _ _ _ G Hg) as [_ Hc]. cbn in Hc.
    destruct (index g !! x) as [i|] eqn:Hi; [|done]. apply Hc in Hi. exfalso. apply (Hn i).
    unfold camera_id. rewrite Hg. exact Hi.
Qed.
Print Assumptions qx_camera_index_partial.

Local Ltac distinct_tac :=
  let r := fresh in let i := fresh in let j := fresh in let x := fresh in
  intros r i j x; unfold camera_id; cbn;
  destruct r as [|[|[|r]]]; cbn; rewrite ?lookup_nil; try done;
  destruct i as [|[|[|i]]]; cbn; rewrite ?lookup_nil; try done;
  destruct j as [|[|[|j]]]; cbn; rewrite ?lookup_nil; try done;
  try (intros E1 E2; injection E1 as <-; injection E2; done).
Local Ltac valid_tac :=
  let r := fresh in let i := fresh in let x := fresh in
  intros r i x; unfold camera_id; cbn;
  destruct r as [|[|[|r]]]; cbn; rewrite ?lookup_nil; try done;
  destruct i as [|[|[|i]]]; cbn; rewrite ?lookup_nil; try done;
  try (intros E1; injection E1 as <-; done).

(** A history of the kind the theorem speaks about. *)
Example ex_rigs : exists w, reach w /\
  camera_index w 0 30%Z = Some 1%Z /\ camera_index w 0 20%Z = Some (-1)%Z /\
  camera_index w 1 20%Z = Some 1%Z /\ camera_index w 2 50%Z = Some 1%Z /\ has_camera w 2 10%Z = Some false.
Proof.
  pose proof reach_init as H.
  Local Ltac next H a :=
    eapply (reach_step _ a) in H; [|done|vm_compute; reflexivity|distinct_tac|valid_tac].
  next H (ANewCam 10). next H (ANewCam 20). next H (ANewCam 30).
  next H (AConstruct [0; 1]). next H (AClone 0). next H (ASetCamera 0 1 2).
  next H (ACloneNewIds 1 [40; 50]%Z).
  eexists. split; [exact H|]. by vm_compute.
Qed.

(** Cloning a rig without distortion leaves the index of the copy at the ids of the original cameras. *)
Theorem qx_undistorted_index_refuted :
  exists acts w r i x, run init acts = Some w /\ distinct w /\ valid_ids w /\
    camera_id w r i = Some x /\ camera_index w r x = Some (-1)%Z /\
    (exists y, y <> 0%Z /\ (forall j, camera_id w r j <> Some y) /\ has_camera w r y = Some true).
Proof.
  exists [ANewCam 10; ANewCam 20; AConstruct [0; 1]%nat; AUndistort 0%nat [30; 40]]%Z.
  eexists. exists 1, 0, 30%Z. split; [vm_compute; reflexivity|].
  split; [distinct_tac|]. split; [valid_tac|]. split; [done|]. split; [by vm_compute|].
  exists 10%Z. split; [done|]. split; [|by vm_compute].
  intros [|[|j]]; unfold camera_id; cbn; rewrite ?lookup_nil; done.
Qed.
Print Assumptions qx_undistorted_index_refuted.

(** Exchanging the two cameras of a rig with setCamera: ids are distinct before and after, but one of the
    cameras cannot be found any more. *)
Theorem qx_swap_refuted :
  exists acts w, run init acts = Some w /\ distinct w /\ valid_ids w /\
    Forall (fun a => match a with ANewCam _ | AConstruct _ | ASetCamera _ _ _ => True | _ => False end) acts /\
    camera_id w 0 0 = Some 20%Z /\ camera_id w 0 1 = Some 10%Z /\ camera_index w 0 20%Z = Some (-1)%Z.
Proof.
  exists [ANewCam 10; ANewCam 20; AConstruct [0; 1]%nat; ASetCamera 0%nat 0%nat 1%nat; ASetCamera 0%nat 1%nat 0%nat]%Z.
  eexists. split; [vm_compute; reflexivity|].
  split; [distinct_tac|]. split; [valid_tac|]. split; [by repeat constructor|]. by vm_compute.
Qed.
Print Assumptions qx_swap_refuted.

(** Changing the id of a camera that belongs to a rig. *)
Theorem qx_set_id_refuted :
  exists acts w, run init acts = Some w /\ distinct w /\ valid_ids w /\
    camera_id w 0 0 = Some 30%Z /\ camera_index w 0 30%Z = Some (-1)%Z /\ has_camera w 0 10%Z = Some true.
Proof.
  exists [ANewCam 10; ANewCam 20; AConstruct [0; 1]%nat; ASetId 0%nat 30]%Z.
  eexists. split; [vm_compute; reflexivity|].
  split; [distinct_tac|]. split; [valid_tac|]. by vm_compute.
Qed.
Print Assumptions qx_set_id_refuted.

(** Copies of a rig: the clone has the same ids, in the same order; its cameras are other objects. *)
Theorem qx_clone_ids w r w' : step w (AClone r) = Some w' ->
  forall i, camera_id w' (length (rigs w)) i = camera_id w r i.
Proof.
  cbn [step]. intros H i. apply clone_rig_inv in H as (new & cs & m & g & Hg & Hl & Hn & -> & -> & Hm).
  unfold camera_id. cbn [rigs ids]. rewrite list_lookup_middle by done. rewrite Hg. cbn [mbind option_bind].
  cbn [cams]. apply mapM_Some in Hn.
  destruct (decide (i < length new)) as [Hi|Hi].
  - rewrite lookup_seq_lt by done. cbn. rewrite lookup_app_r by lia.
    replace (length (ids w) + i - length (ids w)) with i by lia.
    destruct (lookup_lt_is_Some_2 new i Hi) as [x Hx]. rewrite Hx.
    destruct (lookup_lt_is_Some_2 (cams g) i) as [c Hc]; [lia|]. rewrite Hc. cbn.
    by rewrite (Forall2_lookup_lr _ _ _ _ _ _ Hn Hc Hx).
  - rewrite lookup_seq_ge by lia. cbn. rewrite (lookup_ge_None_2 (cams g)) by lia. done.
Qed.
Print Assumptions qx_clone_ids.
