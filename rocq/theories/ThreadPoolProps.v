(** Property theorems about the thread pool (C06-C11). *)
From Coq Require Import ZArith.
From stdpp Require Import list gmap.
From Verif Require Import ThreadPoolModel ThreadPoolSpec ThreadPoolProofs ThreadPoolTrace
  ThreadPoolLive.
Open Scope Z_scope.

(** ** C06: tasks of one group never overlap *)
Theorem tp_group_exclusion : forall n m acts st evs w1 w2 t1 t2,
  run (init n m) acts = Some (st, evs) ->
  workers st !! w1 = Some (WRun t1) -> workers st !! w2 = Some (WRun t2) ->
  grp t1 = grp t2 -> grp t1 <> nonexcl -> w1 = w2.
Proof.
  intros n m acts st evs w1 w2 t1 t2 H.
  exact (i_excl st (run_inv _ _ _ _ (inv_init n m) H) w1 w2 t1 t2).
Qed.
Print Assumptions tp_group_exclusion.

(** None of the CHECKs in run() can fail and no end iterator is dereferenced. *)
Theorem tp_no_check_failure : forall n m acts st evs w,
  run (init n m) acts = Some (st, evs) -> workers st !! w <> Some WFault.
Proof.
  intros n m acts st evs w H. exact (i_nofault st (run_inv _ _ _ _ (inv_init n m) H) w).
Qed.
Print Assumptions tp_no_check_failure.

(** Two workers, three tasks of group 7 and a free one: the second task of group 7 waits. *)
Definition demo : list act :=
  [AEnqueue 0 7; AInsert 0; ANotifyOne 0 OnNobody; AEnqueue 0 7; AInsert 0; ANotifyOne 0 OnNobody;
   AEnqueue 0 nonexcl; AInsert 0; ANotifyOne 0 OnNobody; ASelect 0; ASelect 1]%N.
Example demo_runs : exists st evs,
  run (init 2 1) demo = Some (st, evs) /\
  workers st = [WRun (Task 0 7); WRun (Task 2 nonexcl)] /\ queue st = [Task 1 7].
Proof. do 2 eexists. split; [vm_compute; reflexivity|]. split; reflexivity. Qed.

(** ** C07: order *)
(** The started tasks of a group (also of the "group" of tasks without a group) are a prefix of the
    tasks handed over with this group, in this order. *)
Theorem tp_group_start_order : forall n m acts st evs g,
  run (init n m) acts = Some (st, evs) ->
  of_group g (started evs) `prefix_of` of_group g (inserted evs).
Proof. exact group_order_lemma. Qed.
Print Assumptions tp_group_start_order.

(** The same for finishing, for tasks with a group. *)
Theorem tp_group_finish_order : forall n m acts st evs g,
  run (init n m) acts = Some (st, evs) -> g <> nonexcl ->
  of_group g (finished evs) `prefix_of` of_group g (inserted evs).
Proof. exact group_finish_order_lemma. Qed.
Print Assumptions tp_group_finish_order.

Example order_demo : exists st evs,
  run (init 2 1) (demo ++ [AFinish 1; ASelect 1; AFinish 0; ASelect 1; AFinish 1])
    = Some (st, evs) /\
  inserted evs = [Task 0 7; Task 1 7; Task 2 nonexcl] /\
  started evs = [Task 0 7; Task 2 nonexcl; Task 1 7] /\
  finished evs = [Task 2 nonexcl; Task 0 7; Task 1 7] /\
  of_group 7 (finished evs) = [Task 0 7; Task 1 7].
Proof. do 2 eexists. split; [vm_compute; reflexivity|]. repeat split. Qed.

(** ** C08: exactly once *)
(** No task is handed over twice, started twice or finished twice; every started task was handed
    over, every finished task was started; what was handed over and not started is queued. *)
Theorem tp_at_most_once : forall n m acts st evs,
  run (init n m) acts = Some (st, evs) ->
  NoDup (inserted evs) /\ NoDup (started evs) /\ NoDup (finished evs) /\
  inserted evs ≡ₚ started evs ++ queue st /\ started evs ≡ₚ finished evs ++ executing st.
Proof.
  intros n m acts st evs H. pose proof (run_hist_init n m acts st evs H) as HH.
  exact (conj (hist_nodup_inserted _ _ HH) (conj (hist_nodup_started _ _ HH)
    (conj (hist_nodup_finished _ _ HH) (conj (h_perm _ _ HH) (h_run _ _ HH))))).
Qed.
Print Assumptions tp_at_most_once.

(** At least one worker; everything handed over while the stop flag was not set has been executed
    when all workers have terminated. *)
Theorem tp_all_executed : forall n m acts1 st1 e1 acts2 st2 e2,
  (0 < n)%nat ->
  run (init n m) acts1 = Some (st1, e1) -> stop st1 = false ->
  run st1 acts2 = Some (st2, e2) -> (forall w x, workers st2 !! w = Some x -> x = WExited) ->
  forall t, t ∈ inserted e1 -> t ∈ finished (e1 ++ e2).
Proof. exact all_executed_lemma. Qed.
Print Assumptions tp_all_executed.

Example all_executed_demo : exists st1 e1 st2 e2,
  run (init 2 1) demo = Some (st1, e1) /\ stop st1 = false /\
  run st1 [ADestroy 0; ADtorNotify 0; AFinish 1; ASelect 1; AFinish 0; ASelect 0; AFinish 0;
           ASelect 0; ASelect 1] = Some (st2, e2) /\
  workers st2 = [WExited; WExited] /\ length (inserted e1) = 3%nat.
Proof.
  do 4 eexists. split; [vm_compute; reflexivity|]. split; [reflexivity|].
  split; [vm_compute; reflexivity|]. split; reflexivity.
Qed.

(** ** C09: waitForEmptyQueue returns only if the pool is idle *)
Theorem tp_wait_means_idle : forall n m acts st evs c st' es,
  run (init n m) acts = Some (st, evs) -> step st (AWaitCheck c) = Some (st', es) ->
  EvWaitReturned c ∈ es ->
  queue st = [] /\ executing st = [] /\ inserted evs ≡ₚ finished evs.
Proof. exact wait_idle_lemma. Qed.
Print Assumptions tp_wait_means_idle.

Example wait_demo : exists st evs st',
  run (init 1 1) [ASelect 0; AEnqueue 0 3; AInsert 0; ANotifyOne 0 (OnWorker 0); AWait 0;
    AWaitCheck 0; ASelect 0; AFinish 0]%N = Some (st, evs) /\
  step st (AWaitCheck 0) = Some (st', [EvWaitReturned 0]) /\ finished evs = [Task 0 3].
Proof.
  do 3 eexists. split; [vm_compute; reflexivity|]. split; [vm_compute; reflexivity|reflexivity].
Qed.

(** ** C10: sleeping *)

(** Refuted in general: one worker, one thread that enqueues, one thread in waitForEmptyQueue.  The
    notify_one of the enqueue wakes the waiting thread, which goes back to sleep; the worker sleeps
    for ever although the queued task can be started, and so does the waiting thread. *)
Theorem tp_oversleep_refuted : exists n m acts st evs t,
  run (init n m) acts = Some (st, evs) /\ stop st = false /\ startable st t /\
  (forall w x, workers st !! w = Some x -> x = WSleep) /\
  (exists c, clients st !! c = Some CWaitSleep) /\
  (forall a, internal a = true -> step st a = None).
Proof. exact oversleep_witness. Qed.
Print Assumptions tp_oversleep_refuted.

(** What is true (missing: schedules where a thread sleeps in waitForEmptyQueue while an enqueue of
    another thread is between insertion and notification): if a queued task can be started, some
    worker is awake, or a notification is on its way, or all workers have terminated. *)
Theorem tp_no_oversleep_partial : forall n m acts st evs t,
  run (init n m) acts = Some (st, evs) -> always calm (init n m) acts ->
  startable st t ->
  (exists w x, workers st !! w = Some x /\ will_look x) \/ CNotify ∈ clients st \/
  (forall w x, workers st !! w = Some x -> x = WExited).
Proof.
  intros n m acts st evs t H HC Ht.
  exact (run_look acts _ _ _ (inv_init n m) (look_init n m) HC H (ex_intro _ t Ht)).
Qed.
Print Assumptions tp_no_oversleep_partial.

(** The hypothesis [calm] holds if there is a single client thread... *)
Theorem tp_calm_single_client : forall n acts st evs,
  run (init n 1) acts = Some (st, evs) -> always calm (init n 1) acts.
Proof. intros n acts st evs. exact (calm_single acts (init n 1) st evs eq_refl). Qed.
Print Assumptions tp_calm_single_client.

(** ... or if nobody calls waitForEmptyQueue. *)
Theorem tp_calm_no_wait : forall n m acts,
  Forall (fun a => waits a = false) acts -> always calm (init n m) acts.
Proof. exact calm_no_wait_init. Qed.
Print Assumptions tp_calm_no_wait.

(** Without new calls the pool comes to rest after a bounded number of steps, whatever the
    scheduler does; at rest nothing is executing, the queue is empty (unless all workers have
    terminated), nobody sleeps in waitForEmptyQueue, and a destructor call can join: all workers
    have terminated. *)
Theorem tp_drains_partial : forall n m acts st evs acts' st' evs',
  run (init n m) acts = Some (st, evs) ->
  Forall (fun a => internal a = true) acts' -> run st acts' = Some (st', evs') ->
  always calm (init n m) (acts ++ acts') ->
  Z.of_nat (length acts') <= work st /\
  ((forall a, internal a = true -> step st' a = None) ->
   executing st' = [] /\
   (queue st' = [] \/ forall w x, workers st' !! w = Some x -> x = WExited) /\
   (queue st' = [] -> CWaitSleep ∉ clients st') /\
   (queue st' = [] -> CJoin ∈ clients st' -> forall w x, workers st' !! w = Some x -> x = WExited)).
Proof. exact drains_lemma. Qed.
Print Assumptions tp_drains_partial.

(** A thread sleeping in waitForEmptyQueue always has a reason to (all schedules). *)
Theorem tp_waiter_notified : forall n m acts st evs c,
  run (init n m) acts = Some (st, evs) -> clients st !! c = Some CWaitSleep ->
  executing st <> [] \/ queue st <> [].
Proof. exact waiter_lemma. Qed.
Print Assumptions tp_waiter_notified.

Example drain_demo : exists st evs st' evs',
  run (init 2 1) demo = Some (st, evs) /\
  run st [AFinish 1; ASelect 1; AFinish 0; ASelect 1; AFinish 1; ASelect 0; ASelect 1]
   = Some (st', evs') /\ queue st' = [] /\ workers st' = [WSleep; WSleep].
Proof.
  do 4 eexists. split; [vm_compute; reflexivity|]. split; [vm_compute; reflexivity|].
  split; reflexivity.
Qed.

(** ** C11: futures *)
(** Refuted: enqueue returns a valid future (the task is inserted), but the task is never run,
    whatever happens afterwards, because the pool was stopped between the check of the stop flag and
    the insertion. *)
Theorem tp_valid_future_refuted : exists n m acts st evs t,
  (0 < n)%nat /\ run (init n m) acts = Some (st, evs) /\ t ∈ inserted evs /\
  forall acts' st' evs', run st acts' = Some (st', evs') -> t ∉ started (evs ++ evs').
Proof. exact lost_future_witness. Qed.
Print Assumptions tp_valid_future_refuted.

(** What is true is [tp_all_executed] above for tasks inserted before the stop flag was set.  An
    enqueue that reads the stop flag as set inserts nothing: *)
Example refused_demo : exists st evs,
  run (init 1 2) [AStop 1; AEnqueue 0 5]%N = Some (st, evs) /\ evs = [EvRefused] /\ queue st = [].
Proof. do 2 eexists. split; [vm_compute; reflexivity|]. split; reflexivity. Qed.
