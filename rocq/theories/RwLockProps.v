(** Property theorems about the reader/writer locks (C01-C05). *)
From Coq Require Import ZArith.
From stdpp Require Import list.
From Verif Require Import RwLockModel RwLockSpec RwLockInv RwLockProofs.
Open Scope Z_scope.

(** ** C01 / C02: mutual exclusion *)

(** In every reachable state: if one thread holds the write lock, no other thread holds the lock in
    any form. *)
Theorem rwlock_exclusion : forall n acts st evs,
  run Base (init n) acts = Some (st, evs) ->
  forall t1 t2 p1 p2, pcs st !! t1 = Some p1 -> pcs st !! t2 = Some p2 -> t1 <> t2 ->
  holds_write p1 = true -> holds_write p2 = false /\ holds_read p2 = false.
Proof.
  intros n acts st evs H t1 t2 p1 p2.
  exact (inv_exclusion Base st t1 t2 p1 p2 (run_inv _ _ _ _ _ (inv_init Base n) H)).
Qed.
Print Assumptions rwlock_exclusion.

Theorem rwlock_readerfirst_exclusion : forall n acts st evs,
  run ReaderFirst (init n) acts = Some (st, evs) ->
  forall t1 t2 p1 p2, pcs st !! t1 = Some p1 -> pcs st !! t2 = Some p2 -> t1 <> t2 ->
  holds_write p1 = true -> holds_write p2 = false /\ holds_read p2 = false.
Proof.
  intros n acts st evs H t1 t2 p1 p2.
  exact (inv_exclusion ReaderFirst st t1 t2 p1 p2 (run_inv _ _ _ _ _ (inv_init ReaderFirst n) H)).
Qed.
Print Assumptions rwlock_readerfirst_exclusion.

(** The same for what a client sees: the observer [watch] of RwLockSpec never objects to the
    sequence of calls and returns. *)
Theorem rwlock_trace_accepted : forall n acts st evs,
  run Base (init n) acts = Some (st, evs) -> watch nobody evs <> None.
Proof.
  intros n acts st evs H.
  destruct (run_rel _ _ _ _ _ _ (inv_init Base n) (rel_init n) H) as (h & Hh & _). congruence.
Qed.
Print Assumptions rwlock_trace_accepted.

Theorem rwlock_readerfirst_trace_accepted : forall n acts st evs,
  run ReaderFirst (init n) acts = Some (st, evs) -> watch nobody evs <> None.
Proof.
  intros n acts st evs H.
  destruct (run_rel _ _ _ _ _ _ (inv_init ReaderFirst n) (rel_init n) H) as (h & Hh & _). congruence.
Qed.
Print Assumptions rwlock_readerfirst_trace_accepted.

(** Two readers, one of which upgrades, a writer that has to wait for all of it. *)
Definition demo : list (nat * act) :=
  [(0, ARead); (1, ARead); (0, AUpgrade); (2, AWrite); (1, ARelease); (0, AResume);
   (2, AResume); (0, ARelease); (0, ANotify); (2, AResume)]%nat.
Example demo_base : exists st,
  run Base (init 3) demo = Some (st,
    [EvReadAcquired 0; EvReadAcquired 1; EvUpgradeRequested 0; EvReadReleased 1;
     EvUpgradeGranted 0; EvWriteReleased 0; EvWriteAcquired 2]) /\
  pcs st = [Idle; Idle; Writing].
Proof. eexists. split; vm_compute; reflexivity. Qed.
Example demo_readerfirst : exists st,
  run ReaderFirst (init 3) demo = Some (st,
    [EvReadAcquired 0; EvReadAcquired 1; EvUpgradeRequested 0; EvReadReleased 1;
     EvUpgradeGranted 0; EvWriteReleased 0; EvWriteAcquired 2]) /\
  pcs st = [Idle; Idle; Writing].
Proof. eexists. split; vm_compute; reflexivity. Qed.
(** The observer is not vacuous: it objects to bad traces. *)
Example watch_rejects :
  watch nobody [EvReadAcquired 0; EvWriteAcquired 1] = None /\
  watch nobody [EvWriteAcquired 0; EvReadAcquired 1] = None /\
  watch nobody [EvWriteAcquired 0; EvWriteAcquired 1] = None /\
  watch nobody [EvReadAcquired 0; EvReadAcquired 1; EvUpgradeRequested 0; EvUpgradeRequested 1]
    = None /\
  watch nobody [EvReadAcquired 0; EvReadAcquired 1; EvUpgradeRequested 0; EvUpgradeGranted 0] = None.
Proof. repeat split. Qed.

(** ** C03: upgrades *)

(** After thread [t] registered its upgrade and as long as it has not been granted, nobody else
    obtains the write lock (by acquiring or by upgrading) and no other upgrade is registered. *)
Theorem rwlock_upgrade_atomic : forall k n acts st evs t e1 e2 e3,
  run k (init n) acts = Some (st, evs) ->
  evs = e1 ++ EvUpgradeRequested t :: e2 ++ e3 -> EvUpgradeGranted t ∉ e2 ->
  forall t', EvWriteAcquired t' ∉ e2 /\ EvUpgradeGranted t' ∉ e2 /\ EvUpgradeRequested t' ∉ e2.
Proof.
  intros k n acts st evs t e1 e2 e3 H -> Hn.
  destruct (run_rel _ _ _ _ _ _ (inv_init k n) (rel_init n) H) as (h & Hh & _).
  apply watch_app_inv in Hh as (h1 & _ & Hh). cbn -[watch1] in Hh.
  destruct (watch1 h1 (EvUpgradeRequested t)) as [h2|] eqn:E; [|done].
  apply watch_app_inv in Hh as (h3 & Hh3 & _).
  exact (proj2 (watch_upgrader t e2 h2 h3 (requested_upgrader _ _ _ E) Hh3 Hn)).
Qed.
Print Assumptions rwlock_upgrade_atomic.

(** When the upgrade is granted the upgrader was the only reader left and nobody was writing: in the
    state after the grant it holds the write lock and nobody holds anything else (this is
    [rwlock_exclusion]); an upgrade is refused only while another one is registered, and the refused
    thread no longer holds the read lock (it cannot release it). *)
Theorem rwlock_upgrade_refused : forall k n acts st evs t st' evs',
  run k (init n) acts = Some (st, evs) ->
  step k st t AUpgrade = Some (st', evs') -> EvUpgradeRefused t ∈ evs' ->
  (exists t' b, t' <> t /\ pcs st !! t' = Some (UpWait b)) /\
  pcs st' !! t = Some Idle /\ step k st' t ARelease = None.
Proof.
  intros k n acts st evs t st' evs' H Hs Hin.
  pose proof (run_inv _ _ _ _ _ (inv_init k n) H) as HI.
  exact (upgrade_refused_lemma k st t st' evs' HI Hs Hin).
Qed.
Print Assumptions rwlock_upgrade_refused.

Example upgrade_refused_reachable : exists st evs st',
  run Base (init 2) [(0, ARead); (1, ARead); (0, AUpgrade)]%nat = Some (st, evs) /\
  step Base st 1 AUpgrade = Some (st', [EvUpgradeRefused 1]).
Proof. do 3 eexists. split; vm_compute; reflexivity. Qed.
Example upgrade_atomic_reachable : exists st e2,
  run Base (init 3) demo = Some (st,
    [EvReadAcquired 0; EvReadAcquired 1] ++ EvUpgradeRequested 0 :: e2 ++
    [EvUpgradeGranted 0; EvWriteReleased 0; EvWriteAcquired 2]) /\ e2 = [EvReadReleased 1].
Proof. eexists. exists [EvReadReleased 1]. split; vm_compute; reflexivity. Qed.

(** ** C04: no deadlock, no lost wake-up *)

(** If nothing but new calls and spurious wake-ups can happen, every thread is outside of the
    lock: as long as some thread is inside of a lock call or holds the lock, some thread can take a
    step that is neither a new call nor a spurious wake-up. *)
Theorem rwlock_no_deadlock : forall k n acts st evs,
  run k (init n) acts = Some (st, evs) ->
  (exists t p, pcs st !! t = Some p /\ p <> Idle) ->
  exists t a st' evs', draining a = true /\ step k st t a = Some (st', evs').
Proof.
  intros k n acts st evs H.
  exact (no_deadlock_lemma k st (run_inv _ _ _ _ _ (inv_init k n) H)).
Qed.
Print Assumptions rwlock_no_deadlock.

(** If moreover nobody holds the lock, the step is one of a thread inside of a lock call. *)
Theorem rwlock_no_deadlock_unheld : forall k n acts st evs,
  run k (init n) acts = Some (st, evs) ->
  (forall t p, pcs st !! t = Some p -> holds_read p = true -> in_call p = true) ->
  (forall t p, pcs st !! t = Some p -> holds_write p = false) ->
  (exists t p, pcs st !! t = Some p /\ in_call p = true) ->
  exists t p a st' evs', pcs st !! t = Some p /\ in_call p = true /\ (a = AResume \/ a = ANotify) /\
    step k st t a = Some (st', evs').
Proof.
  intros k n acts st evs H.
  exact (no_deadlock_unheld_lemma k st (run_inv _ _ _ _ _ (inv_init k n) H)).
Qed.
Print Assumptions rwlock_no_deadlock_unheld.

(** A thread that sleeps although it would obtain the lock if it looked: a notification is still
    outstanding (some releaseWriteLock is between its critical section and its notify_all). *)
Theorem rwlock_no_lost_wakeup : forall k n acts st evs t p p' st' evs',
  run k (init n) acts = Some (st, evs) ->
  pcs st !! t = Some p -> sleeping_to_awake p = Some p' ->
  resume k t p' (sh st) (pcs st) = Some (st', evs') -> evs' <> [] ->
  exists t', pcs st !! t' = Some WrNotify.
Proof.
  intros k n acts st evs t p p' st' evs' H.
  exact (inv_no_lost_wakeup k st t p p' st' evs' (run_inv _ _ _ _ _ (inv_init k n) H)).
Qed.
Print Assumptions rwlock_no_lost_wakeup.

(** Whatever the scheduler does, once no new calls are made and nobody wakes spuriously, at most
    3n(n+1)+n further steps happen, and when no step is left, every thread has left the lock. *)
Theorem rwlock_drains : forall k n acts st evs acts' st' evs',
  run k (init n) acts = Some (st, evs) ->
  Forall (fun ta => draining ta.2 = true) acts' ->
  run k st acts' = Some (st', evs') ->
  Z.of_nat (length acts') <= 3 * Z.of_nat n * (Z.of_nat n + 1) + Z.of_nat n /\
  ((forall t a, draining a = true -> step k st' t a = None) ->
   forall t p, pcs st' !! t = Some p -> p = Idle).
Proof.
  intros k n acts st evs acts' st' evs'.
  exact (drains_lemma k n acts st evs acts' st' evs').
Qed.
Print Assumptions rwlock_drains.

Example drain_demo : exists st evs st' evs',
  run ReaderFirst (init 3) [(0, AWrite); (1, ARead); (2, AWrite)]%nat = Some (st, evs) /\
  pcs st = [Writing; RdWait false; WrWait2 false] /\
  run ReaderFirst st [(0, ARelease); (0, ANotify); (1, AResume); (2, AResume); (1, ARelease);
    (2, AResume); (2, ARelease); (2, ANotify)]%nat = Some (st', evs') /\
  pcs st' = [Idle; Idle; Idle].
Proof. do 4 eexists. split; [|split; [|split]]; vm_compute; reflexivity. Qed.
(** The window of [rwlock_no_lost_wakeup] exists: the reader sleeps, the writer has released but not
    notified yet. *)
Example lost_wakeup_window : exists st evs st',
  run Base (init 2) [(0, AWrite); (1, ARead); (0, ARelease)]%nat = Some (st, evs) /\
  pcs st !! 1%nat = Some (RdWait false) /\
  resume Base 1 (RdWait true) (sh st) (pcs st) = Some (st', [EvReadAcquired 1]).
Proof. do 3 eexists. split; [|split]; vm_compute; reflexivity. Qed.

(** ** C05: isInUse *)

(** Base class: true exactly if some thread holds the lock or waits for it. *)
Theorem rwlock_is_in_use : forall n acts st evs,
  run Base (init n) acts = Some (st, evs) ->
  is_in_use st = true <-> exists t p, pcs st !! t = Some p /\ uses_lock p = true.
Proof.
  intros n acts st evs H. exact (inv_is_in_use st (run_inv _ _ _ _ _ (inv_init Base n) H)).
Qed.
Print Assumptions rwlock_is_in_use.

(** Reader-first class: it is blind to waiting readers and writers... *)
Theorem rwlock_readerfirst_is_in_use_refuted : exists n acts st evs t p,
  run ReaderFirst (init n) acts = Some (st, evs) /\
  pcs st !! t = Some p /\ uses_lock p = true /\ is_in_use st = false.
Proof. exact is_in_use_rf_witness. Qed.
Print Assumptions rwlock_readerfirst_is_in_use_refuted.

(** ... but it does report every thread that holds the lock (missing part: waiting threads). *)
Theorem rwlock_readerfirst_is_in_use_partial : forall n acts st evs,
  run ReaderFirst (init n) acts = Some (st, evs) ->
  is_in_use st = true <->
  exists t p, pcs st !! t = Some p /\ (holds_read p || holds_write p) = true.
Proof.
  intros n acts st evs H.
  exact (inv_is_in_use_rf st (run_inv _ _ _ _ _ (inv_init ReaderFirst n) H)).
Qed.
Print Assumptions rwlock_readerfirst_is_in_use_partial.

(** The counters never leave [0, number of threads]: the unsigned fields cannot wrap. *)
Theorem rwlock_counters_in_range : forall k n acts st evs,
  run k (init n) acts = Some (st, evs) ->
  0 <= num_readers (sh st) <= Z.of_nat n /\ 0 <= pending_readers (sh st) <= Z.of_nat n /\
  0 <= num_pending_writers (sh st) <= Z.of_nat n.
Proof. exact counters_lemma. Qed.
Print Assumptions rwlock_counters_in_range.
