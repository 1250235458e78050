(** Model of the reader/writer locks of aslam_cv_common.

    Source: aslam_cv_common/src/reader-writer-lock.cc (class ReaderWriterMutex) and
            aslam_cv_common/src/reader-first-reader-writer-lock.cc
            (class ReaderFirstReaderWriterMutex).

    Any number of threads execute lock calls on one lock.  A step of the transition system is one
    critical section of [mutex_] (all shared fields are only touched with [mutex_] held), or the
    [notify_all] of releaseWriteLock, which happens after the mutex was released.

    Simplifications:
    - the mutex itself is assumed to be correct: critical sections are atomic;
    - the unsigned counters are unbounded integers ([Z]); the proofs show that they stay in
      [0, number of threads], so no wrap-around can happen for fewer than 2^32 threads;
    - one lock is considered, and a thread holds it at most once: the client calls acquire only when
      it holds nothing, release only what it holds, upgrade only with the read lock (this is the
      contract of the class; ScopedReadLock/ScopedWriteLock enforce it). *)
From Coq Require Import ZArith Bool.
From stdpp Require Import list.
Open Scope Z_scope.

(** Which class: the base class or the reader-first class. *)
Inductive kind := Base | ReaderFirst.

(** The data members, reader-writer-lock.h 33-40. *)
Record shared := Shared {
  pending_readers : Z;
  num_readers : Z;
  num_pending_writers : Z;
  current_writer : bool;
  pending_upgrade : bool }.

(** Where a thread is.  The flag of the waiting positions says whether the thread has been woken
    ([true]: it only has to re-acquire the mutex) or sleeps in [wait] ([false]). *)
Inductive pc :=
| Idle                      (* outside of the lock *)
| RdWait (awake : bool)     (* acquireReadLock, wait on cv_writer_finished_ *)
| Reading                   (* holds the read lock *)
| WrWait1 (awake : bool)    (* acquireWriteLock, first loop, wait on cv_readers_ *)
| WrWait2 (awake : bool)    (* acquireWriteLock, second loop, wait on cv_writer_finished_ *)
| Writing                   (* holds the write lock *)
| WrNotify                  (* releaseWriteLock: mutex released, notify_all still to come *)
| UpWait (awake : bool).    (* upgradeToWriteLock, wait on cv_readers_ *)

Record state := State { sh : shared; pcs : list pc }.

(** What a client (or an observer of the calls) sees. *)
Inductive event :=
| EvReadAcquired (t : nat)      (* acquireReadLock returned *)
| EvReadReleased (t : nat)      (* releaseReadLock called *)
| EvWriteAcquired (t : nat)     (* acquireWriteLock returned *)
| EvWriteReleased (t : nat)     (* releaseWriteLock called *)
| EvUpgradeRequested (t : nat)  (* upgradeToWriteLock registered its request *)
| EvUpgradeRefused (t : nat)    (* upgradeToWriteLock returned false *)
| EvUpgradeGranted (t : nat).   (* upgradeToWriteLock returned true *)

Inductive act :=
| ARead | AWrite | AUpgrade | ARelease   (* the client starts a call *)
| AResume                                (* a woken thread gets the mutex again *)
| ANotify                                (* the notify_all of releaseWriteLock *)
| ASpurious.                             (* spurious wake-up of a sleeping thread *)

Definition b2z (b : bool) : Z := if b then 1 else 0.

(** Constructor, reader-writer-lock.cc 6-11. *)
Definition init (n : nat) : state :=
  State (Shared 0 0 0 false false) (replicate n Idle).

(** cv_readers_.notify_all() *)
Definition wake_readers_cv (p : pc) : pc :=
  match p with WrWait1 _ => WrWait1 true | UpWait _ => UpWait true | _ => p end.

(** cv_writer_finished_.notify_all() *)
Definition wake_writer_cv (p : pc) : pc :=
  match p with RdWait _ => RdWait true | WrWait2 _ => WrWait2 true | _ => p end.

(** The loop condition of acquireReadLock: reader-writer-lock.cc 18, reader-first .cc 12. *)
Definition read_blocked (k : kind) (s : shared) : bool :=
  match k with
  | Base => negb (num_pending_writers s =? 0) || pending_upgrade s || current_writer s
  | ReaderFirst => current_writer s
  end.

(** The first loop condition of acquireWriteLock: .cc 36 and reader-first .cc 21. *)
Definition write_blocked1 (s : shared) : bool := b2z (pending_upgrade s) <? num_readers s.

(** The second loop condition of acquireWriteLock: .cc 39 and reader-first .cc 24, 27. *)
Definition write_blocked2 (s : shared) : bool := current_writer s || pending_upgrade s.

(** ++/-- pending_readers_ and num_pending_writers_: only the base class touches them
    (.cc 17, 21, 35, 42). *)
Definition add_pending_readers (k : kind) (d : Z) (s : shared) : shared :=
  match k with
  | Base => Shared (pending_readers s + d) (num_readers s) (num_pending_writers s)
                   (current_writer s) (pending_upgrade s)
  | ReaderFirst => s
  end.
Definition add_pending_writers (k : kind) (d : Z) (s : shared) : shared :=
  match k with
  | Base => Shared (pending_readers s) (num_readers s) (num_pending_writers s + d)
                   (current_writer s) (pending_upgrade s)
  | ReaderFirst => s
  end.
Definition add_readers (d : Z) (s : shared) : shared :=
  Shared (pending_readers s) (num_readers s + d) (num_pending_writers s)
         (current_writer s) (pending_upgrade s).
Definition set_writer (b : bool) (s : shared) : shared :=
  Shared (pending_readers s) (num_readers s) (num_pending_writers s) b (pending_upgrade s).
Definition set_upgrade (b : bool) (s : shared) : shared :=
  Shared (pending_readers s) (num_readers s) (num_pending_writers s) (current_writer s) b.

(** Evaluation of the loop of acquireReadLock with the mutex held (.cc 18-22, rf 12-15). *)
Definition read_loop (k : kind) (t : nat) (s : shared) (ps : list pc)
  : state * list event :=
  if read_blocked k s then (State s (<[t := RdWait false]> ps), [])
  else (State (add_readers 1 (add_pending_readers k (-1) s)) (<[t := Reading]> ps),
        [EvReadAcquired t]).

(** Second loop of acquireWriteLock and what follows, base class (.cc 39-43). *)
Definition write_loop2_base (t : nat) (s : shared) (ps : list pc) : state * list event :=
  if write_blocked2 s then (State s (<[t := WrWait2 false]> ps), [])
  else (State (set_writer true (add_pending_writers Base (-1) s)) (<[t := Writing]> ps),
        [EvWriteAcquired t]).

(** acquireWriteLock from the head of its first loop (.cc 36-43, rf 20-32).  In the reader-first
    class the head of the outer loop is reached again after the second loop; as the second loop is
    left only if both flags are clear, re-evaluating from the head is what [write_loop] does when a
    [WrWait2] thread resumes with both flags clear (see [resume]). *)
Definition write_loop (k : kind) (t : nat) (s : shared) (ps : list pc) : state * list event :=
  if write_blocked1 s then (State s (<[t := WrWait1 false]> ps), [])
  else match k with
       | Base => write_loop2_base t s ps
       | ReaderFirst =>
         if negb (current_writer s) && negb (pending_upgrade s)
         then (State (set_writer true s) (<[t := Writing]> ps), [EvWriteAcquired t])
         else if write_blocked2 s then (State s (<[t := WrWait2 false]> ps), [])
         else (* unreachable: write_blocked2 is the negation of the condition above *)
           (State s (<[t := WrWait2 true]> ps), [])
       end.

(** The loop of upgradeToWriteLock and what follows (.cc 65-74). *)
Definition upgrade_loop (t : nat) (s : shared) (ps : list pc) : state * list event :=
  if 1 <? num_readers s then (State s (<[t := UpWait false]> ps), [])
  else let s' := set_writer true (add_readers (-1) (set_upgrade false s)) in
       let ps' := if num_readers s' =? 0 then wake_readers_cv <$> ps else ps in
       (State s' (<[t := Writing]> ps'), [EvUpgradeGranted t]).

(** upgradeToWriteLock (.cc 55-74). *)
Definition upgrade (t : nat) (s : shared) (ps : list pc) : state * list event :=
  if pending_upgrade s then
    let s' := add_readers (-1) s in
    let ps' := if num_readers s' =? 1 then wake_readers_cv <$> ps else ps in
    (State s' (<[t := Idle]> ps'), [EvUpgradeRefused t])
  else
    let '(st, evs) := upgrade_loop t (set_upgrade true s) ps in
    (st, EvUpgradeRequested t :: evs).

(** releaseReadLock (.cc 25-31). *)
Definition release_read (t : nat) (s : shared) (ps : list pc) : state * list event :=
  let s' := add_readers (-1) s in
  let ps' := if num_readers s' =? b2z (pending_upgrade s') then wake_readers_cv <$> ps else ps in
  (State s' (<[t := Idle]> ps'), [EvReadReleased t]).

(** releaseWriteLock (.cc 46-52): first the critical section, then (separate step) notify_all. *)
Definition release_write (t : nat) (s : shared) (ps : list pc) : state * list event :=
  (State (set_writer false s) (<[t := WrNotify]> ps), [EvWriteReleased t]).

(** A woken thread re-acquires the mutex and re-evaluates its loop condition. *)
Definition resume (k : kind) (t : nat) (p : pc) (s : shared) (ps : list pc)
  : option (state * list event) :=
  match p with
  | RdWait true => Some (read_loop k t s ps)
  | WrWait1 true => Some (write_loop k t s ps)
  | WrWait2 true =>
    match k with
    | Base => Some (write_loop2_base t s ps)
    | ReaderFirst =>
      if write_blocked2 s then Some (State s (<[t := WrWait2 false]> ps), [])
      else Some (write_loop ReaderFirst t s ps)
    end
  | UpWait true => Some (upgrade_loop t s ps)
  | _ => None
  end.

Definition sleeping_to_awake (p : pc) : option pc :=
  match p with
  | RdWait false => Some (RdWait true)
  | WrWait1 false => Some (WrWait1 true)
  | WrWait2 false => Some (WrWait2 true)
  | UpWait false => Some (UpWait true)
  | _ => None
  end.

(** One step of thread [t]; [None]: the action is not possible in this state. *)
Definition step (k : kind) (st : state) (t : nat) (a : act) : option (state * list event) :=
  match pcs st !! t with
  | None => None
  | Some p =>
    let s := sh st in let ps := pcs st in
    match a, p with
    | ARead, Idle => Some (read_loop k t (add_pending_readers k 1 s) ps)
    | AWrite, Idle => Some (write_loop k t (add_pending_writers k 1 s) ps)
    | AUpgrade, Reading => Some (upgrade t s ps)
    | ARelease, Reading => Some (release_read t s ps)
    | ARelease, Writing => Some (release_write t s ps)
    | AResume, _ => resume k t p s ps
    | ANotify, WrNotify => Some (State s (<[t := Idle]> (wake_writer_cv <$> ps)), [])
    | ASpurious, _ =>
      match sleeping_to_awake p with
      | Some p' => Some (State s (<[t := p']> ps), [])
      | None => None
      end
    | _, _ => None
    end
  end.

(** A whole execution: the scheduler's choices are the list of (thread, action). *)
Fixpoint run (k : kind) (st : state) (acts : list (nat * act)) : option (state * list event) :=
  match acts with
  | [] => Some (st, [])
  | (t, a) :: acts' =>
    match step k st t a with
    | None => None
    | Some (st', evs) =>
      match run k st' acts' with
      | None => None
      | Some (st'', evs') => Some (st'', evs ++ evs')
      end
    end
  end.

(** isInUse (.cc 77-85). *)
Definition is_in_use (st : state) : bool :=
  let s := sh st in
  (0 <? pending_readers s) || (0 <? num_readers s) || (0 <? num_pending_writers s)
  || current_writer s || pending_upgrade s.
