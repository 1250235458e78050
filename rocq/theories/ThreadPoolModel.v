(** Model of aslam::ThreadPool.

    Source: aslam_cv_common/include/aslam/common/thread-pool.h and
            aslam_cv_common/src/thread-pool.cc.

    Any number of worker threads ([ThreadPool::run]) and any number of client threads (enqueue,
    enqueueOrdered, waitForEmptyQueue, stop, the destructor).  A step is one critical section of
    [tasks_mutex_], one unlocked access to [stop_], or one unlocked notification.

    Simplifications:
    - the mutex and the condition variable are assumed to behave as the C++ standard says; notify_one
      wakes an arbitrary sleeping thread (the choice is part of the action);
    - a task is its identity (number in insertion order) and its group; executing it takes an
      arbitrary time between its start and its end and always ends; an exception is caught by the
      packaged_task, so it counts as an end; a task that enqueues other tasks is represented by a
      client that enqueues them; a task does not call waitForEmptyQueue (that would dead-lock);
    - joining the workers in the destructor is not a step: after its notify_all the destroying client
      is at [CJoin], and the join returns when all workers have exited;
    - size_t counters are unbounded integers (the proofs show that they count list elements). *)
From Coq Require Import ZArith Bool.
From stdpp Require Import list gmap.
Open Scope Z_scope.

(** kGroupdIdNonExclusiveTask, thread-pool.h 81-82. *)
Definition nonexcl : N := 18446744073709551615%N.

Record task := Task { tid : nat; grp : N }.

(** A worker.  [WReady]: it has no task and needs the mutex (it was just created, it finished a
    task, or it has been woken).  [WFault]: a CHECK failed or an end iterator was dereferenced. *)
Inductive worker := WReady | WSleep | WRun (t : task) | WExited | WFault.

(** A client thread. *)
Inductive client :=
| CIdle
| CInsert (g : N)       (* enqueue: the stop flag was read as unset; insertion to come *)
| CNotify               (* enqueue: inserted; notify_one to come *)
| CWaitReady            (* waitForEmptyQueue: about to (re-)take the mutex *)
| CWaitSleep            (* waitForEmptyQueue: sleeping *)
| CDtorNotify           (* ~ThreadPool: stop flag set; notify_all to come *)
| CJoin.                (* ~ThreadPool: joining *)

Record state := State {
  queue : list task;
  guards : gmap N bool;
  num_nonexcl : Z;
  active : Z;
  stop : bool;
  next_id : nat;          (* number of tasks inserted so far (identities only) *)
  workers : list worker;
  clients : list client }.

Inductive event :=
| EvInserted (t : task)
| EvRefused                 (* enqueue returned an invalid future *)
| EvStarted (w : nat) (t : task)
| EvFinished (w : nat) (t : task)
| EvWaitReturned (c : nat)
| EvExited (w : nat).

(** Whom a notify_one wakes. *)
Inductive target := OnWorker (w : nat) | OnClient (c : nat) | OnNobody.

Inductive act :=
| AEnqueue (c : nat) (g : N)    (* thread-pool.h 131-139 *)
| AInsert (c : nat)             (* 144-155 *)
| ANotifyOne (c : nat) (x : target)  (* 156 *)
| AWait (c : nat)               (* waitForEmptyQueue called *)
| AWaitCheck (c : nat)          (* waitForEmptyQueue evaluates its condition *)
| AStop (c : nat)               (* stop(), thread-pool.h 74 *)
| ADestroy (c : nat)            (* ~ThreadPool, 17-20 *)
| ADtorNotify (c : nat)         (* ~ThreadPool, 21 *)
| ASelect (w : nat)             (* run(): from the head of a loop until task found, wait or return *)
| AFinish (w : nat)             (* run(): 105-120 *)
| ASpuriousW (w : nat) | ASpuriousC (c : nat).

(** Constructor, thread-pool.cc 8-13. *)
Definition init (n m : nat) : state :=
  State [] ∅ 0 0 false 0 (replicate n WReady) (replicate m CIdle).

(** notify_all *)
Definition wake_worker (w : worker) : worker := match w with WSleep => WReady | _ => w end.
Definition wake_client (c : client) : client :=
  match c with CWaitSleep => CWaitReady | _ => c end.

Definition is_nonexcl (t : task) : bool := N.eqb (grp t) nonexcl.

(** groupid_exclusivity_guards_[g]: operator[] of the map, a missing entry is created as false. *)
Definition guard_active (gs : gmap N bool) (g : N) : bool :=
  match gs !! g with Some b => b | None => false end.

(** thread-pool.cc 36-43 *)
Definition all_guards_active (gs : gmap N bool) : bool :=
  forallb snd (map_to_list gs).

(** thread-pool.cc 48-73: the first task in the queue that is not blocked by its group; the
    remaining queue.  (operator[] may create map entries for the groups looked at; the proofs show
    that every queued group has an entry, so nothing is created.) *)
Fixpoint pick (gs : gmap N bool) (q : list task) : option (task * list task) :=
  match q with
  | [] => None
  | t :: q' =>
    if negb (negb (is_nonexcl t) && guard_active gs (grp t)) then Some (t, q')
    else match pick gs q' with
         | Some (t', r) => Some (t', t :: r)
         | None => None
         end
  end.

(** thread-pool.cc 35-100: one evaluation of the inner loop by worker [w]. *)
Definition select (w : nat) (st : state) : state * list event :=
  let found :=
    if negb (all_guards_active (guards st)) || (0 <? num_nonexcl st)
    then pick (guards st) (queue st) else None in
  match found with
  | Some (t, q') =>
    if is_nonexcl t then
      (State q' (guards st) (num_nonexcl st - 1) (active st + 1) (stop st) (next_id st)
             (<[w := WRun t]> (workers st)) (clients st), [EvStarted w t])
    else
      match guards st !! grp t with
      | Some false =>
        (State q' (<[grp t := true]> (guards st)) (num_nonexcl st) (active st + 1) (stop st)
               (next_id st) (<[w := WRun t]> (workers st)) (clients st), [EvStarted w t])
      | _ => (* CHECK at 97 fails, or 99 dereferences end() *)
        (State q' (guards st) (num_nonexcl st) (active st + 1) (stop st) (next_id st)
               (<[w := WFault]> (workers st)) (clients st), [])
      end
  | None =>
    if stop st && match queue st with [] => true | _ => false end then
      (State (queue st) (guards st) (num_nonexcl st) (active st) (stop st) (next_id st)
             (<[w := WExited]> (workers st)) (clients st), [EvExited w])
    else
      (State (queue st) (guards st) (num_nonexcl st) (active st) (stop st) (next_id st)
             (<[w := WSleep]> (workers st)) (clients st), [])
  end.

(** thread-pool.cc 105-120, executed by worker [w] after its task [t] ended. *)
Definition finish (w : nat) (t : task) (st : state) : state * list event :=
  if is_nonexcl t then
    (State (queue st) (guards st) (num_nonexcl st) (active st - 1) (stop st) (next_id st)
           (<[w := WReady]> (wake_worker <$> workers st)) (wake_client <$> clients st),
     [EvFinished w t])
  else
    match guards st !! grp t with
    | Some true =>
      (State (queue st) (<[grp t := false]> (guards st)) (num_nonexcl st) (active st - 1) (stop st)
             (next_id st) (<[w := WReady]> (wake_worker <$> workers st))
             (wake_client <$> clients st), [EvFinished w t])
    | _ => (* CHECK at 111 fails *)
      (State (queue st) (guards st) (num_nonexcl st) (active st) (stop st) (next_id st)
             (<[w := WFault]> (workers st)) (clients st), [])
    end.

(** thread-pool.h 144-155. *)
Definition insert_task (c : nat) (g : N) (st : state) : state * list event :=
  let t := Task (next_id st) g in
  (State (queue st ++ [t])
         (if N.eqb g nonexcl then guards st
          else match guards st !! g with None => <[g := false]> (guards st) | _ => guards st end)
         (if N.eqb g nonexcl then num_nonexcl st + 1 else num_nonexcl st)
         (active st) (stop st) (S (next_id st)) (workers st) (<[c := CNotify]> (clients st)),
   [EvInserted t]).

Definition set_client (c : nat) (x : client) (st : state) : state :=
  State (queue st) (guards st) (num_nonexcl st) (active st) (stop st) (next_id st) (workers st)
        (<[c := x]> (clients st)).
Definition set_worker (w : nat) (x : worker) (st : state) : state :=
  State (queue st) (guards st) (num_nonexcl st) (active st) (stop st) (next_id st)
        (<[w := x]> (workers st)) (clients st).
Definition set_stop (st : state) : state :=
  State (queue st) (guards st) (num_nonexcl st) (active st) true (next_id st) (workers st)
        (clients st).
Definition wake_all (st : state) : state :=
  State (queue st) (guards st) (num_nonexcl st) (active st) (stop st) (next_id st)
        (wake_worker <$> workers st) (wake_client <$> clients st).

Definition is_wsleep (w : worker) : bool := match w with WSleep => true | _ => false end.
Definition is_csleep (c : client) : bool := match c with CWaitSleep => true | _ => false end.

(** notify_one: wakes the chosen sleeping thread; it may wake nobody only if nobody sleeps. *)
Definition notify_one (x : target) (st : state) : option state :=
  match x with
  | OnWorker w =>
    match workers st !! w with Some WSleep => Some (set_worker w WReady st) | _ => None end
  | OnClient c =>
    match clients st !! c with Some CWaitSleep => Some (set_client c CWaitReady st) | _ => None end
  | OnNobody =>
    if existsb is_wsleep (workers st) || existsb is_csleep (clients st) then None else Some st
  end.

(** waitForEmptyQueue, thread-pool.cc 129-136. *)
Definition wait_check (c : nat) (st : state) : state * list event :=
  if (0 <? active st) || match queue st with [] => false | _ => true end
  then (set_client c CWaitSleep st, [])
  else (set_client c CIdle st, [EvWaitReturned c]).

Definition step (st : state) (a : act) : option (state * list event) :=
  match a with
  | AEnqueue c g =>
    match clients st !! c with
    | Some CIdle => if stop st then Some (st, [EvRefused]) else Some (set_client c (CInsert g) st, [])
    | _ => None
    end
  | AInsert c =>
    match clients st !! c with Some (CInsert g) => Some (insert_task c g st) | _ => None end
  | ANotifyOne c x =>
    match clients st !! c with
    | Some CNotify =>
      match notify_one x st with Some st' => Some (set_client c CIdle st', []) | None => None end
    | _ => None
    end
  | AWait c =>
    match clients st !! c with Some CIdle => Some (set_client c CWaitReady st, []) | _ => None end
  | AWaitCheck c =>
    match clients st !! c with Some CWaitReady => Some (wait_check c st) | _ => None end
  | AStop c =>
    match clients st !! c with Some CIdle => Some (set_stop st, []) | _ => None end
  | ADestroy c =>
    match clients st !! c with
    | Some CIdle => Some (set_client c CDtorNotify (set_stop st), [])
    | _ => None
    end
  | ADtorNotify c =>
    match clients st !! c with
    | Some CDtorNotify => Some (set_client c CJoin (wake_all st), [])
    | _ => None
    end
  | ASelect w => match workers st !! w with Some WReady => Some (select w st) | _ => None end
  | AFinish w => match workers st !! w with Some (WRun t) => Some (finish w t st) | _ => None end
  | ASpuriousW w =>
    match workers st !! w with Some WSleep => Some (set_worker w WReady st, []) | _ => None end
  | ASpuriousC c =>
    match clients st !! c with Some CWaitSleep => Some (set_client c CWaitReady st, []) | _ => None end
  end.

Fixpoint run (st : state) (acts : list act) : option (state * list event) :=
  match acts with
  | [] => Some (st, [])
  | a :: acts' =>
    match step st a with
    | None => None
    | Some (st', evs) =>
      match run st' acts' with
      | None => None
      | Some (st'', evs') => Some (st'', evs ++ evs')
      end
    end
  end.

(** numQueuedTasks and numActiveThreads (thread-pool.h 77, thread-pool.cc 124-127). *)
Definition num_active_threads (st : state) : Z := active st.
