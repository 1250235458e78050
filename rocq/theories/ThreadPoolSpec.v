(** What a user of the pool relies on, stated over the tasks handed over, started and finished. *)
From stdpp Require Import list.
From Verif Require Import ThreadPoolModel.

(** Tasks in the order in which they were handed over / started / finished. *)
Definition inserted (evs : list event) : list task :=
  omap (fun e => match e with EvInserted t => Some t | _ => None end) evs.
Definition started (evs : list event) : list task :=
  omap (fun e => match e with EvStarted _ t => Some t | _ => None end) evs.
Definition finished (evs : list event) : list task :=
  omap (fun e => match e with EvFinished _ t => Some t | _ => None end) evs.

(** The tasks of one group. *)
Definition of_group (g : N) (ts : list task) : list task := filter (fun t => grp t = g) ts.

(** The tasks in execution. *)
Definition executing (st : state) : list task :=
  omap (fun w => match w with WRun t => Some t | _ => None end) (workers st).

(** A queued task could be started now: it has no group, or no task of its group is in execution. *)
Definition startable (st : state) (t : task) : Prop :=
  t ∈ queue st /\ (grp t = nonexcl \/ ~ exists t', t' ∈ executing st /\ grp t' = grp t).

(** A worker that will take the mutex again by itself. *)
Definition will_look (w : worker) : Prop := w = WReady \/ exists t, w = WRun t.

(** Steps of calls in progress: everything except new calls and spurious wake-ups. *)
Definition internal (a : act) : bool :=
  match a with
  | AInsert _ | ANotifyOne _ _ | AWaitCheck _ | ADtorNotify _ | ASelect _ | AFinish _ => true
  | _ => false
  end.

(** Nobody sleeps in waitForEmptyQueue while an enqueue is between its insertion and its
    notification. *)
Definition calm (st : state) : Prop :=
  CNotify ∈ clients st -> CWaitSleep ∉ clients st.

(** [P] holds in every state of the execution. *)
Fixpoint always (P : state -> Prop) (st : state) (acts : list act) : Prop :=
  P st /\
  match acts with
  | [] => True
  | a :: acts' => match step st a with Some (st', _) => always P st' acts' | None => True end
  end.
