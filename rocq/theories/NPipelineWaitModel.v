(** Model of the blocking calls of aslam::VisualNPipeline and of shutdown().

    Source: aslam_cv_pipeline/src/visual-npipeline.cc 55-77, 95-112, 170-200 and the notifications at
    88, 140, 160, 324.

    Any number of client threads.  [shutdown_] is an atomic flag that shutdown() sets without holding
    [mutex_]; hence reading the flag (at the head of the loops) and going to sleep are two steps,
    between which the reading thread holds the mutex.

    Simplifications:
    - of [completed_] only the number of entries is kept (NPipelineModel.v has the contents);
    - the work of the pool threads (215-332) and the non-blocking getters are one step each; they need
      the mutex to be free; how many frames a work step completes is arbitrary;
    - enqueueing into the thread pool (73, 59) is not a step here. *)
From Coq Require Import ZArith Bool.
From stdpp Require Import list.

(** Which blocking call a thread is in. *)
Inductive call :=
| KNext                  (* getNextBlocking, 95-112 *)
| KLatest                (* getLatestAndClearBlocking, 170-200 *)
| KImage (max : nat).    (* processImageBlockingIfFull, 62-77 *)

Inductive thread :=
| TIdle
| TEnter (k : call)      (* wants the mutex to enter the loop *)
| TChecked (k : call)    (* holds the mutex, has read shutdown_ as false *)
| TSleep (k : call)      (* sleeps in wait(); the mutex is released *)
| TWoken (k : call)      (* has been notified, wants the mutex back *)
| TSetFlag               (* shutdown(): at 56 *)
| TNotifyEmpty           (* shutdown(): at 57 *)
| TNotifyFull.           (* shutdown(): at 58 *)

Record state := State {
  count : nat;            (* completed_.size() *)
  flag : bool;            (* shutdown_ *)
  threads : list thread }.

Inductive event := EvReturn (t : nat) (k : call) (ok : bool).

(** The mutex is held exactly by a thread in [TChecked]. *)
Definition holds (x : thread) : bool := match x with TChecked _ => true | _ => false end.
Definition mutex_free (st : state) : bool := forallb (fun x => negb (holds x)) (threads st).

(** The conditions at 67/69, 100/102, 176/178. *)
Definition blocked (k : call) (n : nat) : bool :=
  match k with
  | KNext | KLatest => Nat.eqb n 0
  | KImage max => Nat.leb max n
  end.

(** notify_all on condition_not_empty_ and on condition_not_full_. *)
Definition wake_empty (x : thread) : thread :=
  match x with
  | TSleep KNext => TWoken KNext
  | TSleep KLatest => TWoken KLatest
  | _ => x
  end.
Definition wake_full (x : thread) : thread :=
  match x with TSleep (KImage m) => TWoken (KImage m) | _ => x end.

(** What a call does to [completed_] when it succeeds: 107/139, 188, nothing; and whom it notifies:
    140, 189 condition_not_full_. *)
Definition effect (k : call) (n : nat) : nat :=
  match k with KNext => Nat.pred n | KLatest => 0 | KImage _ => n end.
Definition effect_wake (k : call) (ts : list thread) : list thread :=
  match k with KImage _ => ts | _ => wake_full <$> ts end.

Inductive act :=
| ACall (t : nat) (k : call)
| AEnter (t : nat)        (* lock, read the flag: 65-66, 98-99, 174-175 *)
| ABody (t : nat)         (* from the check of completed_ to wait or return *)
| AResume (t : nat)       (* wait returned: second check, possibly back to the head of the loop *)
| AShutdown (t : nat)     (* shutdown() called *)
| ASetFlag (t : nat) | ANotifyEmpty (t : nat) | ANotifyFull (t : nat)
| AWork (n : nat)         (* a pool thread completes n frames *)
| ATake                   (* getNext() *)
| AClear                  (* getLatestAndClear() *)
| AEvict (max : nat)      (* processImageNonBlockingDroppingOldestNFrameIfFull() *)
| ASpurious (t : nat).

Definition succeed (t : nat) (k : call) (st : state) : state * list event :=
  (State (effect k (count st)) (flag st) (<[t := TIdle]> (effect_wake k (threads st))),
   [EvReturn t k true]).

(** The head of the loop: the thread has (or gets) the mutex and reads the flag. *)
Definition head (t : nat) (k : call) (st : state) : state * list event :=
  if flag st then
    (State (count st) (flag st) (<[t := TIdle]> (threads st)), [EvReturn t k false])
  else (State (count st) (flag st) (<[t := TChecked k]> (threads st)), []).

Definition step (st : state) (a : act) : option (state * list event) :=
  match a with
  | ACall t k =>
    match threads st !! t with
    | Some TIdle => Some (State (count st) (flag st) (<[t := TEnter k]> (threads st)), [])
    | _ => None
    end
  | AEnter t =>
    match threads st !! t with
    | Some (TEnter k) => if mutex_free st then Some (head t k st) else None
    | _ => None
    end
  | ABody t =>
    match threads st !! t with
    | Some (TChecked k) =>
      if blocked k (count st)
      then Some (State (count st) (flag st) (<[t := TSleep k]> (threads st)), [])
      else Some (succeed t k st)
    | _ => None
    end
  | AResume t =>
    match threads st !! t with
    | Some (TWoken k) =>
      if mutex_free st then
        if blocked k (count st) then Some (head t k st) else Some (succeed t k st)
      else None
    | _ => None
    end
  | AShutdown t =>
    match threads st !! t with
    | Some TIdle => Some (State (count st) (flag st) (<[t := TSetFlag]> (threads st)), [])
    | _ => None
    end
  | ASetFlag t =>
    match threads st !! t with
    | Some TSetFlag => Some (State (count st) true (<[t := TNotifyEmpty]> (threads st)), [])
    | _ => None
    end
  | ANotifyEmpty t =>
    match threads st !! t with
    | Some TNotifyEmpty =>
      Some (State (count st) (flag st) (<[t := TNotifyFull]> (wake_empty <$> threads st)), [])
    | _ => None
    end
  | ANotifyFull t =>
    match threads st !! t with
    | Some TNotifyFull =>
      Some (State (count st) (flag st) (<[t := TIdle]> (wake_full <$> threads st)), [])
    | _ => None
    end
  | AWork n =>
    if mutex_free st then
      Some (State (count st + n) (flag st)
              (match n with O => threads st | _ => wake_empty <$> threads st end), [])
    else None
  | ATake =>
    if mutex_free st then
      match count st with
      | O => Some (st, [])
      | S n => Some (State n (flag st) (wake_full <$> threads st), [])
      end
    else None
  | AClear =>
    if mutex_free st then
      match count st with
      | O => Some (st, [])
      | _ => Some (State 0 (flag st) (wake_full <$> threads st), [])
      end
    else None
  | AEvict max =>
    if mutex_free st && Nat.leb 1 max then
      if Nat.leb max (count st)
      then Some (State (Nat.pred (count st)) (flag st) (wake_full <$> threads st), [])
      else Some (st, [])
    else None
  | ASpurious t =>
    match threads st !! t with
    | Some (TSleep k) => Some (State (count st) (flag st) (<[t := TWoken k]> (threads st)), [])
    | _ => None
    end
  end.

Definition init (m : nat) : state := State 0 false (replicate m TIdle).

Fixpoint run (st : state) (acts : list act) : option (state * list event) :=
  match acts with
  | [] => Some (st, [])
  | a :: acts' =>
    match step st a with
    | Some (st', e) =>
      match run st' acts' with Some (st'', e') => Some (st'', e ++ e') | None => None end
    | None => None
    end
  end.
