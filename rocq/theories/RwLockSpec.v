(** What a client of a reader/writer lock may rely on, stated over the calls and returns it sees.

    [holders] is the bookkeeping an outside observer would do: who holds the lock for reading, who
    holds it for writing, and whose upgrade request is registered.  [watch] refuses (returns [None])
    as soon as the lock does something a reader/writer lock must not do. *)
From stdpp Require Import list.
From Verif Require Import RwLockModel.

Record holders := Holders {
  readers : list nat;
  writer : option nat;
  upgrader : option nat }.

Definition nobody : holders := Holders [] None None.

Definition remove_one (t : nat) (l : list nat) : list nat := filter (fun x => x ≠ t) l.

Definition watch1 (h : holders) (e : event) : option holders :=
  match e with
  | EvReadAcquired t =>
    (* no reader may enter while somebody holds the write lock *)
    if decide (writer h = None /\ t ∉ readers h)
    then Some (Holders (t :: readers h) None (upgrader h)) else None
  | EvReadReleased t =>
    if decide (t ∈ readers h /\ upgrader h ≠ Some t)
    then Some (Holders (remove_one t (readers h)) (writer h) (upgrader h)) else None
  | EvWriteAcquired t =>
    (* no writer may enter while anybody reads, writes or waits with a registered upgrade *)
    if decide (writer h = None /\ readers h = [] /\ upgrader h = None)
    then Some (Holders [] (Some t) None) else None
  | EvWriteReleased t =>
    if decide (writer h = Some t) then Some (Holders (readers h) None (upgrader h)) else None
  | EvUpgradeRequested t =>
    if decide (t ∈ readers h /\ upgrader h = None)
    then Some (Holders (readers h) (writer h) (Some t)) else None
  | EvUpgradeRefused t =>
    (* only refused if somebody else is upgrading; the read lock is given up *)
    if decide (t ∈ readers h /\ upgrader h ≠ None /\ upgrader h ≠ Some t)
    then Some (Holders (remove_one t (readers h)) (writer h) (upgrader h)) else None
  | EvUpgradeGranted t =>
    (* the upgrader is the only reader left and becomes the writer at once *)
    if decide (writer h = None /\ upgrader h = Some t /\ readers h = [t])
    then Some (Holders [] (Some t) None) else None
  end.

Fixpoint watch (h : holders) (es : list event) : option holders :=
  match es with
  | [] => Some h
  | e :: es' => match watch1 h e with Some h' => watch h' es' | None => None end
  end.

(** Positions of a thread, as its client sees them. *)
Definition holds_read (p : pc) : bool := match p with Reading | UpWait _ => true | _ => false end.
Definition holds_write (p : pc) : bool := match p with Writing => true | _ => false end.
(** inside a call that has not returned yet *)
Definition in_call (p : pc) : bool :=
  match p with RdWait _ | WrWait1 _ | WrWait2 _ | UpWait _ | WrNotify => true | _ => false end.
(** waiting for read or write access, or holding it *)
Definition uses_lock (p : pc) : bool :=
  match p with Idle | WrNotify => false | _ => true end.
Definition sleeping (p : pc) : bool :=
  match p with RdWait false | WrWait1 false | WrWait2 false | UpWait false => true | _ => false end.

(** The steps that happen without a new call by a client and without a spurious wake-up: pending
    notifications, woken threads, and clients giving back what they hold. *)
Definition draining (a : act) : bool :=
  match a with AResume | ANotify | ARelease => true | _ => false end.
