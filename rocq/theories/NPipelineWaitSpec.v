(** Notions for the blocking calls of VisualNPipeline. *)
From stdpp Require Import list.
From Verif Require Import NPipelineWaitModel.

(** Steps of calls in progress: no new calls, no images, no spurious wake-ups. *)
Definition internal (a : act) : bool :=
  match a with
  | AEnter _ | ABody _ | AResume _ | ASetFlag _ | ANotifyEmpty _ | ANotifyFull _ => true
  | _ => false
  end.

(** The flag is only set while nobody is between reading the flag and going to sleep. *)
Fixpoint careful (st : state) (acts : list act) : Prop :=
  match acts with
  | [] => True
  | a :: acts' =>
    (forall t, a = ASetFlag t -> forall t' k, threads st !! t' <> Some (TChecked k)) /\
    match step st a with Some (st', _) => careful st' acts' | None => True end
  end.

(** A call to shutdown() has been completed and none is in progress. *)
Definition shut (st : state) : Prop :=
  flag st = true /\
  forall t x, threads st !! t = Some x -> x <> TSetFlag /\ x <> TNotifyEmpty /\ x <> TNotifyFull.

(** A thread is inside a blocking call. *)
Definition waiting (st : state) (t : nat) (k : call) : Prop :=
  threads st !! t = Some (TEnter k) \/ threads st !! t = Some (TChecked k) \/
  threads st !! t = Some (TSleep k) \/ threads st !! t = Some (TWoken k).
