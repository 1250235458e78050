(** Specification of the statistics: in terms of the list of samples. *)
From Coq Require Import ZArith QArith.
From stdpp Require Import list strings.
From Verif Require Import StatisticsModel.
Open Scope Z_scope.

Definition total (l : list Z) : Z := foldr Z.add 0 l.
(** The last [min w (length l)] samples. *)
Definition last_samples (w : nat) (l : list Z) : list Z := drop (length l - w) l.
Definition sumQ (l : list Q) : Q := foldr Qplus 0%Q l.
Definition mean (l : list Z) : Q := (inject_Z (total l) / inject_Z (Z.of_nat (length l)))%Q.
Definition sample_variance (l : list Z) : Q :=
  (sumQ (map (fun x => (inject_Z x - mean l) * (inject_Z x - mean l))%Q l)
   / inject_Z (Z.of_nat (length l) - 1))%Q.
Definition is_max (l : list Z) (m : Z) : Prop := m ∈ l /\ Forall (fun x => x <= m) l.
Definition is_min (l : list Z) (m : Z) : Prop := m ∈ l /\ Forall (fun x => m <= x) l.

(** Samples added under handle [h]. *)
Fixpoint samples_under (h : nat) (evs : list event) : list Z :=
  match evs with
  | [] => []
  | EvSample _ h' x :: evs' => if (h =? h')%nat then x :: samples_under h evs' else samples_under h evs'
  | _ :: evs' => samples_under h evs'
  end.

(** Laps of timer [i]: the times between a Start and the next Stop (or destruction), unless discarded
    or started again in between; [running] is the time of the pending Start. *)
Fixpoint laps (i : nat) (running : option Z) (acts : list act) : list Z :=
  match acts with
  | [] => []
  | ATimerStart j now :: acts' => laps i (if (j =? i)%nat then Some now else running) acts'
  | ATimerDiscard j :: acts' => laps i (if (j =? i)%nat then None else running) acts'
  | ATimerStop j now :: acts' | ATimerDestroy j now :: acts' =>
    if (j =? i)%nat then
      match running with
      | Some t0 => (now - t0) :: laps i None acts'
      | None => laps i None acts'
      end
    else laps i running acts'
  | _ :: acts' => laps i running acts'
  end.
(** Number of timers created. *)
Fixpoint timers_created (acts : list act) : nat :=
  match acts with
  | [] => 0
  | ATimerNew _ _ _ :: acts' => S (timers_created acts')
  | _ :: acts' => timers_created acts'
  end.
(** Samples that timer [i] added, with their handles. *)
Fixpoint by_timer (i : nat) (evs : list event) : list (nat * Z) :=
  match evs with
  | [] => []
  | EvSample (Some j) h x :: evs' => if (j =? i)%nat then (h, x) :: by_timer i evs' else by_timer i evs'
  | _ :: evs' => by_timer i evs'
  end.
