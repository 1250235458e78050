(** Model of the statistics accumulators, the registry of statistics and the timers.

    Source: aslam_cv_common/include/aslam/common/statistics/accumulator.h ("acc"),
            aslam_cv_common/include/aslam/common/statistics/statistics.h ("st.h"),
            aslam_cv_common/src/statistics.cc ("st"),
            aslam_cv_common/src/timer.cc ("tm").

    Simplifications:
    - samples are integers and sums are exact (finite doubles are multiples of 2^-1074; rounding and
      overflow of the sums are not modelled), means and variances are rationals;
    - time is in nanoseconds, without the conversion to seconds;
    - every public function takes the registry mutex for its whole body, so an execution is a
      sequence of such functions; Print and WriteToYamlFile (which read tag_map_ without the mutex)
      are not modelled;
    - Timing (tm) is the same registry under other names; one model serves for both. *)
From Coq Require Import ZArith QArith Bool.
From stdpp Require Import list gmap strings.
Open Scope Z_scope.

Definition int_max : Z := 2147483647.
(** ++ on an int: [None] is signed overflow. *)
Definition int_incr (z : Z) : option Z := if z <? int_max then Some (z + 1) else None.

(** Accumulator, acc 111-120. *)
Record acc := Acc {
  samples : list Z;
  sample_index : Z;
  total_samples : Z;
  sum : Z;
  window_sum : Z;
  minv : Z;
  maxv : Z;
  most_recent : Z }.

(** Constructor, acc 18-30; [lo], [hi]: numeric_limits<SampleType>::lowest() and max(). *)
Definition acc_new (lo hi : Z) : acc := Acc [] 0 0 0 0 hi lo 0.

(** Add, acc 32-51, window size [w]. *)
Definition acc_add (w : Z) (a : acc) (x : Z) : option acc :=
  let finish smp idx ws :=
    match int_incr (total_samples a) with
    | None => None
    | Some t =>
      Some (Acc smp idx t (sum a + x) ws (if x <? minv a then x else minv a)
                (if maxv a <? x then x else maxv a) x)
    end in
  match int_incr (sample_index a) with
  | None => None
  | Some idx =>
    if sample_index a <? w
    then finish (samples a ++ [x]) idx (window_sum a + x)
    else
      match samples a !! Z.to_nat (sample_index a mod w) with
      | None => None                                     (* at() throws *)
      | Some oldest =>
        finish (<[Z.to_nat (sample_index a mod w) := x]> (samples a)) idx (window_sum a + (x - oldest))
      end
  end.

(** Mean, acc 61-63. *)
Definition acc_mean (a : acc) : Q :=
  if total_samples a <? 1 then 0%Q else (inject_Z (sum a) / inject_Z (total_samples a))%Q.
(** RollingMean, acc 67-73; [None] is 0/0. *)
Definition acc_rolling_mean (w : Z) (a : acc) : option Q :=
  if w <? int_max then
    (if Z.min (sample_index a) w =? 0 then None
     else Some (inject_Z (window_sum a) / inject_Z (Z.min (sample_index a) w))%Q)
  else Some (acc_mean a).
(** LazyVariance, acc 87-101. *)
Definition acc_variance (w : Z) (a : acc) : option Q :=
  if (length (samples a) <? 2)%nat then Some 0%Q
  else match acc_rolling_mean w a with
       | None => None
       | Some m =>
         Some (foldl (fun v s => v + (inject_Z s - m) * (inject_Z s - m)) 0 (samples a)
               / inject_Z (Z.of_nat (length (samples a)) - 1))%Q
       end.

Fixpoint acc_adds (w : Z) (a : acc) (l : list Z) : option acc :=
  match l with
  | [] => Some a
  | x :: l' => match acc_add w a x with Some a' => acc_adds w a' l' | None => None end
  end.

(** StatisticsMapValue, st.h 31-119.  The epoch (time 0) stands for "not called yet". *)
Definition window : Z := 100.
Record collector := Collector { values : acc; deltas : acc; last_called : Z }.
Definition limits : Z * Z := (- 2 ^ 2098, 2 ^ 2098).   (* beyond every double, in units of 2^-1074 *)
Definition collector_new : collector :=
  Collector (acc_new limits.1 limits.2) (acc_new limits.1 limits.2) 0.
(** AddValue, st.h 36-52. *)
Definition add_value (c : collector) (now x : Z) : option collector :=
  match (if last_called c =? 0 then Some (deltas c) else acc_add window (deltas c) (now - last_called c)) with
  | None => None
  | Some d =>
    match acc_add window (values c) x with
    | None => None
    | Some v => Some (Collector v d now)
    end
  end.

(** TimerImpl, tm 58-102; a destroyed timer stays in the list as [TGone]. *)
Inductive timer := Timer (handle : nat) (started : option Z) | TGone.

Record state := State {
  collectors : list collector;     (* stats_collectors_ / timers_ *)
  tag_map : gmap string nat;
  timers : list timer }.
Definition init : state := State [] ∅ [].

(** GetHandle, st 20-36, tm 25-42. *)
Definition get_handle (tag : string) (s : state) : state * nat :=
  match tag_map s !! tag with
  | Some h => (s, h)
  | None =>
    let h := length (collectors s) in
    (State (collectors s ++ [collector_new]) (<[tag := h]> (tag_map s)) (timers s), h)
  end.
(** HasHandle, st 41-45. *)
Definition has_handle (tag : string) (s : state) : bool :=
  match tag_map s !! tag with Some _ => true | None => false end.
(** GetTag, st 47-57: linear search; the iteration order of the map does not matter (see the proofs). *)
Definition get_tag (h : nat) (s : state) : string :=
  match list_find (fun p : string * nat => p.2 = h) (map_to_list (tag_map s)) with
  | Some (_, (t, _)) => t
  | None => ""
  end.
(** AddSample, st 73-76, tm 104-107; [None]: out of bounds or overflow. *)
Definition add_sample (h : nat) (now x : Z) (s : state) : option state :=
  match collectors s !! h with
  | None => None
  | Some c =>
    match add_value c now x with
    | None => None
    | Some c' => Some (State (<[h := c']> (collectors s)) (tag_map s) (timers s))
    end
  end.
(** Reset, st 284-287, tm 272-275. *)
Definition reset (s : state) : state := State (collectors s) ∅ (timers s).

Inductive act :=
| AGetHandle (tag : string)
| ASample (h : nat) (now x : Z)
| AReset
| ATimerNew (tag : string) (stopped : bool) (now : Z)
| ATimerStart (i : nat) (now : Z)
| ATimerStop (i : nat) (now : Z)
| ATimerDiscard (i : nat)
| ATimerDestroy (i : nat) (now : Z).

Inductive event :=
| EvHandle (tag : string) (h : nat)
| EvSample (src : option nat) (h : nat) (x : Z)  (* sample [x] added under [h], by timer [src] *)
| EvReset.

Definition set_timer (i : nat) (t : timer) (s : state) : state :=
  State (collectors s) (tag_map s) (<[i := t]> (timers s)).

(** Stop, tm 76-90, and the destructor, tm 65-69; [after] is the timer afterwards. *)
Definition stop_timer (i : nat) (h : nat) (started : option Z) (now : Z) (after : timer) (s : state)
  : option (state * list event) :=
  match started with
  | None => Some (set_timer i after s, [])
  | Some t0 =>
    match add_sample h now (now - t0) s with
    | None => None
    | Some s' => Some (set_timer i after s', [EvSample (Some i) h (now - t0)])
    end
  end.

Definition step (s : state) (a : act) : option (state * list event) :=
  match a with
  | AGetHandle tag => let '(s', h) := get_handle tag s in Some (s', [EvHandle tag h])
  | ASample h now x =>
    match add_sample h now x s with Some s' => Some (s', [EvSample None h x]) | None => None end
  | AReset => Some (reset s, [EvReset])
  | ATimerNew tag stopped now =>
    let '(s', h) := get_handle tag s in
    Some (State (collectors s') (tag_map s') (timers s' ++ [Timer h (if stopped then None else Some now)]),
          [EvHandle tag h])
  | ATimerStart i now =>
    match timers s !! i with
    | Some (Timer h _) => Some (set_timer i (Timer h (Some now)) s, [])
    | _ => None
    end
  | ATimerStop i now =>
    match timers s !! i with
    | Some (Timer h st) => stop_timer i h st now (Timer h None) s
    | _ => None
    end
  | ATimerDiscard i =>
    match timers s !! i with
    | Some (Timer h _) => Some (set_timer i (Timer h None) s, [])
    | _ => None
    end
  | ATimerDestroy i now =>
    match timers s !! i with
    | Some (Timer h st) => stop_timer i h st now TGone s
    | _ => None
    end
  end.
Fixpoint run (s : state) (acts : list act) : option (state * list event) :=
  match acts with
  | [] => Some (s, [])
  | a :: acts' =>
    match step s a with
    | None => None
    | Some (s', evs) =>
      match run s' acts' with Some (s'', evs') => Some (s'', evs ++ evs') | None => None end
    end
  end.
