(** Model of the image synchronisation of aslam::VisualNPipeline.

    Source: aslam_cv_pipeline/src/visual-npipeline.cc.

    Every access to [processing_] and [completed_] happens under [mutex_]; an action is one critical
    section, so the order of actions is the order in which the threads obtained the mutex.

    Simplifications:
    - the per-camera pipeline (219) is external: an action carries the processed frame, of which only
      the camera, the (corrected) time stamp and an identity are kept;
    - time stamps are unbounded integers: the int64 overflow of [std::abs] of a difference is not
      modelled;
    - the two std::map are lists sorted by key (an invariant proved in NPipelineProofs.v), an iterator
      is an index;
    - setFrame also CHECKs that the frame has the rig's camera (visual-nframe.cc 137-139): the
      constructor of VisualNPipeline checked this for the pipelines (visual-npipeline.cc 37-45);
    - logging and the condition variables are left out (for these see NPipelineWaitModel.v).

    Groups that leave the pipeline without being handed to the user are recorded as events. *)
From Coq Require Import ZArith Bool.
From stdpp Require Import list.
Open Scope Z_scope.

Record image := Image { cam : nat; stamp : Z; ident : nat }.

(** VisualNFrame::frames_ *)
Notation nframe := (list (option image)).

(** std::map<int64_t, std::shared_ptr<VisualNFrame>> *)
Notation groups := (list (Z * nframe)).

Record state := State { processing : groups; completed : groups }.

Inductive event :=
| EvEmit (k : Z) (f : nframe)         (* returned to the user *)
| EvEmpty                             (* a getter returned nullptr *)
| EvOverwritten (i : image)           (* replaced by a newer image of the same camera, 269-275 *)
| EvDropped (k : Z) (f : nframe)      (* removed by the frame drop detection, 307-315 *)
| EvShadowed (k : Z) (f : nframe)     (* completed_.insert at 322 failed, the key exists *)
| EvEvicted (k : Z) (f : nframe)      (* output queue full, 86-90 *)
| EvCleared (k : Z) (f : nframe).     (* getLatestAndClear, 159-166 *)

Inductive outcome := Ok (st : state) (evs : list event) | Abort | UB.

(** std::map::lower_bound: index of the first entry with key not less than [t]. *)
Fixpoint lower_bound (t : Z) (m : groups) : nat :=
  match m with
  | [] => O
  | (k, _) :: m' => if k <? t then S (lower_bound t m') else O
  end.

(** 232-249: index of the entry the frame is compared with, and the time difference; None if the map
    is empty (begin() would be dereferenced). *)
Definition closest (t : Z) (m : groups) : option (nat * Z) :=
  let lb := lower_bound t m in
  let i := match lb with O => O | S j => j end in
  match m !! i with
  | None => None
  | Some (k, _) =>
    let d := Z.abs (k - t) in
    match m !! S i with
    | None => Some (i, d)
    | Some (k', _) =>
      let d' := Z.abs (k' - t) in
      if d' <? d then Some (S i, d') else Some (i, d)
    end
  end.

(** std::map::insert: None if the key exists (nothing is inserted then). *)
Fixpoint map_insert (k : Z) (f : nframe) (m : groups) : option groups :=
  match m with
  | [] => Some [(k, f)]
  | (k', f') :: m' =>
    if k <? k' then Some ((k, f) :: m)
    else if k =? k' then None
    else match map_insert k f m' with Some r => Some ((k', f') :: r) | None => None end
  end.

(** VisualNFrame(ncamera): visual-nframe.cc, [numCameras] null frames. *)
Definition new_nframe (ncam : nat) : nframe := replicate ncam None.

(** 225-264: the group for a frame with time stamp [t]: its index in the new map.
    None: CHECK(not_replaced) fails. *)
Definition find_group (ncam : nat) (tol t : Z) (m : groups) : option (nat * groups) :=
  let create :=
    match map_insert t (new_nframe ncam) m with
    | Some m' => Some (lower_bound t m, m')
    | None => None
    end in
  match closest t m with
  | None => create
  | Some (i, d) => if tol <? d then create else Some (i, m)
  end.

(** 267-275 *)
Definition set_frame (i : image) (f : nframe) : nframe := <[cam i := Some i]> f.
Definition overwritten (i : image) (f : nframe) : list event :=
  match f !! cam i with Some (Some old) => [EvOverwritten old] | _ => [] end.

(** visual-nframe.cc 153-160 *)
Definition all_set (f : nframe) : bool :=
  forallb (fun x => match x with Some _ => true | None => false end) f.

(** 282, kNumMinConsecutiveCompleteThreshold *)
Definition threshold : nat := 2.

(** 285-302: the loop; [idx], [n] are the values of idx and num_consecutive_complete. *)
Fixpoint scan (idx n : nat) (m : groups) : option nat :=
  match m with
  | [] => None
  | (_, f) :: m' =>
    let n' := if all_set f then S n else O in
    if Nat.leb threshold n' then Some idx else scan (S idx) n' m'
  end.

(** 283-303: delete_upto_including_index. *)
Definition delete_upto (m : groups) : Z :=
  if Nat.ltb (threshold + 1) (length m) then
    match scan 0 0 m with Some idx => Z.of_nat idx - Z.of_nat threshold | None => -1 end
  else -1.

(** 307-312 *)
Definition num_drop (m : groups) : nat :=
  if 0 <=? delete_upto m then Z.to_nat (delete_upto m + 1) else O.

(** 318-330 *)
Fixpoint move_complete (p c : groups) : groups * groups * list event :=
  match p with
  | [] => ([], c, [])
  | (k, f) :: p' =>
    if all_set f then
      match map_insert k f c with
      | Some c' => move_complete p' c'
      | None =>
        let '(pr, cr, evs) := move_complete p' c in (pr, cr, EvShadowed k f :: evs)
      end
    else (p, c, [])
  end.

Definition dropped_ev (m : groups) : list event :=
  (fun kf => EvDropped (fst kf) (snd kf)) <$> m.

(** 215-332: work.  217 is CHECK_LE, so an index equal to the number of cameras passes and 219 indexes
    the vector of pipelines out of range. *)
Definition work (ncam : nat) (tol : Z) (i : image) (st : state) : outcome :=
  if Nat.ltb ncam (cam i) then Abort
  else if Nat.eqb (cam i) ncam then UB
  else
    match find_group ncam tol (stamp i) (processing st) with
    | None => Abort
    | Some (j, m) =>
      match m !! j with
      | None => UB
      | Some (k, f) =>
        let m1 := <[j := (k, set_frame i f)]> m in
        let n := num_drop m1 in
        let '(p, c, evs) := move_complete (drop n m1) (completed st) in
        Ok (State p c) (overwritten i f ++ dropped_ev (take n m1) ++ evs)
      end
    end.

(** getNextImpl, 130-142 (also getNextBlocking when it returns true). *)
Definition get_next (st : state) : outcome :=
  match completed st with
  | [] => Ok st [EvEmpty]
  | (k, f) :: c => Ok (State (processing st) c) [EvEmit k f]
  end.

Definition cleared_ev (m : groups) : list event :=
  (fun kf => EvCleared (fst kf) (snd kf)) <$> m.

(** 162-166 *)
Fixpoint drop_until (t : Z) (m : groups) : groups * groups :=
  match m with
  | [] => ([], [])
  | (k, f) :: m' =>
    if k <=? t then let '(a, b) := drop_until t m' in ((k, f) :: a, b) else ([], m)
  end.

(** getLatestAndClear, 150-168 (also getLatestAndClearBlocking when it returns true). *)
Definition get_latest (st : state) : outcome :=
  match last (completed st) with
  | None => Ok st [EvEmpty]
  | Some (k, f) =>
    let '(gone, p) := drop_until k (processing st) in
    Ok (State p []) (EvEmit k f :: cleared_ev (removelast (completed st)) ++ cleared_ev gone)
  end.

(** processImageNonBlockingDroppingOldestNFrameIfFull, 82-90; the image itself is handed to the
    thread pool and is processed by a later [AWork]. *)
Definition make_room (max : nat) (st : state) : outcome :=
  if Nat.ltb max 1 then Abort
  else if Nat.leb max (length (completed st)) then
    match completed st with
    | [] => UB
    | (k, f) :: c => Ok (State (processing st) c) [EvEvicted k f]
    end
  else Ok st [].

Inductive act := AWork (i : image) | AGetNext | AGetLatest | AMakeRoom (max : nat).

Definition step (ncam : nat) (tol : Z) (st : state) (a : act) : outcome :=
  match a with
  | AWork i => work ncam tol i st
  | AGetNext => get_next st
  | AGetLatest => get_latest st
  | AMakeRoom m => make_room m st
  end.

Definition init : state := State [] [].

Fixpoint run (ncam : nat) (tol : Z) (st : state) (acts : list act) : outcome :=
  match acts with
  | [] => Ok st []
  | a :: acts' =>
    match step ncam tol st a with
    | Ok st' e =>
      match run ncam tol st' acts' with
      | Ok st'' e' => Ok st'' (e ++ e')
      | x => x
      end
    | x => x
    end
  end.
