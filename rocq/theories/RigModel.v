(** Model of multi-frames (timestamps) and camera rigs (id to index map).

    Source: aslam_cv_frames/src/visual-nframe.cc ("nf"), aslam_cv_cameras/src/ncamera.cc ("nc"). *)
From Coq Require Import ZArith Bool.
From stdpp Require Import list gmap.
Local Open Scope nat_scope.

(** ** Multi-frames. A frame that is set is represented by its timestamp. *)
Definition int64_max : Z := (2 ^ 63 - 1)%Z.
Definition invalid_time : Z := (- 2 ^ 63)%Z.              (* time.h 66-68 *)
Definition is_valid_time (t : Z) : bool := negb (t =? invalid_time)%Z.  (* time.h 71-73 *)

(** The loops nf 170-176 and 184-190 over the cameras i, i+1, ..., i+n-1; isFrameSet (nf 148-151) aborts
    for an index without frame slot. *)
Fixpoint min_loop (frames : list (option Z)) (i n : nat) (acc : Z) : option Z :=
  match n with
  | O => Some acc
  | S n' =>
    match frames !! i with
    | None => None
    | Some None => min_loop frames (S i) n' acc
    | Some (Some t) => min_loop frames (S i) n' (if (t <? acc)%Z then t else acc)
    end
  end.
Fixpoint max_loop (frames : list (option Z)) (i n : nat) (acc : Z) : option Z :=
  match n with
  | O => Some acc
  | S n' =>
    match frames !! i with
    | None => None
    | Some None => max_loop frames (S i) n' acc
    | Some (Some t) => max_loop frames (S i) n' (if (acc <? t)%Z then t else acc)
    end
  end.
(** getMinTimestampNanoseconds, nf 168-180; getMaxTimestampNanoseconds, nf 182-193. *)
Definition min_timestamp (frames : list (option Z)) (num_cameras : nat) : option Z :=
  m ← min_loop frames 0 num_cameras int64_max; if is_valid_time m then Some m else None.
Definition max_timestamp (frames : list (option Z)) (num_cameras : nat) : option Z :=
  m ← max_loop frames 0 num_cameras invalid_time; if is_valid_time m then Some m else None.
(** areAllFramesSet, nf 153-160. *)
Definition all_set (frames : list (option Z)) : bool :=
  forallb (fun f => match f with Some _ => true | None => false end) frames.

(** ** Camera rigs. Camera objects are shared pointers; an object is represented by its position in
    [ids], which holds its current id (0 is the invalid id). Extrinsics and intrinsics are left out. *)
Record rig := Rig { cams : list nat; index : gmap Z nat }.
Record world := World { ids : list Z; rigs : list rig }.
Definition init : world := World [] [].

(** initInternal, nc 202-210. *)
Fixpoint init_loop (idl : list Z) (i : nat) (cs : list nat) (m : gmap Z nat) : option (gmap Z nat) :=
  match cs with
  | [] => Some m
  | c :: cs' =>
    match idl !! c with
    | None => None                                         (* CHECK_NOTNULL *)
    | Some id => if (id =? 0)%Z then None else init_loop idl (S i) cs' (<[id := i]> m)
    end
  end.
Definition init_internal (idl : list Z) (cs : list nat) : option (gmap Z nat) := init_loop idl 0 cs ∅.

(** Copy constructor, nc 79-92: every camera object is cloned (with its id). *)
Definition clone_rig (w : world) (r : nat) : option world :=
  g ← rigs w !! r;
  new_ids ← mapM (fun c => ids w !! c) (cams g);
  let idl := ids w ++ new_ids in
  let cs := seq (length (ids w)) (length new_ids) in
  m ← init_internal idl cs;
  Some (World idl (rigs w ++ [Rig cs m])).
(** setId on the camera objects of the last rig. *)
Definition overwrite_ids (w : world) (new : list Z) : option world :=
  g ← last (rigs w);
  if length new =? length (cams g)
  then Some (World (take (length (ids w) - length new) (ids w) ++ new) (rigs w))
  else None.
Definition replace_last_index (w : world) (m : gmap Z nat) : world :=
  match last (rigs w) with
  | None => w
  | Some g => World (ids w) (<[length (rigs w) - 1 := Rig (cams g) m]> (rigs w))
  end.

Inductive act :=
| ANewCam (id : Z)
| AConstruct (cs : list nat)                 (* NCamera(...), nc 49-72 *)
| AClone (r : nat)
| ACloneNewIds (r : nat) (new : list Z)      (* [new]: what generateId returns *)
| ASetCamera (r i c : nat)
| AUndistort (r : nat) (new : list Z)
| ASetId (c : nat) (id : Z).                 (* setId on a camera object by whoever shares it *)

Definition step (w : world) (a : act) : option world :=
  match a with
  | ANewCam id => Some (World (ids w ++ [id]) (rigs w))
  | AConstruct cs => m ← init_internal (ids w) cs; Some (World (ids w) (rigs w ++ [Rig cs m]))
  | AClone r => clone_rig w r
  | ACloneNewIds r new =>                                   (* nc 25-43 *)
    w1 ← clone_rig w r;
    w2 ← overwrite_ids w1 new;
    g ← last (rigs w2);
    m ← init_internal (ids w2) (cams g);
    Some (replace_last_index w2 m)
  | ASetCamera r i c =>                                     (* nc 273-279 *)
    g ← rigs w !! r;
    id ← ids w !! c;
    old ← cams g !! i;
    old_id ← ids w !! old;
    Some (World (ids w) (<[r := Rig (<[i := c]> (cams g)) (<[id := i]> (delete old_id (index g)))]> (rigs w)))
  | AUndistort r new =>                                     (* nc 330-346 *)
    w1 ← clone_rig w r;
    overwrite_ids w1 new
  | ASetId c id => if c <? length (ids w) then Some (World (<[c := id]> (ids w)) (rigs w)) else None
  end.
Fixpoint run (w : world) (acts : list act) : option world :=
  match acts with
  | [] => Some w
  | a :: acts' => w' ← step w a; run w' acts'
  end.

(** getCameraId, nc 289-292. *)
Definition camera_id (w : world) (r i : nat) : option Z :=
  g ← rigs w !! r; c ← cams g !! i; ids w !! c.
(** getCameraIndex, nc 319-328; hasCameraWithId, nc 294-297. [None]: CHECK failure. *)
Definition camera_index (w : world) (r : nat) (id : Z) : option Z :=
  if (id =? 0)%Z then None
  else g ← rigs w !! r; Some (match index g !! id with Some i => Z.of_nat i | None => (-1)%Z end).
Definition has_camera (w : world) (r : nat) (id : Z) : option bool :=
  if (id =? 0)%Z then None
  else g ← rigs w !! r; Some (match index g !! id with Some _ => true | None => false end).
