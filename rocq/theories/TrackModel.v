(** Model of track ids: SimpleTrackManager.

    Source: aslam_cv_tracker/src/track-manager.cc ("tm"),
            aslam_cv_tracker/include/aslam/tracker/track-manager.h ("tm.h").

    Simplifications: a frame is the number of its keypoints and its track id channel (if present).
    Frames are addressed by position, so the two frames of a call may be the same. The static id
    provider (tm 12) is [counter]; its mutex makes getNewId atomic, so concurrent managers are
    interleavings of whole calls to it; threads are not modelled. *)
From Coq Require Import ZArith Bool.
From stdpp Require Import list.
Local Open Scope nat_scope.

Record frame := Frame { num_keypoints : nat; track : option (list Z) }.
Record world := World { frames : list frame; counter : Z }.
Definition init : world := World [] 0.

(** Conversion of a size_t to int (tm 59). *)
Definition int_of_size (n : Z) : Z :=
  let r := (n mod 2 ^ 32)%Z in if (r <? 2 ^ 31)%Z then r else (r - 2 ^ 32)%Z.
(** ThreadSafeIdProvider<size_t>::getNewId, tm.h 20-23. *)
Definition next_counter (c : Z) : Z := ((c + 1) mod 2 ^ 64)%Z.

(** createAndGetTrackIdChannel, tm 14-22. *)
Definition create_channel (f : frame) : frame :=
  match track f with
  | Some _ => f
  | None => Frame (num_keypoints f) (Some (replicate (num_keypoints f) (-1)%Z))
  end.
Definition create (w : world) (a : nat) : option world :=
  f ← frames w !! a; Some (World (<[a := create_channel f]> (frames w)) (counter w)).
Definition channel (w : world) (a : nat) : option (list Z) := f ← frames w !! a; track f.
Definition set_id (w : world) (a i : nat) (t : Z) : world :=
  World (alter (fun f => Frame (num_keypoints f) (alter (fun _ => t) i <$> track f)) a (frames w)) (counter w).

(** One iteration of the loop tm 40-80, after the range and exclusiveness checks. *)
Definition apply_match (w : world) (a b i j : nat) : option world :=
  A ← channel w a; B ← channel w b;
  ta ← A !! i; tb ← B !! j;
  if (ta <? 0)%Z && (tb <? 0)%Z then                       (* tm 57-61 *)
    let t := int_of_size (counter w) in
    let w1 := World (frames w) (next_counter (counter w)) in
    Some (set_id (set_id w1 a i t) b j t)
  else if negb (ta =? tb)%Z then
    if (0 <=? tb)%Z
    then if (ta <? 0)%Z then Some (set_id w a i tb) else None   (* tm 67-71 *)
    else Some (set_id w b j ta)                            (* tm 72-77 *)
  else Some w.

(** The loop; [ca], [cb] are consumed_As and consumed_Bs. *)
Fixpoint apply_loop (w : world) (a b na nb : nat) (ca cb : list Z) (ms : list (Z * Z)) : option world :=
  match ms with
  | [] => Some w
  | (i, j) :: ms' =>
    if negb ((i <? Z.of_nat na)%Z && (0 <=? i)%Z) then None           (* tm 42-43 *)
    else if negb ((j <? Z.of_nat nb)%Z && (0 <=? j)%Z) then None      (* tm 46-47 *)
    else if bool_decide (i ∈ ca) then None                            (* tm.h 93-96 *)
    else if bool_decide (j ∈ cb) then None                            (* tm.h 97-100 *)
    else
      w' ← apply_match w a b (Z.to_nat i) (Z.to_nat j);
      apply_loop w' a b na nb (i :: ca) (j :: cb) ms'
  end.

(** applyMatchesToFrames, tm 24-81. *)
Definition apply_matches (w : world) (a b : nat) (ms : list (Z * Z)) : option world :=
  w1 ← create w a;
  w2 ← create w1 b;
  A ← channel w2 a;
  B ← channel w2 b;
  apply_loop w2 a b (length A) (length B) [] [] ms.

Inductive act :=
| ANewFrame (n : nat)
| AApply (a b : nat) (ms : list (Z * Z))
| AReset.                                            (* resetIdProvider, tm.h 59-61 *)
Definition step (w : world) (x : act) : option world :=
  match x with
  | ANewFrame n => Some (World (frames w ++ [Frame n None]) (counter w))
  | AApply a b ms => apply_matches w a b ms
  | AReset => Some (World (frames w) 0)
  end.
Fixpoint run (w : world) (acts : list act) : option world :=
  match acts with
  | [] => Some w
  | x :: acts' => w' ← step w x; run w' acts'
  end.
