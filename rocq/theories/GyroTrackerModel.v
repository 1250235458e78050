(** Model of GyroTracker: bookkeeping around descriptor matching and optical flow.

    Source: aslam_cv_tracker/src/feature-tracker-gyro.cc ("gt"),
            aslam_cv_tracker/include/aslam/tracker/feature-tracker-gyro.h ("gt.h").

    Simplifications: a frame is the list of track ids of the tracked descriptor type; descriptors,
    scales, orientations, scores and images are left out. Image coordinates are integers. The matcher,
    the prediction, std::sort, optical flow and descriptor extraction are inputs of a call. *)
From Coq Require Import ZArith QArith Qround Bool.
From stdpp Require Import list.
From Verif Require Import StlHelpersModel.
Local Open Scope nat_scope.

Definition rbind {A B} (x : result A) (f : A -> result B) : result B :=
  match x with Ok a => f a | Abort => Abort | Ub => Ub end.
Notation "'let!' x ':=' e 'in' f" := (rbind e (fun x => f)) (at level 200, x name, e at level 100, f at level 200).
(** Access without range check. *)
Definition at_ub {A} (l : list A) (i : nat) : result A := match l !! i with Some x => Ok x | None => Ub end.

Inductive status := Detected | LkTracked.
Global Instance status_eq_dec : EqDecision status.
Proof. solve_decision. Defined.

Record settings := Settings {
  ratio : Q;             (* lk_max_num_candidates_ratio_kp1, between 0 and 1 (gt 54-56) *)
  threshold : nat;       (* FLAGS_gyro_lk_track_detected_threshold *)
  max_len : nat;         (* lk_max_status_track_length *)
  border : Z; width : Z; height : Z }.
Record tracker := Tracker {
  inited : bool;                  (* initialized_ *)
  tids : list (list Z);           (* track_ids_k_km1_ *)
  stats : list (list status);     (* feature_status_k_km1_ *)
  lens : list nat }.              (* status_track_length_km1_ *)
Definition init : tracker := Tracker false [] [] [].

(** ** Candidates *)
(** computeUnmatchedIndicesOfFrameK, gt 424-451; [n] points in frame k. *)
Fixpoint clear_flags (flags : list bool) (ms : list (Z * Z)) : result (list bool) :=
  match ms with
  | [] => Ok flags
  | m :: ms' =>
    if (0 <=? m.2)%Z && (m.2 <? Z.of_nat (length flags))%Z
    then clear_flags (<[Z.to_nat m.2 := false]> flags) ms' else Ub
  end.
Fixpoint flagged (i : nat) (flags : list bool) : list nat :=
  match flags with [] => [] | b :: flags' => (if b then [i] else []) ++ flagged (S i) flags' end.
Definition unmatched (n : nat) (ms : list (Z * Z)) : result (list nat) :=
  if n <? length ms then Abort                                   (* gt 428 *)
  else
    let! flags := clear_flags (replicate n true) ms in
    let l := flagged 0 flags in
    if length l =? n - length ms then Ok l else Abort.          (* gt 448 *)

(** gt 346-374: eligible detected and flow-tracked features with their status track lengths. *)
Fixpoint eligible (s : settings) (len : list nat) (st : list status) (l : list nat)
  : result (list (nat * nat) * list (nat * nat)) :=
  match l with
  | [] => Ok ([], [])
  | i :: l' =>
    let! k := at_ub len i in
    let! x := at_ub st i in
    let! r := eligible s len st l' in
    Ok (match x with
        | Detected => if threshold s <=? k then ((i, k) :: r.1, r.2) else r
        | LkTracked => if k <? max_len s then (r.1, (i, k) :: r.2) else r
        end)
  end.
(** gt 407-416: append until the maximum is reached. *)
Fixpoint push_until (mx : nat) (out : list nat) (l : list (nat * nat)) : list nat :=
  match l with
  | [] => out
  | p :: l' => if length out =? mx then out else push_until mx (out ++ [p.1]) l'
  end.
Definition max_candidates (s : settings) (n_kp1 : nat) : nat :=
  Z.to_nat (Qfloor (inject_Z (Z.of_nat n_kp1) * ratio s)).        (* gt 380-381 *)
(** computeLKCandidates, gt 332-422; [sort_down] and [sort_up] are the two std::sort calls. *)
Definition lk_candidates (s : settings) (sort_down sort_up : list (nat * nat) -> list (nat * nat))
    (n n_kp1 : nat) (ms : list (Z * Z)) (len : list nat) (st : list status) : result (list nat) :=
  if negb (length len =? n) then Abort                           (* gt 339-340 *)
  else
    let! u := unmatched n ms in
    let! e := eligible s len st u in
    let mx := max_candidates s n_kp1 in
    let before := length e.1 + length e.2 in
    let d := if mx <? before then sort_down e.1 else e.1 in
    let f := if (mx <? before) && (length e.1 <? mx) then sort_up e.2 else e.2 in
    Ok (push_until mx (push_until mx [] d) f).

(** ** Track lengths *)
(** GetIndexOfValue, gt 306-315. *)
Fixpoint find_index (v : Z) (l : list Z) : option nat :=
  match l with [] => None | x :: l' => if (x =? v)%Z then Some 0 else S <$> find_index v l' end.
(** computeTrackedMatches, gt 296-330. *)
Fixpoint tracked_loop (km1 : list Z) (i : nat) (k : list Z) : list (nat * nat) :=
  match k with
  | [] => []
  | id :: k' =>
    (if (id =? -1)%Z then []
     else match find_index id km1 with Some j => [(i, j)] | None => [] end) ++ tracked_loop km1 (S i) k'
  end.
Definition tracked_matches (t : tracker) : result (list (nat * nat)) :=
  if negb (inited t) then Ok []
  else match tids t with
       | [k; km1] => Ok (tracked_loop km1 0 k)
       | _ => Abort                                              (* gt 302 *)
       end.
(** computeStatusTrackLengthOfFrameK, gt 453-480. *)
Fixpoint length_loop (st_k st_km1 : list status) (prev : list nat) (ms : list (nat * nat)) (len : list nat)
  : result (list nat) :=
  match ms with
  | [] => Ok len
  | (k, km1) :: ms' =>
    let! a := at_ub st_km1 km1 in
    let! b := at_ub st_k k in
    let! v := (if bool_decide (a = b) then let! p := at_ub prev km1 in Ok (S p) else Ok 1) in
    length_loop st_k st_km1 prev ms' (<[k := v]> len)
  end.
Definition status_lengths (t : tracker) (ms : list (nat * nat)) : result (list nat) :=
  match tids t with
  | [] => Abort                                                  (* gt 457 *)
  | ids :: _ =>
    let len := replicate (length ids) 0 in
    if negb (inited t) then Ok len
    else match stats t with
         | [st_k; st_km1] => length_loop st_k st_km1 (lens t) ms len
         | _ => Abort                                            (* gt 465 *)
         end
  end.

(** ** Optical flow *)
(** updateFeatureStatusDeque, updateTrackIdDeque: gt 489-496, 498-507. *)
Definition push {A} (x : A) (l : list A) : list A :=
  let l' := x :: l in if length l' =? 3 then take 2 l' else l'.
(** gt 171-178. *)
Fixpoint definite (pred : list bool) (cand : list nat) : result (list nat) :=
  match cand with
  | [] => Ok []
  | i :: cand' => let! b := at_ub pred i in let! r := definite pred cand' in Ok (if b : bool then i :: r else r)
  end.
(** is_outside_roi, gt 224-230: imageWidth() - kMinDistanceToImageBorderPx is computed in size_t. *)
Definition size_sub (a b : Z) : Z := ((a - b) mod 2 ^ 64)%Z.
Definition outside (s : settings) (p : Z * Z) : bool :=
  ((p.1 <? border s) || (size_sub (width s) (border s) <=? p.1) ||
   (p.2 <? border s) || (size_sub (height s) (border s) <=? p.2))%Z.
(** eraseVectorElementsByIndex, gt.h 165-183, used at gt 232-239: the elements whose flow failed or left
    the region are erased from the indices and the points. *)
Fixpoint keep_tracked (s : settings) (idx : list nat) (flow : list (bool * (Z * Z))) : list (nat * (Z * Z)) :=
  match idx, flow with
  | i :: idx', (ok, p) :: flow' =>
    (if negb ok || outside s p then [] else [(i, p)]) ++ keep_tracked s idx' flow'
  | _, _ => []
  end.
(** gt 259-267: one match per keypoint that survives extraction; [surv] are the class_ids. *)
Fixpoint new_matches (n0 : nat) (kept : list (nat * (Z * Z))) (i : nat) (surv : list nat)
  : result (list (Z * Z) * list (Z * Z)) :=
  match surv with
  | [] => Ok ([], [])
  | c :: surv' =>
    let! x := at_ub kept c in
    let! r := new_matches n0 kept (S i) surv' in
    Ok ((Z.of_nat (n0 + i), Z.of_nat x.1) :: r.1, x.2 :: r.2)
  end.
(** lkTracking, gt 154-294: new matches, new keypoints and the status of the features of frame k+1. *)
Definition lk_tracking (s : settings) (flow : list nat -> list (bool * (Z * Z))) (extract : list (Z * Z) -> list nat)
    (n0 : nat) (pred : list bool) (cand : list nat)
  : result (list (Z * Z) * list (Z * Z) * list status) :=
  if length pred <? length cand then Abort                       (* gt 166 *)
  else
    let! d := definite pred cand in
    match d with
    | [] => Ok ([], [], replicate n0 Detected)
    | _ =>
      if negb (length (flow d) =? length d) then Abort           (* gt 220-222 *)
      else
        let kept := keep_tracked s d (flow d) in
        let surv := extract (kept.*2) in
        let! r := new_matches n0 kept 0 surv in
        Ok (r.1, r.2, replicate n0 Detected ++ replicate (length surv) LkTracked)
    end.

(** ** One call of track, gt 76-152 *)
Record input := Input {
  ids_k : list Z;                      (* track ids of frame k *)
  num_kp1 : nat;                       (* keypoints of frame k+1 *)
  found : list (Z * Z);                (* result of the matcher: (index in k+1, index in k) *)
  pred : list bool;                    (* prediction_success *)
  sort_down : list (nat * nat) -> list (nat * nat);
  sort_up : list (nat * nat) -> list (nat * nat);
  flow : list nat -> list (bool * (Z * Z));      (* flow of the keypoints with these indices *)
  extract : list (Z * Z) -> list nat }.          (* class_ids of the keypoints kept by the extractor *)
Record output := Output {
  matches : list (Z * Z);
  candidates : list nat;
  added : list (Z * Z) }.              (* keypoints appended to frame k+1 *)
Definition track (s : settings) (t : tracker) (x : input) : result (tracker * output) :=
  if negb (Qle_bool (ratio s) 0) then
    let ts := push (ids_k x) (tids t) in
    let n := length (ids_k x) in
    let! st := (if inited t then Ok (stats t)
           else if length ts =? 1 then Ok (push (replicate n Detected) (stats t)) else Abort) in
    let t1 := Tracker (inited t) ts st (lens t) in
    let! tm := tracked_matches t1 in
    let! len := status_lengths t1 tm in
    let! st_k := at_ub st 0 in
    let! c := lk_candidates s (sort_down x) (sort_up x) n (num_kp1 x) (found x) len st_k in
    let! r := lk_tracking s (flow x) (extract x) (num_kp1 x) (pred x) c in
    Ok (Tracker true ts (push r.2 st) len, Output (found x ++ r.1.1) c r.1.2)
  else Ok (t, Output (found x) [] []).
