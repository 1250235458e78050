(** Model of the keypoint channels of a visual frame.

    Source: aslam_cv_frames/src/visual-frame.cc ("vf").

    Simplifications: one column of a channel (a coordinate pair, a scale, a track id, a descriptor...)
    is one integer; [None] as a cell is uninitialised memory. Sizes fit into int. Channels are named by
    strings as in ChannelModel.v; the descriptor blocks and their types have channels of their own. *)
From Coq Require Import ZArith Bool.
From stdpp Require Import list gmap strings.
From Verif Require Import StlHelpersModel.
Local Open Scope nat_scope.

Notation cell := (option Z).
Record frame := Frame {
  cols : gmap string (list cell);          (* keypoint channels *)
  blocks : option (list (list Z));         (* DESCRIPTORS: one list of columns per block *)
  types : option (list Z) }.               (* DESCRIPTOR_TYPES *)
Definition empty_frame : frame := Frame ∅ None None.

Definition KP : string := "VISUAL_KEYPOINT_MEASUREMENTS".
Definition UNC : string := "VISUAL_KEYPOINT_MEASUREMENT_UNCERTAINTIES".
Definition ORI : string := "VISUAL_KEYPOINT_ORIENTATIONS".
Definition SCORE : string := "VISUAL_KEYPOINT_SCORES".
Definition SCALE : string := "VISUAL_KEYPOINT_SCALES".
Definition POS3 : string := "VISUAL_KEYPOINT_3D_POSITIONS".
Definition TOFF : string := "VISUAL_KEYPOINT_TIME_OFFSETS".
Definition TRACK : string := "TRACK_IDS".

Definition bind {A B} (r : result A) (k : A -> result B) : result B :=
  match r with Ok a => k a | Abort => Abort | Ub => Ub end.

Definition set_col (f : frame) (n : string) (d : list cell) : frame :=
  Frame (<[n := d]> (cols f)) (blocks f) (types f).
(** The channel, created empty if missing (as every extend... and set... does first). *)
Definition col (f : frame) (n : string) : list cell := default [] (cols f !! n).
(** getNumKeypointMeasurements, visual-frame.h 109-111. *)
Definition num_keypoints (f : frame) : nat :=
  match cols f !! KP with Some k => length k | None => 0 end.

(** Eigen: conservativeResize keeps the old prefix, the rest is uninitialised; assignment to a segment
    must stay in range. *)
Definition conservative_resize (d : list cell) (n : nat) : list cell :=
  take n d ++ replicate (n - length d) None.
Definition write_segment (d : list cell) (start : nat) (v : list cell) : result (list cell) :=
  if start + length v <=? length d then Ok (take start d ++ v ++ drop (start + length v) d) else Ub.

(** extendKeypointMeasurements, vf 619-630. *)
Definition extend_keypoints (f : frame) (new : list cell) : result frame :=
  let k := col f KP in
  bind (write_segment (conservative_resize k (length k + length new)) (length k) new)
    (fun k' => Ok (set_col f KP k')).
(** extendDataVector, vf 632-650, and extendKeypoint3DPositions, vf 704-719. *)
Definition extend_data (d new : list cell) (n : nat) (dflt : cell) : result (list cell) :=
  let num_data := length d + length new in
  if negb (num_data <=? n) then Abort
  else
    let num_padding := n - num_data in
    let d1 := conservative_resize d n in
    bind (if 0 <? num_padding then write_segment d1 (length d) (replicate num_padding dflt) else Ok d1)
      (fun d2 => write_segment d2 (length d + num_padding) new).
(** extendKeypoint{MeasurementUncertainties, Orientations, Scores, Scales, 3DPositions, TimeOffsets} and
    extendTrackIds, vf 652-731, 756-765. *)
Definition extend_col (f : frame) (name : string) (new : list cell) (dflt : cell) : result frame :=
  bind (extend_data (col f name) new (num_keypoints f) dflt) (fun d => Ok (set_col f name d)).
(** extendDescriptors, vf 733-750. *)
Definition extend_descriptors (f : frame) (new : list Z) (t : Z) : result frame :=
  let '(bs, ts) := match blocks f with
                   | None => (Some [], match types f with None => Some [] | Some _ => None end)  (* add aborts *)
                   | Some b => (Some b, types f)
                   end in
  match bs, ts with
  | Some b, Some ty =>
    if length b =? length ty then Ok (Frame (cols f) (Some (b ++ [new])) (Some (ty ++ [t]))) else Abort
  | _, _ => Abort
  end.

Inductive act :=
| EKp (new : list cell)
| ECol (name : string) (new : list cell) (dflt : cell)
| EDesc (new : list Z) (t : Z).
Definition step (f : frame) (a : act) : result frame :=
  match a with
  | EKp new => extend_keypoints f new
  | ECol name new d => if bool_decide (name = KP) then Abort (* no such call *) else extend_col f name new d
  | EDesc new t => extend_descriptors f new t
  end.
Fixpoint run (f : frame) (acts : list act) : result frame :=
  match acts with
  | [] => Ok f
  | a :: acts' => bind (step f a) (fun f' => run f' acts')
  end.

(** ** discardUntrackedObservations, vf 572-617. *)
(** The loop 579-583. *)
Fixpoint untracked (i : nat) (ids : list cell) : result (list nat) :=
  match ids with
  | [] => Ok []
  | None :: _ => Ub
  | Some t :: ids' => bind (untracked (S i) ids') (fun r => Ok (if (t <? 0)%Z then i :: r else r))
  end.
(** One "if (has...) erase" of 588-608. *)
Definition erase_col (idx : list nat) (count : nat) (name : string) (f : frame) : result frame :=
  match cols f !! name with
  | None => Ok f
  | Some d => bind (erase_container idx count d) (fun d' => Ok (set_col f name d'))
  end.
(** 609-614: only descriptor block 0. *)
Definition erase_descriptors (idx : list nat) (count : nat) (f : frame) : result frame :=
  match blocks f with
  | None => Ok f
  | Some [] => Abort                                     (* getDescriptorsMutable: CHECK_LT *)
  | Some (b :: bs) => bind (erase_container idx count b) (fun b' => Ok (Frame (cols f) (Some (b' :: bs)) (types f)))
  end.
Definition discard_untracked (f : frame) : result (frame * list nat) :=
  match cols f !! TRACK with
  | None => Abort
  | Some ids =>
    bind (untracked 0 ids) (fun idx =>
    match idx with
    | [] => Ok (f, [])
    | _ =>
      let n := length ids in
      bind (erase_col idx n KP f) (fun f =>
      bind (erase_col idx n UNC f) (fun f =>
      bind (erase_col idx n ORI f) (fun f =>
      bind (erase_col idx n SCORE f) (fun f =>
      bind (erase_col idx n SCALE f) (fun f =>
      bind (erase_descriptors idx n f) (fun f =>
      bind (erase_col idx n TRACK f) (fun f => Ok (f, idx))))))))
    end)
  end.

(** ** Descriptor blocks. *)
(** getDescriptorBlockForIndex, vf 216-227: block and remaining index; [None]: LOG(FATAL). *)
Fixpoint block_for_index (bs : list (list Z)) (block : nat) (index : nat) : option (nat * nat) :=
  match bs with
  | [] => None
  | b :: bs' => if index <? length b then Some (block, index) else block_for_index bs' (S block) (index - length b)
  end.
(** getDescriptor, vf 229-234. *)
Definition get_descriptor (f : frame) (index : nat) : option Z :=
  bs ← blocks f;
  '(b, i) ← block_for_index bs 0 index;
  blk ← bs !! b;
  blk !! i.
(** getDescriptorType, vf 826-838. *)
Definition get_descriptor_type (f : frame) (index : nat) : option Z :=
  bs ← blocks f;
  '(b, _) ← block_for_index bs 0 index;
  ts ← types f;
  ts !! b.
(** getNumDescriptors, vf 767-780. *)
Definition num_descriptors (f : frame) : nat :=
  match blocks f with None => 0 | Some bs => foldl (fun n b => n + length b) 0 bs end.
(** getDescriptorTypeBlock, vf 840-851. *)
Fixpoint type_block (ts : list Z) (block : nat) (t : Z) : option nat :=
  match ts with
  | [] => None
  | t' :: ts' => if (t' =? t)%Z then Some block else type_block ts' (S block) t
  end.
(** getDescriptorBlockTypeStartAndSize, vf 868-882. *)
Definition start_and_size (f : frame) (t : Z) : option (nat * nat) :=
  bs ← blocks f;
  ts ← types f;
  b ← type_block ts 0 t;
  blk ← bs !! b;                                         (* out of range: undefined *)
  Some (foldl (fun n b => n + length b) 0 (take b bs), length blk).
(** get...OfType, vf 884-969. *)
Definition col_of_type (f : frame) (name : string) (t : Z) : option (list cell) :=
  '(start, size) ← start_and_size f t;
  d ← cols f !! name;
  if start + size <=? length d then Some (take size (drop start d)) else None.
(** get...OfType for one index, vf 971-1045. *)
Definition cell_of_type (f : frame) (name : string) (t : Z) (index : nat) : option cell :=
  '(start, size) ← start_and_size f t;
  if index <? size then
    d ← cols f !! name;
    if start + size <=? length d then d !! (start + index) else None
  else None.
(** getDescriptorsOfType, vf 947-950. *)
Definition descriptors_of_type (f : frame) (t : Z) : option (list Z) :=
  ts ← types f;
  b ← type_block ts 0 t;
  bs ← blocks f;
  bs !! b.
(** getNumKeypointMeasurementsOfType, vf 853-866; hasDescriptorType, vf 794-807. *)
Definition num_of_type (f : frame) (t : Z) : option nat :=
  match cols f !! KP with
  | None => Some 0
  | Some _ =>
    bs ← blocks f;
    ts ← types f;
    match type_block ts 0 t with
    | None => Some 0
    | Some b => blk ← bs !! b; Some (length blk)
    end
  end.

(** ** setDescriptors, vf 306-328, and clearKeypointChannels, vf 441-454. *)
Definition set_descriptors (f : frame) (new : list Z) (index : nat) (t : Z) : result frame :=
  let '(bs, ts) := match blocks f with
                   | None => (Some [], match types f with None => Some [] | Some _ => None end)
                   | Some b => (Some b, types f)
                   end in
  match bs, ts with
  | Some b, Some ty =>
    if negb (length b =? length ty) then Abort
    else if length b =? 0 then Ok (Frame (cols f) (Some [new]) (Some [t]))
    else if negb (index <? length b) then Abort
    else Ok (Frame (cols f) (Some (<[index := new]> b)) (Some (<[index := t]> ty)))
  | _, _ => Abort
  end.
Definition clear_keypoint_channels (f : frame) : result frame :=
  set_descriptors
    (set_col (set_col (set_col (set_col (set_col (set_col f KP []) TRACK []) UNC []) ORI []) SCORE []) SCALE [])
    [] 0 0.

(** ** getNormalizedBearingVectors, vf 544-548: the selected columns; reading past the end is undefined. *)
Fixpoint select_keypoints (kps : list cell) (num : nat) (idx : list nat) : result (list cell) :=
  match idx with
  | [] => Ok []
  | i :: idx' =>
    if negb (i <=? num) then Abort                      (* CHECK_LE *)
    else match kps !! i with
         | None => Ub
         | Some k => bind (select_keypoints kps num idx') (fun r => Ok (k :: r))
         end
  end.
