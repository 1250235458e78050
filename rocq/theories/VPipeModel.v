(** Model of the visual pipelines that detect keypoints in one image.

    Source: aslam_cv_pipeline/src/visual-pipeline.cc ("vp") 11-57; visual-pipeline-brisk.cc ("br") 33-112; visual-pipeline-freak.cc ("fr") 43-115; aslam_cv_frames/src/visual-frame.cc ("vf") 307-410.

    The contents of an image are of an abstract type of pictures; a cv::Mat of the caller is the number of a buffer with its size. Detector and extractor are objects that are allocated and freed; what they compute, and the undistortion, are functions of the picture (oracles). float values are real numbers. Ids of frames are counted (they are modelled in HashIdModel). [Fatal]: a CHECK fails; [Undefined]: an object is used or freed after it was freed. *)
From Coq Require Import Reals ZArith List Bool Arith.
Import ListNotations.

Inductive outcome (A : Type) := Fine (a : A) | Fatal | Undefined.
Arguments Fine {A}. Arguments Fatal {A}. Arguments Undefined {A}.

(** cv::KeyPoint. *)
Record keypoint := Keypoint { kx : R; ky : R; size : R; angle : R; response : R }.
(** A cv::Mat with descriptors, one per row, row by row. *)
Record mat := Mat { m_rows : nat; m_cols : nat; m_type : Z; m_continuous : bool; m_bytes : list Z }.
Definition CV_8UC1 : Z := 0%Z.
(** An Eigen matrix in columns; Eigen::Map of the same bytes. *)
Record matrix := Matrix { e_rows : nat; e_cols : nat; e_bytes : list Z }.
Definition map_bytes (bytes : list Z) (rows cols : nat) : matrix := Matrix rows cols bytes.
Definition coefficient (m : matrix) (r c : nat) : Z := nth (c * e_rows m + r) (e_bytes m) 0%Z.

Record image := Image { im_width : Z; im_height : Z; im_buffer : nat }.
Record camera := Camera { cam_id : nat; cam_width : Z; cam_height : Z }.
Record frame := Frame {
  f_id : nat; f_time : Z; f_raw_camera : camera; f_camera : camera; f_raw_image : image; f_descriptors : matrix;
  f_keypoints : list (R * R); f_scores : list R; f_orientations : list R; f_scales : list R; f_uncertainties : list R }.

Section model.
Context {P : Type}.
Variable detect : P -> list keypoint.
Variable compute : P -> list keypoint -> list keypoint * mat.

Record state := State { alive : nat -> bool; next_object : nat; pictures : nat -> P; next_buffer : nat; next_id : nat }.
Record pipeline := Pipeline { input : camera; output : camera; copy_images : bool; preprocessing : option (P -> P); detector : nat; extractor : nat }.

(** new, and the end of the last owner of an object. *)
Definition allocate (s : state) : nat * state := (next_object s, State (fun o => if Nat.eqb o (next_object s) then true else alive s o) (S (next_object s)) (pictures s) (next_buffer s) (next_id s)).
Definition free (o : nat) (s : state) : outcome state := if alive s o then Fine (State (fun q => if Nat.eqb q o then false else alive s q) (next_object s) (pictures s) (next_buffer s) (next_id s)) else Undefined.

(** The constructors with initializeBrisk, br 33-58: the members are reset with new objects. *)
Definition construct_brisk (input output : camera) (copy : bool) (pre : option (P -> P)) (s : state) : outcome (pipeline * state) :=
  let (d, s) := allocate s in
  let (e, s) := allocate s in
  Fine (Pipeline input output copy pre d e, s).
(** The constructors with initializeFreak, fr 43-62: create returns a cv::Ptr, the member is reset with the pointer in it, and the cv::Ptr ends with the statement, fr 58-61. *)
Definition construct_freak (input output : camera) (copy : bool) (pre : option (P -> P)) (s : state) : outcome (pipeline * state) :=
  let (d, s) := allocate s in
  match free d s with
  | Fine s =>
      let (e, s) := allocate s in
      match free e s with
      | Fine s => Fine (Pipeline input output copy pre d e, s)
      | Fatal => Fatal
      | Undefined => Undefined
      end
  | Fatal => Fatal
  | Undefined => Undefined
  end.
(** The destructor: the members are destroyed in reverse order. *)
Definition destroy (p : pipeline) (s : state) : outcome state :=
  match free (extractor p) s with Fine s => free (detector p) s | r => r end.

(** detect and compute, br 63-73, fr 67-77. *)
Definition extract (p : pipeline) (s : state) (picture : P) : outcome (list keypoint * mat) :=
  if alive s (detector p) then
    match detect picture with
    | [] => Fine ([], Mat 0 0 CV_8UC1 true [])
    | kps => if alive s (extractor p) then Fine (compute picture kps) else Undefined
    end
  else Undefined.
(** processImage, vp 28-57, with processFrameImpl, br 60-112, fr 64-115. *)
Definition process_image (p : pipeline) (raw : image) (time : Z) (s : state) : outcome (frame * state) :=
  if (cam_width (input p) =? im_width raw)%Z && (cam_height (input p) =? im_height raw)%Z then
    let id := next_id s in
    let '(stored, s) :=
      if copy_images p then (Image (im_width raw) (im_height raw) (next_buffer s), State (alive s) (next_object s) (fun b => if Nat.eqb b (next_buffer s) then pictures s (im_buffer raw) else pictures s b) (S (next_buffer s)) (S id))
      else (raw, State (alive s) (next_object s) (pictures s) (next_buffer s) (S id)) in
    let picture := match preprocessing p with Some f => f (pictures s (im_buffer raw)) | None => pictures s (im_buffer raw) end in
    match extract p s picture with
    | Fine (kps, descriptors) =>
        if (m_type descriptors =? CV_8UC1)%Z && m_continuous descriptors then
          Fine (Frame id time (input p) (output p) stored (map_bytes (m_bytes descriptors) (m_cols descriptors) (m_rows descriptors))
                  (map (fun k => (kx k, ky k)) kps) (map response kps) (map angle kps) (map size kps) (map (fun _ => (8 / 10)%R) kps), s)
        else Fatal
    | Fatal => Fatal
    | Undefined => Undefined
    end
  else Fatal.

(** What happens to a pipeline: the caller writes a picture into a buffer, or processes an image. *)
Inductive op := Write (buffer : nat) (picture : P) | Process (raw : image) (time : Z).
Fixpoint run (p : pipeline) (l : list op) (s : state) : outcome (list frame * state) :=
  match l with
  | [] => Fine ([], s)
  | Write b v :: l => run p l (State (alive s) (next_object s) (fun q => if Nat.eqb q b then v else pictures s q) (next_buffer s) (next_id s))
  | Process raw time :: l =>
      match process_image p raw time s with
      | Fine (f, s) => match run p l s with Fine (fs, s) => Fine (f :: fs, s) | r => r end
      | Fatal => Fatal
      | Undefined => Undefined
      end
  end.
End model.
