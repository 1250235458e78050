(** Model of descriptors stored as text and of the queries by descriptor type of a visual frame.

    Source: aslam_cv_frames/src/visual-frame.cc ("vf") 305-333, 733-754, 782-950, 1047-1050; visual-frame.h ("vh") 425-470;
            aslam_cv_common/include/aslam/common/channel-declaration.h ("decl") 40-66, 105-120.

    The bytes of the text are those of SerializationModel.v (vectors of matrices of unsigned char). A channel is [None] if it is not in the channel group; reading
    a missing channel is [Abort] (decl 110). Simplifications: a frame whose call throws is not looked at again; numbers of columns are unbounded; Eigen's
    accesses to std::vector outside of its size are [UB]. Measurements are pairs of real numbers. *)
From Coq Require Import ZArith Reals List Bool Strings.Byte.
From Verif Require Import SerializationModel.
Import ListNotations.
Open Scope Z_scope.

Record dframe := {
  measurements : option (list (R * R));     (* VISUAL_KEYPOINT_MEASUREMENTS *)
  descriptors : option (list matrix);       (* DESCRIPTORS *)
  types : option (list Z) }.                (* DESCRIPTOR_TYPES *)
Definition with_descriptors (f : dframe) (ms : option (list matrix)) (ts : option (list Z)) : dframe :=
  {| measurements := measurements f; descriptors := ms; types := ts |}.

(** get_..._Data, decl 103-119. *)
Definition channel {A} (c : option A) : outcome A := match c with Some a => Done a | None => Abort end.

(** ** Text. serializeDescriptorsToString, vf 782-785, and deserializeDescriptorsFromString, vf 787-792; [esz] is sizeof(DescriptorsT). *)
Definition serialize_descriptors (lim : Z) (f : dframe) : outcome (list byte) :=
  bind (channel (descriptors f)) (fun ms => vec_to_buffer lim U8 ms).
Definition deserialize_descriptors (lim esz : Z) (f : dframe) (text : list byte) : outcome dframe :=
  bind (vec_from_buffer lim esz U8 None None text) (fun ms => Done (with_descriptors f (Some ms) (types f))).
(** setDescriptorTypes, vf 809-820. *)
Definition set_types (f : dframe) (ts : list Z) : outcome dframe :=
  bind (channel (descriptors f)) (fun ms =>
  if (length ms =? length ts)%nat then Done (with_descriptors f (descriptors f) (Some ts)) else Abort).

(** ** Changing blocks. The start of both functions: the channels, added if the first is missing (adding an existing channel aborts, decl 76), and their check. *)
Definition both_channels (f : dframe) : outcome (list matrix * list Z) :=
  match descriptors f with
  | None => match types f with None => Done ([], []) | Some _ => Abort end
  | Some ms => bind (channel (types f)) (fun ts => if (length ms =? length ts)%nat then Done (ms, ts) else Abort)
  end.
Fixpoint replace {A} (i : nat) (a : A) (l : list A) : list A :=
  match l, i with
  | [], _ => []
  | _ :: l', O => a :: l'
  | b :: l', S i' => b :: replace i' a l'
  end.
(** setDescriptors, vf 305-328. *)
Definition set_descriptors (f : dframe) (m : matrix) (index : nat) (t : Z) : outcome dframe :=
  bind (both_channels f) (fun '(ms, ts) =>
  match ms with
  | [] => Done (with_descriptors f (Some [m]) (Some [t]))
  | _ => if (index <? length ms)%nat then Done (with_descriptors f (Some (replace index m ms)) (Some (replace index t ts))) else Abort
  end).
(** extendDescriptors, vf 733-750. *)
Definition extend_descriptors (f : dframe) (m : matrix) (t : Z) : outcome dframe :=
  bind (both_channels f) (fun '(ms, ts) => Done (with_descriptors f (Some (ms ++ [m])) (Some (ts ++ [t])))).

(** ** Queries. hasDescriptorType, vf 794-807. *)
Definition has_type (f : dframe) (t : Z) : outcome bool :=
  match descriptors f with
  | None => Done false
  | Some _ => bind (channel (types f)) (fun ts => Done (existsb (fun t' => t' =? t) ts))
  end.
(** getDescriptorTypeBlock, vf 840-851. *)
Fixpoint find_type (ts : list Z) (block : nat) (t : Z) : option nat :=
  match ts with
  | [] => None
  | t' :: ts' => if t' =? t then Some block else find_type ts' (S block) t
  end.
Definition type_block (f : dframe) (t : Z) : outcome nat :=
  bind (channel (types f)) (fun ts => match find_type ts 0 t with Some b => Done b | None => Abort end).
(** getNumKeypointMeasurementsOfType, vf 853-866. *)
Definition num_of_type (f : dframe) (t : Z) : outcome Z :=
  match measurements f with
  | None => Done 0
  | Some _ =>
      bind (channel (descriptors f)) (fun ms =>
      bind (has_type f t) (fun has =>
      if negb has then Done 0
      else bind (type_block f t) (fun b => match nth_error ms b with None => Abort | Some m => Done (m_cols m) end)))
  end.
(** The loop of getDescriptorBlockTypeStartAndSize, vf 877-880: the columns of the first [b] blocks; [None]: access outside of the vector. *)
Fixpoint start_of (ms : list matrix) (b : nat) : option Z :=
  match b, ms with
  | O, _ => Some 0
  | S b', m :: ms' => match start_of ms' b' with Some n => Some (m_cols m + n) | None => None end
  | S _, [] => None
  end.
(** getDescriptorBlockTypeStartAndSize, vf 868-882. *)
Definition start_and_size (f : dframe) (t : Z) : outcome (Z * Z) :=
  bind (channel (descriptors f)) (fun ms =>
  bind (type_block f t) (fun b =>
  match start_of ms b, nth_error ms b with
  | Some start, Some m => Done (start, m_cols m)
  | _, _ => UB
  end)).
(** getKeypointMeasurementsOfType, vf 884-892. *)
Definition keypoints_of_type (f : dframe) (t : Z) : outcome (list (R * R)) :=
  bind (start_and_size f t) (fun '(start, size) =>
  bind (channel (measurements f)) (fun kps =>
  if start + size <=? len kps then Done (firstn (Z.to_nat size) (skipn (Z.to_nat start) kps)) else Abort)).
(** getDescriptorsOfType with getDescriptors, vf 102-107, 947-950, and getDescriptorTypeSizeBytes, vf 1047-1050. *)
Definition descriptors_of_type (f : dframe) (t : Z) : outcome matrix :=
  bind (type_block f t) (fun b =>
  bind (channel (descriptors f)) (fun ms => match nth_error ms b with None => Abort | Some m => Done m end)).
Definition type_size_bytes (f : dframe) (t : Z) : outcome Z := bind (descriptors_of_type f t) (fun m => Done (m_rows m)).
