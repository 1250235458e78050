(** Model of access to single elements of the channels of a frame.

    Source: aslam_cv_frames/src/visual-frame.cc ("vf") 102-106, 119-168, 170-214, 236-241. The channels are those of [FrameSwapModel]; a cell is one column of a matrix or one entry of a vector.

    Indices are size_t of 64 bits; int has 32 bits, Eigen::Index and the types of rows() and cols() are signed with 64 bits. A failed CHECK, also that of a missing channel, is [Abort]; an access outside of the data is [Undef] (blocks are checked by an assertion of Eigen in debug builds only, coeff never). *)
From Coq Require Import List ZArith Bool.
From Verif Require Import FrameSwapModel.
Import ListNotations.
Local Open Scope Z_scope.

(** Conversions of a size_t to a signed type of the given width. *)
Definition to_signed (bits index : Z) : Z := let m := index mod 2 ^ bits in if m <? 2 ^ (bits - 1) then m else m - 2 ^ bits.
(** coeff and block: the cell at a signed position. *)
Definition cell_at (data : value) (position : Z) : result Z :=
  if position <? 0 then Undef else match nth_error data (Z.to_nat position) with Some x => Ok x | None => Undef end.
(** getKeypointMeasurement, -Uncertainty, -Orientation, -Score, -Scale, -3DPosition, -TimeOffset and getTrackId, vf 170-214, 236-241: CHECK_LT(static_cast<int>(index), rows). *)
Definition get_element (s : state) (c : channel) (index : Z) : result Z :=
  match chan s c with
  | None => Abort
  | Some data => if to_signed 32 index <? Z.of_nat (length data) then cell_at data (to_signed 64 index) else Abort
  end.
(** The access to blocks of descriptors, vf 102-106, 153-159: CHECK_LT(index, size) without conversion. *)
Definition get_block (s : state) (index : Z) : result value :=
  match blocks s with
  | None => Abort
  | Some b => if index <? Z.of_nat (length b) then match nth_error b (Z.to_nat index) with Some v => Ok v | None => Undef end else Abort
  end.
(** A pointer from get...Mutable, vf 119-168, is the channel it points into; [write] stores a cell through it. *)
Definition get_mutable (s : state) (c : channel) : result channel := match chan s c with Some _ => Ok c | None => Abort end.
Definition write (s : state) (p : channel) (i : nat) (x : Z) : result state :=
  match chan s p with
  | None => Undef
  | Some data => if Nat.ltb i (length data) then Ok (put_chan s p (replace i x data)) else Undef
  end.
