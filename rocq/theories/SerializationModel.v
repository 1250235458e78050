(** Model of the channel serialization.

    Source: aslam_cv_common/include/aslam/common/channel-serialization.h ("h") and
            aslam_cv_common/src/channel-serialization.cc ("cc").

    Buffers are lists of bytes; a matrix is its dimensions and the bytes of its coefficients in storage
    order.  size_t arithmetic is modulo 2^64, conversion to int and uint32_t modulo 2^32.

    Simplifications:
    - little-endian machine, sizeof(size_t) = 8, sizeof(int) = 4;
    - dynamic memory: requests of up to [lim] bytes succeed, larger ones throw (std::bad_alloc,
      std::length_error, cv::Exception); [lim] is a parameter of which the proofs assume
      lim < 2^63 (no larger object can be allocated on a 64-bit system);
    - Eigen: resize(rows, cols) throws if the product does not fit (this is what
      check_rows_cols_for_overflow and aligned_malloc do), otherwise allocates;
    - OpenCV (not part of /repo): CV_MAKETYPE(depth, cn) = depth + ((cn - 1) << 3), cv::Mat::create
      masks the type with 0xfff, rejects negative dimensions and allocates rows*cols*elemSize bytes,
      cv::Mat::channels() = ((type & 0xfff) >> 3) + 1. *)
From Coq Require Import ZArith Bool List Strings.Byte.
Import ListNotations.
Open Scope Z_scope.

(** ** Bytes *)
Definition byte_of (n : Z) : byte :=
  match Byte.of_N (Z.to_N (n mod 256)) with Some b => b | None => x00 end.
Definition byte_val (b : byte) : Z := Z.of_N (Byte.to_N b).

(** memcpy of an unsigned integer of [k] bytes. *)
Fixpoint le (k : nat) (n : Z) : list byte :=
  match k with O => [] | S k' => byte_of n :: le k' (n / 256) end.
Fixpoint unle (bs : list byte) : Z :=
  match bs with [] => 0 | b :: bs' => byte_val b + 256 * unle bs' end.

Definition size_t (n : Z) : Z := n mod 2^64.
Definition uint32 (n : Z) : Z := n mod 2^32.
(** Conversion to int. *)
Definition int32 (n : Z) : Z := let m := n mod 2^32 in if m <? 2^31 then m else m - 2^32.

Definition len {A} (l : list A) : Z := Z.of_nat (length l).

Inductive outcome (A : Type) :=
| Done (a : A)
| Abort                (* CHECK or LOG(FATAL) *)
| Throw                (* exception *)
| UB                   (* access outside of a buffer *)
| Uninit.              (* returns, but the result contains uninitialised memory *)
Arguments Done {A} a. Arguments Abort {A}. Arguments Throw {A}. Arguments UB {A}.
Arguments Uninit {A}.

Definition bind {A B} (x : outcome A) (f : A -> outcome B) : outcome B :=
  match x with Done a => f a | Abort => Abort | Throw => Throw | UB => UB | Uninit => Uninit end.

(** [n] bytes from [off] in [buf]. *)
Definition read (buf : list byte) (off n : Z) : outcome (list byte) :=
  if (0 <=? off) && (0 <=? n) && (off + n <=? len buf)
  then Done (firstn (Z.to_nat n) (skipn (Z.to_nat off) buf)) else UB.

Definition alloc (lim n : Z) : outcome unit := if n <=? lim then Done tt else Throw.

(** ** Header: h 17-25, cc 6-37 *)
Record header := Header { h_rows : Z; h_cols : Z; h_depth : Z; h_channels : Z }.
Definition header_size : Z := 16.
Definition put_header (h : header) : list byte :=
  le 4 (h_rows h) ++ le 4 (h_cols h) ++ le 4 (h_depth h) ++ le 4 (h_channels h).
Definition get_header (buf : list byte) (off : Z) : outcome header :=
  bind (read buf off 4) (fun r => bind (read buf (off + 4) 4) (fun c =>
  bind (read buf (off + 8) 4) (fun d => bind (read buf (off + 12) 4) (fun n =>
  Done (Header (unle r) (unle c) (unle d) (unle n)))))).

(** Scalar types with their cv::DataType<>::depth and size. *)
Inductive scalar := U8 | S8 | U16 | S16 | S32 | F32 | F64.
Definition depth_of (s : scalar) : Z :=
  match s with U8 => 0 | S8 => 1 | U16 => 2 | S16 => 3 | S32 => 4 | F32 => 5 | F64 => 6 end.
Definition size_of (s : scalar) : Z :=
  match s with U8 => 1 | S8 => 1 | U16 => 2 | S16 => 2 | S32 => 4 | F32 => 4 | F64 => 8 end.

(** ** Matrices *)
Record matrix := Matrix { m_rows : Z; m_cols : Z; m_data : list byte }.

(** makeHeaderInformation, h 27-35: int to uint32_t. *)
Definition make_header (s : scalar) (rows cols channels : Z) : header :=
  Header (uint32 rows) (uint32 cols) (depth_of s) (uint32 channels).

(** serializeToBuffer on raw data, h 62-82; rows and cols are of type int. *)
Definition raw_to_buffer (lim : Z) (s : scalar) (data : list byte) (rows cols channels : Z)
  : outcome (list byte) :=
  let msize := size_t (size_of s * rows * cols * channels) in
  let total := size_t (msize + header_size) in
  bind (alloc lim total) (fun _ =>
  bind (read data 0 msize) (fun d =>
  if total <? header_size + msize then UB
  else Done (put_header (make_header s rows cols channels) ++ d))).

(** serializeToString on raw data, h 37-60. *)
Definition raw_to_string (lim : Z) (s : scalar) (data : list byte) (rows cols channels : Z)
  : outcome (list byte) :=
  if (rows <? 0) || (cols <? 0) then Abort
  else
    let msize := size_t (size_of s * rows * cols * channels) in
    let total := size_t (msize + header_size) in
    if total <=? 0 then Abort
    else
      bind (alloc lim total) (fun _ =>
      bind (read data 0 msize) (fun d =>
      if total <? header_size + msize then UB
      else Done (put_header (make_header s rows cols channels) ++ d))).

(** h 84-92, 94-102: Index to int at the call. *)
Definition mat_to_buffer (lim : Z) (s : scalar) (m : matrix) : outcome (list byte) :=
  raw_to_buffer lim s (m_data m) (int32 (m_rows m)) (int32 (m_cols m)) 1.
Definition mat_to_string (lim : Z) (s : scalar) (m : matrix) : outcome (list byte) :=
  raw_to_string lim s (m_data m) (int32 (m_rows m)) (int32 (m_cols m)) 1.

(** A dimension template argument: fixed or Eigen::Dynamic. *)
Definition dim := option Z.
Definition dim_check (d : dim) (n : Z) : bool :=
  match d with Some k => n =? uint32 k | None => true end.
(** The dimension after resize, h 220-226. *)
Definition dim_after (d : dim) (n : Z) : Z := match d with Some k => k | None => n end.

(** deSerializeFromBuffer for a matrix, h 199-233. *)
Definition mat_from_buffer (lim : Z) (s : scalar) (R C : dim) (buf : list byte) : outcome matrix :=
  if len buf <? header_size then Abort
  else
    bind (get_header buf 0) (fun h =>
    if negb (dim_check R (h_rows h)) then Abort
    else if negb (dim_check C (h_cols h)) then Abort
    else if negb (h_depth h =? depth_of s) then Abort
    else if negb (h_channels h =? 1) then Abort
    else
      let rows := dim_after R (h_rows h) in
      let cols := dim_after C (h_cols h) in
      bind (alloc lim (size_of s * rows * cols)) (fun _ =>
      let msize := size_t (size_of s * rows * cols) in
      let total := size_t (msize + header_size) in
      if negb (len buf =? total) then Abort
      else bind (read buf header_size msize) (fun d => Done (Matrix rows cols d)))).

(** ** Vectors of matrices *)
(** serializeToBuffer and serializeToString, h 104-197; the loop at 130-147 / 178-194. *)
Fixpoint put_all (s : scalar) (ms : list matrix) : outcome (list byte) :=
  match ms with
  | [] => Done []
  | m :: ms' =>
    let rows := int32 (m_rows m) in
    let cols := int32 (m_cols m) in
    bind (read (m_data m) 0 (size_t (size_of s * rows * cols * 1))) (fun d =>
    bind (put_all s ms') (fun rest => Done (put_header (make_header s rows cols 1) ++ d ++ rest)))
  end.
(** The loop at 118-123 / 165-170. *)
Fixpoint vec_size (s : scalar) (ms : list matrix) (acc : Z) : Z :=
  match ms with
  | [] => acc
  | m :: ms' =>
    vec_size s ms'
      (size_t (acc + (size_t (size_of s * int32 (m_rows m) * int32 (m_cols m) * 1) + header_size)))
  end.
Definition vec_to_buffer (lim : Z) (s : scalar) (ms : list matrix) : outcome (list byte) :=
  let size := vec_size s ms 8 in
  bind (alloc lim size) (fun _ =>
  bind (put_all s ms) (fun body =>
  if size <? 8 + len body then UB else Done (le 8 (len ms) ++ body))).

(** The loop at 252-282; [n] more matrices from [off]. *)
Fixpoint get_all (lim : Z) (s : scalar) (R C : dim) (buf : list byte) (off : Z) (n : nat)
  : outcome (list matrix) :=
  match n with
  | O => Done []
  | S n' =>
    bind (get_header buf off) (fun h =>
    if negb (dim_check R (h_rows h)) then Abort
    else if negb (dim_check C (h_cols h)) then Abort
    else if negb (h_depth h =? depth_of s) then Abort
    else if negb (h_channels h =? 1) then Abort
    else
      let rows := dim_after R (h_rows h) in
      let cols := dim_after C (h_cols h) in
      bind (alloc lim (size_of s * rows * cols)) (fun _ =>
      let msize := size_t (size_of s * rows * cols) in
      bind (read buf (off + header_size) msize) (fun d =>
      bind (get_all lim s R C buf (off + header_size + msize) n') (fun rest =>
      Done (Matrix rows cols d :: rest)))))
  end.

(** deSerializeFromBuffer for vectors, h 242-285.  [esz] = sizeof(Eigen::Matrix<...>). *)
Definition vec_from_buffer (lim esz : Z) (s : scalar) (R C : dim) (buf : list byte)
  : outcome (list matrix) :=
  bind (read buf 0 8) (fun b =>
  bind (alloc lim (esz * unle b)) (fun _ =>
  get_all lim s R C buf 8 (Z.to_nat (unle b)))).

(** ** Images (cv::Mat) *)
Record image := Image { i_rows : Z; i_cols : Z; i_scalar : scalar; i_channels : Z;
                        i_data : list byte }.

(** cc 39-92 and 158-212, for a continuous two-dimensional image; [string] tells which of the two.
    image.rows * image.cols is an int multiplication (43, 161). *)
Definition img_serialize (string : bool) (lim : Z) (i : image) : outcome (list byte) :=
  if 2^31 <=? i_rows i * i_cols i then UB
  else if string then raw_to_string lim (i_scalar i) (i_data i) (i_rows i) (i_cols i) (i_channels i)
  else raw_to_buffer lim (i_scalar i) (i_data i) (i_rows i) (i_cols i) (i_channels i).

(** cc 126-153 *)
Definition scalar_of_depth (d : Z) : option scalar :=
  if d =? 0 then Some U8 else if d =? 1 then Some S8 else if d =? 2 then Some U16
  else if d =? 3 then Some S16 else if d =? 4 then Some S32 else if d =? 5 then Some F32
  else if d =? 6 then Some F64 else None.

(** CV_MAKETYPE (cc 107), masked by create: the number of channels of the created image. *)
Definition created_channels (s : scalar) (cn : Z) : Z :=
  let type := uint32 (depth_of s + uint32 ((cn - 1) * 8)) in
  Z.shiftr (Z.land type 4095) 3 + 1.

(** deSerializeTypedFromBuffer, cc 99-112, and deSerializeFromBuffer, cc 114-156. *)
Definition img_from_buffer (lim : Z) (buf : list byte) : outcome image :=
  if len buf <? header_size then Abort
  else
    bind (get_header buf 0) (fun h =>
    match scalar_of_depth (h_depth h) with
    | None => Abort
    | Some s =>
      let msize := size_t (size_of s * h_rows h * h_cols h * h_channels h) in
      let total := size_t (msize + header_size) in
      if negb (len buf =? total) then Abort
      else
        let rows := int32 (h_rows h) in
        let cols := int32 (h_cols h) in
        let cn := created_channels s (h_channels h) in
        if (rows <? 0) || (cols <? 0) then Throw
        else
          let capacity := size_of s * cn * rows * cols in
          bind (alloc lim capacity) (fun _ =>
          bind (read buf header_size msize) (fun d =>
          if capacity <? msize then UB              (* memcpy writes beyond the image *)
          else if msize <? capacity then Uninit
          else Done (Image rows cols s cn d)))
    end).
