(** Model of the delays of rolling shutter cameras.

    Source: aslam_cv_cameras/include/aslam/cameras/camera.h ("cam") 436-483; aslam_cv_cameras/include/aslam/cameras/camera-3d-lidar.h ("lid") 250-282.

    Coordinates of keypoints are real numbers, or NaN or infinite ([None]). The conversion of a double that is not in the range of int64_t is undefined. The product of an int64_t and a uint64_t is computed modulo 2^64, and converted to int64_t as two's complement. *)
From Coq Require Import Reals ZArith.
Local Open Scope Z_scope.

(** The class of the camera: Camera3DLidar, or one of those that do not override the functions. *)
Inductive kind := Plain | Lidar.
Record camera := Camera { of_kind : kind; width : Z; height : Z; line_delay : Z }.

(** static_cast<int64_t> of a double: truncation towards zero; [None]: undefined. *)
Definition truncate (x : R) : Z := if Rle_dec 0 x then Int_part x else - Int_part (- x).
Definition to_int64 (x : option R) : option Z :=
  match x with
  | Some x => let n := truncate x in if (- 2 ^ 63 <=? n) && (n <? 2 ^ 63) then Some n else None
  | None => None
  end%bool.
(** The conversion of an integer to uint64_t, and of a uint64_t to int64_t. *)
Definition to_uint64 (n : Z) : Z := n mod 2 ^ 64.
Definition as_int64 (n : Z) : Z := if n <? 2 ^ 63 then n else n - 2 ^ 64.
(** The product with line_delay_nanoseconds_, returned as int64_t. *)
Definition times (n delay : Z) : Z := as_int64 (to_uint64 (to_uint64 n * delay)).

(** rollingShutterDelayNanoSeconds(keypoint), cam 454-459, lid 256-261. *)
Definition delay (c : camera) (x y : option R) : option Z :=
  match to_int64 (match of_kind c with Plain => y | Lidar => x end) with
  | Some n => Some (times n (line_delay c))
  | None => None
  end.
(** maxRollingShutterDelayNanoSeconds, cam 465-467. Camera3DLidar does not override it: lid 266-268 is called rollingShutterDelayNanoSeconds. *)
Definition max_delay (c : camera) : Z := times (height c) (line_delay c).
(** rollingShutterDelayNanoSeconds() of Camera3DLidar, lid 266-268. *)
Definition lidar_total_delay (c : camera) : Z := times (width c) (line_delay c).
(** getNumberOfLines, cam 471-476, lid 272-277. *)
Definition number_of_lines (c : camera) : Z :=
  if 0 <? line_delay c then match of_kind c with Plain => height c | Lidar => width c end else 1.
(** getLineDelayMode, cam 481-483, lid 280-282. *)
Inductive mode := Columns | Rows.
Definition line_delay_mode (c : camera) : mode := match of_kind c with Plain => Rows | Lidar => Columns end.
