(** Model of the masks of cameras.

    Source: aslam_cv_cameras/include/aslam/cameras/camera.h ("cam") 187-200 (copy constructor), 224-232 (sizes), 624-633 (isMasked); aslam_cv_cameras/src/camera.cc ("cc") 429-446; camera-inl.h ("cami") 17-25.

    A cv::Mat is a header with size, type and the number of a buffer; assignment of a cv::Mat shares the buffer, clone() copies it into a new one. The contents of the buffers are a function of buffer, row and column. Coordinates of keypoints are real numbers or NaN ([None]), widths and heights any non-negative numbers. Access outside of a matrix and the conversion of NaN to int are [Undefined]. Programs are sequences of the calls of [op]; the header returned by getMask is not used for writing. *)
From Coq Require Import Reals ZArith List Bool.
Import ListNotations.
Local Open Scope Z_scope.

Record mat := Mat { m_rows : Z; m_cols : Z; m_type : Z; m_buffer : nat }.
Record camera := Camera { image_width : Z; image_height : Z; mask : mat }.
Record state := State { heap : nat -> Z -> Z -> Z; fresh : nat; cameras : nat -> option camera }.
(** CV_8UC1. *)
Definition CV_8UC1 : Z := 0.
(** cv::Mat::empty. *)
Definition empty (m : mat) : bool := m_rows m * m_cols m =? 0.
Definition no_mat : mat := Mat 0 0 CV_8UC1 0.
Definition update {A} (f : nat -> A) (k : nat) (v : A) : nat -> A := fun i => if Nat.eqb i k then v else f i.

(** Comparisons of doubles: false if a side is NaN. *)
Definition less (a b : option R) : bool := match a, b with Some x, Some y => if Rlt_dec x y then true else false | _, _ => false end.
Definition at_least (a b : option R) : bool := match a, b with Some x, Some y => if Rle_dec y x then true else false | _, _ => false end.
Inductive answer := Undefined | Answer (b : bool).
(** mask_.at<uint8_t>(static_cast<int>(y), static_cast<int>(x)) == 0, for coordinates that are not negative. *)
Definition masked_at (s : state) (m : mat) (x y : option R) : answer :=
  match x, y with
  | Some x, Some y =>
      let r := Int_part y in
      let c := Int_part x in
      if (0 <=? r) && (r <? m_rows m) && (0 <=? c) && (c <? m_cols m) then Answer (heap s (m_buffer m) r c =? 0) else Undefined
  | _, _ => Undefined
  end.
(** isMasked, cam 624-633. *)
Definition is_masked (s : state) (c : camera) (x y : option R) : answer :=
  if less x (Some 0%R) || at_least x (Some (IZR (image_width c))) || less y (Some 0%R) || at_least y (Some (IZR (image_height c))) then Answer true
  else if empty (mask c) then Answer false
  else masked_at s (mask c) x y.
(** isKeypointVisible, cami 17-25. *)
Definition is_keypoint_visible (c : camera) (x y : option R) : bool :=
  at_least x (Some 0%R) && at_least y (Some 0%R) && less x (Some (IZR (image_width c))) && less y (Some (IZR (image_height c))).

Inductive op :=
| Write (buffer : nat) (r c v : Z)     (* the caller writes into a matrix of their own *)
| SetMask (cam : nat) (m : mat)        (* cc 429-434 *)
| ClearMask (cam : nat)                (* cc 436-438 *)
| SetWidth (cam : nat) (w : Z)         (* cam 224-226 *)
| SetHeight (cam : nat) (h : Z)        (* cam 229-231 *)
| Clone (cam new : nat).               (* cam 187-200 *)
(** One call; [None]: a CHECK fails or there is no such camera. *)
Definition run (o : op) (s : state) : option state :=
  match o with
  | Write b r c v => Some (State (update (heap s) b (fun i j => if (i =? r) && (j =? c) then v else heap s b i j)) (fresh s) (cameras s))
  | SetMask k m =>
      match cameras s k with
      | Some c => if (image_height c =? m_rows m) && (image_width c =? m_cols m) && (m_type m =? CV_8UC1)
                  then Some (State (heap s) (fresh s) (update (cameras s) k (Some (Camera (image_width c) (image_height c) m)))) else None
      | None => None
      end
  | ClearMask k => match cameras s k with Some c => Some (State (heap s) (fresh s) (update (cameras s) k (Some (Camera (image_width c) (image_height c) no_mat)))) | None => None end
  | SetWidth k w => match cameras s k with Some c => Some (State (heap s) (fresh s) (update (cameras s) k (Some (Camera w (image_height c) (mask c))))) | None => None end
  | SetHeight k h => match cameras s k with Some c => Some (State (heap s) (fresh s) (update (cameras s) k (Some (Camera (image_width c) h (mask c))))) | None => None end
  | Clone k n =>
      match cameras s k, cameras s n with
      | Some c, None =>
          if empty (mask c) then Some (State (heap s) (fresh s) (update (cameras s) n (Some (Camera (image_width c) (image_height c) no_mat))))
          else Some (State (update (heap s) (fresh s) (heap s (m_buffer (mask c)))) (S (fresh s)) (update (cameras s) n (Some (Camera (image_width c) (image_height c) (Mat (m_rows (mask c)) (m_cols (mask c)) (m_type (mask c)) (fresh s))))))
      | _, _ => None
      end
  end.
Fixpoint run_all (l : list op) (s : state) : option state :=
  match l with [] => Some s | o :: r => match run o s with Some s => run_all r s | None => None end end.
