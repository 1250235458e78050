(** Model of the printed tables of feature tracks.

    Source: aslam_cv_frames/include/aslam/frames/feature-track-inl.h ("fi") 29-58; aslam_cv_frames/include/aslam/frames/feature-track.h ("ft") 45-60. The stream prints integers in decimal and pads on the left, which is the default. A failed CHECK is [None]. Of the format of the stream the model keeps the flag fixed, the fill character and the precision; of an observation only the index of its frame. *)
From Coq Require Import List NArith String Ascii Decimal DecimalString Arith.
Import ListNotations.
Local Open Scope string_scope.

Record format := Format { fixed : bool; fill : ascii; precision : nat }.
Record track := Track { track_id : N; frame_indices : list N }.
Definition newline : string := String "010" "".
Definition digits (n : N) : string := NilZero.string_of_uint (N.to_uint n).
(** setw(10), then the text. *)
Fixpoint fill_with (c : ascii) (n : nat) : string := match n with 0 => "" | S n => String c (fill_with c n) end.
Definition field (f : format) (s : string) : string := fill_with (fill f) (10 - length s) ++ s.
(** setiosflags(fixed), setfill(' '), setprecision(3). *)
Definition set_fixed (f : format) : format := Format true (fill f) (precision f).
Definition set_fill (f : format) : format := Format (fixed f) " " (precision f).
Definition set_precision (f : format) : format := Format (fixed f) (fill f) 3.
(** getFirstKeypointIdentifier().getFrameIndex(), ft 57-60. *)
Definition first_frame (t : track) : option N := match frame_indices t with [] => None | i :: _ => Some i end.
(** The loop over the tracks, fi 37-45. *)
Fixpoint rows (f : format) (ts : list track) : option (string * format) :=
  match ts with
  | [] => Some ("", f)
  | t :: ts =>
      let f := set_precision (set_fill (set_fixed f)) in
      match first_frame t with
      | None => None
      | Some i =>
          match rows f ts with
          | None => None
          | Some (rest, f') => Some (field f (digits (track_id t)) ++ field f (digits i) ++ field f (digits (N.of_nat (List.length (frame_indices t)))) ++ newline ++ rest, f')
          end
      end
  end.
(** operator<< of FeatureTracks, fi 29-49. *)
Definition print (f : format) (ts : list track) : option (string * format) :=
  let f := set_fill (set_fixed f) in
  let header := field f "track id" ++ field f "camera idx" ++ field f "length" ++ newline in
  match ts with
  | [] => Some (header ++ "No tracks!", f)
  | _ => match rows f ts with Some (text, f') => Some (header ++ text, f') | None => None end
  end.
(** operator<< of the tracks of a rig from camera i on, fi 51-58. *)
Fixpoint print_rig (f : format) (i : N) (cameras : list (list track)) : option (string * format) :=
  match cameras with
  | [] => Some ("", f)
  | ts :: cameras =>
      match print f ts with
      | None => None
      | Some (text, f') =>
          match print_rig f' (N.succ i) cameras with
          | None => None
          | Some (rest, f'') => Some ("Camera: " ++ digits i ++ ":" ++ newline ++ text ++ newline ++ rest, f'')
          end
      end
  end.
