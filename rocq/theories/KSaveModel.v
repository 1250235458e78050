(** Model of the pictures that the KAZE detector saves of its scale space and of its responses.

    Source: aslam_cv_detector/src/kaze/KAZE.cpp ("kz") 2293-2303 and 2307-2317; convert_scale is that of [KUtilModel].

    An image is the list of its pixels, over real numbers, or None if it consists of NaNs. The file holds the pixels that imwrite gets: the loss of JPEG is not modelled. The disk takes all files or, without the directory, none; the result of imwrite is ignored. *)
From Coq Require Import Reals ZArith List Bool Decimal.
From Verif Require Import KUtilModel.
Import ListNotations.
Local Open Scope R_scope.

Definition image := option (list R).
(** The images Lt and Ldet of the levels of evolution_. *)
Record evolution := Evolution { lts : list image; ldets : list image }.
(** cvRound, to the even number in the middle, and the saturation of convertTo to CV_8U. *)
Definition cv_round (r : R) : Z :=
  let f := Int_part r in
  if Rlt_dec (r - IZR f) (/ 2) then f else if Rlt_dec (/ 2) (r - IZR f) then (f + 1)%Z else if Z.even f then f else (f + 1)%Z.
Definition to_byte (r : R) : Z := Z.max 0 (Z.min 255 (cv_round (255 * r + 0))).
(** One level, kz 2299-2300: the image that stays in evolution_, and the picture, which is unspecified for NaNs. *)
Definition save_level (im : image) : image * option (list Z) :=
  match im with
  | None => (None, None)
  | Some l => match convert_scale l with Fine r => (Some r, Some (map to_byte r)) | _ => (None, None) end
  end.
(** nl_evolution_%02ld.jpg and nl_detector_%02ld.jpg, kz 2301 and 2315. *)
Inductive kind := Scale_space | Responses.
Definition name : Type := kind * uint.
Definition file_name (k : kind) (i : nat) : name := (k, if Nat.ltb i 10 then D0 (Nat.to_uint i) else Nat.to_uint i).
Definition same_kind (a b : kind) : bool := match a, b with Scale_space, Scale_space | Responses, Responses => true | _, _ => false end.
Definition same_name (a b : name) : bool := same_kind (fst a) (fst b) && (if uint_eq_dec (snd a) (snd b) then true else false).
(** The disk: the content of the files that exist. *)
Definition disk : Type := name -> option (option (list Z)).
Definition write (directory : bool) (d : disk) (n : name) (c : option (list Z)) : disk := fun m => if directory && same_name n m then Some c else d m.
(** The loop from level i on. *)
Fixpoint save_from (k : kind) (directory : bool) (i : nat) (levels : list image) (d : disk) : list image * disk :=
  match levels with
  | [] => ([], d)
  | im :: rest =>
      let '(im', picture) := save_level im in
      let '(rest', d') := save_from k directory (S i) rest (write directory d (file_name k i) picture) in
      (im' :: rest', d')
  end.
(** Save_Scale_Space, kz 2293-2303, and Save_Detector_Responses, kz 2307-2317. *)
Definition save_scale_space (directory : bool) (e : evolution) (d : disk) : evolution * disk :=
  let '(l, d) := save_from Scale_space directory 0 (lts e) d in (Evolution l (ldets e), d).
Definition save_detector_responses (directory : bool) (e : evolution) (d : disk) : evolution * disk :=
  let '(l, d) := save_from Responses directory 0 (ldets e) d in (Evolution (lts e) l, d).
