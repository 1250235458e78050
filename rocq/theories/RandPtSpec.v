(** Vocabulary for C123. *)
From Coq Require Import Reals ZArith List.
From Verif Require Import DistortionModel CameraModel CameraSpec RandPtModel.
Local Open Scope R_scope.

(** A number of setRandom(), and a draw of the unified camera. *)
Definition unit_draw (x : R) : Prop := -1 <= x <= 1.
Definition fair (draws : nat -> R * R * R) : Prop := forall i, let '(x, y, r) := draws i in unit_draw x /\ unit_draw y /\ 0 <= r <= 1.
(** At least [b] away from every side of the image. *)
Definition inside (s : image_size) (b : R) (kp : vec2) : Prop := b <= fst kp <= IZR (width s) - b /\ b <= snd kp <= IZR (height s) - b.
Definition nonempty (s : image_size) : Prop := (0 < width s)%Z /\ (0 < height s)%Z.
(** A tenth of the smaller side. *)
Definition tenth (s : image_size) : R := IZR (Z.min (width s) (height s)) / 10.
(** The lens undoes its undistortion everywhere, and keeps the centre. *)
Definition proper_lens (D : distortion) : Prop := (forall q, distort D (undistort D q) = q) /\ (forall q, undistort D (distort D q) = q) /\ undistort D (0, 0) = (0, 0).
(** Valid parameters. *)
Definition meaningful (t : model_type) (l : list R) : Prop :=
  length l = parameter_size t /\
  match t with
  | PinholeType => forall x, In x l -> 0 < x
  | UnifiedType => 0 <= nth 0 l 0 /\ forall x, In x (tl l) -> 0 < x
  | LidarType => 0 < nth 0 l 0 /\ 0 < nth 1 l 0
  end.
(** Valid lens parameters: the angle of a fisheye lens is zero or lies between half and one and a half radians. *)
Definition sound_lens (t : lens_type) (l : list R) : Prop :=
  match t with NoLens => True | RadTan | Equidistant => length l = 4%nat | Fisheye => exists w, l = w :: nil /\ (-(1/10000000000000000) < w < 1/10000000000000000 \/ 0.5 <= w <= 1.5) end.
