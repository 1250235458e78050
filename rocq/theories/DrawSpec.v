(** What pictures of keypoints and matches show. *)
From Coq Require Import ZArith Reals List.
From Verif Require Import LsdFilterSpec SerializationModel DescTextModel DescTextSpec DrawModel.
Import ListNotations.
Open Scope Z_scope.

(** The pixel of a keypoint: its coordinates without fractions. *)
Definition pixel_of (kp : R * R) (p : Z * Z) : Prop := cut_to (fst p) (fst kp) /\ cut_to (snd p) (snd kp).
Definition moderate (kp : R * R) : Prop := (Rabs (fst kp) < 2147483648)%R /\ (Rabs (snd kp) < 2147483648)%R.
(** [kps] are the keypoints of the first block of type [t] of the frame. *)
Definition keypoints_are (f : dframe) (t : Z) (kps : list (R * R)) : Prop :=
  exists pre m post a b, has_blocks f (pre ++ (m, t) :: post) /\ lacks t pre /\ measurements f = Some (a ++ kps ++ b) /\ len a = columns pre /\ len kps = m_cols m.
Definition grey_image (f : vframe) (g : grey) : Prop := raw_image f = Some g /\ g_rows g <> 0%nat /\ g_cols g <> 0%nat /\ g_channels g = 1%nat.
(** The marks of keypoints and of matches. *)
Inductive dots : list (R * R) -> list mark -> Prop :=
| dots_nil : dots [] []
| dots_cons kp kps p ms : pixel_of kp p -> dots kps ms -> dots (kp :: kps) (Circle p 1 Yellow :: ms).
Inductive flow (new old : list (R * R)) : list (Z * Z) -> list mark -> Prop :=
| flow_nil : flow new old [] []
| flow_cons i j matches kp kq p q ms : nth_error new i = Some kp -> nth_error old j = Some kq -> pixel_of kp p -> pixel_of kq q ->
    flow new old matches ms -> flow new old ((Z.of_nat i, Z.of_nat j) :: matches) (Circle p 4 Cyan :: Line q p Magenta :: ms).
