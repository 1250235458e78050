(** Model of the computation of all descriptors of an image.

    Source: aslam_cv_detector/src/kaze/KAZE.cpp ("kz") 498-642 with the functions of OrientModel.v and SurfModel.v; kaze/KAZEConfig.h ("kc") 22-35.

    Real numbers instead of floats. The loops over the keypoints run in parallel with OpenMP: an execution is any interleaving of the steps of the iterations; a step is one call of Compute_Main_Orientation
    (which writes kpts[i].angle) or of a Get_..._Descriptor function (which reads kpts[i] and writes row i). The derivatives are not written. The time measurement is left out. *)
From Coq Require Import ZArith Reals List Bool Arith.
From Verif Require Import OrientModel SurfModel.
Import ListNotations.
Local Open Scope R_scope.

Inductive outcome (A : Type) := Fine (a : A) | Undefined.
Arguments Fine {A}. Arguments Undefined {A}.

(** cv::KeyPoint as far as it is used; class_id is the level. *)
Record keypoint := Keypoint { pt_x : R; pt_y : R; size : R; class_id : Z; angle : R }.
(** A row of desc: numbers, or 0/0 in all columns. *)
Inductive row := Numbers (l : list R) | NotNumbers (columns : nat).

(** The value of DESCRIPTOR_TYPE, kc 22-35; the switch of kz 516-637: which function is called. *)
Definition variant_of (t : nat) : option variant :=
  match t with
  | 0 => Some (Variant Surf true false) | 1 => Some (Variant Surf false false) | 2 => Some (Variant Surf true true) | 3 => Some (Variant Surf false true)
  | 4 => Some (Variant Msurf true false) | 5 => Some (Variant Msurf false false) | 6 => Some (Variant Msurf true true) | 7 => Some (Variant Msurf false true)
  | 8 => Some (Variant Gsurf true false) | 9 => Some (Variant Gsurf false false) | 10 => Some (Variant Gsurf true true) | 11 => Some (Variant Gsurf false true)
  | _ => None
  end%nat.
(** kz 504-514. *)
Definition columns_of (t : nat) : nat := if existsb (Nat.eqb t) [3; 2; 7; 6; 11; 10]%nat then 128 else 64.
(** One step of iteration [i]. *)
Inductive step := Orient (i : nat) | Describe (i : nat).

Fixpoint update {A} (i : nat) (g : A -> A) (l : list A) : list A :=
  match l, i with
  | [], _ => []
  | a :: l', O => g a :: l'
  | a :: l', S i' => a :: update i' g l'
  end.

Section Image.
Variables (height width : Z) (levels : list derivatives).
Definition state : Type := (list keypoint * list row)%type.
(** evolution_[kpt.class_id]. *)
Definition level_of (kp : keypoint) : option derivatives := if (class_id kp <? 0)%Z then None else nth_error levels (Z.to_nat (class_id kp)).
Definition with_angle (kp : keypoint) (a : R) : keypoint := Keypoint (pt_x kp) (pt_y kp) (size kp) (class_id kp) a.
Definition orient_at (D : derivatives) (kp : keypoint) : keypoint := with_angle kp (main_orientation height width (dLx D) (dLy D) (pt_x kp) (pt_y kp) (size kp) (angle kp)).
Definition row_at (v : variant) (D : derivatives) (kp : keypoint) : row :=
  match descriptor height width v D (pt_x kp) (pt_y kp) (size kp) (angle kp) with
  | Some l => Numbers l
  | None => NotNumbers (if extended v then 128 else 64)
  end.
Definition do_step (v : variant) (st : outcome state) (s : step) : outcome state :=
  match st with
  | Undefined => Undefined
  | Fine (kpts, rows) =>
      let i := match s with Orient i => i | Describe i => i end in
      match nth_error kpts i with
      | None => Undefined
      | Some kp =>
          match level_of kp with
          | None => Undefined
          | Some D => Fine (match s with
                            | Orient i => (update i (orient_at D) kpts, rows)
                            | Describe i => (kpts, update i (fun _ => row_at v D kp) rows)
                            end)
          end
      end
  end.
(** Compute_Descriptors: the keypoints and the rows after the call, for the execution [order] of the steps. *)
Definition compute_descriptors (t : nat) (kpts : list keypoint) (order : list step) : outcome state :=
  let desc := repeat (Numbers (repeat 0 (columns_of t))) (length kpts) in
  match variant_of t with
  | None => Fine (kpts, desc)
  | Some v => fold_left (do_step v) order (Fine (kpts, desc))
  end.
(** The body of the loop for one keypoint, kz 522-524, 534-536 and the like: upright variants do not call Compute_Main_Orientation. *)
Definition body (t : nat) (i : nat) : list step :=
  match variant_of t with
  | Some v => if upright v then [Describe i] else [Orient i; Describe i]
  | None => []
  end.
End Image.
