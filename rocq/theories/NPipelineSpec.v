(** What a user of VisualNPipeline relies on, in terms of the images submitted and the groups
    returned. *)
From Coq Require Import ZArith.
From stdpp Require Import list.
From Verif Require Import NPipelineModel.
Open Scope Z_scope.

(** The images processed by the pipeline, in order. *)
Definition submitted (acts : list act) : list image :=
  omap (fun a => match a with AWork i => Some i | _ => None end) acts.

(** The groups returned to the user, in order. *)
Definition emitted (evs : list event) : list (Z * nframe) :=
  omap (fun e => match e with EvEmit k f => Some (k, f) | _ => None end) evs.

(** The calls are legal: existing cameras, room for at least one output frame. *)
Definition legal (ncam : nat) (a : act) : Prop :=
  match a with
  | AWork i => (cam i < ncam)%nat
  | AMakeRoom max => (1 <= max)%nat
  | _ => True
  end.

(** A synchronised multi-camera frame: one image per camera, close to the group time. *)
Definition synchronised (ncam : nat) (tol : Z) (imgs : list image) (k : Z) (f : nframe) : Prop :=
  length f = ncam /\
  forall c, (c < ncam)%nat -> exists i,
    f !! c = Some (Some i) /\ cam i = c /\ Z.abs (stamp i - k) <= tol /\ i ∈ imgs.

(** All cameras have an image. *)
Definition complete (f : nframe) : Prop := forall c, f !! c <> Some None.

(** Group [k] is the right one for time [t] when the pending group times are [keys]. *)
Definition right_group (tol : Z) (keys : list Z) (t k : Z) : Prop :=
  (k ∈ keys /\ Z.abs (k - t) <= tol /\
   forall k', k' ∈ keys ->
     Z.abs (k - t) <= Z.abs (k' - t) /\ (Z.abs (k - t) = Z.abs (k' - t) -> k <= k'))
  \/ (k = t /\ forall k', k' ∈ keys -> tol < Z.abs (k' - t)).

(** The groups mentioned by events as leaving the pipeline. *)
Definition left_groups (evs : list event) : list (Z * nframe) :=
  omap (fun e => match e with
                 | EvEmit k f | EvDropped k f | EvShadowed k f | EvEvicted k f | EvCleared k f =>
                   Some (k, f)
                 | _ => None
                 end) evs.
Definition overwritten_images (evs : list event) : list image :=
  omap (fun e => match e with EvOverwritten i => Some i | _ => None end) evs.
(** Groups lost without the user asking for it. *)
Definition lost_groups (evs : list event) : list (Z * nframe) :=
  omap (fun e => match e with EvDropped k f | EvShadowed k f => Some (k, f) | _ => None end) evs.
Definition dropped_groups (evs : list event) : list (Z * nframe) :=
  omap (fun e => match e with EvDropped k f => Some (k, f) | _ => None end) evs.

(** The images in groups. *)
Definition images_of (m : list (Z * nframe)) : list image :=
  m ≫= (fun kf => omap id (snd kf)).

(** Images that do not join a pending group are later than ([R]) every group opened before; [hi] is
    the time of the latest group opened so far. *)
Fixpoint in_order (R : Z -> Z -> Prop) (ncam : nat) (tol : Z) (hi : option Z) (st : state)
    (acts : list act) : Prop :=
  match acts with
  | [] => True
  | a :: acts' =>
    match step ncam tol st a with
    | Ok st' _ =>
      match a with
      | AWork i =>
        if existsb (fun k => Z.abs (k - stamp i) <=? tol) (fst <$> processing st)
        then in_order R ncam tol hi st' acts'
        else match hi with Some h => R h (stamp i) | None => True end /\
             in_order R ncam tol (Some (stamp i)) st' acts'
      | _ => in_order R ncam tol hi st' acts'
      end
    | _ => True
    end
  end.
