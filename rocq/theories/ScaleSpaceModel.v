(** Model of the construction of the nonlinear scale space of KAZE.

    Sources: aslam_cv_detector/src/kaze/KAZE.cpp ("kz") 99-193,
    aslam_cv_detector/src/kaze/nldiffusion_functions.cpp ("nf") 31-201.

    Reuses the models of one explicit step and of the conductivities
    ([DiffusionModel]), of the steps of a level ([FedTimeModel]), of the implicit
    step ([AosModel]) and of the contrast factor ([ContrastModel]).

    Simplifications:
      - images are functions from row and column to real numbers, only the pixels of
        the image count; the image has the size of the options;
      - OpenCV's Gaussian and Scharr filters are oracles ([filters]);
      - a conductivity that is not a number makes the level and all later ones
        useless: this is the outcome [NotANumber] (the code returns 0 in this case);
      - the levels hold the four images that this function writes; timing and output
        are left out. *)
From Coq Require Import Reals List Bool Arith ZArith.
From Verif Require Import DiffusionModel FedTimeModel AosModel ContrastModel.
Import ListNotations.
Local Open Scope R_scope.

Inductive made (A : Type) := Fine (a : A) | NotANumber | Exception | Outside.
Arguments Fine {A}. Arguments NotANumber {A}. Arguments Exception {A}. Arguments Outside {A}.

(** gaussian_2D_convolution with the given sigma (nf 31-48), Scharr (nf 52-55). *)
Record filters := { blur : R -> image -> image; ddx : image -> image; ddy : image -> image }.

(** [ImplicitAOS] with the times of the levels and the contents of the two buffers before each
    step; [ExplicitFED] with the steps of each level (kz 71-82). *)
Inductive scheme :=
| ExplicitFED (tsteps : list (list R)) (order : list nat)
| ImplicitAOS (times : list R) (buffers : nat -> image * image).

Record options := {
  rows : nat; cols : nat; soffset : R; sderivatives : R; percentile : R; nbins : nat;
  diffusivity : nat; solver : scheme }.

Record level := { Lt : image; Lsmooth : image; Lx : image; Ly : image }.

(** The conductivity of a pixel, kz 142-157 and nf 58-120.  [k] = 0: 1 / (k * k) is infinite, and
    infinity times 0 is not a number.  DIFFUSIVITY_TYPE: 0 to 3. *)
Definition conductivity (d : nat) (k lx ly : R) : option R :=
  if Req_EM_T k 0 then (if Req_EM_T (lx * lx + ly * ly) 0 then None else Some 0)
  else Some (match d with
             | 0%nat => pm_g1 k lx ly
             | 1%nat => pm_g2 k lx ly
             | 2%nat => weickert k lx ly
             | _ => charbonnier k lx ly
             end).

Section Create.
Variables (f : filters) (o : options).

Definition pixels : list (nat * nat) := list_prod (seq 0 (rows o)) (seq 0 (cols o)).

(** The switch, kz 142-157: an unsupported type leaves the flow as it was. *)
Definition next_flow (k : R) (lx ly flow : image) : option image :=
  if (diffusivity o <? 4)%nat then
    if forallb (fun p => match conductivity (diffusivity o) k (lx (fst p) (snd p)) (ly (fst p) (snd p)) with Some _ => true | None => false end) pixels
    then Some (fun y x => match conductivity (diffusivity o) k (lx y x) (ly y x) with Some c => c | None => 0 end)
    else None
  else Some flow.

(** The diffusion of level i from level i - 1, kz 160-166. *)
Definition diffuse (i : nat) (prev flow : image) : made image :=
  match solver o with
  | ExplicitFED tsteps order =>
      match nth_error tsteps (i - 1) with
      | None => Outside
      | Some taus => match run_steps (rows o) (cols o) flow order taus prev with Some l => Fine l | None => Outside end
      end
  | ImplicitAOS times buffers =>
      match aos_step (rows o) (cols o) (Mat (rows o) (cols o) prev) (Mat (rows o) (cols o) flow)
              (nth i times 0 - nth (i - 1) times 0)
              (allocated (rows o) (cols o) (fst (buffers i))) (allocated (rows o) (cols o) (snd (buffers i))) with
      | Done m => Fine (entry m)
      | Threw => Exception
      | Undefined => Outside
      end
  end.

(** The loop over the levels, kz 132-172; [rest] are the levels to be written. *)
Fixpoint evolve (k : R) (i : nat) (rest : list level) (prev flow : image) : made (list level) :=
  match rest with
  | [] => Fine []
  | _ :: later =>
      let smooth := blur f (sderivatives o) prev in
      let lx := ddx f smooth in
      let ly := ddy f smooth in
      match next_flow k lx ly flow with
      | None => NotANumber
      | Some flow' =>
          match diffuse i prev flow' with
          | Fine lt =>
              match evolve k (S i) later lt flow' with
              | Fine l => Fine ({| Lt := lt; Lsmooth := smooth; Lx := lx; Ly := ly |} :: l)
              | other => other
              end
          | NotANumber => NotANumber
          | Exception => Exception
          | Outside => Outside
          end
      end
  end.

(** The gradient magnitudes inside of the border, nf 141-162. *)
Definition moduli (img : image) : list R :=
  let g := blur f (sderivatives o) img in
  map (fun p => sqrt (ddx f g (fst p) (snd p) * ddx f g (fst p) (snd p) + ddy f g (fst p) (snd p) * ddy f g (fst p) (snd p)))
    (list_prod (seq 1 (rows o - 2)) (seq 1 (cols o - 2))).

(** Create_Nonlinear_Scale_Space, kz 99-178: the return value and evolution_.  [old] is evolution_
    before: the levels of the image before, or those of Allocate_Memory_Evolution. *)
Definition create (old : list level) (img : image) : made (Z * list level) :=
  match old with
  | [] => Fine ((-1)%Z, [])
  | l0 :: rest =>
      let lt := blur f (soffset o) img in
      match k_percentile (nbins o) (percentile o) (moduli img) with
      | None => Outside
      | Some k =>
          match evolve k 1 rest lt (fun _ _ => 0) with
          | Fine l => Fine (0%Z, {| Lt := lt; Lsmooth := blur f (sderivatives o) lt; Lx := Lx l0; Ly := Ly l0 |} :: l)
          | NotANumber => NotANumber
          | Exception => Exception
          | Outside => Outside
          end
      end
  end.
End Create.
