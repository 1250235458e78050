(** Model of the step sizes of fast explicit diffusion and of their allocation to the levels of the scale space.

    Sources: aslam_cv_detector/src/kaze/fed.cpp ("fed") 39-116; aslam_cv_detector/src/kaze/KAZE.cpp ("kz") 44-82, 159-163.

    Real numbers without rounding and without the limits of int; the reordering is that of FedModel.v, with its undefined cases. *)
From Coq Require Import Reals List Bool Arith ZArith.
From Verif Require Import StlHelpersModel FedModel DiffusionModel.
Import ListNotations.
Local Open Scope R_scope.

Definition ceiling (r : R) : Z := (- Int_part (- r))%Z.
(** The number of steps, fed 53. The sum of the integer and 1/2 is truncated to the integer; it is not negative. *)
Definition cycle_steps (t tau_max : R) : Z := ceiling (sqrt (3 * t / tau_max + / 4) - / 2 - / 10 ^ 8).
(** fed 77, 81-88. *)
Definition step_size (n : nat) (d : R) (k : nat) : R := let h := cos (PI * (2 * INR k + 1) * (1 / (4 * INR n + 2))) in d / (h * h).
(** fed_tau_internal, fed 61-116: the returned number and the vector tau. *)
Definition tau_internal (fuel : nat) (n : Z) (scale tau_max : R) (reordering : bool) (tau : list R) : option (result (Z * list R)) :=
  if (n <=? 0)%Z then Some (Ok (0%Z, tau))
  else
    let tauh := map (step_size (Z.to_nat n) (scale * tau_max / 2)) (seq 0 (Z.to_nat n)) in
    if reordering then
      match reorder fuel tauh with
      | None => None
      | Some (Ok l) => Some (Ok (n, l))
      | Some _ => Some Ub
      end
    else Some (Ok (n, tauh)).
(** fed_tau_by_cycle_time, fed 46-58. For n = 0 scale is infinite or not a number, and not used. *)
Definition cycle_time (fuel : nat) (t tau_max : R) (reordering : bool) (tau : list R) : option (result (Z * list R)) :=
  let n := cycle_steps t tau_max in tau_internal fuel n (3 * t / (tau_max * IZR (n * (n + 1)))) tau_max reordering tau.
(** fed_tau_by_process_time, fed 39-43. *)
Definition process_time (fuel : nat) (T : R) (M : Z) (tau_max : R) (reordering : bool) (tau : list R) : option (result (Z * list R)) :=
  cycle_time fuel (T / IZR M) tau_max reordering tau.

(** esigma and etime, kz 61-62. *)
Definition esigma (soffset : R) (nsublevels i j : nat) : R := soffset * Rpower 2 (INR j / INR nsublevels + INR i).
Definition etime (s : R) : R := / 2 * (s * s).
(** The times of the levels, kz 49-68. *)
Definition levels (soffset : R) (omax nsublevels : nat) : list R :=
  flat_map (fun i => map (fun j => etime (esigma soffset nsublevels i j)) (seq 0 nsublevels)) (seq 0 omax).
(** kz 71-82: nsteps_ and tsteps_. *)
Fixpoint schedule (fuel : nat) (previous : R) (times : list R) : option (result (list (Z * list R))) :=
  match times with
  | [] => Some (Ok [])
  | t :: rest =>
    match process_time fuel (t - previous) 1 (/ 4) true [] with
    | Some (Ok a) => match schedule fuel t rest with Some (Ok l) => Some (Ok (a :: l)) | r => r end
    | Some Abort => Some Abort
    | Some Ub => Some Ub
    | None => None
    end
  end.
(** Allocate_Memory_Evolution with use_fed, kz 44-82. *)
Definition allocate (fuel : nat) (soffset : R) (omax nsublevels : nat) : option (result (list (Z * list R))) :=
  match levels soffset omax nsublevels with
  | [] => Some (Ok [])
  | t0 :: rest => schedule fuel t0 rest
  end.
(** The inner steps of a level, kz 159-163, with the same conductivities c for all of them. *)
Fixpoint run_steps (rows cols : nat) (c : image) (order : list nat) (steps : list R) (L : image) : option image :=
  match steps with
  | [] => Some L
  | t :: rest => match nld_step rows cols L c t order with Some L' => run_steps rows cols c order rest L' | None => None end
  end.
