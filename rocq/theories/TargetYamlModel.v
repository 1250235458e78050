(** Model of the configuration files of April grid targets.

    Sources: aslam_cv_calibration/src/target-aprilgrid.cc ("ta") 20-43; aslam_cv_calibration/include/aslam/calibration/target-aprilgrid.h ("th") 38-58. Documents and safeGet are those of [SensorYamlModel].

    The functions of yaml-cpp that read numbers are parameters. Doubles are rational numbers, infinities or NaN, and the product is exact. A failed CHECK and LOG(FATAL) are [Aborted]; use of an uninitialised variable is [Undefined]. *)
From Coq Require Import ZArith QArith List String.
From Verif Require Import YamlMatrixModel SensorYamlModel.
Import ListNotations.
Local Open Scope string_scope.

Inductive double := Finite (q : Q) | Infinite (positive : bool) | NaN.
(** value > 0.0 *)
Definition above_zero (d : double) : bool := match d with Finite q => negb (Qle_bool q 0) | Infinite p => p | NaN => false end.
Definition below_zero (d : double) : bool := match d with Finite q => negb (Qle_bool 0 q) | Infinite p => negb p | NaN => false end.
Definition times (a b : double) : double :=
  match a, b with
  | NaN, _ | _, NaN => NaN
  | Finite p, Finite q => Finite (p * q)
  | _, _ =>
      if above_zero a && above_zero b || below_zero a && below_zero b then Infinite true
      else if above_zero a && below_zero b || below_zero a && above_zero b then Infinite false
      else NaN
  end.
(** TargetConfiguration, th 38-58. *)
Record config := Config { num_tag_rows : Z; num_tag_cols : Z; tag_size : double; tag_space : double; border_bits : Z }.
Definition default_config : config := Config 6 6 (Finite (88 # 1000)) (Finite (264 # 10000)) 2.
Section Read.
(** as<size_t>, as<double>. *)
Variable as_size : ynode -> outcome Z.
Variable as_double : ynode -> outcome double.
(** safeGet into a variable that holds [old]; its return value is ignored. *)
Definition get_into {A} (as_a : ynode -> outcome A) (n : ynode) (key : string) (old : A) : outcome A :=
  obind (safe_get as_a n key) (fun o => match o with Some a => Done a | None => Done old end).
Definition check {A} (b : bool) (o : outcome A) : outcome A := if b then o else Aborted.
(** fromYaml, ta 20-43; None is a file that cannot be loaded. *)
Definition from_yaml (file : option ynode) : outcome config :=
  match file with
  | None => Aborted
  | Some n =>
      obind (get_into as_string n "target_type" "") (fun target_type =>
      check (target_type =? "aprilgrid") (
      obind (get_into as_size n "tagCols" (num_tag_cols default_config)) (fun cols =>
      check (0 <? cols)%Z (
      obind (get_into as_size n "tagRows" (num_tag_rows default_config)) (fun rows =>
      check (0 <? rows)%Z (
      obind (get_into as_double n "tagSize" (tag_size default_config)) (fun size =>
      check (above_zero size) (
      obind (safe_get as_double n "tagSpacing") (fun spacing =>
      match spacing with
      | None => Undefined     (* relative_tag_spacing has no initial value, ta 34 *)
      | Some relative =>
          let space := times relative size in
          check (above_zero space) (Done (Config rows cols size space (border_bits default_config)))
      end)))))))))
  end.
End Read.
