(** Vocabulary for C149. *)
From Coq Require Import ZArith QArith List String.
From Verif Require Import YamlMatrixModel SensorYamlModel TargetYamlModel.
Import ListNotations.
Local Open Scope string_scope.

(** The document holds under the key something that reads as the value; *)
Definition says {A} (as_a : ynode -> outcome A) (n : ynode) (key : string) (a : A) : Prop := exists kvs m, n = YMap kvs /\ lookup key kvs = Some m /\ as_a m = Done a.
(** it has no such key, or it does not read as a value. *)
Definition lacks {A} (as_a : ynode -> outcome A) (kvs : list (string * ynode)) (key : string) : Prop := lookup key kvs = None \/ exists m, lookup key kvs = Some m /\ (as_a m = Refused \/ as_a m = Thrown).
(** Readers of numbers return or throw. *)
Definition reader {A} (as_a : ynode -> outcome A) : Prop := forall m, as_a m = Refused \/ as_a m = Thrown \/ exists a, as_a m = Done a.
Definition keys : list string := ["target_type"; "tagCols"; "tagRows"; "tagSize"; "tagSpacing"].
Definition positive (d : double) : Prop := match d with Finite q => (0 < q)%Q | Infinite p => p = true | NaN => False end.
