(** Specification of the textual form. *)
From Coq Require Import ZArith List Strings.Byte.
Import ListNotations.
Open Scope Z_scope.

Definition is_id (i : list byte) : Prop := length i = 16%nat.

(** Value of a lower-case hexadecimal digit. *)
Definition lower_hex (c : byte) (v : Z) : Prop :=
  0 <= v < 16 /\
  nth_error [x30; x31; x32; x33; x34; x35; x36; x37; x38; x39; x61; x62; x63; x64; x65; x66]
            (Z.to_nat v) = Some c.
(** ... of either case. *)
Definition any_hex (c : byte) (v : Z) : Prop :=
  lower_hex c v \/
  (10 <= v < 16 /\ nth_error [x41; x42; x43; x44; x45; x46] (Z.to_nat (v - 10)) = Some c).

(** [s] spells the bytes [i], two digits each, most significant first. *)
Inductive spells (digit : byte -> Z -> Prop) : list byte -> list byte -> Prop :=
| spells_nil : spells digit [] []
| spells_cons c1 c2 v1 v2 b s i :
    digit c1 v1 -> digit c2 v2 -> Z.of_N (Byte.to_N b) = 16 * v1 + v2 ->
    spells digit s i -> spells digit (c1 :: c2 :: s) (b :: i).

(** What strtoul makes of two characters: white space or a sign may stand before a digit, and anything after one. *)
Inductive lenient : byte -> byte -> Z -> Prop :=
| lenient_both c1 c2 u v : any_hex c1 u -> any_hex c2 v -> lenient c1 c2 (16 * u + v)
| lenient_first c1 c2 u : any_hex c1 u -> (forall v, ~ any_hex c2 v) -> lenient c1 c2 u
| lenient_space c1 c2 v : In c1 [x20; x09; x0a; x0b; x0c; x0d; x2b] -> any_hex c2 v -> lenient c1 c2 v
| lenient_minus c2 v : any_hex c2 v -> lenient x2d c2 (- v).
Inductive lenient_text : list byte -> list byte -> Prop :=
| lenient_nil : lenient_text [] []
| lenient_cons c1 c2 v b s i : lenient c1 c2 v -> Z.of_N (Byte.to_N b) = v mod 256 -> lenient_text s i -> lenient_text (c1 :: c2 :: s) (b :: i).

(** [s] is the decimal representation of [n] with leading zeros. *)
Definition dec_value (s : list byte) : Z :=
  fold_left (fun acc c => acc * 10 + (Z.of_N (Byte.to_N c) - 48)) s 0.
Definition is_dec (c : byte) : Prop := 48 <= Z.of_N (Byte.to_N c) <= 57.
