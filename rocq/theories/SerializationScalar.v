(** Serialization of scalar channels.

    Source: aslam_cv_common/include/aslam/common/channel-serialization.h 304-350.

    Simplifications: std::to_string and std::stoll are modelled by the decimal strings of the
    standard library (no white space, signs only as printed); for floating-point values
    std::to_string is printf("%f"), i.e. the value rounded to six decimals, and the value is an exact
    rational; std::stod is taken to return the printed decimal number exactly (rounding the result to
    the floating-point type can only be worse). *)
From Coq Require Import ZArith QArith Qabs Qround List Strings.Byte Strings.String Lia.
From Coq Require Import DecimalString DecimalZ DecimalFacts Lqa.
From Verif Require Import SerializationModel.
Import ListNotations.
Local Open Scope Z_scope.

(** Integral types: width in bits and signedness. *)
Record inttype := IntType { width : Z; signed : bool }.
Definition in_type (t : inttype) (v : Z) : Prop :=
  if signed t then - 2 ^ (width t - 1) <= v < 2 ^ (width t - 1) else 0 <= v < 2 ^ width t.
Definition cast (t : inttype) (v : Z) : Z :=
  let m := v mod 2 ^ width t in
  if signed t && (2 ^ (width t - 1) <=? m) then m - 2 ^ width t else m.

(** serializeToString, 306-312. *)
Definition int_to_string (v : Z) : string := NilZero.string_of_int (Z.to_int v).
(** std::stoll *)
Definition stoll (s : string) : outcome Z :=
  match NilZero.int_of_string s with
  | None => Throw
  | Some d => let v := Z.of_int d in
              if (- 2^63 <=? v) && (v <? 2^63) then Done v else Throw
  end.
(** deSerializeFromString for integral types, 314-322. *)
Definition int_from_string (t : inttype) (s : string) : outcome Z :=
  match s with
  | EmptyString => Abort
  | _ => bind (stoll s) (fun v => Done (cast t v))
  end.

(** 335-342 and 343-350: the object representation. *)
Definition scalar_to_buffer (rep : list byte) : list byte := rep.
Definition scalar_from_buffer (size : nat) (buf : list byte) : outcome (list byte) :=
  if Nat.eqb (List.length buf) size then Done buf else Abort.

(** Floating-point values.  printf("%f"): an integer number of millionths, ties to even. *)
Definition millionths (v : Q) : Z :=
  let x := (v * 1000000)%Q in
  let f := Qfloor x in
  match Qcompare (x - inject_Z f)%Q (1#2) with
  | Lt => f
  | Gt => f + 1
  | Eq => if Z.even f then f else f + 1
  end.
(** std::stod *)
Definition of_millionths (n : Z) : Q := (inject_Z n / 1000000)%Q.

(** ** Proofs *)
Lemma int_string v :
  stoll (int_to_string v) = if (- 2^63 <=? v) && (v <? 2^63) then Done v else Throw.
Proof.
  unfold stoll, int_to_string. rewrite NilZero.isi.
  - rewrite DecimalZ.of_to. reflexivity.
  - destruct v; simpl; [discriminate| |discriminate]; intros [=H].
    exact (DecimalPos.Unsigned.to_uint_nonnil _ H).
  - destruct v; simpl; [discriminate|discriminate|]; intros [=H].
    exact (DecimalPos.Unsigned.to_uint_nonnil _ H).
Qed.

Lemma int_to_string_nonempty v : int_to_string v <> EmptyString.
Proof.
  intros E. pose proof (int_string v) as H. rewrite E in H.
  unfold int_to_string in E. destruct v as [|p|p]; simpl in E; try discriminate.
  destruct (Pos.to_uint p); simpl in E; discriminate.
Qed.

Lemma cast_id t v : 0 < width t -> in_type t v -> cast t v = v.
Proof.
  intros Hw. unfold in_type, cast.
  assert (Hp : 2 ^ width t = 2 * 2 ^ (width t - 1)).
  { rewrite <- Z.pow_succ_r by lia. f_equal. lia. }
  assert (0 < 2 ^ (width t - 1)) by (apply Z.pow_pos_nonneg; lia).
  destruct (signed t); simpl; intros Hv.
  - destruct (Z_lt_le_dec v 0).
    + replace (v mod 2 ^ width t) with (v + 2 ^ width t).
      2:{ rewrite <- (Z_mod_plus_full v 1). symmetry. rewrite Z.mul_1_l. apply Z.mod_small. lia. }
      rewrite (proj2 (Z.leb_le _ _)) by lia. lia.
    + rewrite Z.mod_small by lia. rewrite (proj2 (Z.leb_gt _ _)) by lia. reflexivity.
  - apply Z.mod_small. lia.
Qed.

Lemma int_roundtrip t v :
  0 < width t -> in_type t v -> - 2^63 <= v < 2^63 ->
  int_from_string t (int_to_string v) = Done v.
Proof.
  intros Hw Ht Hv. unfold int_from_string.
  destruct (int_to_string v) eqn:E; [apply int_to_string_nonempty in E; contradiction|].
  rewrite <- E, int_string.
  replace ((- 2^63 <=? v) && (v <? 2^63))%bool with true
    by (symmetry; rewrite Bool.andb_true_iff, Z.leb_le, Z.ltb_lt; lia).
  cbn [bind]. rewrite cast_id; auto.
Qed.

Lemma int_too_large t v : 2^63 <= v -> int_from_string t (int_to_string v) = Throw.
Proof.
  intros Hv. unfold int_from_string.
  destruct (int_to_string v) eqn:E; [apply int_to_string_nonempty in E; contradiction|].
  rewrite <- E, int_string.
  replace ((- 2^63 <=? v) && (v <? 2^63))%bool with false
    by (symmetry; rewrite Bool.andb_false_iff, Z.leb_gt, Z.ltb_ge; lia).
  reflexivity.
Qed.

Lemma millionths_close v :
  (Qabs (of_millionths (millionths v) - v) <= 5 # 10000000)%Q.
Proof.
  unfold of_millionths, millionths. cbv zeta.
  set (x := (v * 1000000)%Q). pose proof (Qfloor_le x) as H1. pose proof (Qlt_floor x) as H2.
  set (f := Qfloor x) in *. rewrite inject_Z_plus in H2. change (inject_Z 1) with 1%Q in H2.
  assert (Hv : (v == x / 1000000)%Q) by (unfold x; field).
  assert (G : forall n : Z, (inject_Z n - x <= 1#2)%Q -> (x - inject_Z n <= 1#2)%Q ->
              (Qabs (inject_Z n / 1000000 - v) <= 5 # 10000000)%Q).
  { intros n Ha Hb. apply Qabs_Qle_condition. rewrite Hv. clear -Ha Hb.
    assert (E : (inject_Z n / 1000000 - x / 1000000 == (inject_Z n - x) * (1#1000000))%Q) by field.
    rewrite E. split; lra. }
  destruct (Qcompare_spec (x - inject_Z f) (1#2)) as [E|E|E]; [destruct (Z.even f)| |]; apply G;
    rewrite ?inject_Z_plus; change (inject_Z 1) with 1%Q; lra.
Qed.
