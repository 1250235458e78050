(** Model of the texts that the timing registry writes: the clock text of a
    duration, the rows of the printed table and the blocks of the YAML file.

    Source: aslam_cv_common/src/timer.cc
      - Timing::GetHandle            25-42
      - Timing::SecondsToTimeString 172-186
      - Timing::WriteToYamlFile     188-224
      - Timing::Print               226-264
      - Timing::Reset               272-275

    Simplifications:
      - characters are their codes (Z); a text is a list of codes;
      - a duration is a rational number.  Not-a-number, the infinities and
        negative zero are left out (a negative multiple of a minute prints its seconds
        as -0.000000 instead of 00.000000).  [fmod], the divisions and the conversion
        to int are exact (the rounding of [seconds / 60] is left out);
      - [snprintf] writes the decimal expansion rounded to nearest, ties to
        even, as glibc does; the buffer of 256 characters is never full (a
        theorem bounds the length);
      - the numbers of a block of the YAML file are one opaque value;
      - tags are kept in the order of [std::map] (lexicographic). *)

From Coq Require Import ZArith QArith Qround List Lia Bool.
Import ListNotations.
Open Scope Z_scope.

Definition text := list Z.

Definition ch_minus : Z := 45.
Definition ch_dot : Z := 46.
Definition ch_zero : Z := 48.
Definition ch_colon : Z := 58.
Definition ch_hash : Z := 35.
Definition ch_under : Z := 95.
Definition ch_tab : Z := 9.
Definition ch_space : Z := 32.

(** ** Numbers as text (the conversions of snprintf) *)

(** The last [w] decimal digits of [n], the most significant first. *)
Fixpoint fixed (w : nat) (n : Z) : text :=
  match w with
  | O => []
  | S v => (ch_zero + (n / 10 ^ Z.of_nat v) mod 10) :: fixed v n
  end.

Fixpoint ndigits_go (fuel : nat) (n : Z) : nat :=
  match fuel with
  | O => 1%nat
  | S f => if n <? 10 then 1%nat else S (ndigits_go f (n / 10))
  end.

(** The number of decimal digits of [n >= 0]; zero has one. *)
Definition ndigits (n : Z) : nat := ndigits_go (Z.to_nat (Z.log2 n)) n.

(** "%0wd" (timer.cc 179-184): zeros fill up to width [w]; the sign counts. *)
Definition pad_int (w : nat) (n : Z) : text :=
  if n <? 0
  then ch_minus :: fixed (Nat.max (w - 1) (ndigits (- n))) (- n)
  else fixed (Nat.max w (ndigits n)) n.

(** Rounding to the nearest integer, ties to even. *)
Definition round_even (q : Q) : Z :=
  let f := Qfloor q in
  match Qcompare (q - inject_Z f) (1 # 2) with
  | Lt => f
  | Gt => f + 1
  | Eq => if Z.even f then f else f + 1
  end.

Definition million : Z := 1000000.

(** "%09.6f" (timer.cc 179-184): six decimals, zeros fill up to nine characters;
    the sign counts. *)
Definition pad_fix6 (q : Q) : text :=
  let neg := negb (Qle_bool 0 q) in
  let u := round_even ((if neg then - q else q) * inject_Z million) in
  let ip := u / million in
  let width := if neg then 1%nat else 2%nat in
  (if neg then [ch_minus] else [])
    ++ fixed (Nat.max width (ndigits ip)) ip ++ [ch_dot] ++ fixed 6 (u mod million).

(** ** SecondsToTimeString (timer.cc 172-186) *)

(** The conversion of a double to an integer drops the fraction. *)
Definition trunc (q : Q) : Z := if Qle_bool 0 q then Qfloor q else - Qfloor (- q).

Definition int_ok (z : Z) : bool := (- 2 ^ 31 <=? z) && (z <? 2 ^ 31).

(** fmod(x, 60): the sign of the dividend (173). *)
Definition fmod60 (q : Q) : Q := q - inject_Z (60 * trunc (q / 60)).

(** [None]: undefined behaviour, a conversion to int out of range or a signed
    overflow (174-176). *)
Definition time_string (seconds : Q) : option text :=
  let secs := fmod60 seconds in
  let minutes := trunc (seconds / 60) in
  let hours := trunc (seconds / 3600) in
  if negb (int_ok minutes) then None
  else if negb (int_ok hours) then None
  else if negb (int_ok (hours * 60)) then None
  else
    let minutes := minutes - hours * 60 in
    if negb (int_ok minutes) then None
    else Some (pad_int 2 hours ++ [ch_colon] ++ pad_int 2 minutes ++ [ch_colon]
                 ++ pad_fix6 secs).

(** ** The registry as far as its texts need it *)

Record reg := mkReg {
  tag_map : list (text * nat);   (** in the order of the tags *)
  max_len : nat;
  n_timers : nat
}.

Definition reg0 : reg := mkReg [] 0 0.

Fixpoint text_eqb (a b : text) : bool :=
  match a, b with
  | [], [] => true
  | x :: a', y :: b' => (x =? y) && text_eqb a' b'
  | _, _ => false
  end.

Fixpoint text_ltb (a b : text) : bool :=
  match a, b with
  | [], [] => false
  | [], _ :: _ => true
  | _ :: _, [] => false
  | x :: a', y :: b' => (x <? y) || ((x =? y) && text_ltb a' b')
  end.

Fixpoint find_tag (t : text) (m : list (text * nat)) : option nat :=
  match m with
  | [] => None
  | (k, h) :: m' => if text_eqb t k then Some h else find_tag t m'
  end.

Fixpoint insert_tag (t : text) (h : nat) (m : list (text * nat)) : list (text * nat) :=
  match m with
  | [] => [(t, h)]
  | (k, g) :: m' => if text_ltb t k then (t, h) :: m else (k, g) :: insert_tag t h m'
  end.

(** GetHandle (25-42): an unknown tag is created. *)
Definition get_handle (t : text) (r : reg) : nat * reg :=
  match find_tag t (tag_map r) with
  | Some h => (h, r)
  | None =>
      (n_timers r,
       mkReg (insert_tag t (n_timers r) (tag_map r)) (Nat.max (max_len r) (length t))
         (S (n_timers r)))
  end.

(** Reset (272-275): only the tags go. *)
Definition reset (r : reg) : reg := mkReg [] (max_len r) (n_timers r).

Inductive call := CGet (t : text) | CReset.

Definition step (c : call) (r : reg) : reg :=
  match c with CGet t => snd (get_handle t r) | CReset => reset r end.

Definition run (l : list call) : reg := fold_left (fun r c => step c r) l reg0.

(** ** Print (226-264), the first two columns of a row *)

Definition row_head (r : reg) (t : text) (samples : Z) : text :=
  t ++ repeat ch_space (max_len r - length t) ++ [ch_tab]
    ++ repeat ch_space (7 - ndigits samples) ++ fixed (ndigits samples) samples ++ [ch_tab].

(** ** WriteToYamlFile (188-224) *)

(** 209-212 *)
Definition replace_ch (a b : Z) (t : text) : text := map (fun c => if c =? a then b else c) t.

Definition label (t : text) : text :=
  replace_ch ch_hash ch_under (replace_ch ch_colon ch_under t).

Section Yaml.
  (** The numbers of one timer, and how many samples it has. *)
  Context {A : Type}.
  Variable stats : nat -> A.
  Variable samples : nat -> nat.

  (** The blocks of the file, in order (203-223). *)
  Definition blocks (m : list (text * nat)) : list (text * A) :=
    map (fun e => (label (fst e), stats (snd e)))
      (filter (fun e => Nat.ltb 0 (samples (snd e))) m).

  (** What is at the path afterwards; [old] is what was there before, [open] says
      whether the file can be opened for writing. *)
  Definition write_yaml (open : bool) (old : option (list (text * A))) (r : reg)
    : option (list (text * A)) :=
    match tag_map r with
    | [] => old
    | _ => if open then Some (blocks (tag_map r)) else old
    end.
End Yaml.
