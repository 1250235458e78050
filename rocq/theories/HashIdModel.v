(** Model of the 128-bit ids.

    Source: aslam_cv_common/include/aslam/common/hash-id.h ("h"),
            aslam_cv_common/src/hash-id.cc,
            aslam_cv_common/include/aslam/common/unique-id.h ("u"),
            aslam_cv_common/src/internal/unique-id.cc ("iu").

    Simplifications: little-endian machine; texts are lists of bytes (ASCII); std::hash<uint64_t> is
    the identity (libstdc++, libc++); std::stoul is strtoul of the C locale. *)
From Coq Require Import ZArith Bool List Strings.Byte.
From Verif Require Import SerializationModel.
Import ListNotations.
Open Scope Z_scope.

(** val_ (h 187-191): the 16 bytes c; u64[0] and u64[1] are their two halves. *)
Definition id := list byte.
Definition u64_0 (i : id) : Z := unle (firstn 8 i).
Definition u64_1 (i : id) : Z := unle (skipn 8 i).
(** fromUint64, h 38-41. *)
Definition from_uint64 (a b : Z) : id := le 8 a ++ le 8 b.
(** setInvalid, isValid: h 163-168. *)
Definition invalid_id : id := repeat x00 16.
Definition is_valid (i : id) : bool := negb (u64_0 i =? 0) || negb (u64_1 i =? 0).

(** kHexConversion, hash-id.cc 5. *)
Definition hex_conversion : list byte :=
  [x30; x31; x32; x33; x34; x35; x36; x37; x38; x39; x61; x62; x63; x64; x65; x66].
Definition hex_char (n : Z) : byte := nth (Z.to_nat n) hex_conversion x00.

(** hexString, h 61-69. *)
Fixpoint hex_string (i : id) : list byte :=
  match i with
  | [] => []
  | c :: i' => hex_char (Z.shiftr (byte_val c) 4) :: hex_char (Z.land (byte_val c) 15) :: hex_string i'
  end.

(** strtoul, base 16. *)
Definition is_space (c : byte) : bool :=
  let v := byte_val c in (v =? 32) || ((9 <=? v) && (v <=? 13)).
Definition hex_digit (c : byte) : option Z :=
  let v := byte_val c in
  if (48 <=? v) && (v <=? 57) then Some (v - 48)
  else if (97 <=? v) && (v <=? 102) then Some (v - 87)
  else if (65 <=? v) && (v <=? 70) then Some (v - 55)
  else None.
Fixpoint skip_space (s : list byte) : list byte :=
  match s with c :: s' => if is_space c then skip_space s' else s | [] => [] end.
Definition take_sign (s : list byte) : bool * list byte :=
  match s with
  | c :: s' => if byte_val c =? 45 then (true, s') else if byte_val c =? 43 then (false, s') else (false, s)
  | [] => (false, [])
  end.
Definition skip_prefix (s : list byte) : list byte :=
  match s with
  | z :: x :: d :: s' =>
    if (byte_val z =? 48) && ((byte_val x =? 120) || (byte_val x =? 88)) &&
       match hex_digit d with Some _ => true | None => false end
    then d :: s' else s
  | _ => s
  end.
Fixpoint digits (s : list byte) (acc : Z) : Z :=
  match s with
  | c :: s' => match hex_digit c with Some d => digits s' (acc * 16 + d) | None => acc end
  | [] => acc
  end.
(** std::stoul(s, 0, 16): [None] is std::invalid_argument (no digit).  (Two characters cannot exceed
    the range.) *)
Definition stoul16 (s : list byte) : option Z :=
  let '(neg, s1) := take_sign (skip_space s) in
  let s2 := skip_prefix s1 in
  match s2 with
  | c :: _ => match hex_digit c with
              | Some _ => let v := digits s2 0 in Some (if neg then (- v) mod 2^64 else v)
              | None => None
              end
  | [] => None
  end.

Inductive parse_result := Parsed (i : id) | Rejected | Thrown.

(** fromHexString, h 82-93: the loop. *)
Fixpoint parse_pairs (s : list byte) : option id :=
  match s with
  | c1 :: c2 :: s' =>
    match stoul16 [c1; c2] with
    | None => None
    | Some v => match parse_pairs s' with None => None | Some i => Some (byte_of v :: i) end
    end
  | _ => Some []
  end.
Definition from_hex_string (s : list byte) : parse_result :=
  if negb (Nat.eqb (length s) 32) then Rejected
  else match parse_pairs s with None => Thrown | Some i => Parsed i end.

(** operator<, >, ==: h 141-158. *)
Definition id_lt (a b : id) : bool :=
  if u64_0 a =? u64_0 b then u64_1 a <? u64_1 b else u64_0 a <? u64_0 b.
Definition id_gt (a b : id) : bool :=
  if u64_0 a =? u64_0 b then u64_1 b <? u64_1 a else u64_0 b <? u64_0 a.
Definition id_eq (a b : id) : bool := (u64_0 a =? u64_0 b) && (u64_1 a =? u64_1 b).

(** hashToSizeT, h 100-107. *)
Definition hash_to_size_t (i : id) : Z :=
  size_t (Z.lxor (size_t (Z.lxor 14695981039346656037 (u64_0 i) * 1099511628211)) (u64_1 i)
          * 1099511628211).

(** generateIdFromInt, u 105-111: std::setfill('0') << std::setw(32) << idx. *)
Fixpoint decimal (k : nat) (n : Z) : list byte :=
  match k with O => [] | S k' => decimal k' (n / 10) ++ [hex_char (n mod 10)] end.
Definition id_from_int (n : Z) : parse_result := from_hex_string (decimal 32 n).

(** serialize and deserialize to the two words of proto::Id, u 120-132. *)
Definition to_words (i : id) : Z * Z := (u64_0 i, u64_1 i).

(** generateUnique128BitHash, iu 8-16, called by any number of threads.  The value of hash[0] (seed
    and clock) is arbitrary; ++counter is one atomic step. *)
Record gen_state := GenState { counter : Z; pending : list (nat * Z) }.
Inductive gen_act :=
| AClock (t : nat) (h0 : Z)      (* iu 10-13 *)
| ACount (t : nat).              (* iu 15 *)
Definition gen_init : gen_state := GenState 0 [].
Fixpoint take_pending (t : nat) (l : list (nat * Z)) : option (Z * list (nat * Z)) :=
  match l with
  | [] => None
  | (t', h) :: l' =>
    if Nat.eqb t t' then Some (h, l')
    else match take_pending t l' with Some (x, r) => Some (x, (t', h) :: r) | None => None end
  end.
Definition gen_step (st : gen_state) (a : gen_act) : option (gen_state * list id) :=
  match a with
  | AClock t h0 =>
    match take_pending t (pending st) with
    | Some _ => None                            (* a thread is inside one call at a time *)
    | None => Some (GenState (counter st) ((t, size_t h0) :: pending st), [])
    end
  | ACount t =>
    match take_pending t (pending st) with
    | None => None
    | Some (h0, p) => let c := size_t (counter st + 1) in
                      Some (GenState c p, [from_uint64 h0 c])
    end
  end.
Fixpoint gen_run (st : gen_state) (acts : list gen_act) : option (gen_state * list id) :=
  match acts with
  | [] => Some (st, [])
  | a :: acts' =>
    match gen_step st a with
    | None => None
    | Some (st', o) =>
      match gen_run st' acts' with None => None | Some (st'', o') => Some (st'', o ++ o') end
    end
  end.
