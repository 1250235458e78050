(** Model of the YAML serialization of Eigen matrices.

    Source: aslam_cv_common/include/aslam/common/yaml-serialization-eigen.h ("ye") 12-198.

    The texts of numbers, and the functions of yaml-cpp that write and read them, are parameters: [emit] is the operator<< of YAML::Emitter (followed by
    YAML::Load), [put] the conversion in push_back, [get] is as<Scalar>, [put_index] and [get_index] convert the sizes. A node is null, a scalar, a sequence or a map, of which
    only the three keys of a matrix are kept. as<> on anything but a scalar text of the right kind, and any use of a missing key, throws ([Thrown]). A failed CHECK is
    [Aborted]; an access behind the end of a sequence and a size that does not fit is [Undefined]. [Refused] is the return value false. A matrix that was only
    partly written when an exception is thrown is not modelled; neither is running out of memory in resize. *)
From Coq Require Import ZArith List Bool.
Import ListNotations.
Local Open Scope Z_scope.

Inductive outcome (A : Type) := Done (x : A) | Refused | Aborted | Thrown | Undefined.
Arguments Done {A}. Arguments Refused {A}. Arguments Aborted {A}. Arguments Thrown {A}. Arguments Undefined {A}.
Definition obind {A B} (x : outcome A) (f : A -> outcome B) : outcome B :=
  match x with Done a => f a | Refused => Refused | Aborted => Aborted | Thrown => Thrown | Undefined => Undefined end.
Notation "'do' x <- e ; f" := (obind e (fun x => f)) (at level 200, x name, e at level 100, f at level 200).

Section Yaml.
Variables text scalar : Type.
Inductive node := Null | Scalar (t : text) | Sequence (l : list node) | Table (rows cols data : option node).

Record codec := Codec {
  emit : scalar -> text; put : scalar -> text; get : text -> option scalar;
  put_index : Z -> text; get_index : text -> option Z }.
Variable c : codec.
(** Rows of coefficients; the sizes are those of the Eigen object. *)
Record matrix := Matrix { m_rows : Z; m_cols : Z; coeffs : list (list scalar) }.

(** One row of the data, ye 24-37. M(i, 0) of an empty row does not occur behind the CHECKs. *)
Definition encode_row (cols : Z) (r : list scalar) : outcome node :=
  if 1 <? cols then Done (Sequence (map (fun x => Scalar (emit c x)) r))
  else match r with x :: _ => Done (Scalar (put c x)) | [] => Undefined end.
Fixpoint encode_rows (cols : Z) (rs : list (list scalar)) : outcome (list node) :=
  match rs with
  | [] => Done []
  | r :: rs' => do n <- encode_row cols r; do ns <- encode_rows cols rs'; Done (n :: ns)
  end.
(** encode, ye 14-40. *)
Definition encode (m : matrix) : outcome node :=
  if negb (0 <? m_rows m) then Aborted else if negb (0 <? m_cols m) then Aborted else
  do d <- encode_rows (m_cols m) (coeffs m);
  Done (Table (Some (Scalar (put_index c (m_rows m)))) (Some (Scalar (put_index c (m_cols m)))) (Some (Sequence d))).

(** as<Scalar>. *)
Definition as_scalar (n : node) : outcome scalar :=
  match n with Scalar t => match get c t with Some x => Done x | None => Thrown end | _ => Thrown end.
Definition as_index (n : option node) : outcome Z :=
  match n with Some (Scalar t) => match get_index c t with Some x => Done x | None => Thrown end | _ => Thrown end.
(** The body of the loop over the linear array, ye 61-68. *)
Definition linear_element (n : node) : outcome scalar :=
  match n with
  | Sequence l => if (length l =? 1)%nat then Aborted else match l with x :: _ => as_scalar x | [] => Undefined end
  | _ => as_scalar n
  end.
(** Reading [k] coefficients from an iterator; the second component is the iterator behind them. ye 59-69 and 87-91. *)
Fixpoint read_coeffs (f : node -> outcome scalar) (k : nat) (it : list node) : outcome (list scalar * list node) :=
  match k with
  | O => Done ([], it)
  | S k' => match it with
            | [] => Aborted
            | n :: it' => do x <- f n; do r <- read_coeffs f k' it'; Done (x :: fst r, snd r)
            end
  end.
Fixpoint read_linear (rows : nat) (cols : nat) (it : list node) : outcome (list (list scalar)) :=
  match rows with
  | O => Done []
  | S rows' => do r <- read_coeffs linear_element cols it; do rs <- read_linear rows' cols (snd r); Done (fst r :: rs)
  end.
(** One element of the row-major form, ye 73-97. *)
Definition read_row (cols : Z) (n : node) : outcome (list scalar) :=
  match n with
  | Sequence l => if Z.of_nat (length l) =? cols then do r <- read_coeffs as_scalar (Z.to_nat cols) l; Done (fst r) else Aborted
  | _ => if cols =? 1 then do x <- as_scalar n; Done [x] else Aborted
  end.
Fixpoint read_rows (cols : Z) (rows : nat) (it : list node) : outcome (list (list scalar)) :=
  match rows with
  | O => Done []
  | S rows' => match it with
               | [] => Aborted
               | n :: it' => do r <- read_row cols n; do rs <- read_rows cols rows' it'; Done (r :: rs)
               end
  end.
(** decodeEigenMatrixData, ye 42-106. *)
Definition decode_data (n : option node) (rows cols : Z) : outcome matrix :=
  match n with
  | None => Thrown
  | Some (Sequence l) =>
      if (rows =? 0) && (cols =? 0) then Done (Matrix rows cols [])
      else if Z.of_nat (length l) =? rows * cols then do d <- read_linear (Z.to_nat rows) (Z.to_nat cols) l; Done (Matrix rows cols d)
      else if Z.of_nat (length l) =? rows then do d <- read_rows cols (Z.to_nat rows) l; Done (Matrix rows cols d)
      else Refused
  | Some _ => Refused
  end.
(** The four overloads of decode, ye 108-196: [want_rows] and [want_cols] are the sizes fixed at compile time, [None] for Eigen::Dynamic. Sizes are
    converted to int, ye 44; a size or product outside of its range, or a negative size, is outside of the model. *)
Definition decode (want_rows want_cols : option Z) (n : node) : outcome matrix :=
  match n with
  | Table r k d =>
      do rows <- as_index r;
      do cols <- as_index k;
      if match want_rows with Some a => negb (rows =? a) | None => false end || match want_cols with Some b => negb (cols =? b) | None => false end then Refused
      else if (rows <? 0) || (cols <? 0) || (2 ^ 31 <=? rows) || (2 ^ 31 <=? cols) || (2 ^ 31 <=? rows * cols) then Undefined
      else decode_data d rows cols
  | _ => Refused
  end.
End Yaml.
Arguments Null {text}. Arguments Scalar {text}. Arguments Sequence {text}. Arguments Table {text}.
Arguments emit {text scalar}. Arguments put {text scalar}. Arguments get {text scalar}. Arguments put_index {text scalar}. Arguments get_index {text scalar}.
Arguments Matrix {scalar}. Arguments m_rows {scalar}. Arguments m_cols {scalar}. Arguments coeffs {scalar}.
Arguments encode {text scalar}. Arguments encode_rows {text scalar}. Arguments encode_row {text scalar}. Arguments decode {text scalar}. Arguments decode_data {text scalar}.
Arguments read_row {text scalar}. Arguments read_rows {text scalar}. Arguments read_linear {text scalar}. Arguments read_coeffs {text scalar}. Arguments linear_element {text scalar}.
Arguments as_scalar {text scalar}. Arguments as_index {text scalar}.
