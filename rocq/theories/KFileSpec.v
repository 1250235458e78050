(** What a file of keypoints means to a reader: words, decimal numbers, rows. *)
From Coq Require Import ZArith QArith Qpower Qabs List Bool Ascii.
From Verif Require Import KFileModel.
Import ListNotations.
Local Open Scope Z_scope.

(** ** Words *)
Definition blank (c : ascii) : bool := Ascii.eqb c " " || Ascii.eqb c (ascii_of_nat 10).
Fixpoint words_loop (t w : list ascii) : list (list ascii) :=
  match t with
  | [] => match w with [] => [] | _ => [rev w] end
  | c :: t => if blank c then match w with [] => words_loop t [] | _ => rev w :: words_loop t [] end else words_loop t (c :: w)
  end.
Definition words (t : list ascii) : list (list ascii) := words_loop t [].

(** ** Numbers *)
Definition digit_of (c : ascii) : option Z := let n := Z.of_N (N_of_ascii c) - 48 in if (0 <=? n) && (n <? 10) then Some n else None.
(** The digits at the begin of a word: their value, how many there are, and the rest of the word. *)
Fixpoint read_digits (t : list ascii) (v : Z) (k : nat) : Z * nat * list ascii :=
  match t with
  | [] => (v, k, [])
  | c :: t' => match digit_of c with Some d => read_digits t' (10 * v + d) (S k) | None => (v, k, t) end
  end.
Definition read_nat (t : list ascii) : option Z := match read_digits t 0 0 with (v, S _, []) => Some v | _ => None end.
Definition read_exponent (t : list ascii) : option Z :=
  match t with
  | [] => Some 0
  | c :: t => if Ascii.eqb c "e" then
                match t with
                | s :: t => if Ascii.eqb s "-" then option_map Z.opp (read_nat t) else if Ascii.eqb s "+" then read_nat t else None
                | [] => None
                end
              else None
  end.
Definition scaled (v : Z) (k : nat) (e : option Z) : option Q := option_map (fun e => (inject_Z v * 10 ^ (e - Z.of_nat k))%Q) e.
Definition read_positive (t : list ascii) : option Q :=
  match read_digits t 0 0 with
  | (_, O, _) => None
  | (v, S _, c :: t') => if Ascii.eqb c "." then let '(w, k, t'') := read_digits t' v 0 in scaled w k (read_exponent t'') else scaled v 0 (read_exponent (c :: t'))
  | (v, S _, []) => scaled v 0 (Some 0)
  end.
(** [None] in the result is infinity. *)
Definition read_number (t : list ascii) : option (option Q) :=
  match t with
  | c :: t' => if Ascii.eqb c "-" then option_map (fun q => Some (- q)%Q) (read_positive t')
               else if Ascii.eqb c "i" then match t' with [a; b] => if Ascii.eqb a "n" && Ascii.eqb b "f" then Some None else None | _ => None end
               else option_map Some (read_positive t)
  | [] => None
  end.

(** ** Rows *)
Fixpoint read_all (ws : list (list ascii)) : option (list (option Q)) :=
  match ws with [] => Some [] | w :: ws => match read_number w, read_all ws with Some q, Some l => Some (q :: l) | _, _ => None end end.
Fixpoint read_rows (width count : nat) (l : list (option Q)) : option (list (list (option Q))) :=
  match count with
  | O => match l with [] => Some [] | _ => None end
  | S count => if (width <=? length l)%nat then option_map (cons (firstn width l)) (read_rows width count (skipn width l)) else None
  end.
(** A file: length of the descriptors, number of keypoints, and the rows of 5 + length numbers. *)
Definition read_file (t : list ascii) : option (Z * Z * list (list (option Q))) :=
  match words t with
  | a :: b :: ws =>
      match read_nat a, read_nat b, read_all ws with
      | Some length, Some count, Some l => option_map (fun rows => (length, count, rows)) (read_rows (5 + Z.to_nat length) (Z.to_nat count) l)
      | _, _, _ => None
      end
  | _ => None
  end.

(** ** What is to be in the rows *)
(** [y] is [x] rounded to six significant digits: a number with six digits that is at most half a unit of the sixth digit away; of two such numbers the one with an even last digit. *)
Definition six_digits (x y : Q) : Prop :=
  (x == 0 /\ y == 0)%Q \/
  exists e m, (10 ^ e <= Qabs x /\ Qabs x < 10 ^ (e + 1))%Q /\ (y == inject_Z m * 10 ^ (e - 5))%Q /\ Z.abs m <= 10 ^ 6 /\ (Qabs (y - x) <= (1 # 2) * 10 ^ (e - 5))%Q /\ ((Qabs (y - x) == (1 # 2) * 10 ^ (e - 5))%Q -> Z.even m = true).
Definition shown (x y : option Q) : Prop := match x, y with Some x, Some y => six_digits x y | None, None => True | _, _ => False end.
Definition scale_of (a : arithmetic) (k : keypoint) : option Q := if Qeq_bool (square a (diameter k)) 0 then None else Some (inverse a (square a (diameter k))).
Definition row_of (a : arithmetic) (k : keypoint) (row : list Q) : list (option Q) := [Some (x k); Some (y k); scale_of a k; Some 0%Q; scale_of a k] ++ map Some row.
Definition table (a : arithmetic) (kpts : list keypoint) (desc : list (list Q)) : list (list (option Q)) := map (fun e => row_of a (fst e) (snd e)) (combine kpts desc).
