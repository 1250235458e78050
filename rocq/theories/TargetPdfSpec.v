(** What a printed target shows, and how much its tags differ. *)
From Coq Require Import Reals NArith List Bool Arith.
From Verif Require Import TargetPdfModel.
Import ListNotations.
Local Open Scope R_scope.

(** ** Pages *)
Definition covers (r : rect) (x y : R) : Prop := left r <= x <= left r + width r /\ bottom r <= y <= bottom r + height r.
Definition black (page : list rect) (x y : R) : Prop := exists r, In r page /\ covers r x y.
(** The lower left corner of a tag in column (or row) [k], in cm. *)
Definition tag_start (size spacing : R) (k : nat) : R := INR k * (size * 100 + spacing * (size * 100)).
(** A coordinate inside of cell [k] of a tag with [n] + 4 cells. *)
Definition in_cell (size : R) (n k : nat) (start c : R) : Prop := start + INR k * (size * 100 / INR (n + 4)) < c < start + INR (k + 1) * (size * 100 / INR (n + 4)).
(** A coordinate inside of a tag, or inside of the space before or behind it. *)
Definition in_tag (size start c : R) : Prop := start < c < start + size * 100.
Definition in_space (size spacing start c : R) : Prop := start - spacing * (size * 100) < c < start \/ start + size * 100 < c < start + size * 100 + spacing * (size * 100).
(** The bit of a code that is shown in row [i] from the top and column [j] from the left: row by row, the most significant bit first; white is one. *)
Definition shown_bit (n : nat) (code : N) (i j : nat) : bool := N.testbit code (N.of_nat (n * n - 1 - (n * i + j))).

(** ** Patterns *)
(** In how many cells two patterns differ. *)
Definition cells (n : nat) : list (nat * nat) := list_prod (seq 0 n) (seq 0 n).
Definition difference (n : nat) (a b : nat -> nat -> bool) : nat := length (filter (fun c => xorb (a (fst c) (snd c)) (b (fst c) (snd c))) (cells n)).
(** The pattern of tag [code] turned [k] times by 90 degrees counterclockwise. *)
Fixpoint turned (n k : nat) (a : nat -> nat -> bool) : nat -> nat -> bool := match k with O => a | S k => fun i j => turned n k a j (n - 1 - i)%nat end.
