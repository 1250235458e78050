(** What a reader of the texts of the timing registry expects. *)

From Coq Require Import ZArith QArith Qabs List Lia.
Import ListNotations.
Open Scope Z_scope.

(** A list of digit characters and the number it stands for. *)
Inductive reads : list Z -> Z -> Prop :=
| reads_nil : reads [] 0
| reads_snoc l d n :
    reads l n -> 0 <= d < 10 -> reads (l ++ [48 + d]) (10 * n + d).

(** HH:MM:SS.uuuuuu with the hours [h], the minutes [m] and [s] seconds and [u]
    millionths. *)
Definition clock (l : list Z) (h m s u : Z) : Prop :=
  exists a b c d,
    l = a ++ [58] ++ b ++ [58] ++ c ++ [46] ++ d /\
    reads a h /\ reads b m /\ reads c s /\ reads d u /\
    (2 <= length a)%nat /\ length b = 2%nat /\ length c = 2%nat /\ length d = 6%nat.

(** The duration such a text stands for. *)
Definition clock_value (h m s u : Z) : Q :=
  (inject_Z (3600 * h + 60 * m + s) + inject_Z u / 1000000)%Q.

(** A number with its sign, and seconds with six decimals and their sign, in millionths. *)
Inductive signed : list Z -> Z -> Prop :=
| signed_plus l n : reads l n -> signed l n
| signed_minus l n : reads l n -> signed (45 :: l) (- n).

Inductive seconds_text : list Z -> Z -> Prop :=
| seconds_plus c d s u : reads c s -> reads d u -> length d = 6%nat ->
    seconds_text (c ++ [46] ++ d) (1000000 * s + u)
| seconds_minus c d s u : reads c s -> reads d u -> length d = 6%nat ->
    seconds_text (45 :: c ++ [46] ++ d) (- (1000000 * s + u)).

(** Dictionary order, as sort(1) and [std::string] use it. *)
Inductive lex_le : list Z -> list Z -> Prop :=
| lex_nil b : lex_le [] b
| lex_lt x y a b : x < y -> lex_le (x :: a) (y :: b)
| lex_eq x a b : lex_le a b -> lex_le (x :: a) (x :: b).

(** What a reader of the YAML file finds below a key: the first block of that
    name. *)
Inductive finds {A} : list (list Z * A) -> list Z -> A -> Prop :=
| finds_here k v l : finds ((k, v) :: l) k v
| finds_later k k' v v' l : k <> k' -> finds l k v -> finds ((k', v') :: l) k v.

(** The position of the first tabulator. *)
Inductive tab_at : list Z -> nat -> Prop :=
| tab_here l : tab_at (9 :: l) 0
| tab_later x l n : x <> 9 -> tab_at l n -> tab_at (x :: l) (S n).
