(** Model of the number of false alarms of the line segment detector.

    Source: aslam_cv_detector/src/lsd/lsd-opencv.cc ("lsd") 118-133, 1208-1244.

    Real numbers instead of doubles. log_gamma (lsd 83, 141-171) is a parameter: the theorems take it to be the logarithm of the factorial at the arguments used, which the two formulas of the code approximate. The points are counted in nat. *)
From Coq Require Import Reals Bool.
From Verif Require Import LsdRegionModel.
Local Open Scope R_scope.

(** double_equal(term, 0) for term > 0, lsd 118-133: at most 100 DBL_EPSILON DBL_MIN, that is 100 * 2^-52 * 2^-1022. *)
Definition tiny : R := 100 * / 2 ^ 1074.
Definition below (a b : R) : bool := if Rlt_dec a b then true else false.

(** The loop from i on with the given number of rounds left, lsd 1229-1242. *)
Fixpoint bin_loop (rounds i n : nat) (p_term log_nt term bin_tail : R) : R :=
  match rounds with
  | O => bin_tail
  | S rounds =>
      let bin_term := INR (n - i + 1) / INR i in
      let mult_term := bin_term * p_term in
      let term := term * mult_term in
      let bin_tail := bin_tail + term in
      let err := term * ((1 - mult_term ^ (n - i + 1)) / (1 - mult_term) - 1) in
      if below bin_term 1 && below err (/ 10 * Rabs (- log10 bin_tail - log_nt) * bin_tail) then bin_tail
      else bin_loop rounds (S i) n p_term log_nt term bin_tail
  end.
(** log1term, lsd 1216-1218. *)
Definition log1term (log_gamma : R -> R) (n k : nat) (p : R) : R :=
  (INR n + 1) - log_gamma (INR k + 1) - log_gamma (INR (n - k) + 1) + INR k * ln p + INR (n - k) * ln (1 - p).
(** nfa, lsd 1208-1244. *)
Definition nfa (log_gamma : R -> R) (log_nt : R) (n k : nat) (p : R) : R :=
  if (Nat.eqb n 0 || Nat.eqb k 0)%bool then - log_nt
  else if Nat.eqb n k then - log_nt - INR n * log10 p
  else
    let p_term := p / (1 - p) in
    let l := log1term log_gamma n k p in
    let term := exp l in
    if Rle_dec term tiny then if Rlt_dec (INR n * p) (INR k) then - l / ln 10 - log_nt else - log_nt
    else - log10 (bin_loop (n - k) (S k) n p_term log_nt term term) - log_nt.
