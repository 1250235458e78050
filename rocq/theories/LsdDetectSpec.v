(** What the line segment detector returns with a segment, independent of the code. *)
From Coq Require Import ZArith Reals List.
Import ListNotations.
From Verif Require Import LsdDetectModel.
Local Open Scope R_scope.

(** All that can be told about a segment found. *)
Record fact := Fact { f_line : Z * Z * Z * Z; f_width : R; f_prec : R; f_nfa : R }.
(** An array that was passed holds one value per segment, in the same order; one that was not passed stays away. *)
Definition holds (f : fact -> R) (facts : list fact) (before after : option (list R)) : Prop :=
  match before with None => after = None | Some _ => after = Some (map f facts) end.
Definition delivered (facts : list fact) (before after : arrays) : Prop :=
  a_lines after = map f_line facts /\ holds f_width facts (a_widths before) (a_widths after) /\ holds f_prec facts (a_precs before) (a_precs after) /\ holds f_nfa facts (a_nfas before) (a_nfas after).
(** The false alarms may be asked for. *)
Definition may_ask (d : params) (a : arrays) : Prop := a_nfas a <> None -> (2 <= p_refine d)%Z.
(** The ranges of the documentation. *)
Definition sound (p : params) : Prop :=
  0 < p_scale p /\ 0 < p_sigma p /\ 0 <= p_quant p /\ 0 < p_ang_th p < 180 /\ 0 <= p_density p < 1 /\ (0 < p_bins p)%Z.
(** The same detector with another level or threshold. *)
Definition with_refine (p : params) (level : Z) : params := Params level (p_scale p) (p_sigma p) (p_quant p) (p_ang_th p) (p_log_eps p) (p_density p) (p_bins p).
Definition with_log_eps (p : params) (eps : R) : params := Params (p_refine p) (p_scale p) (p_sigma p) (p_quant p) (p_ang_th p) eps (p_density p) (p_bins p).
(** A grey image, which is what the documentation asks for. *)
Definition grey (m : mat) : Prop := channels m = 1%Z.
