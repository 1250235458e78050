(** Property C55: time to text conversion. *)
From Coq Require Import ZArith Lia.
From stdpp Require Import list.
From Verif Require Import TimeTextModel TimeTextSpec TimeTextProofs.
Local Open Scope Z_scope.

(** Every time except those with exactly nine digits after a minus sign reads back as itself. *)
Theorem wx_text_reads_back_partial t : int64 t -> ~ (- (10 ^ 9) < t <= - (10 ^ 8)) -> read_time false (time_text t) = Some t.
Proof. intros H N. unfold int64 in H. destruct (decide (0 <= t)); [apply read_pos; lia|]. apply read_neg; [lia|by right]. Qed.
Print Assumptions wx_text_reads_back_partial.
Example wx_text_reads_back_case : time_text (-1234567890) = [45; 49; 115; 32; 50; 51; 52; 53; 54; 55; 56; 57; 48; 110; 115] /\
  read_time false (time_text (-1234567890)) = Some (-1234567890) /\
  read_time false (time_text (- 2 ^ 63)) = Some (- 2 ^ 63) /\ read_time false (time_text (2 ^ 63 - 1)) = Some (2 ^ 63 - 1) /\
  time_text 0 = [48; 110; 115].
Proof. repeat split. Qed.
Example wx_text_reads_back_hyps : int64 (-1234567890) /\ ~ (- (10 ^ 9) < -1234567890 <= - (10 ^ 8)).
Proof. unfold int64. lia. Qed.
(** For exactly those times the text has a seconds field without digits ("-s 123456789ns"). *)
Theorem wx_text_reads_back_refuted : exists t, int64 t /\ read_time false (time_text t) <> Some t.
Proof. exists (-123456789). split; [unfold int64; lia|]. vm_compute. done. Qed.
Print Assumptions wx_text_reads_back_refuted.
Theorem wx_text_gap t : - (10 ^ 9) < t <= - (10 ^ 8) -> read_time false (time_text t) = None.
Proof. apply read_neg_gap. Qed.
Print Assumptions wx_text_gap.
Example wx_text_gap_case : time_text (-123456789) = [45; 115; 32; 49; 50; 51; 52; 53; 54; 55; 56; 57; 110; 115].
Proof. reflexivity. Qed.
(** A reader that takes a field without digits as zero reads every time back; texts of different times differ. *)
Theorem wx_text_lenient t : int64 t -> read_time true (time_text t) = Some t.
Proof. intros H. unfold int64 in H. destruct (decide (0 <= t)); [apply read_pos; lia|]. apply read_neg; [lia|by left]. Qed.
Print Assumptions wx_text_lenient.
Theorem wx_text_injective t t' : int64 t -> int64 t' -> time_text t = time_text t' -> t = t'.
Proof. intros H H' E. apply wx_text_lenient in H, H'. rewrite E, H' in H. by injection H. Qed.
Print Assumptions wx_text_injective.
