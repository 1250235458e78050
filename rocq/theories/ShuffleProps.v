(** C148: the byte shuffle does what PSHUFB does; the columns of a matrix as vectors. *)
From Coq Require Import ZArith List Lia Bool.
From Verif Require Import ShuffleModel ShuffleSpec.
Import ListNotations.
Open Scope Z_scope.

Lemma bytes_all (P : Z -> bool) : forallb P (map Z.of_nat (seq 0 256)) = true -> forall k, 0 <= k < 256 -> P k = true.
Proof. intros H k K. rewrite forallb_forall in H. apply H. apply in_map_iff. exists (Z.to_nat k). split; [lia|]. apply in_seq. lia. Qed.
Lemma top_bit k : 0 <= k < 256 -> (Z.land k 128 =? 0) = (k <? 128).
Proof. intros K. pose proof (bytes_all (fun k => Bool.eqb (Z.land k 128 =? 0) (k <? 128)) eq_refl k K) as E. apply eqb_prop in E. exact E. Qed.
Lemma low_bits k : Z.land k 15 = k mod 16.
Proof. exact (Z.land_ones k 4 ltac:(lia)). Qed.
Lemma seq_some f (g : nat -> Z) : forall n a, (forall i, (a <= i < a + n)%nat -> f i = Some (g i)) ->
  fold_right (fun i acc => match f i, acc with Some v, Some l => Some (v :: l) | _, _ => None end) (Some []) (seq a n) = Some (map g (seq a n)).
Proof. induction n as [|n IH]; intros a H; [reflexivity|]. cbn [seq fold_right map]. rewrite IH by (intros i I; apply H; lia). rewrite H by lia. reflexivity. Qed.
Lemma nth_In' l i : (i < length l)%nat -> In (nth i l 0) l.
Proof. apply nth_In. Qed.
(** No read is outside, and byte i is 0 if the top bit of the mask is set, otherwise the byte that its low four bits name. *)
Theorem sfx_shuffle : forall lhs mask, register lhs -> register mask -> exists r, shuffle lhs mask = Some r /\ register r /\
  forall i, (i < 16)%nat -> nth i r 0 = if nth i mask 0 <? 128 then nth (Z.to_nat (nth i mask 0 mod 16)) lhs 0 else 0.
Proof.
  intros lhs mask [L1 L2] [M1 M2]. set (g := fun i => if nth i mask 0 <? 128 then nth (Z.to_nat (nth i mask 0 mod 16)) lhs 0 else 0). exists (map g (seq 0 16)). split; [|split].
  - unfold shuffle. apply seq_some. intros i I. unfold shuffle_one, g. assert (K : 0 <= nth i mask 0 < 256) by (apply M2, nth_In; lia). rewrite (nth_error_nth' mask 0) by lia. rewrite top_bit by exact K. destruct (_ <? _); [|reflexivity]. rewrite low_bits. apply nth_error_nth'. pose proof (Z.mod_pos_bound (nth i mask 0) 16 ltac:(lia)). lia.
  - split; [rewrite map_length, seq_length; reflexivity|]. intros v V. apply in_map_iff in V. destruct V as (i & <- & I). unfold g. destruct (_ <? _); [|lia]. apply L2, nth_In. pose proof (Z.mod_pos_bound (nth i mask 0) 16 ltac:(lia)). lia.
  - intros i I. rewrite (nth_indep _ 0 (g 0%nat)) by (rewrite map_length, seq_length; exact I). rewrite map_nth, seq_nth by exact I. reflexivity.
Qed.
Print Assumptions sfx_shuffle.
Lemma list_ext (a b : list Z) : length a = 16%nat -> length b = 16%nat -> (forall i, (i < 16)%nat -> nth i a 0 = nth i b 0) -> a = b.
Proof. intros A B H. apply (nth_ext a b 0 0); [congruence|]. intros i I. apply H. lia. Qed.
(** Two shuffles are one with the shuffled mask, if the second mask sets no byte to 0. *)
Theorem sfx_compose : forall x m n y k, register x -> register m -> register n -> (forall v, In v n -> v < 128) -> shuffle x m = Some y -> shuffle m n = Some k -> shuffle y n = shuffle x k.
Proof.
  intros x m n y k X M N T Y K. destruct (sfx_shuffle x m X M) as (y' & Y1 & Y2 & Y3). rewrite Y in Y1. injection Y1 as <-. destruct (sfx_shuffle m n M N) as (k' & K1 & K2 & K3). rewrite K in K1. injection K1 as <-.
  destruct (sfx_shuffle y n Y2 N) as (a & -> & [A1 A2] & A3). destruct (sfx_shuffle x k X K2) as (b & -> & [B1 B2] & B3). f_equal. apply list_ext; [assumption|assumption|]. intros i I. rewrite (A3 i I), (B3 i I), (K3 i I).
  assert (Q : nth i n 0 < 128) by (apply T, nth_In; destruct N; lia). destruct (Z.ltb_spec (nth i n 0) 128); [|lia]. apply Y3. pose proof (Z.mod_pos_bound (nth i n 0) 16 ltac:(lia)). lia.
Qed.
Print Assumptions sfx_compose.
(** Looked up in the table of nibbles, the low and the high halves of the bytes give their numbers of bits. *)
Theorem sfx_popcount : forall x, register x -> exists lo hi, shuffle nibble_counts (map (fun v => v mod 16) x) = Some lo /\ shuffle nibble_counts (map (fun v => v / 16) x) = Some hi /\ forall i, (i < 16)%nat -> nth i lo 0 + nth i hi 0 = bits (nth i x 0).
Proof.
  intros x [L B]. assert (T : register nibble_counts) by (split; [reflexivity|]; cbn; lia).
  assert (R1 : register (map (fun v => v mod 16) x)) by (split; [rewrite map_length; exact L|]; intros v V; apply in_map_iff in V; destruct V as (w & <- & _); pose proof (Z.mod_pos_bound w 16 ltac:(lia)); lia).
  assert (R2 : register (map (fun v => v / 16) x)) by (split; [rewrite map_length; exact L|]; intros v V; apply in_map_iff in V; destruct V as (w & <- & W); specialize (B w W); split; [apply Z.div_pos; lia|apply Z.div_lt_upper_bound; lia]).
  destruct (sfx_shuffle _ _ T R1) as (lo & E1 & _ & F1). destruct (sfx_shuffle _ _ T R2) as (hi & E2 & _ & F2). exists lo, hi. split; [exact E1|]. split; [exact E2|]. intros i I. rewrite (F1 i I), (F2 i I).
  assert (N : forall f : Z -> Z, nth i (map f x) 0 = f (nth i x 0)) by (intros f; rewrite (nth_indep _ 0 (f 0)) by (rewrite map_length; lia); apply map_nth). rewrite !N. clear N F1 F2. specialize (B (nth i x 0) ltac:(apply nth_In; lia)). generalize dependent (nth i x 0). intros v V.
  pose proof (bytes_all (fun v => (if v mod 16 <? 128 then nth (Z.to_nat (v mod 16 mod 16)) nibble_counts 0 else 0) + (if v / 16 <? 128 then nth (Z.to_nat (v / 16 mod 16)) nibble_counts 0 else 0) =? bits v) eq_refl v V) as E. apply Z.eqb_eq in E. exact E.
Qed.
Print Assumptions sfx_popcount.
(** The vector holds exactly the columns, in their order, whatever it held before. *)
Theorem sfx_columns : forall (A : Type) (m : matrix A) (old : list (list A)), length (convert m old) = cols m /\ forall j, (j < cols m)%nat -> exists c, nth_error (convert m old) j = Some c /\ length c = rows m /\ forall i, (i < rows m)%nat -> nth_error c i = Some (entry m i j).
Proof.
  intros A m old. assert (E : convert m old = map (column m) (seq 0 (cols m))).
  { unfold convert. cbn [firstn]. assert (G : forall l acc, fold_left (fun out idx => out ++ [column m idx]) l acc = acc ++ map (column m) l). { induction l as [|i l IH]; intros acc; cbn; [rewrite app_nil_r; reflexivity|]. rewrite IH, <- app_assoc. reflexivity. } apply (G _ []). }
  rewrite E. split; [rewrite map_length, seq_length; reflexivity|]. intros j J. exists (column m j). assert (N : forall n k, (k < n)%nat -> nth_error (seq 0 n) k = Some k) by (intros n k K; rewrite (nth_error_nth' _ 0%nat) by (rewrite seq_length; exact K); rewrite seq_nth by exact K; reflexivity).
  rewrite nth_error_map, (N _ _ J). split; [reflexivity|]. split; [unfold column; rewrite map_length, seq_length; reflexivity|]. intros i I. unfold column. rewrite nth_error_map, (N _ _ I). reflexivity.
Qed.
Print Assumptions sfx_columns.

(** ** Cases *)
Definition letters : list Z := map Z.of_nat (seq 97 16).
Lemma register_seq a : (a <= 240)%nat -> register (map Z.of_nat (seq a 16)).
Proof. intros A. split; [rewrite map_length, seq_length; reflexivity|]. intros v V. apply in_map_iff in V. destruct V as (i & <- & I). apply in_seq in I. lia. Qed.
Example sfx_shuffle_ex : register letters /\ register [15; 128; 0; 255; 17; 1; 1; 1; 1; 1; 1; 1; 1; 1; 1; 127] /\ shuffle letters [15; 128; 0; 255; 17; 1; 1; 1; 1; 1; 1; 1; 1; 1; 1; 127] = Some [112; 0; 97; 0; 98; 98; 98; 98; 98; 98; 98; 98; 98; 98; 98; 112].
Proof. split; [apply register_seq; lia|]. split; [split; [reflexivity|cbn; lia]|reflexivity]. Qed.
Example sfx_compose_ex : register (map Z.of_nat (seq 0 16)) /\ (forall v, In v (map Z.of_nat (seq 0 16)) -> v < 128) /\ shuffle letters (map Z.of_nat (seq 0 16)) = Some letters.
Proof. split; [apply register_seq; lia|]. split; [cbn; lia|reflexivity]. Qed.
Example sfx_columns_ex : convert (Matrix 2 3 (fun i j => (i, j))) [[(7, 7)]]%nat = [[(0, 0); (1, 0)]; [(0, 1); (1, 1)]; [(0, 2); (1, 2)]]%nat.
Proof. reflexivity. Qed.
