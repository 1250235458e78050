(** Property C57: outlier rejection partitions the matches. *)
From Coq Require Import ZArith Bool Lia.
From stdpp Require Import list list_numbers.
From Verif Require Import StlHelpersModel OutlierModel OutlierSpec.
Local Open Scope Z_scope.

Lemma insert_range_elem l : forall s i, i ∈ insert_range s l <-> i ∈ s \/ i ∈ l.
Proof.
  induction l as [|x l IH]; intros s i; cbn [insert_range foldl]. { rewrite elem_of_nil. tauto. }
  fold (insert_range (insert_index s x) l). rewrite IH, elem_of_cons. unfold insert_index. destruct (decide (x ∈ s)) as [H|H].
  - split; [tauto|]. intros [?|[->|?]]; tauto.
  - rewrite elem_of_app, elem_of_list_singleton. tauto.
Qed.
Lemma insert_range_nodup l : forall s, NoDup s -> NoDup (insert_range s l).
Proof.
  induction l as [|x l IH]; intros s Hs; cbn [insert_range foldl]; [done|]. apply IH. unfold insert_index. destruct (decide (x ∈ s)); [done|].
  apply NoDup_app. split; [done|]. split; [|apply NoDup_singleton]. intros y Hy ->%elem_of_list_singleton. done.
Qed.
Lemma nodup_length_le (s t : list Z) : NoDup s -> (forall i, i ∈ s -> i ∈ t) -> (length s <= length t)%nat.
Proof. intros Hs H. apply submseteq_length, NoDup_submseteq; done. Qed.
Lemma union_size l1 l2 n : (n <= length (insert_range (insert_range [] l1) l2))%nat <-> at_least_distinct n (l1 ++ l2).
Proof.
  set (u := insert_range (insert_range [] l1) l2).
  assert (Hu : forall i, i ∈ u <-> i ∈ l1 ++ l2).
  { intros i. unfold u. rewrite !insert_range_elem, elem_of_app, elem_of_nil. tauto. }
  assert (Nu : NoDup u) by (apply insert_range_nodup, insert_range_nodup, NoDup_nil_2).
  split.
  - intros L. exists (take n u). split; [|split].
    + rewrite <- (take_drop n u) in Nu. by apply NoDup_app in Nu as (? & _).
    + rewrite take_length. lia.
    + intros i Hi. apply Hu. rewrite <- (take_drop n u). apply elem_of_app. by left.
  - intros (s & Hs & <- & H). apply nodup_length_le; [done|]. intros i Hi. by apply Hu, H.
Qed.
Lemma split_loop_masked {M} inls : forall (ms : list M) k ins outs,
  split_loop inls k ms ins outs =
  (ins ++ masked true ((fun j => bool_decide (j ∈ inls)) <$> seqZ k (Z.of_nat (length ms))) ms,
   outs ++ masked false ((fun j => bool_decide (j ∈ inls)) <$> seqZ k (Z.of_nat (length ms))) ms).
Proof.
  induction ms as [|m ms IH]; intros k ins outs; cbn [split_loop].
  - cbn. by rewrite !app_nil_r.
  - cbn [length]. rewrite (seqZ_cons k) by lia. replace (Z.pred (Z.of_nat (S (length ms)))) with (Z.of_nat (length ms)) by lia.
    replace (Z.succ k) with (k + 1) by lia. rewrite !fmap_cons. cbn [masked].
    destruct (decide (k ∈ inls)) as [H|H].
    + rewrite bool_decide_true by done. rewrite IH, <- app_assoc. done.
    + rewrite bool_decide_false by done. rewrite IH, <- app_assoc. done.
Qed.
Lemma masked_length {A} : forall mask (l : list A), length mask = length l ->
  (length (masked true mask l) + length (masked false mask l) = length l)%nat.
Proof.
  induction mask as [|c mask IH]; intros [|a l] E; try done. injection E as E. specialize (IH l E). destruct c; cbn in *; lia.
Qed.
Lemma masked_perm {A} : forall mask (l : list A), length mask = length l -> masked true mask l ++ masked false mask l ≡ₚ l.
Proof.
  induction mask as [|c mask IH]; intros [|a l] E; try done. injection E as E. specialize (IH l E). destruct c; cbn.
  - by f_equiv.
  - rewrite <- Permutation_middle. by f_equiv.
Qed.

Section props.
Context {B M : Type} (rot tra : list B -> list B -> list Z) (bearing1 bearing2 : M -> B).

(** Into empty output lists: the matches are split by a mask, in order; the flag tells whether there are at least
    six matches and six different inlier indices; with success the mask marks the union of the two inlier
    sets, without success everything is an outlier. *)
Theorem ox_partition_partial ms : exists success ins outs mask,
  reject rot tra bearing1 bearing2 ms [] [] = Ok (success, ins, outs) /\
  length mask = length ms /\ ins = masked true mask ms /\ outs = masked false mask ms /\
  (success = true <-> (6 <= length ms)%nat /\ at_least_distinct 6 (rot (bearing1 <$> ms) (bearing2 <$> ms) ++ tra (bearing1 <$> ms) (bearing2 <$> ms))) /\
  (success = false -> ins = [] /\ outs = ms) /\
  (success = true -> forall i : nat, (i < length ms)%nat ->
    (mask !! i = Some true <-> Z.of_nat i ∈ rot (bearing1 <$> ms) (bearing2 <$> ms) \/ Z.of_nat i ∈ tra (bearing1 <$> ms) (bearing2 <$> ms))).
Proof.
  unfold reject. destruct (inlier_indices rot tra (bearing1 <$> ms) (bearing2 <$> ms)) as [success inls] eqn:E.
  rewrite split_loop_masked. set (mask := (fun j => bool_decide (j ∈ inls)) <$> seqZ 0 (Z.of_nat (length ms))).
  assert (Hm : length mask = length ms). { unfold mask. rewrite fmap_length, seqZ_length. lia. }
  cbn [app]. rewrite (masked_length mask ms Hm), Nat.eqb_refl. exists success, (masked true mask ms), (masked false mask ms), mask.
  split; [done|]. split; [done|]. split; [done|]. split; [done|].
  unfold inlier_indices, min_correspondences in E. rewrite fmap_length in E.
  assert (Hall : inls = [] -> masked true mask ms = [] /\ masked false mask ms = ms).
  { intros ->. unfold mask. clear. generalize 0 as k. induction ms as [|m ms IH]; intros k; [done|]. cbn [length]. rewrite seqZ_cons by lia.
    replace (Z.pred (Z.of_nat (S (length ms)))) with (Z.of_nat (length ms)) by lia. rewrite fmap_cons. cbn [masked].
    rewrite bool_decide_false by (by apply not_elem_of_nil). cbn. destruct (IH (Z.succ k)) as [-> ->]. done. }
  destruct (Nat.ltb_spec (length ms) 6) as [L|L].
  - injection E as <- <-. split; [split; [done|intros [? _]; lia]|]. split; [by intros _; apply Hall|done].
  - rewrite <- union_size. set (u := insert_range (insert_range [] _) _) in *. destruct (Nat.ltb_spec (length u) 6) as [L'|L'].
    + injection E as <- <-. split; [split; [done|intros [_ ?]; lia]|]. split; [by intros _; apply Hall|done].
    + injection E as <- <-. split; [split; [intros _; lia|done]|]. split; [done|]. intros _ i Hi.
      unfold mask. rewrite list_lookup_fmap, lookup_seqZ_lt by lia. cbn. rewrite Z.add_0_l.
      transitivity (Z.of_nat i ∈ u).
      * split; [intros E; injection E as E; by apply bool_decide_eq_true in E|intros H; by rewrite bool_decide_true].
      * unfold u. rewrite !insert_range_elem, elem_of_nil. tauto.
Qed.
(** In particular, no match is lost or duplicated. *)
Theorem ox_nothing_lost ms success ins outs : reject rot tra bearing1 bearing2 ms [] [] = Ok (success, ins, outs) -> ins ++ outs ≡ₚ ms.
Proof.
  intros E. destruct (ox_partition_partial ms) as (s & i & o & mask & E' & Hm & Hi & Ho & _). rewrite E in E'. injection E' as -> -> ->.
  rewrite Hi, Ho. by apply masked_perm.
Qed.
(** Output lists that are not empty make the check abort the process, for all matches. *)
Theorem ox_nonempty_output_aborts ms ins outs : (0 < length ins + length outs)%nat ->
  reject rot tra bearing1 bearing2 ms ins outs = Abort.
Proof.
  intros H. unfold reject. destruct (inlier_indices rot tra (bearing1 <$> ms) (bearing2 <$> ms)) as [success inls].
  rewrite split_loop_masked. set (mask := (fun j => bool_decide (j ∈ inls)) <$> seqZ 0 (Z.of_nat (length ms))).
  assert (Hm : length mask = length ms). { unfold mask. rewrite fmap_length, seqZ_length. lia. }
  pose proof (masked_length mask ms Hm). rewrite !app_length.
  destruct (Nat.eqb_spec (length ins + length (masked true mask ms) + (length outs + length (masked false mask ms))) (length ms)); [lia|done].
Qed.
End props.
Print Assumptions ox_partition_partial.
Print Assumptions ox_nothing_lost.
Print Assumptions ox_nonempty_output_aborts.
(** So reusing the output lists of an earlier call fails: the split for arbitrary lists is refuted. *)
Theorem ox_partition_refuted : exists (rot tra : list Z -> list Z -> list Z) ms ins outs,
  reject rot tra id id ms ins outs = Abort.
Proof. exists (fun _ _ => []), (fun _ _ => []), [1; 2], [7], []. reflexivity. Qed.
Print Assumptions ox_partition_refuted.
Example ox_partition_case : reject (fun _ _ => [0; 2; 4; 2]) (fun _ _ => [5; 6; 2; 3]) id id [10; 11; 12; 13; 14; 15; 16] [] [] =
  Ok (true, [10; 12; 13; 14; 15; 16], [11]).
Proof. reflexivity. Qed.
(** Five different inliers, one repeated: failure. *)
Example ox_partition_few : reject (fun _ _ => [0; 2; 4; 2]) (fun _ _ => [5; 6; 2]) id id [10; 11; 12; 13; 14; 15; 16] [] [] =
  Ok (false, [], [10; 11; 12; 13; 14; 15; 16]).
Proof. reflexivity. Qed.
