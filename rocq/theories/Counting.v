(** Counting list elements that satisfy a boolean predicate, as integers (for invariants of systems
    with any number of threads). *)
From Coq Require Import ZArith Lia Bool.
From stdpp Require Import list.
Open Scope Z_scope.

Definition bz (b : bool) : Z := if b then 1 else 0.

Section cnt.
Context {A : Type}.
Implicit Types (f g : A -> bool) (l : list A).

Fixpoint cnt f l : Z :=
  match l with [] => 0 | x :: l' => bz (f x) + cnt f l' end.

Lemma bz_bounds b : 0 <= bz b <= 1.
Proof. destruct b; simpl; lia. Qed.

Lemma cnt_nonneg f l : 0 <= cnt f l.
Proof. induction l as [|x l IH]; simpl; [lia|]. pose proof (bz_bounds (f x)). lia. Qed.

Lemma cnt_le_length f l : cnt f l <= Z.of_nat (length l).
Proof. induction l as [|x l IH]; simpl length; simpl cnt; [lia|].
  pose proof (bz_bounds (f x)). lia. Qed.

Lemma cnt_insert f l t p q :
  l !! t = Some p -> cnt f (<[t := q]> l) = cnt f l - bz (f p) + bz (f q).
Proof.
  revert t; induction l as [|x l IH]; intros [|t] H; simpl in *; try discriminate.
  - injection H as ->. lia.
  - rewrite (IH _ H). lia.
Qed.

Lemma cnt_ext f g l : (forall x, f x = g x) -> cnt f l = cnt g l.
Proof. intros H; induction l as [|x l IH]; simpl; [done|]. rewrite H, IH. done. Qed.

Lemma cnt_le f g l : (forall x, f x = true -> g x = true) -> cnt f l <= cnt g l.
Proof. intros H; induction l as [|x l IH]; simpl; [lia|].
  specialize (H x). destruct (f x), (g x); simpl; try lia; by specialize (H eq_refl). Qed.

Lemma cnt_zero f l : (forall x, f x = false) -> cnt f l = 0.
Proof. intros H; induction l as [|x l IH]; simpl; [done|]. rewrite H, IH. done. Qed.

Lemma cnt_app f l1 l2 : cnt f (l1 ++ l2) = cnt f l1 + cnt f l2.
Proof. induction l1 as [|x l1 IH]; simpl; [done|]. rewrite IH. lia. Qed.

Lemma cnt_replicate f n x : f x = false -> cnt f (replicate n x) = 0.
Proof. intros H; induction n as [|n IH]; simpl; [done|]. rewrite H, IH. done. Qed.

Lemma cnt_lookup f l t p : l !! t = Some p -> f p = true -> 1 <= cnt f l.
Proof.
  revert t; induction l as [|x l IH]; intros [|t] H Hf; simpl in *; try discriminate.
  - injection H as ->. rewrite Hf. pose proof (cnt_nonneg f l). simpl. lia.
  - specialize (IH _ H Hf). pose proof (bz_bounds (f x)). lia.
Qed.

Lemma cnt_witness f l : 0 < cnt f l -> exists t p, l !! t = Some p /\ f p = true.
Proof.
  induction l as [|x l IH]; simpl; [lia|]. intros H.
  destruct (f x) eqn:E; [by exists 0%nat, x|].
  destruct IH as (t & p & Ht & Hp); [simpl in H; lia|]. by exists (S t), p.
Qed.

Lemma cnt_two f l t1 t2 p1 p2 :
  l !! t1 = Some p1 -> l !! t2 = Some p2 -> f p1 = true -> f p2 = true -> t1 <> t2 ->
  2 <= cnt f l.
Proof.
  revert t1 t2; induction l as [|x l IH]; intros [|t1] [|t2] H1 H2 F1 F2 Hn;
    simpl in *; try discriminate; try done.
  - injection H1 as ->. rewrite F1. pose proof (cnt_lookup _ _ _ _ H2 F2). simpl; lia.
  - injection H2 as ->. rewrite F2. pose proof (cnt_lookup _ _ _ _ H1 F1). simpl; lia.
  - pose proof (bz_bounds (f x)). assert (t1 <> t2) as Hn' by congruence.
    specialize (IH _ _ H1 H2 F1 F2 Hn'). lia.
Qed.

Lemma cnt_all_zero f l t p : cnt f l = 0 -> l !! t = Some p -> f p = false.
Proof. intros H Hl. destruct (f p) eqn:E; [|done]. pose proof (cnt_lookup _ _ _ _ Hl E). lia. Qed.

Lemma cnt_split f g h l :
  (forall x, bz (f x) = bz (g x) + bz (h x)) -> cnt f l = cnt g l + cnt h l.
Proof. intros H; induction l as [|x l IH]; simpl; [done|]. rewrite H, IH. lia. Qed.

Lemma cnt_pos f l : (0 <? cnt f l) = true <-> exists t p, l !! t = Some p /\ f p = true.
Proof.
  rewrite Z.ltb_lt. split; [apply cnt_witness|].
  intros (t & p & H & Hf). pose proof (cnt_lookup _ _ _ _ H Hf). lia.
Qed.
End cnt.

Lemma cnt_fmap {A B} (f : B -> bool) (g : A -> B) l : cnt f (g <$> l) = cnt (fun x => f (g x)) l.
Proof. induction l as [|x l IH]; [done|]. cbn. by f_equal. Qed.
