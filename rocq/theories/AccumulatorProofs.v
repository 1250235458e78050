(** Proofs about the windowed accumulator. *)
From Coq Require Import ZArith QArith Bool Lia.
From stdpp Require Import list gmap strings.
From Verif Require Import StatisticsModel StatisticsSpec.
Open Scope Z_scope.

Lemma total_app l1 l2 : total (l1 ++ l2) = total l1 + total l2.
Proof. unfold total. induction l1 as [|x l IH]; cbn; [lia|]. rewrite IH. lia. Qed.
Lemma total_perm l1 l2 : l1 ≡ₚ l2 -> total l1 = total l2.
Proof. unfold total. induction 1; cbn in *; lia. Qed.
Lemma sumQ_perm l1 l2 : l1 ≡ₚ l2 -> (sumQ l1 == sumQ l2)%Q.
Proof.
  unfold sumQ. induction 1; cbn in *; [reflexivity|rewrite IHPermutation; reflexivity|ring|].
  etransitivity; eassumption.
Qed.

Record inv (lo hi w : Z) (h : list Z) (a : acc) : Prop := Inv {
  inv_idx : sample_index a = Z.of_nat (length h);
  inv_tot : total_samples a = Z.of_nat (length h);
  inv_sum : sum a = total h;
  inv_wsum : window_sum a = total (samples a);
  inv_len : length (samples a) = (length h `min` Z.to_nat w)%nat;
  inv_ring : forall i, (length h - Z.to_nat w <= i < length h)%nat ->
      samples a !! (i mod Z.to_nat w)%nat = h !! i;
  inv_perm : samples a ≡ₚ last_samples (Z.to_nat w) h;
  inv_recent : most_recent a = default 0 (last h);
  inv_min : minv a = foldr Z.min hi h;
  inv_max : maxv a = foldr Z.max lo h }.

Lemma inv_new lo hi w : inv lo hi w [] (acc_new lo hi).
Proof. constructor; cbn; try reflexivity. Qed.

Lemma foldr_min_app hi l x : foldr Z.min hi (l ++ [x]) = Z.min x (foldr Z.min hi l).
Proof. induction l as [|y l IH]; cbn; [lia|rewrite IH; lia]. Qed.
Lemma foldr_max_app lo l x : foldr Z.max lo (l ++ [x]) = Z.max x (foldr Z.max lo l).
Proof. induction l as [|y l IH]; cbn; [lia|rewrite IH; lia]. Qed.

Lemma inv_step lo hi w h a x : 0 < w -> Z.of_nat (length h) < int_max -> inv lo hi w h a ->
  exists a', acc_add w a x = Some a' /\ inv lo hi w (h ++ [x]) a'.
Proof.
  intros Hw Hn I. destruct I as [I1 I2 I3 I4 I5 I6 I7 I8 I9 I10].
  unfold acc_add. unfold int_incr. rewrite I1, I2.
  rewrite (proj2 (Z.ltb_lt _ _) Hn).
  assert (Hmin : (if x <? minv a then x else minv a) = foldr Z.min hi (h ++ [x])).
  { rewrite foldr_min_app, <- I9. destruct (Z.ltb_spec x (minv a)); lia. }
  assert (Hmax : (if maxv a <? x then x else maxv a) = foldr Z.max lo (h ++ [x])).
  { rewrite foldr_max_app, <- I10. destruct (Z.ltb_spec (maxv a) x); lia. }
  set (W := Z.to_nat w) in *.
  assert (HW : (0 < W)%nat) by (subst W; lia).
  destruct (Z.ltb_spec (Z.of_nat (length h)) w) as [Hlt|Hge].
  - assert (HhW : (length h < W)%nat) by (subst W; lia).
    eexists. split; [reflexivity|].
    constructor; cbn [samples sample_index total_samples sum window_sum minv maxv most_recent]; fold W; rewrite ?app_length; cbn [length].
    + lia. + lia.
    + rewrite total_app, I3. unfold total at 3. cbn. lia.
    + rewrite total_app, I4. unfold total at 3. cbn. lia.
    + lia.
    + intros i Hi. rewrite Nat.mod_small by lia.
      destruct (decide (i < length h)%nat).
      * rewrite !lookup_app_l by lia. rewrite <- (I6 i) by lia. by rewrite Nat.mod_small by lia.
      * assert (i = length h) as -> by lia.
        rewrite !lookup_app_r by lia. f_equal. lia.
    + unfold last_samples in *. rewrite app_length. cbn [length].
      replace (length h + 1 - W)%nat with 0%nat by lia.
      replace (length h - W)%nat with 0%nat in I7 by lia. rewrite drop_0 in I7 |- *. by rewrite I7.
    + by rewrite last_snoc.
    + exact Hmin.
    + exact Hmax.
  - assert (HhW : (W <= length h)%nat) by (subst W; lia).
    assert (E : Z.to_nat (Z.of_nat (length h) mod w) = (length h mod W)%nat).
    { subst W. rewrite <- (Nat2Z.id (length h mod _)). f_equal. rewrite Nat2Z.inj_mod. f_equal. lia. }
    rewrite E.
    assert (Em : ((length h - W) mod W)%nat = (length h mod W)%nat).
    { rewrite <- (Nat.mod_add (length h - W) 1 W) by lia. f_equal. lia. }
    destruct (lookup_lt_is_Some_2 h (length h - W)) as [o Ho]; [lia|].
    assert (Ho' : samples a !! (length h mod W)%nat = Some o).
    { rewrite <- Em. rewrite I6 by lia. exact Ho. }
    rewrite Ho'. eexists. split; [reflexivity|].
    pose proof (Nat.mod_upper_bound (length h) W ltac:(lia)) as Hub.
    assert (Hlen : length (samples a) = W) by lia.
    set (k := (length h mod W)%nat) in *.
    assert (P1 : samples a ≡ₚ o :: delete k (samples a)) by (by apply delete_Permutation).
    assert (P2 : <[k:=x]> (samples a) ≡ₚ x :: delete k (samples a)).
    { assert (Hx : <[k:=x]> (samples a) !! k = Some x) by (apply list_lookup_insert; lia).
      rewrite (delete_Permutation _ _ _ Hx) at 1.
      f_equiv. rewrite !delete_take_drop.
      rewrite take_insert by lia. rewrite drop_insert_gt by lia. reflexivity. }
    assert (D : drop (length h - W) h = o :: drop (length h + 1 - W) h).
    { rewrite (drop_S h o) by exact Ho. f_equal. f_equal. lia. }
    constructor; cbn [samples sample_index total_samples sum window_sum minv maxv most_recent]; fold W; rewrite ?app_length; cbn [length].
    + lia. + lia.
    + rewrite total_app, I3. unfold total at 3. cbn. lia.
    + rewrite (total_perm _ _ P2), I4, (total_perm _ _ P1). unfold total. cbn. lia.
    + rewrite insert_length. lia.
    + intros i Hi. destruct (decide (i = length h)) as [->|Hne].
      * fold k. rewrite list_lookup_insert by lia.
        rewrite lookup_app_r by lia. by rewrite Nat.sub_diag.
      * rewrite list_lookup_insert_ne.
        -- rewrite lookup_app_l by lia. apply I6. lia.
        -- subst k. intros Heq.
           (* i and length h are congruent and less than W apart *)
           assert (length h - i < W)%nat by lia.
           pose proof (Nat.div_mod (length h) W ltac:(lia)).
           pose proof (Nat.div_mod i W ltac:(lia)).
           assert (W * (length h / W - i / W) = length h - i)%nat by nia.
           assert (length h / W - i / W = 0)%nat by nia. nia.
    + unfold last_samples in *. rewrite app_length. cbn [length].
      rewrite P2. rewrite drop_app_le by lia.
      rewrite D, P1 in I7. apply (inj (cons o)) in I7. rewrite I7.
      apply Permutation_cons_append.
    + by rewrite last_snoc.
    + exact Hmin.
    + exact Hmax.
Qed.

Lemma inv_adds lo hi w h1 h a : 0 < w -> Z.of_nat (length (h1 ++ h)) <= int_max -> inv lo hi w h1 a ->
  exists a', acc_adds w a h = Some a' /\ inv lo hi w (h1 ++ h) a'.
Proof.
  intros Hw. revert h1 a. induction h as [|x h IH]; intros h1 a Hn I; cbn [acc_adds].
  - rewrite app_nil_r. eauto.
  - rewrite app_length in Hn. cbn [length] in Hn.
    destruct (inv_step lo hi w h1 a x Hw ltac:(lia) I) as (a1 & E1 & I1). rewrite E1.
    destruct (IH (h1 ++ [x]) a1) as (a2 & E2 & I2).
    + rewrite !app_length. cbn [length]. lia.
    + exact I1.
    + exists a2. split; [exact E2|]. by rewrite <- app_assoc in I2.
Qed.

Lemma adds_overflow lo hi w h1 h a : 0 < w -> Z.of_nat (length h1) <= int_max ->
  int_max < Z.of_nat (length (h1 ++ h)) -> inv lo hi w h1 a -> acc_adds w a h = None.
Proof.
  intros Hw. revert h1 a. induction h as [|x h IH]; intros h1 a Hn Ho I; cbn [acc_adds].
  - rewrite app_nil_r in Ho. lia.
  - destruct (decide (Z.of_nat (length h1) = int_max)) as [E|NE].
    + unfold acc_add, int_incr. rewrite (inv_idx _ _ _ _ _ I), E.
      by rewrite Z.ltb_irrefl.
    + destruct (inv_step lo hi w h1 a x Hw ltac:(lia) I) as (a1 & E1 & I1). rewrite E1.
      apply (IH (h1 ++ [x])).
      * rewrite app_length. cbn [length]. lia.
      * by rewrite <- app_assoc.
      * exact I1.
Qed.

Lemma foldr_min_is_min hi l : l <> [] -> Forall (fun x => x <= hi) l -> is_min l (foldr Z.min hi l).
Proof.
  unfold is_min. induction l as [|x l IH]; intros Hne HF; [done|].
  inversion HF as [|? ? Hx HF']; subst. cbn [foldr].
  destruct l as [|y l].
  - cbn. rewrite Z.min_l by lia. split; [constructor|]. constructor; [lia|constructor].
  - destruct (IH ltac:(done) HF') as [H1 H2].
    set (m := foldr Z.min hi (y :: l)) in *.
    split.
    + destruct (Z.min_spec x m) as [[_ ->]|[_ ->]]; [constructor|by constructor].
    + constructor; [lia|]. eapply Forall_impl; [exact H2|]. intros; cbn in *; lia.
Qed.
Lemma foldr_max_is_max lo l : l <> [] -> Forall (fun x => lo <= x) l -> is_max l (foldr Z.max lo l).
Proof.
  unfold is_max. induction l as [|x l IH]; intros Hne HF; [done|].
  inversion HF as [|? ? Hx HF']; subst. cbn [foldr].
  destruct l as [|y l].
  - cbn. rewrite Z.max_l by lia. split; [constructor|]. constructor; [lia|constructor].
  - destruct (IH ltac:(done) HF') as [H1 H2].
    set (m := foldr Z.max lo (y :: l)) in *.
    split.
    + destruct (Z.max_spec x m) as [[_ ->]|[_ ->]]; [by constructor|constructor].
    + constructor; [lia|]. eapply Forall_impl; [exact H2|]. intros; cbn in *; lia.
Qed.

Lemma last_samples_length w l : length (last_samples w l) = (length l `min` w)%nat.
Proof. unfold last_samples. rewrite drop_length. lia. Qed.

Lemma inv_rolling lo hi w h a : 0 < w <= int_max -> Z.of_nat (length h) <= int_max -> h <> [] ->
  inv lo hi w h a ->
  exists m, acc_rolling_mean w a = Some m /\ (m == mean (last_samples (Z.to_nat w) h))%Q.
Proof.
  intros Hw Hn Hne I. unfold acc_rolling_mean, mean.
  assert (0 < length h)%nat by (destruct h; cbn; [done|lia]).
  rewrite last_samples_length. rewrite <- (total_perm _ _ (inv_perm _ _ _ _ _ I)).
  destruct (Z.ltb_spec w int_max).
  - rewrite (inv_idx _ _ _ _ _ I), (inv_wsum _ _ _ _ _ I).
    replace (Z.of_nat (length h `min` Z.to_nat w)) with (Z.min (Z.of_nat (length h)) w) by lia.
    destruct (Z.eqb_spec (Z.min (Z.of_nat (length h)) w) 0); [lia|].
    eexists. split; reflexivity.
  - unfold acc_mean. rewrite (inv_tot _ _ _ _ _ I), (inv_sum _ _ _ _ _ I).
    destruct (Z.ltb_spec (Z.of_nat (length h)) 1); [lia|].
    assert (E : total (samples a) = total h).
    { rewrite (total_perm _ _ (inv_perm _ _ _ _ _ I)). unfold last_samples.
      by replace (length h - Z.to_nat w)%nat with 0%nat by lia. }
    rewrite E. replace (length h `min` Z.to_nat w)%nat with (length h) by lia.
    eexists. split; reflexivity.
Qed.

Lemma foldl_var_sumQ m l v :
  (foldl (fun v s => v + (inject_Z s - m) * (inject_Z s - m)) v l
   == v + sumQ (map (fun x => (inject_Z x - m) * (inject_Z x - m)) l))%Q.
Proof.
  revert v. induction l as [|x l IH]; intros v; cbn [foldl map]; unfold sumQ in *; cbn [foldr].
  - ring.
  - rewrite IH. ring.
Qed.
Lemma sumQ_map_ext (f g : Z -> Q) l : (forall x, (f x == g x)%Q) -> (sumQ (map f l) == sumQ (map g l))%Q.
Proof.
  intros E. unfold sumQ. induction l as [|x l IH]; cbn [map foldr]; [reflexivity|].
  by rewrite IH, E.
Qed.

Lemma inv_variance lo hi w h a : 0 < w <= int_max -> Z.of_nat (length h) <= int_max ->
  inv lo hi w h a -> (2 <= length (last_samples (Z.to_nat w) h))%nat ->
  exists v, acc_variance w a = Some v /\ (v == sample_variance (last_samples (Z.to_nat w) h))%Q.
Proof.
  intros Hw Hn I Hl.
  assert (Hne : h <> []).
  { intros ->. unfold last_samples in Hl. cbn in Hl. rewrite drop_nil in Hl. cbn in Hl. lia. }
  destruct (inv_rolling lo hi w h a Hw Hn Hne I) as (m & Em & Hm).
  pose proof (inv_perm _ _ _ _ _ I) as P.
  unfold acc_variance. rewrite Em.
  assert (El : length (samples a) = length (last_samples (Z.to_nat w) h)) by (by rewrite P).
  rewrite El. destruct (Nat.ltb_spec (length (last_samples (Z.to_nat w) h)) 2); [lia|].
  eexists. split; [reflexivity|]. unfold sample_variance.
  set (L := last_samples (Z.to_nat w) h) in *.
  assert (E : (foldl (fun v s => v + (inject_Z s - m) * (inject_Z s - m)) 0 (samples a)
     == sumQ (map (fun x => (inject_Z x - mean L) * (inject_Z x - mean L)) L))%Q).
  { rewrite foldl_var_sumQ, Qplus_0_l.
    rewrite (sumQ_perm _ (map (fun x => (inject_Z x - m) * (inject_Z x - m)) L)%Q).
    - apply sumQ_map_ext. intros x. by rewrite Hm.
    - by apply Permutation_map. }
  by rewrite E.
Qed.
