(** Lemmas about the reordering of time steps. *)
From Coq Require Import ZArith Znumtheory Bool Lia.
From stdpp Require Import list list_numbers.
From Verif Require Import StlHelpersModel FedModel FedSpec.
Local Open Scope Z_scope.

(** ** Primes *)
Lemma divide_le d m : (d | m) -> 0 < m -> d <= m.
Proof. intros. by apply Z.divide_pos_le. Qed.
(** Every number above 1 has a prime divisor that is minimal among the divisors above 1. *)
Lemma smallest_divisor m : 1 < m -> exists d, 1 < d <= m /\ (d | m) /\ prime d /\ forall e, 1 < e < d -> ~ (e | m).
Proof.
  intros Hm.
  assert (H : forall k : nat, (exists d, 1 < d <= m /\ (d | m) /\ prime d /\ forall e, 1 < e < d -> ~ (e | m)) \/
    forall e, 1 < e <= Z.of_nat k -> ~ (e | m)).
  { induction k as [|k [IH|IH]]; [right; lia|by left|].
    destruct (decide (Z.of_nat (S k) <= 1)); [right; lia|].
    destruct (Zdivide_dec (Z.of_nat (S k)) m) as [D|D].
    - left. exists (Z.of_nat (S k)). pose proof (divide_le _ _ D ltac:(lia)). split; [lia|]. split; [done|]. split.
      + apply prime_intro; [lia|]. intros e He. apply Zgcd_1_rel_prime. pose proof (Z.gcd_nonneg e (Z.of_nat (S k))).
        pose proof (Z.gcd_divide_l e (Z.of_nat (S k))) as Hl. pose proof (Z.gcd_divide_r e (Z.of_nat (S k))) as Hr.
        pose proof (divide_le _ _ Hl ltac:(lia)).
        destruct (decide (Z.gcd e (Z.of_nat (S k)) = 0)) as [E|]; [rewrite E in Hl; destruct Hl; lia|].
        destruct (decide (Z.gcd e (Z.of_nat (S k)) = 1)); [done|]. exfalso.
        apply (IH (Z.gcd e (Z.of_nat (S k)))); [lia|]. by etransitivity.
      + intros e He. apply IH. lia.
    - right. intros e He. destruct (decide (e = Z.of_nat (S k))) as [->|]; [done|]. apply IH. lia. }
  destruct (H (Z.to_nat m)) as [?|N]; [done|]. exfalso. apply (N m); [lia|done].
Qed.
Fixpoint fact (n : nat) : Z := match n with O => 1 | S m => Z.of_nat n * fact m end.
Lemma fact_pos n : 1 <= fact n.
Proof. induction n; cbn [fact]; lia. Qed.
Lemma divides_fact n d : 1 <= d <= Z.of_nat n -> (d | fact n).
Proof.
  induction n as [|n IH]; [lia|]. intros H. cbn [fact]. destruct (decide (d = Z.of_nat (S n))) as [->|].
  - apply Z.divide_factor_l.
  - apply Z.divide_mul_r, IH. lia.
Qed.
Lemma prime_above (n : nat) : exists p, prime p /\ Z.of_nat n < p.
Proof.
  pose proof (fact_pos n) as Hf. destruct (smallest_divisor (fact n + 1) ltac:(lia)) as (d & Hd & D & Hp & _). exists d. split; [done|].
  destruct (decide (Z.of_nat n < d)); [done|]. exfalso. pose proof (divides_fact n d ltac:(lia)) as Df.
  pose proof (Z.divide_sub_r _ _ _ D Df) as D1. replace (fact n + 1 - fact n) with 1 in D1 by lia.
  apply Z.divide_1_r_nonneg in D1; lia.
Qed.
Lemma divisor_loop_spec m upper : forall fuel d, 0 < d -> upper - d + 2 <= Z.of_nat fuel ->
  (0 < fuel)%nat ->
  exists b, divisor_loop fuel m d upper = Some b /\
    (b = false -> exists e, d <= e <= upper /\ (e | m)) /\
    (b = true -> forall j, 0 <= j -> d + 2 * j <= upper -> ~ (d + 2 * j | m)).
Proof.
  induction fuel as [|f IH]; intros d Hd L Hf; [lia|]. cbn [divisor_loop].
  destruct (Z.leb_spec d upper) as [Ld|Ld].
  - destruct (Z.eqb_spec (m mod d) 0) as [E|E].
    + exists false. split; [done|]. split; [|done]. intros _. exists d. split; [lia|]. by apply Z.mod_divide; [lia|].
    + destruct (decide (f = O)) as [->|Nf]; [lia|].
      destruct (IH (d + 2) ltac:(lia) ltac:(lia) ltac:(lia)) as (b & -> & H1 & H2). exists b. split; [done|]. split.
      * intros Hb. destruct (H1 Hb) as (e & ? & ?). exists e. split; [lia|done].
      * intros Hb j Hj Lj. destruct (decide (j = 0)) as [->|].
        -- rewrite Z.mul_0_r, Z.add_0_r. intros D. apply E. by apply Z.mod_divide; [lia|].
        -- replace (d + 2 * j) with (d + 2 + 2 * (j - 1)) by lia. apply H2; [done|lia|lia].
  - exists true. split; [done|]. split; [done|]. intros _ j Hj Lj. lia.
Qed.
Lemma not_prime_div m d : 1 < d < m -> (d | m) -> ~ prime m.
Proof.
  intros Hd D Hp. apply prime_divisors with (a := d) in Hp; [|done]. lia.
Qed.
Lemma mod_test m d : 1 < d -> (m mod d =? 0) = true <-> (d | m).
Proof. intros Hd. rewrite Z.eqb_eq. apply Z.mod_divide. lia. Qed.
Lemma prime_5 : prime 5.
Proof. apply prime_intro; [lia|]. intros n Hn. assert (n = 1 \/ n = 2 \/ n = 3 \/ n = 4) as [->|[->|[->| ->]]] by lia; by apply Zgcd_1_rel_prime. Qed.
Lemma prime_7 : prime 7.
Proof.
  apply prime_intro; [lia|]. intros n Hn.
  assert (n = 1 \/ n = 2 \/ n = 3 \/ n = 4 \/ n = 5 \/ n = 6) as [->|[->|[->|[->|[->| ->]]]]] by lia; by apply Zgcd_1_rel_prime.
Qed.
Lemma is_prime_ok m : exists b, is_prime m = Some b /\ (b = true <-> prime m).
Proof.
  unfold is_prime. destruct (Z.leb_spec m 1) as [L|L].
  { exists false. split; [done|]. split; [done|]. intros Hp. apply prime_ge_2 in Hp. lia. }
  destruct ((m =? 2) || (m =? 3) || (m =? 5) || (m =? 7)) eqn:E1.
  { exists true. split; [done|]. split; [|done]. intros _. rewrite !orb_true_iff, !Z.eqb_eq in E1.
    destruct E1 as [[[->| ->]| ->]| ->]; [apply prime_2|apply prime_3|apply prime_5|apply prime_7]. }
  rewrite !orb_false_iff, !Z.eqb_neq in E1. destruct E1 as [[[N2 N3] N5] N7].
  destruct ((m mod 2 =? 0) || (m mod 3 =? 0) || (m mod 5 =? 0) || (m mod 7 =? 0)) eqn:E2.
  { exists false. split; [done|]. split; [done|]. intros Hp. exfalso.
    rewrite !orb_true_iff, !mod_test in E2 by lia. destruct E2 as [[[D|D]|D]|D]; pose proof (divide_le _ _ D ltac:(lia));
      (eapply not_prime_div; [|exact D|exact Hp]); lia. }
  rewrite !orb_false_iff in E2. destruct E2 as [[[D2 D3] D5] D7].
  assert (H2 : ~ (2 | m)) by (rewrite <- mod_test, D2 by lia; done). assert (H3 : ~ (3 | m)) by (rewrite <- mod_test, D3 by lia; done).
  assert (H5 : ~ (5 | m)) by (rewrite <- mod_test, D5 by lia; done). assert (H7 : ~ (7 | m)) by (rewrite <- mod_test, D7 by lia; done).
  clear D2 D3 D5 D7.
  assert (L4 : m <> 4) by (intros ->; apply H2; by exists 2). assert (L6 : m <> 6) by (intros ->; apply H2; by exists 3).
  assert (L8 : m <> 8) by (intros ->; apply H2; by exists 4). assert (L9 : m <> 9) by (intros ->; apply H3; by exists 3).
  assert (L10 : m <> 10) by (intros ->; apply H2; by exists 5).
  pose proof (Z.sqrt_spec (m + 1) ltac:(lia)) as [S1 S2]. set (u := Z.sqrt (m + 1)) in *.
  assert (Hu : u < m - 1) by nia.
  destruct (divisor_loop_spec m u (Z.to_nat m) 11 ltac:(lia) ltac:(lia) ltac:(lia)) as (b & -> & Hf & Ht).
  exists b. split; [done|]. destruct b; [|split; [done|]].
  - split; [|done]. intros _. specialize (Ht eq_refl). destruct (smallest_divisor m ltac:(lia)) as (d & Hd & D & Hp & Hmin).
    destruct (decide (d = m)) as [->|Nd]; [done|]. exfalso.
    destruct D as [q Hq]. assert (Hqd : d <= q).
    { destruct (decide (d <= q)); [done|]. exfalso. apply (Hmin q); [nia|]. exists d. lia. }
    assert (d <= u) by nia.
    assert (Hodd : d mod 2 = 1).
    { pose proof (Z.mod_pos_bound d 2 ltac:(lia)). destruct (decide (d mod 2 = 0)) as [E|]; [|lia]. exfalso. apply H2.
      transitivity d; [by apply Z.mod_divide|by exists q]. }
    assert (Dd : (d | m)) by (by exists q).
    assert (d <> 3) by (intros ->; done). assert (d <> 5) by (intros ->; done). assert (d <> 7) by (intros ->; done).
    assert (d <> 9) by (intros ->; apply H3; transitivity 9; [by exists 3|done]).
    assert (11 <= d). { pose proof (Z.div_mod d 2 ltac:(lia)). lia. }
    apply (Ht ((d - 11) / 2)).
    + apply Z.div_pos; lia.
    + pose proof (Z.div_mod d 2 ltac:(lia)). rewrite <- (Z.div_unique_exact (d - 11) 2 (d / 2 - 5)) by lia. lia.
    + pose proof (Z.div_mod d 2 ltac:(lia)). rewrite <- (Z.div_unique_exact (d - 11) 2 (d / 2 - 5)) by lia.
      replace (11 + 2 * (d / 2 - 5)) with d by lia. done.
  - intros Hp. destruct (Hf eq_refl) as (e & He & D). exfalso. eapply not_prime_div; [|exact D|exact Hp]. lia.
Qed.
Lemma next_prime_ok p : prime p -> forall (k : nat) m, p = m + Z.of_nat k -> exists q, smallest_prime_from m q /\ q <= p /\
  forall fuel, (k < fuel)%nat -> next_prime fuel m = Some q.
Proof.
  intros Hp. induction k as [|k IH]; intros m E.
  - assert (m = p) as -> by lia. exists p. split; [split; [done|]; split; [lia|intros q Hq; lia]|]. split; [lia|].
    intros [|fuel] L; [lia|]. cbn [next_prime]. destruct (is_prime_ok p) as (b & -> & Hb). cbn. destruct b; [done|]. by apply Hb in Hp.
  - destruct (is_prime_ok m) as (b & Hm & Hb). destruct b.
    + exists m. split; [split; [by apply Hb|]; split; [lia|intros q Hq; lia]|]. split; [lia|].
      intros [|fuel] L; [lia|]. cbn [next_prime]. by rewrite Hm.
    + destruct (IH (m + 1) ltac:(lia)) as (q & (Hq & Lq & Hmin) & Lqp & Hf). exists q. split; [|split; [done|]].
      * split; [done|]. split; [lia|]. intros r Hr. destruct (decide (r = m)) as [->|]; [intros Hr'; by apply Hb in Hr'|]. apply Hmin. lia.
      * intros [|fuel] L; [lia|]. cbn [next_prime]. rewrite Hm. cbn. apply Hf. lia.
Qed.

(** ** Permutation *)
Definition idx (kappa p k : Z) : Z := ((k + 1) * kappa) mod p - 1.
Lemma idx_range kappa p k : prime p -> 0 < kappa < p -> 0 <= k < p - 1 -> 0 <= idx kappa p k < p - 1.
Proof.
  intros Hp Hk Hr. unfold idx. pose proof (Z.mod_pos_bound ((k + 1) * kappa) p ltac:(lia)).
  destruct (decide (((k + 1) * kappa) mod p = 0)) as [E|]; [|lia]. exfalso.
  apply Z.mod_divide in E; [|lia]. apply prime_mult in E; [|done]. destruct E as [E|E]; apply Z.divide_pos_le in E; lia.
Qed.
Lemma idx_inj kappa p k l : prime p -> 0 < kappa < p -> 0 <= k < p - 1 -> 0 <= l < p - 1 -> idx kappa p k = idx kappa p l -> k = l.
Proof.
  intros Hp Hk Hr Hl E. unfold idx in E.
  assert (Em : ((k + 1) * kappa) mod p = ((l + 1) * kappa) mod p) by lia.
  assert (D : (p | (k - l) * kappa)).
  { apply Z.mod_divide; [lia|]. replace ((k - l) * kappa) with ((k + 1) * kappa - (l + 1) * kappa) by ring.
    rewrite Zminus_mod, Em, Z.sub_diag. by apply Z.mod_0_l; lia. }
  apply prime_mult in D; [|done]. destruct D as [D|D]; [|apply Z.divide_pos_le in D; lia].
  destruct (decide (k - l = 0)); [lia|]. exfalso. destruct D as [q Hq]. assert (q = 0 \/ 1 <= Z.abs q) as [->|] by lia; [lia|nia].
Qed.
Lemma idx_perm kappa p : prime p -> 0 < kappa < p -> idx kappa p <$> seqZ 0 (p - 1) ≡ₚ seqZ 0 (p - 1).
Proof.
  intros Hp Hk. apply Permutation_sym. symmetry.
  apply NoDup_Permutation_bis.
  - apply NoDup_ListNoDup. apply NoDup_fmap_2_strong; [|apply NoDup_seqZ].
    intros x y Hx Hy. apply elem_of_seqZ in Hx, Hy. apply idx_inj; auto; lia.
  - by rewrite fmap_length.
  - intros x Hx. apply elem_of_list_In in Hx. apply elem_of_list_In. apply elem_of_list_fmap in Hx as (k & -> & Hx).
    apply elem_of_seqZ in Hx. apply elem_of_seqZ. pose proof (idx_range kappa p k Hp Hk ltac:(lia)). lia.
Qed.
(** The indices used by the loop when k runs through m values from k on. *)
Definition used (kappa p n k : Z) (m : nat) : list Z := filter (fun i => i < n) (idx kappa p <$> seqZ k (Z.of_nat m)).
Lemma used_S kappa p n k m : used kappa p n k (S m) =
  if decide (idx kappa p k < n) then idx kappa p k :: used kappa p n (k + 1) m else used kappa p n (k + 1) m.
Proof.
  unfold used. rewrite seqZ_cons by lia. replace (Z.pred (Z.of_nat (S m))) with (Z.of_nat m) by lia.
  rewrite fmap_cons, filter_cons. replace (Z.succ k) with (k + 1) by lia. done.
Qed.
Lemma permute_ok {A} (tauh : list A) kappa p : prime p -> 0 < kappa < p -> (p - 1) * kappa < 2 ^ 31 ->
  forall (m : nat) k left fuel, 0 <= k -> k + Z.of_nat m = p - 1 ->
  left = length (used kappa p (Z.of_nat (length tauh)) k m) -> (m < fuel)%nat ->
  permute fuel kappa p k left tauh = Some (Ok (omap (fun i : Z => tauh !! Z.to_nat i) (used kappa p (Z.of_nat (length tauh)) k m))).
Proof.
  intros Hp Hk Ho. set (n := Z.of_nat (length tauh)). induction m as [|m IH]; intros k left fuel Hk0 Hkm Hl Hf.
  - rewrite Hl. destruct fuel; [lia|]. done.
  - destruct fuel as [|f]; [lia|]. cbn [permute]. rewrite used_S in Hl |- *.
    pose proof (idx_range kappa p k Hp Hk ltac:(lia)) as Hr.
    assert (Hov : (2 ^ 31 <=? (k + 1) * kappa) = false) by (apply Z.leb_gt; nia).
    rewrite Hov. fold (idx kappa p k). change (Z.of_nat (length tauh)) with n.
    destruct (decide (idx kappa p k < n)) as [Hi|Hi].
    + cbn [length] in Hl. rewrite Hl. rewrite (proj2 (Z.leb_gt n (idx kappa p k)) Hi).
      rewrite (proj2 (Z.ltb_ge (idx kappa p k) 0)) by lia.
      destruct (lookup_lt_is_Some_2 tauh (Z.to_nat (idx kappa p k))) as [a Ha]; [unfold n in Hi; lia|].
      rewrite Ha. rewrite (IH (k + 1) _ f) by (done || lia). cbn. by rewrite Ha.
    + rewrite (proj2 (Z.leb_le n (idx kappa p k))) by lia.
      rewrite (IH (k + 1) left f) by (done || lia). destruct left; [|done].
      f_equal. f_equal. symmetry in Hl. apply nil_length_inv in Hl. by rewrite Hl.
Qed.
Lemma omap_seqZ {A} (l : list A) : omap (fun i : Z => l !! Z.to_nat i) (seqZ 0 (Z.of_nat (length l))) = l.
Proof.
  induction l as [|a l IH] using rev_ind; [done|]. rewrite app_length, Nat.add_1_r, seqZ_S, omap_app.
  assert (E : omap (fun i : Z => (l ++ [a]) !! Z.to_nat i) (seqZ 0 (Z.of_nat (length l))) =
    omap (fun i : Z => l !! Z.to_nat i) (seqZ 0 (Z.of_nat (length l)))).
  { apply list_omap_ext, Forall_Forall2_diag, Forall_forall. intros i Hi. apply elem_of_seqZ in Hi.
    rewrite lookup_app_l by lia. done. }
  rewrite E, IH. cbn [omap list_omap]. f_equal. rewrite Z.add_0_l, Nat2Z.id, lookup_app_r, Nat.sub_diag by lia. done.
Qed.
Lemma filter_all {A} (P : A -> Prop) `{!forall x, Decision (P x)} l : Forall P l -> filter P l = l.
Proof. induction 1 as [|x l Hx _ IH]; [done|]. rewrite filter_cons_True by done. by rewrite IH. Qed.
Lemma filter_none {A} (P : A -> Prop) `{!forall x, Decision (P x)} l : Forall (fun x => ~ P x) l -> filter P l = [].
Proof. induction 1 as [|x l Hx _ IH]; [done|]. by rewrite filter_cons_False. Qed.
Lemma filter_seqZ n m : 0 <= n <= m -> filter (fun i => i < n) (seqZ 0 m) = seqZ 0 n.
Proof.
  intros H. replace m with (n + (m - n)) by lia. rewrite seqZ_app by lia. rewrite filter_app.
  rewrite (filter_all _ (seqZ 0 n)). 2:{ apply Forall_forall. intros i Hi. apply elem_of_seqZ in Hi. lia. }
  rewrite filter_none. 2:{ apply Forall_forall. intros i Hi. apply elem_of_seqZ in Hi. lia. }
  apply app_nil_r.
Qed.
Lemma used_perm kappa p n : prime p -> 0 < kappa < p -> 0 <= n <= p - 1 -> used kappa p n 0 (Z.to_nat (p - 1)) ≡ₚ seqZ 0 n.
Proof.
  intros Hp Hk Hn. unfold used. rewrite Z2Nat.id by lia. rewrite (idx_perm kappa p Hp Hk), filter_seqZ; done.
Qed.
