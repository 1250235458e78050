(** C94: the contrast factor. *)
From Coq Require Import Reals List Bool Arith ZArith Lia Lra.
From Verif Require Import ContrastModel ContrastSpec.
Import ListNotations.
Local Open Scope R_scope.

Lemma limit_value : limit = Z.to_nat 16777216.
Proof. reflexivity. Qed.
Lemma floor_nat_spec r : 0 <= r -> INR (floor_nat r) <= r < INR (floor_nat r) + 1.
Proof.
  intros P. unfold floor_nat. destruct (base_Int_part r) as [A B]. assert (0 <= Int_part r)%Z as N. { apply le_IZR. assert (IZR (-1) < IZR (Int_part r)) as L by (cbn; lra). apply lt_IZR in L. apply IZR_le. lia. }
  rewrite INR_IZR_INZ, Z2Nat.id by exact N. lra.
Qed.
Lemma floor_nat_lt r k : 0 <= r -> (floor_nat r < k)%nat <-> r < INR k.
Proof.
  intros P. destruct (floor_nat_spec r P) as [A B]. split; intros H.
  - apply lt_le_S, le_INR in H. rewrite S_INR in H. lra.
  - apply INR_lt. lra.
Qed.
(** ** The maximum *)
Lemma hmax_spec mods : (forall m, In m mods -> m <= hmax mods) /\ 0 <= hmax mods /\ (hmax mods = 0 \/ In (hmax mods) mods).
Proof.
  unfold hmax. assert (forall h, (forall m, In m mods -> m <= fold_left (fun h m => if Rlt_dec h m then m else h) mods h) /\ h <= fold_left (fun h m => if Rlt_dec h m then m else h) mods h /\
    (fold_left (fun h m => if Rlt_dec h m then m else h) mods h = h \/ In (fold_left (fun h m => if Rlt_dec h m then m else h) mods h) mods)) as G.
  { induction mods as [|a mods IH]; intros h; cbn [fold_left In]; [split; [contradiction|split; [lra|auto]]|]. destruct (IH (if Rlt_dec h a then a else h)) as (A & B & C). split; [|split].
    - intros m [<-|I]; [|apply A, I]. destruct (Rlt_dec h a); lra.
    - destruct (Rlt_dec h a); lra.
    - destruct C as [C|C]; [|auto]. rewrite C. destruct (Rlt_dec h a); auto. }
  exact (G 0).
Qed.
(** ** The histogram *)
Definition in_bin (nbins : nat) (h : R) (b : nat) (m : R) : bool := (bin nbins h m =? b)%nat.
Lemma increment_small k : (k < limit)%nat -> increment k = S k.
Proof. intros L. unfold increment. destruct (Nat.ltb_spec k limit); lia. Qed.
Lemma histogram_loop nbins h mods : forall f n b, (forall b, (f b <= n)%nat) -> (n + length mods <= limit)%nat ->
  fst (fold_left (count_step nbins h) mods (f, n)) b = (f b + length (filter (in_bin nbins h b) (edges mods)))%nat /\ snd (fold_left (count_step nbins h) mods (f, n)) = (n + length (edges mods))%nat.
Proof.
  induction mods as [|m mods IH]; intros f n b F L; cbn [fold_left]; [cbn; lia|]. cbn [length] in L. unfold count_step at 2 4. cbn [fst snd]. unfold edges in *. cbn [filter]. destruct (Req_EM_T m 0); [apply IH; [exact F|lia]|].
  destruct (IH (fun b => if (b =? bin nbins h m)%nat then increment (f b) else f b) (increment n) b) as [A B].
  - intros b'. pose proof (F b') as Fb. rewrite (increment_small n) by lia. destruct (b' =? bin nbins h m)%nat; [rewrite increment_small by lia|]; lia.
  - rewrite increment_small by lia. lia.
  - rewrite A, B. rewrite (increment_small n) by lia. cbn [filter length]. unfold in_bin at 2. rewrite (Nat.eqb_sym (bin nbins h m) b). destruct (Nat.eqb_spec b (bin nbins h m)) as [E|E]; cbn [length]; [rewrite increment_small by (pose proof (F b); lia)|]; lia.
Qed.
Lemma histogram_spec nbins mods : (length mods <= limit)%nat -> (forall b, fst (histogram nbins mods) b = length (filter (in_bin nbins (hmax mods) b) (edges mods))) /\ snd (histogram nbins mods) = length (edges mods).
Proof. intros L. unfold histogram. split; [intros b|]; [destruct (histogram_loop nbins (hmax mods) mods (fun _ => 0%nat) 0 b) as [A _]|destruct (histogram_loop nbins (hmax mods) mods (fun _ => 0%nat) 0 0%nat) as [_ A]]; try exact A; lia. Qed.
(** Magnitudes in the first k bins. *)
Definition first_bins (nbins : nat) (h : R) (k : nat) (l : list R) : nat := length (filter (fun m => bin nbins h m <? k)%nat l).
Lemma first_bins_S nbins h k l : first_bins nbins h (S k) l = (first_bins nbins h k l + length (filter (in_bin nbins h k) l))%nat.
Proof.
  unfold first_bins, in_bin. induction l as [|m l IH]; [reflexivity|]. cbn [filter]. destruct (Nat.ltb_spec (bin nbins h m) (S k)), (Nat.ltb_spec (bin nbins h m) k), (Nat.eqb_spec (bin nbins h m) k); cbn [length]; lia.
Qed.
Lemma scan_spec left : forall k nel thr hist nbins h l, (forall b, hist b = length (filter (in_bin nbins h b) l)) -> nel = first_bins nbins h k l -> (k = 0%nat \/ (first_bins nbins h (k - 1) l < thr)%nat) ->
  let (k', nel') := scan left k nel thr hist in (k <= k' <= k + left)%nat /\ nel' = first_bins nbins h k' l /\ (k' = 0%nat \/ (first_bins nbins h (k' - 1) l < thr)%nat) /\ ((thr <= nel')%nat \/ k' = (k + left)%nat).
Proof.
  induction left as [|left IH]; intros k nel thr hist nbins h l H E P; cbn [scan]; [repeat split; auto; lia|]. destruct (Nat.ltb_spec nel thr) as [L|L]; [|repeat split; auto; lia].
  specialize (IH (k + 1)%nat (nel + hist k)%nat thr hist nbins h l H). destruct (scan left (k + 1) (nel + hist k) thr hist) as [k' nel']. destruct IH as (A & B & C & D).
  - rewrite H, E, <- first_bins_S. f_equal. lia.
  - right. replace (k + 1 - 1)%nat with k by lia. lia.
  - split; [lia|]. split; [exact B|]. split; [exact C|]. lia.
Qed.
Lemma filter_ext_length {A} (p q : A -> bool) l : (forall a, In a l -> p a = q a) -> length (filter p l) = length (filter q l).
Proof. intros E. f_equal. apply filter_ext_in, E. Qed.
Lemma edges_in mods m : In m (edges mods) <-> In m mods /\ m <> 0.
Proof. unfold edges. rewrite filter_In. destruct (Req_EM_T m 0); intuition congruence. Qed.

Section Percentile.
Variables (nbins : nat) (mods : list R).
Hypotheses (NB : (0 < nbins)%nat) (POS : forall m, In m mods -> 0 <= m).
Let h := hmax mods.
Lemma edge_bounds m : In m (edges mods) -> 0 < m <= h /\ 0 < h.
Proof. intros I. apply edges_in in I as [I N]. destruct (hmax_spec mods) as (A & B & _). pose proof (POS m I). fold h in A, B. pose proof (A m I). split; [|lra]. split; [|lra]. destruct (Req_dec m 0); [contradiction|lra]. Qed.
Lemma ratio_bounds m : In m (edges mods) -> 0 <= INR nbins * (m / h) <= INR nbins.
Proof.
  intros I. destruct (edge_bounds m I) as [[A B] C]. pose proof (pos_INR nbins). assert (0 <= m / h <= 1) as [D E]. { split; [apply Rmult_le_pos; [lra|left; apply Rinv_0_lt_compat; lra]|]. apply Rmult_le_reg_r with h; [lra|]. unfold Rdiv. rewrite Rmult_assoc, Rinv_l; lra. }
  split; [apply Rmult_le_pos; assumption|]. rewrite <- (Rmult_1_r (INR nbins)) at 2. apply Rmult_le_compat_l; assumption.
Qed.
Lemma ratio_lt m k : In m (edges mods) -> INR nbins * (m / h) < INR k <-> m < h * (INR k / INR nbins).
Proof.
  intros I. destruct (edge_bounds m I) as [_ C]. pose proof (lt_INR _ _ NB) as N. cbn [INR] in N. split; intros H.
  - apply Rmult_lt_reg_l with (INR nbins / h); [apply Rdiv_lt_0_compat; assumption|]. replace (INR nbins / h * (h * (INR k / INR nbins))) with (INR k) by (field; lra). replace (INR nbins / h * m) with (INR nbins * (m / h)) by (field; lra). exact H.
  - apply Rmult_lt_compat_l with (r := INR nbins / h) in H; [|apply Rdiv_lt_0_compat; assumption]. replace (INR nbins / h * (h * (INR k / INR nbins))) with (INR k) in H by (field; lra). replace (INR nbins / h * m) with (INR nbins * (m / h)) in H by (field; lra). exact H.
Qed.
Lemma bin_lt m k : In m (edges mods) -> (k < nbins)%nat -> (bin nbins h m < k)%nat <-> m < h * (INR k / INR nbins).
Proof.
  intros I K. destruct (ratio_bounds m I) as [A B]. rewrite <- ratio_lt by exact I. rewrite <- floor_nat_lt by exact A. unfold bin. destruct (Nat.eqb_spec (floor_nat (INR nbins * (m / h))) nbins); lia.
Qed.
Lemma bin_all m : In m (edges mods) -> (bin nbins h m < nbins)%nat.
Proof.
  intros I. destruct (ratio_bounds m I) as [A B]. unfold bin. destruct (Nat.eqb_spec (floor_nat (INR nbins * (m / h))) nbins) as [E|E]; [lia|].
  assert (floor_nat (INR nbins * (m / h)) < S nbins)%nat; [|lia]. apply floor_nat_lt; [exact A|]. rewrite S_INR. lra.
Qed.
Lemma first_bins_at_most k : (k <= nbins)%nat -> (first_bins nbins h k (edges mods) <= at_most (h * (INR k / INR nbins)) mods)%nat.
Proof.
  intros K. unfold first_bins, at_most. assert (forall m, In m (edges mods) -> (bin nbins h m <? k)%nat = true -> (if Rle_dec m (h * (INR k / INR nbins)) then true else false) = true) as E.
  { intros m I Q. apply Nat.ltb_lt in Q. destruct (Rle_dec m (h * (INR k / INR nbins))) as [|N]; [reflexivity|]. exfalso. apply N. destruct (Nat.eq_dec k nbins) as [->|].
    - pose proof (lt_INR _ _ NB) as P. cbn [INR] in P. replace (INR nbins / INR nbins) with 1 by (field; lra). rewrite Rmult_1_r. apply edge_bounds, I.
    - left. apply bin_lt; [exact I|lia|exact Q]. }
  revert E. generalize (edges mods) as l. induction l as [|m l IH]; intros E; [cbn; lia|]. cbn [filter]. pose proof (IH (fun m I => E m (or_intror I))) as G. pose proof (E m (or_introl eq_refl)) as Em.
  destruct (bin nbins h m <? k)%nat; [rewrite (Em eq_refl); cbn [length]; lia|]. destruct (Rle_dec m (h * (INR k / INR nbins))); cbn [length]; lia.
Qed.
Lemma first_bins_below k : (k < nbins)%nat -> first_bins nbins h k (edges mods) = below (h * (INR k / INR nbins)) mods.
Proof.
  intros K. unfold first_bins, below. apply filter_ext_length. intros m I. pose proof (bin_lt m k I K) as B. destruct (Nat.ltb_spec (bin nbins h m) k) as [L|L], (Rlt_dec m (h * (INR k / INR nbins))) as [M|M]; try reflexivity; exfalso; [apply M, B, L|apply B in M; lia].
Qed.
(** Up to 2^24 pixels: with t the given fraction of the magnitudes other than zero (rounded down), at least t of them are at most the result,
    and fewer than t are below the result less one bin; the result is between zero and the greatest magnitude, and positive if t is. *)
Theorem kpx_percentile perc : (length mods <= limit)%nat -> 0 <= perc <= 1 ->
  exists r, k_percentile nbins perc mods = Some r /\ 0 <= r <= h /\
    let t := floor_nat (INR (length (edges mods)) * perc) in
    (t <= at_most r mods)%nat /\ (0 < r -> (below (r - h / INR nbins) mods < t)%nat) /\ ((0 < t)%nat -> 0 < r).
Proof.
  intros L PC. unfold k_percentile. destruct (histogram_spec nbins mods L) as [HB HN]. destruct (histogram nbins mods) as [hist npoints]. cbn [fst snd] in HB, HN. subst npoints. destruct (Nat.eqb_spec nbins 0); [lia|]. cbn [andb].
  set (t := floor_nat (INR (length (edges mods)) * perc)). pose proof (scan_spec nbins 0 0 t hist nbins h (edges mods) HB) as SC. destruct (scan nbins 0 0 t hist) as [k nel]. destruct SC as (A & B & C & D).
  { unfold first_bins. clear. induction (edges mods); [reflexivity|exact IHl]. } { auto. }
  assert (first_bins nbins h nbins (edges mods) = length (edges mods)) as ALL.
  { unfold first_bins. rewrite (filter_ext_length _ (fun _ => true)); [|intros m I; apply Nat.ltb_lt, bin_all, I]. clear. induction (edges mods) as [|a l IH]; [reflexivity|]. cbn. rewrite IH. reflexivity. }
  assert (t <= length (edges mods))%nat as TL. { apply INR_le. pose proof (pos_INR (length (edges mods))) as P. destruct (floor_nat_spec (INR (length (edges mods)) * perc)) as [F _]; [apply Rmult_le_pos; lra|]. fold t in F. nra. }
  assert (t <= nel)%nat as TN. { destruct D as [D|D]; [exact D|]. subst nel. rewrite D. cbn [Nat.add]. rewrite ALL. exact TL. }
  destruct (Nat.ltb_spec nel t); [lia|]. eexists. split; [reflexivity|]. fold h. pose proof (lt_INR _ _ NB) as N. cbn [INR] in N. destruct (hmax_spec mods) as (_ & H0 & _). fold h in H0.
  assert (0 <= INR k / INR nbins <= 1) as [Q1 Q2]. { pose proof (pos_INR k). assert (INR k <= INR nbins) by (apply le_INR; lia). split; [apply Rmult_le_pos; [lra|left; apply Rinv_0_lt_compat; lra]|]. apply Rmult_le_reg_r with (INR nbins); [lra|]. unfold Rdiv. rewrite Rmult_assoc, Rinv_l; lra. }
  split; [split; [apply Rmult_le_pos; lra|rewrite <- (Rmult_1_r h) at 2; apply Rmult_le_compat_l; lra]|]. cbv zeta. split; [|split].
  - rewrite <- (first_bins_at_most k) by lia. rewrite <- B. exact TN.
  - intros R0. destruct k as [|k']; [cbn [INR] in R0; unfold Rdiv in R0; rewrite Rmult_0_l, Rmult_0_r in R0; lra|]. destruct C as [C|C]; [lia|]. replace (S k' - 1)%nat with k' in C by lia.
    rewrite (first_bins_below k') in C by lia. replace (h * (INR (S k') / INR nbins) - h / INR nbins) with (h * (INR k' / INR nbins)) by (rewrite S_INR; field; lra). exact C.
  - intros T. assert (0 < k)%nat as K. { destruct k; [|lia]. exfalso. subst nel. unfold first_bins in TN. assert (length (filter (fun m => bin nbins h m <? 0)%nat (edges mods)) = 0)%nat as Z by (clear; induction (edges mods); [reflexivity|exact IHl]). lia. }
    assert (0 < h) as HP. { destruct (edges mods) as [|m l] eqn:E; [cbn in TL; lia|]. assert (In m (edges mods)) as I by (rewrite E; left; reflexivity). apply (edge_bounds m I). }
    apply Rmult_lt_0_compat; [exact HP|]. apply Rdiv_lt_0_compat; [|exact N]. apply lt_INR in K. exact K.
Qed.
(** A fraction above one cannot be reached: the result is 0.03. *)
Theorem kpx_above perc : (length mods <= limit)%nat -> (length (edges mods) < floor_nat (INR (length (edges mods)) * perc))%nat -> k_percentile nbins perc mods = Some 0.03.
Proof.
  intros L T. unfold k_percentile. destruct (histogram_spec nbins mods L) as [HB HN]. destruct (histogram nbins mods) as [hist npoints]. cbn [fst snd] in HB, HN. subst npoints. destruct (Nat.eqb_spec nbins 0); [lia|]. cbn [andb].
  set (t := floor_nat (INR (length (edges mods)) * perc)) in *. pose proof (scan_spec nbins 0 0 t hist nbins h (edges mods) HB) as SC. destruct (scan nbins 0 0 t hist) as [k nel]. destruct SC as (A & B & _).
  { unfold first_bins. clear. induction (edges mods); [reflexivity|exact IHl]. } { auto. }
  assert (nel <= length (edges mods))%nat as N. { subst nel. unfold first_bins. generalize (edges mods) as l, (fun m : R => (bin nbins h m <? k)%nat) as f. clear. intros l f. induction l as [|a l IH]; cbn; [lia|]. destruct (f a); cbn; lia. }
  destruct (Nat.ltb_spec nel t); [|lia]. f_equal; lra.
Qed.
End Percentile.
Print Assumptions kpx_above.
Print Assumptions kpx_percentile.
Example kpx_percentile_ex : (0 < 300)%nat /\ (forall m, In m [0; 1; 2; 3] -> 0 <= m) /\ (length [0; 1; 2; 3] <= limit)%nat /\ 0 <= 7 / 10 <= 1.
Proof. split; [lia|]. split; [intros m [<-|[<-|[<-|[<-|[]]]]]; lra|]. split; [rewrite limit_value; cbn [length]; lia|lra]. Qed.
(** An image without edges, and one with few edges, give the contrast factor 0, by which the conductivities divide (pm_g1 and the others). *)
Theorem kpx_flat_refuted nbins n : (0 < nbins)%nat -> k_percentile nbins (7 / 10) (repeat 0 n) = Some 0.
Proof.
  intros NB. assert (hmax (repeat 0 n) = 0) as H. { destruct (hmax_spec (repeat 0 n)) as (_ & _ & [H|H]); [exact H|]. apply repeat_spec in H. exact H. }
  assert (histogram nbins (repeat 0 n) = (fun _ => 0%nat, 0%nat)) as E. { unfold histogram. generalize (hmax (repeat 0 n)) as h. intros h. clear. induction n as [|n IH]; [reflexivity|]. cbn [repeat fold_left]. unfold count_step at 2. destruct (Req_EM_T 0 0); [exact IH|contradiction]. }
  unfold k_percentile. rewrite E. destruct (Nat.eqb_spec nbins 0); [lia|]. cbn [andb INR]. rewrite Rmult_0_l. assert (floor_nat 0 = 0)%nat as F. { assert (floor_nat 0 < 1)%nat; [|lia]. apply floor_nat_lt; cbn; lra. } rewrite F. destruct nbins as [|b]; [lia|]. cbn [scan Nat.ltb Nat.leb]. rewrite H. f_equal. lra.
Qed.
Print Assumptions kpx_flat_refuted.
Theorem kpx_few_edges_refuted : exists mods, edges mods <> [] /\ k_percentile 300 (7 / 10) mods = Some 0.
Proof.
  exists [5]. split; [unfold edges; cbn; destruct (Req_EM_T 5 0); [lra|discriminate]|]. unfold k_percentile. destruct (histogram_spec 300 [5]) as [_ HN]; [rewrite limit_value; cbn [length]; lia|]. destruct (histogram 300 [5]) as [hist np]. cbn [snd] in HN. subst np.
  assert (length (edges [5%R]) = 1)%nat as E by (unfold edges; cbn; destruct (Req_EM_T 5 0); [lra|reflexivity]). rewrite E. cbn [INR Nat.eqb andb]. assert (floor_nat (1 * (7 / 10)) = 0)%nat as F. { assert (floor_nat (1 * (7 / 10)) < 1)%nat; [|lia]. apply floor_nat_lt; cbn; lra. } rewrite F. cbn [scan Nat.ltb Nat.leb]. f_equal. cbn [INR]. unfold Rdiv. rewrite Rmult_0_l, Rmult_0_r. reflexivity.
Qed.
Print Assumptions kpx_few_edges_refuted.
(** More than 2^24 pixels: the counters stop, and the result is below most of the magnitudes. *)
Lemma repeat_loop nbins h v n : v <> 0 -> forall f c b, (f b <= limit)%nat -> (c <= limit)%nat ->
  fst (fold_left (count_step nbins h) (repeat v n) (f, c)) b = (if (b =? bin nbins h v)%nat then Nat.min limit (f b + n) else f b) /\ snd (fold_left (count_step nbins h) (repeat v n) (f, c)) = Nat.min limit (c + n).
Proof.
  intros V. induction n as [|n IH]; intros f c b F C; cbn [repeat fold_left].
  - cbn [fst snd]. rewrite !Nat.add_0_r, !Nat.min_r by assumption. destruct (b =? bin nbins h v)%nat; auto.
  - unfold count_step at 2 4. destruct (Req_EM_T v 0); [contradiction|]. cbn [fst snd].
    assert (forall x, (x <= limit)%nat -> (increment x <= limit)%nat /\ Nat.min limit (increment x + n) = Nat.min limit (x + S n)) as G. { intros x X. unfold increment. destruct (Nat.ltb_spec x limit); lia. }
    destruct (IH (fun b => if (b =? bin nbins h v)%nat then increment (f b) else f b) (increment c) b) as [A B].
    + destruct (b =? bin nbins h v)%nat; [apply G, F|exact F].
    + apply G, C.
    + rewrite A, B. split; [|apply G, C]. destruct (b =? bin nbins h v)%nat; [apply G, F|reflexivity].
Qed.
Lemma filter_repeat {A} (p : A -> bool) a n : filter p (repeat a n) = if p a then repeat a n else [].
Proof. induction n as [|n IH]; cbn [repeat filter]; [destruct (p a); reflexivity|]. rewrite IH. destruct (p a); reflexivity. Qed.
Lemma scan_S l k n t hist : scan (S l) k n t hist = if (n <? t)%nat then scan l (k + 1) (n + hist k) t hist else (k, n).
Proof. reflexivity. Qed.
Theorem kpx_large_refuted : exists mods r, (forall m, In m mods -> 0 < m) /\ k_percentile 300 (7 / 10) mods = Some r /\ INR (at_most r mods) < 3 / 10 * INR (length mods).
Proof.
  remember (Z.to_nat 12000000) as a eqn:EA. remember (Z.to_nat 33000000) as b eqn:EB. assert (limit = Z.to_nat 16777216) as EL by reflexivity.
  assert (INR a = 12000000) as IA by (rewrite INR_IZR_INZ, EA, Z2Nat.id by lia; reflexivity). assert (INR b = 33000000) as IB by (rewrite INR_IZR_INZ, EB, Z2Nat.id by lia; reflexivity). assert (INR limit = 16777216) as IL by (rewrite INR_IZR_INZ, EL, Z2Nat.id by lia; reflexivity).
  set (mods := repeat 1 a ++ repeat 300 b). assert (forall m, In m mods -> m = 1 \/ m = 300) as M. { intros m I. apply in_app_or in I as [I|I]; apply repeat_spec in I; auto. }
  assert (In 300 mods) as I3. { apply in_or_app. right. destruct b; [lia|left; reflexivity]. }
  assert (hmax mods = 300) as H. { destruct (hmax_spec mods) as (A & _ & [C|C]); [specialize (A 300 I3); lra|]. destruct (M _ C) as [E|E]; [|exact E]. specialize (A 300 I3). lra. }
  assert (INR 300 = 300) as I300 by (cbn; lra).
  assert (bin 300 300 1 = 1)%nat as B1. { unfold bin. assert (floor_nat (INR 300 * (1 / 300)) = 1)%nat as F; [|rewrite F; reflexivity]. replace (INR 300 * (1 / 300)) with 1 by (rewrite I300; field). assert (floor_nat 1 < 2)%nat by (apply floor_nat_lt; cbn; lra). assert (~ floor_nat 1 < 1)%nat; [|lia]. intros Q. apply floor_nat_lt in Q; cbn in Q; lra. }
  assert (bin 300 300 300 = 299)%nat as B3. { unfold bin. assert (floor_nat (INR 300 * (300 / 300)) = 300)%nat as F; [|rewrite F; reflexivity]. replace (INR 300 * (300 / 300)) with 300 by (rewrite I300; field). assert (floor_nat 300 < 301)%nat by (apply floor_nat_lt; cbn; lra). assert (~ floor_nat 300 < 300)%nat; [|lia]. intros Q. apply floor_nat_lt in Q; [rewrite I300 in Q|]; lra. }
  assert (1 <> 0) as N1 by lra. assert (300 <> 0) as N3 by lra.
  assert ((forall x, fst (histogram 300 mods) x = if (x =? 299)%nat then Nat.min limit b else if (x =? 1)%nat then a else 0%nat) /\ snd (histogram 300 mods) = limit) as [HB HN].
  { unfold histogram. rewrite H. unfold mods. rewrite fold_left_app. pose proof (repeat_loop 300 300 1 a N1 (fun _ => 0%nat) 0) as R1. destruct (fold_left (count_step 300 300) (repeat 1 a) (fun _ => 0%nat, 0%nat)) as [f c]. cbn [fst snd] in R1.
    assert (forall x, f x = if (x =? 1)%nat then a else 0%nat) as F. { intros x. destruct (R1 x) as [E _]; try lia. rewrite E, B1. destruct (x =? 1)%nat; lia. } assert (c = a) as C. { destruct (R1 0%nat) as [_ E]; lia. }
    split; [intros x|].
    - destruct (repeat_loop 300 300 300 b N3 f c x) as [E _]; [rewrite F; destruct (x =? 1)%nat; lia|lia|]. rewrite E, B3, F. destruct (Nat.eqb_spec x 299) as [->|]; [cbn [Nat.eqb]; lia|reflexivity].
    - destruct (repeat_loop 300 300 300 b N3 f c 0%nat) as [_ E]; [rewrite F; cbn; lia|lia|]. rewrite E. lia. }
  exists mods, 2. split; [intros m I; destruct (M m I); lra|]. split.
  - unfold k_percentile. destruct (histogram 300 mods) as [hist np]. cbn [fst snd] in HB, HN. subst np. cbn [Nat.eqb andb]. set (t := floor_nat (INR limit * (7 / 10))).
    assert (t < a)%nat as T1. { apply floor_nat_lt; rewrite IL; [lra|rewrite IA; lra]. } assert (0 < t)%nat as T0. { destruct (le_lt_dec t 0) as [Q|Q]; [|exact Q]. exfalso. assert (t < 1)%nat as W by lia. apply floor_nat_lt in W; rewrite IL in *; cbn in *; lra. }
    rewrite scan_S. destruct (Nat.ltb_spec 0 t) as [_|]; [|lia]. rewrite (HB 0%nat), scan_S. cbn [Nat.eqb Nat.add]. destruct (Nat.ltb_spec 0 t) as [_|]; [|lia]. rewrite (HB 1%nat), scan_S. cbn [Nat.eqb Nat.add]. destruct (Nat.ltb_spec a t); [lia|]. destruct (Nat.ltb_spec a t); [lia|]. rewrite H. f_equal. rewrite I300. cbn [INR]. field.
  - unfold at_most, edges, mods. rewrite !filter_app, !filter_repeat. destruct (Req_EM_T 1 0); [contradiction|]. destruct (Req_EM_T 300 0); [contradiction|]. rewrite !filter_repeat. destruct (Rle_dec 1 2); [|lra]. destruct (Rle_dec 300 2); [lra|]. rewrite app_nil_r, app_length, !repeat_length, plus_INR, IA, IB. lra.
Qed.
Print Assumptions kpx_large_refuted.

(** With no bins and some edge, a counter outside of the histogram is increased. *)
Theorem kpx_no_bins_refuted perc mods : edges mods <> [] -> k_percentile 0 perc mods = None.
Proof.
  intros N. assert (forall l h s, (snd s <= snd (fold_left (count_step 0 h) l s))%nat /\ (edges l <> [] -> (0 < snd (fold_left (count_step 0 h) l s))%nat)) as G.
  { assert (forall k, (k <= increment k)%nat /\ (0 < increment k)%nat) as I.
    { intros k. unfold increment. destruct (Nat.ltb_spec k limit) as [|L]; [lia|]. rewrite limit_value in L. lia. }
    induction l as [|m l IH]; intros h s; cbn [fold_left edges filter]; [split; [lia|contradiction]|]. destruct (IH h (count_step 0 h s m)) as [A B].
    assert (snd (count_step 0 h s m) = if Req_EM_T m 0 then snd s else increment (snd s)) as Q by (unfold count_step; destruct (Req_EM_T m 0); reflexivity). rewrite Q in A. destruct (I (snd s)).
    destruct (Req_EM_T m 0); [split; [exact A|exact B]|]. split; [|intros _]; lia. }
  unfold k_percentile, histogram. destruct (G mods (hmax mods) (fun _ => 0%nat, 0%nat)) as [_ H]. specialize (H N). destruct (fold_left _ _ _) as [hist n]. cbn [snd] in H. apply Nat.ltb_lt in H. rewrite H. reflexivity.
Qed.
Print Assumptions kpx_no_bins_refuted.
