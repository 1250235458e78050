(** Proofs about track ids: new ids, when a call succeeds, and whole histories. *)
From Coq Require Import ZArith Bool Lia Relations.
From stdpp Require Import list.
From Verif Require Import TrackModel TrackSpec TrackProofs.
Local Open Scope nat_scope.

(** ** Success of a call *)
Definition compatible (w : world) (p q : point) : Prop :=
  forall s t, id_at w p = Some s -> id_at w q = Some t -> (0 <= s)%Z -> (0 <= t)%Z -> s = t.
Definition pa (a : nat) (m : Z * Z) : point := (a, Z.to_nat m.1).
Definition pb (b : nat) (m : Z * Z) : point := (b, Z.to_nat m.2).
Definition fits (w : world) (a b na nb : nat) (ca cb : list Z) (m : Z * Z) : Prop :=
  (0 <= m.1 < Z.of_nat na)%Z /\ (0 <= m.2 < Z.of_nat nb)%Z /\ m.1 ∉ ca /\ m.2 ∉ cb /\
  compatible w (pa a m) (pb b m).

Lemma apply_loop_succeeds a b na nb : a <> b -> forall ms w ca cb,
  length <$> channel w a = Some na -> length <$> channel w b = Some nb ->
  is_Some (apply_loop w a b na nb ca cb ms) <->
  Forall (fits w a b na nb ca cb) ms /\ NoDup ms.*1 /\ NoDup ms.*2.
Proof.
  intros Nab. induction ms as [|[i j] ms IH]; intros w ca cb Ha Hb.
  { cbn. split; [intros _; split; [constructor|split; constructor]|eauto]. }
  assert (Hrest : forall w1, (forall r, r <> (a, Z.to_nat i) -> r <> (b, Z.to_nat j) -> id_at w1 r = id_at w r) ->
    (0 <= i)%Z -> (0 <= j)%Z ->
    Forall (fits w1 a b na nb (i :: ca) (j :: cb)) ms <->
    Forall (fits w a b na nb ca cb) ms /\ i ∉ ms.*1 /\ j ∉ ms.*2).
  { intros w1 Hu Li Lj. 
    assert (Hc : forall m : Z * Z, (0 <= m.1)%Z -> (0 <= m.2)%Z -> m.1 <> i -> m.2 <> j ->
      compatible w1 (pa a m) (pb b m) <-> compatible w (pa a m) (pb b m)).
    { intros m L1 L2 N1 N2. unfold compatible, pa, pb.
      rewrite !Hu; [done|congruence|intros [= E]; lia|intros [= E]; lia|congruence]. }
    rewrite !Forall_forall. split.
    - intros H. split; [|split].
      + intros m Hm. destruct (H m Hm) as (R1 & R2 & N1 & N2 & C).
        apply not_elem_of_cons in N1 as [N1 N1']. apply not_elem_of_cons in N2 as [N2 N2'].
        split; [done|]. split; [done|]. split; [done|]. split; [done|]. apply Hc; [lia|lia|done|done|done].
      + intros Hi. apply elem_of_list_fmap in Hi as (m & E & Hm). destruct (H m Hm) as (_ & _ & N1 & _).
        apply N1. rewrite E. by left.
      + intros Hi. apply elem_of_list_fmap in Hi as (m & E & Hm). destruct (H m Hm) as (_ & _ & _ & N2 & _).
        apply N2. rewrite E. by left.
    - intros (H & Ni & Nj) m Hm. destruct (H m Hm) as (R1 & R2 & N1 & N2 & C).
      assert (m.1 <> i). { intros <-. apply Ni. by apply elem_of_list_fmap_1. }
      assert (m.2 <> j). { intros <-. apply Nj. by apply elem_of_list_fmap_1. }
      split; [done|]. split; [done|]. split; [by apply not_elem_of_cons|]. split; [by apply not_elem_of_cons|].
      apply Hc; [lia|lia|done|done|done]. }
  split.
  - intros [w' H]. apply apply_loop_cons in H as (Ri & Rj & Ni & Nj & w1 & H1 & H2).
    pose proof (apply_match_spec _ _ _ _ _ _ H1) as [(s & t & Hs & Ht & He) Hl].
    assert (Hs2 : is_Some (apply_loop w1 a b na nb (i :: ca) (j :: cb) ms)) by eauto.
    apply IH in Hs2 as (F & N1 & N2); [|by rewrite Hl|by rewrite Hl].
    apply Hrest in F as (F & Fi & Fj); [|exact (effect_untouched _ _ _ _ _ _ He)|lia|lia].
    split; [|split; cbn; by constructor].
    constructor; [|done]. split; [done|]. split; [done|]. split; [done|]. split; [done|].
    unfold compatible, pa, pb. cbn. intros s' t' Hs' Ht' Ls Lt.
    assert (s' = s) by congruence. assert (t' = t) by congruence. subst. destruct He; lia.
  - intros (F & N1 & N2). inversion F as [|? ? (Ri & Rj & Ni & Nj & C) F']; subst. cbn in *.
    inversion N1 as [|? ? Fi N1']; subst. inversion N2 as [|? ? Fj N2']; subst.
    destruct (channel w a) as [A|] eqn:HA; [|done]. destruct (channel w b) as [B|] eqn:HB; [|done].
    cbn in Ha, Hb. injection Ha as Ha. injection Hb as Hb.
    destruct (lookup_lt_is_Some_2 A (Z.to_nat i)) as [s Hs]; [lia|].
    destruct (lookup_lt_is_Some_2 B (Z.to_nat j)) as [t Ht]; [lia|].
    destruct (apply_match_total w a b (Z.to_nat i) (Z.to_nat j) A B s t) as [w1 H1]; [done|done|done|done| |].
    { apply C; [unfold pa; cbn; by rewrite (channel_id_at w a A)|unfold pb; cbn; by rewrite (channel_id_at w b B)]. }
    pose proof (apply_match_spec _ _ _ _ _ _ H1) as [(s' & t' & Hs' & Ht' & He) Hl].
    assert (Hs2 : is_Some (apply_loop w1 a b na nb (i :: ca) (j :: cb) ms)).
    { apply IH; [rewrite Hl, HA; cbn; congruence|rewrite Hl, HB; cbn; congruence|].
      split; [|done]. apply Hrest; [exact (effect_untouched _ _ _ _ _ _ He)|lia|lia|done]. }
    destruct Hs2 as [w' H2]. exists w'. apply apply_loop_cons.
    split; [done|]. split; [done|]. split; [done|]. split; [done|]. by exists w1.
Qed.

Lemma channel_some_id_at w a A i : channel w a = Some A -> is_Some (id_at w (a, i)) <-> i < length A.
Proof. intros H. rewrite (channel_id_at w a A) by done. apply lookup_lt_is_Some. Qed.

Lemma apply_matches_succeeds w a b ms : a <> b ->
  is_Some (apply_matches w a b ms) <->
  is_Some (frames w !! a) /\ is_Some (frames w !! b) /\
  (forall i j, (i, j) ∈ ms -> (0 <= i)%Z /\ (0 <= j)%Z /\
     is_Some (id_at w (a, Z.to_nat i)) /\ is_Some (id_at w (b, Z.to_nat j)) /\
     compatible w (a, Z.to_nat i) (b, Z.to_nat j)) /\
  NoDup ms.*1 /\ NoDup ms.*2.
Proof.
  intros Nab. 
  assert (Hcr : forall w1 w2, create w a = Some w1 -> create w1 b = Some w2 ->
    exists A B, channel w2 a = Some A /\ channel w2 b = Some B /\ (forall p, id_at w2 p = id_at w p) /\
      is_Some (frames w !! a) /\ is_Some (frames w !! b)).
  { intros w1 w2 H1 H2.
    assert (is_Some (frames w !! b)) as Hb.
    { apply create_spec in H2 as (_ & _ & _ & _ & [f Hf]). unfold create in H1.
      destruct (frames w !! a) as [g|]; [|done]. cbn in H1. injection H1 as <-. cbn in Hf.
      rewrite list_lookup_insert_ne in Hf by done. by rewrite Hf. }
    apply create_spec in H1 as (C1 & I1 & [A HA] & K1 & Ha). apply create_spec in H2 as (C2 & I2 & [B HB] & K2 & _).
    exists A, B. rewrite K2 by (by rewrite HA). split; [done|]. split; [done|]. split; [|done].
    intros p. by rewrite I2, I1. }
  assert (Hfit : forall w2 A B, channel w2 a = Some A -> channel w2 b = Some B -> (forall p, id_at w2 p = id_at w p) ->
    (forall i j, (i, j) ∈ ms -> (0 <= i)%Z /\ (0 <= j)%Z /\
     is_Some (id_at w (a, Z.to_nat i)) /\ is_Some (id_at w (b, Z.to_nat j)) /\
     compatible w (a, Z.to_nat i) (b, Z.to_nat j)) <-> Forall (fits w2 a b (length A) (length B) [] []) ms).
  { intros w2 A B HA HB Hi. rewrite Forall_forall. split.
    - intros H [i j] Hm. destruct (H i j Hm) as (Li & Lj & Si & Sj & C).
      rewrite <- Hi in Si, Sj. rewrite (channel_some_id_at _ _ A) in Si by done. rewrite (channel_some_id_at _ _ B) in Sj by done.
      unfold fits. cbn. split; [lia|]. split; [lia|]. split; [apply not_elem_of_nil|]. split; [apply not_elem_of_nil|].
      unfold compatible, pa, pb in *. cbn. intros s t. rewrite !Hi. apply C.
    - intros H i j Hm. destruct (H (i, j) Hm) as (Ri & Rj & _ & _ & C). cbn in *.
      split; [lia|]. split; [lia|]. rewrite <- !Hi. rewrite (channel_some_id_at _ _ A) by done.
      rewrite (channel_some_id_at _ _ B) by done. split; [lia|]. split; [lia|].
      unfold compatible, pa, pb in *. cbn in C. intros s t. rewrite <- !Hi. apply C. }
  split.
  - intros [w' H]. unfold apply_matches in H. destruct (create w a) as [w1|] eqn:H1; [|done]. cbn in H.
    destruct (create w1 b) as [w2|] eqn:H2; [|done]. cbn in H.
    destruct (Hcr w1 w2) as (A & B & HA & HB & Hi & Fa & Fb); [done|done|].
    rewrite HA in H. cbn in H. rewrite HB in H. cbn in H.
    split; [done|]. split; [done|]. rewrite (Hfit w2 A B) by done.
    apply (apply_loop_succeeds a b _ _ Nab ms w2 [] []); [by rewrite HA|by rewrite HB|by exists w'].
  - intros (Fa & Fb & HF & N1 & N2). destruct (create_total w a Fa) as [w1 H1].
    assert (is_Some (frames w1 !! b)) as Fb1.
    { unfold create in H1. destruct (frames w !! a) as [g|]; [|done]. cbn in H1. injection H1 as <-. cbn.
      by rewrite list_lookup_insert_ne. }
    destruct (create_total w1 b Fb1) as [w2 H2].
    destruct (Hcr w1 w2) as (A & B & HA & HB & Hi & _ & _); [done|done|].
    unfold apply_matches. rewrite H1. cbn. rewrite H2. cbn. rewrite HA. cbn. rewrite HB. cbn.
    apply apply_loop_succeeds; [done|by rewrite HA|by rewrite HB|]. split; [|done].
    by apply (Hfit w2 A B).
Qed.

(** ** New ids of one call *)
Definition is_new (w : world) (a b : nat) (m : Z * Z) : bool :=
  match id_at w (pa a m), id_at w (pb b m) with Some s, Some t => (s <? 0)%Z && (t <? 0)%Z | _, _ => false end.
Definition count_new (w : world) (a b : nat) (ms : list (Z * Z)) : nat :=
  length (List.filter (is_new w a b) ms).

Lemma apply_loop_disjoint a b na nb : forall ms w ca cb w', apply_loop w a b na nb ca cb ms = Some w' ->
  Forall (fun m : Z * Z => m.1 ∉ ca /\ m.2 ∉ cb /\ (0 <= m.1)%Z /\ (0 <= m.2)%Z) ms.
Proof.
  induction ms as [|[i j] ms IH]; intros w ca cb w' H; [constructor|].
  apply apply_loop_cons in H as (Ri & Rj & Ni & Nj & w1 & _ & H2). constructor; [cbn; split; [done|split; [done|lia]]|].
  apply IH in H2. eapply Forall_impl; [exact H2|]. intros m (N1 & N2 & ?).
  apply not_elem_of_cons in N1 as [_ N1]. apply not_elem_of_cons in N2 as [_ N2]. done.
Qed.
Lemma new_ids a b na nb : a <> b -> forall ms w ca cb w',
  (0 <= counter w)%Z -> (counter w + Z.of_nat (length ms) <= 2 ^ 31)%Z ->
  apply_loop w a b na nb ca cb ms = Some w' ->
  counter w' = (counter w + Z.of_nat (count_new w a b ms))%Z /\
  forall k m, ms !! k = Some m -> is_new w a b m = true ->
    id_at w' (pa a m) = Some (counter w + Z.of_nat (count_new w a b (take k ms)))%Z.
Proof.
  intros Nab. induction ms as [|[i j] ms IH]; intros w ca cb w' H0 Hb H.
  { cbn in H. injection H as <-. cbn. split; [lia|]. intros k m Hk. by rewrite lookup_nil in Hk. }
  apply apply_loop_cons in H as (Ri & Rj & Ni & Nj & w1 & H1 & H2). cbn [length] in Hb.
  pose proof (apply_match_spec _ _ _ _ _ _ H1) as [(s & t & Hs & Ht & He) _].
  pose proof (effect_matched _ _ _ _ _ _ He Hs Ht ltac:(lia)) as [_ Hc].
  pose proof (apply_loop_disjoint _ _ _ _ _ _ _ _ _ H2) as Hd.
  assert (Hsame : forall m, m ∈ ms -> is_new w1 a b m = is_new w a b m).
  { intros m Hm. rewrite Forall_forall in Hd. destruct (Hd m Hm) as (N1 & N2 & L1 & L2).
    apply not_elem_of_cons in N1 as [N1 _]. apply not_elem_of_cons in N2 as [N2 _].
    unfold is_new, pa, pb. rewrite !(effect_untouched _ _ _ _ _ _ He); [done|congruence|intros [= E]; lia|intros [= E]; lia|congruence]. }
  assert (Hcount : forall l, (forall m, m ∈ l -> m ∈ ms) -> count_new w1 a b l = count_new w a b l).
  { unfold count_new. induction l as [|m l IHl]; intros Hl; [done|]. cbn.
    rewrite Hsame by (apply Hl; by left). destruct (is_new w a b m); cbn; [f_equal|]; apply IHl; intros m' Hm'; apply Hl; by right. }
  assert (Hhead : counter w1 = (counter w + (if is_new w a b (i, j) then 1 else 0))%Z).
  { unfold is_new, pa, pb. cbn. rewrite Hs, Ht.
    destruct He as [Ls Lt Hn _|Ls Lt Hn _|Ls Lt Hn _|L -> ->].
    - rewrite (proj2 (Z.ltb_lt s 0)), (proj2 (Z.ltb_lt t 0)) by done. cbn. rewrite Hn. apply next_counter_small. lia.
    - rewrite (proj2 (Z.ltb_ge t 0)) by lia. rewrite andb_false_r. lia.
    - rewrite (proj2 (Z.ltb_ge s 0)) by lia. cbn. lia.
    - rewrite (proj2 (Z.ltb_ge t 0)) by lia. cbn. lia. }
  assert (Hcons : forall l, Z.of_nat (count_new w a b ((i, j) :: l)) =
    ((if is_new w a b (i, j) then 1 else 0) + Z.of_nat (count_new w a b l))%Z).
  { intros l. unfold count_new. cbn. destruct (is_new w a b (i, j)); cbn; lia. }
  pose proof (after_loop a b _ _ ms w1 w1 _ _ [] w' ltac:(lia) ltac:(cbn; lia) (after_refl w1) H2) as Haf.
  apply IH in H2 as [C2 K2]; [|lia|lia]. split.
  - rewrite C2, Hhead, Hcons, Hcount by done. lia.
  - intros [|k] m Hk Hm; cbn in Hk.
    + injection Hk as <-. cbn. unfold count_new. cbn. rewrite Z.add_0_r.
      unfold is_new, pa, pb in Hm. cbn in Hm. rewrite Hs, Ht in Hm. apply andb_true_iff in Hm as [Ls Lt].
      apply Z.ltb_lt in Ls. apply Z.ltb_lt in Lt.
      apply (af_keep _ _ _ Haf); [|lia].
      destruct He as [_ _ _ Hid|? ? _ _|? ? _ _|? ? _]; [|lia|lia|lia].
      unfold pa. cbn. rewrite Hid, decide_True by auto. by rewrite int_of_size_small by lia.
    + cbn [take]. rewrite Hcons. rewrite (K2 k m Hk).
      * rewrite Hhead, Hcount; [f_equal; lia|]. intros m' Hm'. apply elem_of_take in Hm' as (? & ? & _). by eapply elem_of_list_lookup_2.
      * rewrite Hsame; [done|by eapply elem_of_list_lookup_2].
Qed.

(** ** Histories *)
Record inv (w : world) (E : list (point * point)) : Prop := {
  inv_count : (0 <= counter w <= Z.of_nat (length E))%Z;
  inv_range : forall p t, id_at w p = Some t -> t = (-1)%Z \/ (0 <= t < counter w)%Z;
  inv_touched : forall p t, id_at w p = Some t -> (0 <= t)%Z -> touched E p;
  inv_edge : forall p q, (p, q) ∈ E -> exists t, (0 <= t)%Z /\ id_at w p = Some t /\ id_at w q = Some t;
  inv_conn : forall p q t, id_at w p = Some t -> id_at w q = Some t -> (0 <= t)%Z -> connected E p q }.

Lemma connected_mono E F p q : (forall e, e ∈ E -> e ∈ F) -> connected E p q -> connected F p q.
Proof.
  intros H. unfold connected. induction 1 as [x y Hxy|x|x y _ IH|x y z _ IH1 _ IH2].
  - apply rst_step. by apply H.
  - apply rst_refl.
  - by apply rst_sym.
  - by eapply rst_trans.
Qed.

Lemma inv_step w E a b i j w' : (Z.of_nat (length E) < 2 ^ 31)%Z -> inv w E ->
  apply_match w a b i j = Some w' -> inv w' (E ++ [((a, i), (b, j))]).
Proof.
  intros Hb [C R T D K] H. apply apply_match_spec in H as [(s & t & Hs & Ht & He) _].
  pose proof (effect_matched _ _ _ _ _ _ He Hs Ht ltac:(lia)) as [Hm Hc].
  set (p := (a, i)) in *. set (q := (b, j)) in *.
  assert (Hmono : forall x y, connected E x y -> connected (E ++ [(p, q)]) x y).
  { intros x y. apply connected_mono. intros e He'. apply elem_of_app. by left. }
  assert (Hpq : connected (E ++ [(p, q)]) p q).
  { apply rst_step. apply elem_of_app. right. by apply elem_of_list_singleton. }
  assert (Hqp : connected (E ++ [(p, q)]) q p) by (by apply rst_sym).
  split.
  - rewrite app_length. cbn. lia.
  - intros r x Hr. destruct He as [Ls Lt Hn Hid|Ls Lt Hn Hid|Ls Lt Hn Hid|L -> ->].
    + rewrite Hid in Hr. destruct (decide (r = p \/ r = q)); [|apply R in Hr; rewrite next_counter_small in Hn by lia; lia].
      injection Hr as <-. rewrite int_of_size_small by lia. rewrite next_counter_small in Hn by lia. lia.
    + rewrite Hid in Hr. destruct (decide (r = p)); [|apply R in Hr; lia]. injection Hr as <-. apply R in Ht. lia.
    + rewrite Hid in Hr. destruct (decide (r = q)); [|apply R in Hr; lia]. injection Hr as <-. apply R in Hs. lia.
    + by apply R in Hr.
  - intros r x Hr Hx. rewrite touched_app, touched_single.
    destruct (decide (r = p)) as [->|Np]; [auto|]. destruct (decide (r = q)) as [->|Nq]; [auto|].
    left. rewrite (effect_untouched _ _ _ _ _ _ He) in Hr by done. by apply (T r x).
  - intros x y Hxy. apply elem_of_app in Hxy as [Hxy|Hxy].
    + destruct (D x y Hxy) as (u & Hu & Hx & Hy). exists u. split; [done|]. split; eapply effect_keeps; eauto.
    + apply elem_of_list_singleton in Hxy. injection Hxy as -> ->. done.
  - intros x y u Hx Hy Hu. destruct He as [Ls Lt Hn Hid|Ls Lt Hn Hid|Ls Lt Hn Hid|L -> ->].
    + rewrite Hid in Hx, Hy. rewrite int_of_size_small in Hx, Hy by lia.
      destruct (decide (x = p \/ x = q)) as [Ex|Nx]; destruct (decide (y = p \/ y = q)) as [Ey|Ny].
      * destruct Ex as [-> | ->], Ey as [-> | ->]; try done; apply rst_refl.
      * injection Hx as <-. apply R in Hy. lia.
      * injection Hy as <-. apply R in Hx. lia.
      * apply Hmono. by apply (K x y u).
    + rewrite Hid in Hx, Hy. destruct (decide (x = p)) as [->|Nx]; destruct (decide (y = p)) as [->|Ny].
      * apply rst_refl.
      * injection Hx as <-. eapply rst_trans; [exact Hpq|]. apply Hmono. by apply (K q y t).
      * injection Hy as <-. eapply rst_trans; [|exact Hqp]. apply Hmono. by apply (K x q t).
      * apply Hmono. by apply (K x y u).
    + rewrite Hid in Hx, Hy. destruct (decide (x = q)) as [->|Nx]; destruct (decide (y = q)) as [->|Ny].
      * apply rst_refl.
      * injection Hx as <-. eapply rst_trans; [exact Hqp|]. apply Hmono. by apply (K p y s).
      * injection Hy as <-. eapply rst_trans; [|exact Hpq]. apply Hmono. by apply (K x p s).
      * apply Hmono. by apply (K x y u).
    + apply Hmono. by apply (K x y u).
Qed.
Lemma inv_loop a b na nb : forall ms w ca cb E w', (Z.of_nat (length E + length ms) <= 2 ^ 31)%Z ->
  inv w E -> apply_loop w a b na nb ca cb ms = Some w' -> inv w' (E ++ edges_of a b ms).
Proof.
  induction ms as [|[i j] ms IH]; intros w ca cb E w' Hb HI H.
  - cbn in *. injection H as <-. by rewrite app_nil_r.
  - apply apply_loop_cons in H as (_ & _ & _ & _ & w1 & H1 & H2). cbn [length] in Hb.
    eapply (IH w1 _ _ (E ++ [((a, Z.to_nat i), (b, Z.to_nat j))])) in H2.
    + rewrite <- app_assoc in H2. exact H2.
    + rewrite app_length. cbn. lia.
    + apply (inv_step w); [lia|done|done].
Qed.
Lemma inv_ext w w2 E : counter w2 = counter w -> (forall p, id_at w2 p = id_at w p) -> inv w E -> inv w2 E.
Proof.
  intros Hc Hi [C R T D K]. split.
  - by rewrite Hc.
  - intros p t. rewrite Hi, Hc. apply R.
  - intros p t. rewrite Hi. apply T.
  - intros p q Hpq. rewrite !Hi. by apply D.
  - intros p q t. rewrite !Hi. apply K.
Qed.
Lemma id_at_new_frame w n p t : id_at (World (frames w ++ [Frame n None]) (counter w)) p = Some t ->
  id_at w p = Some t \/ (t = -1)%Z.
Proof.
  unfold id_at. cbn. destruct (decide (p.1 < length (frames w))) as [L|L].
  - rewrite lookup_app_l by done. auto.
  - rewrite lookup_app_r by lia. destruct (p.1 - length (frames w)) as [|k]; cbn.
    + destruct (decide (p.2 < n)); [|done]. intros [= <-]. auto.
    + done.
Qed.
Lemma id_at_new_frame_old w n p t : id_at w p = Some t ->
  id_at (World (frames w ++ [Frame n None]) (counter w)) p = Some t.
Proof.
  unfold id_at. cbn. destruct (frames w !! p.1) as [f|] eqn:Hf; [|done].
  rewrite lookup_app_l by (by eapply lookup_lt_Some). by rewrite Hf.
Qed.
Lemma edges_of_length a b ms : length (edges_of a b ms) = length ms.
Proof. apply fmap_length. Qed.

Lemma inv_run : forall acts w E w', Forall no_reset acts -> (Z.of_nat (length E + length (applied acts)) <= 2 ^ 31)%Z ->
  inv w E -> run w acts = Some w' -> inv w' (E ++ applied acts).
Proof.
  induction acts as [|x acts IH]; intros w E w' Hn Hb HI H; cbn [run] in H.
  { injection H as <-. cbn. by rewrite app_nil_r. }
  inversion Hn as [|? ? Hx Hn']; subst.
  destruct x as [n|a b ms|]; [| |done]; cbn [step] in H.
  - cbn in H. apply (IH _ E) in H; [done|done|done|].
    destruct HI as [C R T D K]. split.
    + done.
    + intros p t Hp. apply id_at_new_frame in Hp as [Hp|Hp]; [by apply R in Hp|by left].
    + intros p t Hp Ht. apply id_at_new_frame in Hp as [Hp|Hp]; [by apply T in Hp|lia].
    + intros p q Hpq. destruct (D p q Hpq) as (t & Ht & Hp & Hq). exists t. split; [done|].
      split; by apply id_at_new_frame_old.
    + intros p q t Hp Hq Ht. apply id_at_new_frame in Hp as [Hp|Hp]; [|lia].
      apply id_at_new_frame in Hq as [Hq|Hq]; [|lia]. by apply (K p q t).
  - destruct (apply_matches w a b ms) as [w1|] eqn:H1; [|done]. cbn in H. cbn [applied] in *.
    rewrite app_length, edges_of_length in Hb.
    apply apply_matches_inv in H1 as (w2 & A & B & Hc & Hi & HA & HB & H1).
    apply (inv_ext w w2) in HI; [|done|done].
    eapply (inv_loop a b _ _ ms w2 _ _ E) in H1; [|lia|exact HI].
    rewrite app_assoc. eapply (IH w1 (E ++ edges_of a b ms)); [done| |done|done].
    rewrite app_length, edges_of_length. lia.
Qed.
Lemma inv_init : inv init [].
Proof.
  split; [cbn; lia| | | |]; unfold id_at, init; cbn; intros p; rewrite ?lookup_nil; try done.
  - intros q H. by apply elem_of_nil in H.
Qed.
