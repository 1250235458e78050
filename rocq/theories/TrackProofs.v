(** Proofs about track ids. *)
From Coq Require Import ZArith Bool Lia Relations.
From stdpp Require Import list.
From Verif Require Import TrackModel TrackSpec.
Local Open Scope nat_scope.

Lemma channel_set_id w a i t x :
  channel (set_id w a i t) x = if decide (x = a) then alter (fun _ => t) i <$> channel w x else channel w x.
Proof.
  unfold channel, set_id. cbn. destruct (decide (x = a)) as [->|H].
  - rewrite list_lookup_alter. destruct (frames w !! a) as [f|]; cbn; done.
  - rewrite list_lookup_alter_ne by done. done.
Qed.
Lemma id_at_set_id w a i t l p : channel w a = Some l -> i < length l ->
  id_at (set_id w a i t) p = if decide (p = (a, i)) then Some t else id_at w p.
Proof.
  unfold channel, id_at, set_id. destruct p as [x k]. cbn. intros Hc Hi.
  destruct (frames w !! a) as [f|] eqn:Hf; [|done]. cbn in Hc.
  destruct (decide (x = a)) as [->|Hx].
  - rewrite list_lookup_alter, Hf. cbn. rewrite Hc. cbn. destruct (decide (k = i)) as [->|Hk].
    + rewrite decide_True by done. rewrite list_lookup_alter.
      destruct (lookup_lt_is_Some_2 l i Hi) as [y ->]. done.
    + rewrite decide_False by congruence. by rewrite list_lookup_alter_ne.
  - rewrite list_lookup_alter_ne by done. rewrite decide_False by congruence. done.
Qed.
Lemma channel_length_set_id w a i t x : length <$> channel (set_id w a i t) x = length <$> channel w x.
Proof.
  rewrite channel_set_id. destruct (decide (x = a)); [|done].
  destruct (channel w x) as [l|]; [|done]. cbn. by rewrite alter_length.
Qed.
Lemma channel_id_at w a l i : channel w a = Some l -> id_at w (a, i) = l !! i.
Proof.
  unfold channel, id_at. cbn. destruct (frames w !! a) as [f|]; [|done]. cbn. by intros ->.
Qed.

Inductive effect (w : world) (p q : point) (w' : world) (s t : Z) : Prop :=
| EffNew : (s < 0)%Z -> (t < 0)%Z -> counter w' = next_counter (counter w) ->
    (forall r, id_at w' r = if decide (r = p \/ r = q) then Some (int_of_size (counter w)) else id_at w r) ->
    effect w p q w' s t
| EffA : (s < 0)%Z -> (0 <= t)%Z -> counter w' = counter w ->
    (forall r, id_at w' r = if decide (r = p) then Some t else id_at w r) -> effect w p q w' s t
| EffB : (0 <= s)%Z -> (t < 0)%Z -> counter w' = counter w ->
    (forall r, id_at w' r = if decide (r = q) then Some s else id_at w r) -> effect w p q w' s t
| EffNone : (0 <= s)%Z -> s = t -> w' = w -> effect w p q w' s t.

Lemma apply_match_spec w a b i j w' : apply_match w a b i j = Some w' ->
  (exists s t, id_at w (a, i) = Some s /\ id_at w (b, j) = Some t /\ effect w (a, i) (b, j) w' s t) /\
  forall x, length <$> channel w' x = length <$> channel w x.
Proof.
  unfold apply_match.
  destruct (channel w a) as [A|] eqn:HA; [|done]. cbn.
  destruct (channel w b) as [B|] eqn:HB; [|done]. cbn.
  destruct (A !! i) as [s|] eqn:Hs; [|done]. cbn.
  destruct (B !! j) as [t|] eqn:Ht; [|done]. cbn. intros H.
  pose proof (lookup_lt_Some _ _ _ Hs) as Li. pose proof (lookup_lt_Some _ _ _ Ht) as Lj.
  assert (Hex : id_at w (a, i) = Some s /\ id_at w (b, j) = Some t).
  { rewrite (channel_id_at w a A), (channel_id_at w b B); done. }
  destruct Hex as [Ea Eb].
  assert (Hgoal : effect w (a, i) (b, j) w' s t /\ forall x, length <$> channel w' x = length <$> channel w x);
    [|destruct Hgoal; split; [|done]; by exists s, t].
  destruct (Z.ltb_spec s 0) as [Ls|Ls]; destruct (Z.ltb_spec t 0) as [Lt|Lt]; cbn in H.
  - set (w1 := World (frames w) (next_counter (counter w))) in H. injection H as <-.
    assert (H1 : channel w1 a = Some A) by done.
    split.
    + apply EffNew; [done|done|done|]. intros r.
      assert (Hl : length <$> channel (set_id w1 a i (int_of_size (counter w))) b = Some (length B)).
      { rewrite channel_length_set_id. change (channel w1 b) with (channel w b). by rewrite HB. }
      destruct (channel (set_id w1 a i (int_of_size (counter w))) b) as [B'|] eqn:HB'; [|done].
      cbn in Hl. injection Hl as Hl.
      rewrite (id_at_set_id _ _ _ _ _ _ HB') by lia.
      rewrite (id_at_set_id _ _ _ _ _ _ H1) by lia.
      destruct (decide (r = (b, j))); [rewrite decide_True by auto; done|].
      destruct (decide (r = (a, i))); [rewrite decide_True by auto; done|].
      rewrite decide_False by (intros [?|?]; done). done.
    + intros x. by rewrite !channel_length_set_id.
  - rewrite (proj2 (Z.eqb_neq s t)) in H by lia. cbn in H.
    rewrite (proj2 (Z.leb_le 0 t)) in H by lia. injection H as <-. split.
    + apply EffA; [done|done|done|]. intros r. by apply (id_at_set_id _ _ _ _ A).
    + intros x. apply channel_length_set_id.
  - rewrite (proj2 (Z.eqb_neq s t)) in H by lia. cbn in H.
    rewrite (proj2 (Z.leb_gt 0 t)) in H by lia. injection H as <-. split.
    + apply EffB; [done|done|done|]. intros r. by apply (id_at_set_id _ _ _ _ B).
    + intros x. apply channel_length_set_id.
  - destruct (Z.eqb_spec s t) as [->|N]; cbn in H.
    + injection H as <-. split; [by apply EffNone|done].
    + rewrite (proj2 (Z.leb_le 0 t)) in H by lia. done.
Qed.
(** When one iteration succeeds. *)
Lemma apply_match_total w a b i j A B s t : channel w a = Some A -> channel w b = Some B ->
  A !! i = Some s -> B !! j = Some t -> ((0 <= s)%Z -> (0 <= t)%Z -> s = t) ->
  exists w', apply_match w a b i j = Some w'.
Proof.
  intros HA HB Hs Ht Hc. unfold apply_match. rewrite HA. cbn. rewrite HB. cbn. rewrite Hs. cbn. rewrite Ht. cbn.
  destruct (Z.ltb_spec s 0) as [Ls|Ls]; destruct (Z.ltb_spec t 0) as [Lt|Lt]; cbn; [eauto| | |].
  - rewrite (proj2 (Z.eqb_neq s t)) by lia. cbn. destruct (0 <=? t)%Z; eauto.
  - rewrite (proj2 (Z.eqb_neq s t)) by lia. cbn. rewrite (proj2 (Z.leb_gt 0 t)) by lia. eauto.
  - rewrite Hc by done. rewrite Z.eqb_refl. cbn. eauto.
Qed.
Lemma apply_match_conflict w a b i j s t : id_at w (a, i) = Some s -> id_at w (b, j) = Some t ->
  (0 <= s)%Z -> (0 <= t)%Z -> s <> t -> apply_match w a b i j = None.
Proof.
  intros Hs Ht Ls Lt N. destruct (apply_match w a b i j) as [w'|] eqn:E; [|done].
  apply apply_match_spec in E as [(s' & t' & Hs' & Ht' & He) _].
  assert (s' = s) by congruence. assert (t' = t) by congruence. subst. destruct He; lia.
Qed.

(** ** create *)
Lemma create_spec w a w' : create w a = Some w' ->
  counter w' = counter w /\ (forall p, id_at w' p = id_at w p) /\ is_Some (channel w' a) /\
  (forall x, is_Some (channel w x) -> channel w' x = channel w x) /\ is_Some (frames w !! a).
Proof.
  unfold create. destruct (frames w !! a) as [f|] eqn:Hf; [|done]. cbn. intros [= <-].
  pose proof (lookup_lt_Some _ _ _ Hf) as La.
  split; [done|]. split; [|split; [|split; [|done]]].
  - intros [x k]. unfold id_at. cbn. destruct (decide (x = a)) as [->|N].
    + rewrite list_lookup_insert by done. rewrite Hf. cbn. unfold create_channel.
      destruct (track f) as [l|] eqn:Ht; cbn; [by rewrite Ht|].
      destruct (decide (k < num_keypoints f)) as [L|L].
      * by apply lookup_replicate_2.
      * apply lookup_replicate_None. lia.
    + by rewrite list_lookup_insert_ne.
  - unfold channel. cbn. rewrite list_lookup_insert by done. cbn. unfold create_channel.
    destruct (track f) as [l|] eqn:Ht; cbn; [rewrite Ht|]; done.
  - intros x. unfold channel. cbn. destruct (decide (x = a)) as [->|N].
    + rewrite list_lookup_insert by done. rewrite Hf. cbn. unfold create_channel.
      destruct (track f) as [l|] eqn:Ht; cbn; [done|]. by intros [].
    + by rewrite list_lookup_insert_ne.
Qed.
Lemma create_total w a : is_Some (frames w !! a) -> exists w', create w a = Some w'.
Proof. intros [f Hf]. unfold create. rewrite Hf. cbn. eauto. Qed.

Lemma apply_matches_inv w a b ms w' : apply_matches w a b ms = Some w' ->
  exists w2 A B, counter w2 = counter w /\ (forall p, id_at w2 p = id_at w p) /\
    channel w2 a = Some A /\ channel w2 b = Some B /\
    apply_loop w2 a b (length A) (length B) [] [] ms = Some w'.
Proof.
  unfold apply_matches. destruct (create w a) as [w1|] eqn:H1; [|done]. cbn.
  destruct (create w1 b) as [w2|] eqn:H2; [|done]. cbn.
  destruct (channel w2 a) as [A|] eqn:HA; [|done]. cbn.
  destruct (channel w2 b) as [B|] eqn:HB; [|done]. cbn. intros H.
  apply create_spec in H1 as (C1 & I1 & _). apply create_spec in H2 as (C2 & I2 & _).
  exists w2, A, B. split; [congruence|]. split; [|done]. intros p. by rewrite I2, I1.
Qed.

(** ** The loop *)
Lemma apply_loop_cons w a b na nb ca cb i j ms w' :
  apply_loop w a b na nb ca cb ((i, j) :: ms) = Some w' <->
  (0 <= i < Z.of_nat na)%Z /\ (0 <= j < Z.of_nat nb)%Z /\ i ∉ ca /\ j ∉ cb /\
  exists w1, apply_match w a b (Z.to_nat i) (Z.to_nat j) = Some w1 /\
    apply_loop w1 a b na nb (i :: ca) (j :: cb) ms = Some w'.
Proof.
  cbn [apply_loop].
  destruct (Z.ltb_spec i (Z.of_nat na)); destruct (Z.leb_spec 0 i); cbn; try (split; [done|]; intros (? & ? & ?); lia).
  destruct (Z.ltb_spec j (Z.of_nat nb)); destruct (Z.leb_spec 0 j); cbn; try (split; [done|]; intros (? & ? & ?); lia).
  destruct (bool_decide (i ∈ ca)) eqn:Ba.
  { apply bool_decide_eq_true in Ba. split; [done|]. by intros (_ & _ & ? & _). }
  apply bool_decide_eq_false in Ba.
  destruct (bool_decide (j ∈ cb)) eqn:Bb.
  { apply bool_decide_eq_true in Bb. split; [done|]. by intros (_ & _ & _ & ? & _). }
  apply bool_decide_eq_false in Bb.
  destruct (apply_match w a b (Z.to_nat i) (Z.to_nat j)) as [w1|]; cbn.
  - split; [intros H3; split; [lia|]; split; [lia|]; split; [done|]; split; [done|]; by exists w1|].
    intros (_ & _ & _ & _ & w2 & [= ->] & H3). done.
  - split; [done|]. by intros (_ & _ & _ & _ & w2 & ? & _).
Qed.

(** The general shape of an invariant proof over the loop. *)
Lemma loop_ind (P : world -> list (point * point) -> Prop) a b na nb :
  (forall w i j E w', P w E -> apply_match w a b i j = Some w' -> P w' (E ++ [((a, i), (b, j))])) ->
  forall ms w ca cb E w', P w E -> apply_loop w a b na nb ca cb ms = Some w' -> P w' (E ++ edges_of a b ms).
Proof.
  intros Hstep. induction ms as [|[i j] ms IH]; intros w ca cb E w' HP H.
  - cbn in *. injection H as <-. by rewrite app_nil_r.
  - apply apply_loop_cons in H as (_ & _ & _ & _ & w1 & H1 & H2).
    eapply IH in H2; [|eapply Hstep; [exact HP|exact H1]]. rewrite <- app_assoc in H2. exact H2.
Qed.

(** ** One call *)
Lemma id_at_dom w w' p q s t : effect w p q w' s t -> id_at w p = Some s -> id_at w q = Some t ->
  forall r, is_Some (id_at w' r) <-> is_Some (id_at w r).
Proof.
  intros He Hp Hq r. destruct He as [_ _ _ H|_ _ _ H|_ _ _ H|_ _ ->]; [| | |done]; rewrite H.
  - destruct (decide (r = p \/ r = q)) as [[-> | ->]|]; [rewrite Hp|rewrite Hq|]; done.
  - destruct (decide (r = p)) as [->|]; [rewrite Hp|]; done.
  - destruct (decide (r = q)) as [->|]; [rewrite Hq|]; done.
Qed.
Lemma effect_keeps w p q w' s t : effect w p q w' s t -> id_at w p = Some s -> id_at w q = Some t ->
  forall r x, id_at w r = Some x -> (0 <= x)%Z -> id_at w' r = Some x.
Proof.
  intros He Hp Hq r x Hr Hx. destruct He as [Ls Lt _ H|Ls Lt _ H|Ls Lt _ H|_ _ ->]; [| | |done]; rewrite H.
  - rewrite decide_False; [done|]. intros [-> | ->]; [assert (x = s) by congruence|assert (x = t) by congruence]; lia.
  - rewrite decide_False; [done|]. intros ->. assert (x = s) by congruence. lia.
  - rewrite decide_False; [done|]. intros ->. assert (x = t) by congruence. lia.
Qed.
Lemma effect_untouched w p q w' s t : effect w p q w' s t ->
  forall r, r <> p -> r <> q -> id_at w' r = id_at w r.
Proof.
  intros He r Np Nq. destruct He as [_ _ _ H|_ _ _ H|_ _ _ H|_ _ ->]; [| | |done]; rewrite H.
  - rewrite decide_False; [done|]. by intros [?|?].
  - by rewrite decide_False.
  - by rewrite decide_False.
Qed.
Lemma int_of_size_small c : (0 <= c < 2 ^ 31)%Z -> int_of_size c = c.
Proof.
  intros H. unfold int_of_size. rewrite Z.mod_small by lia. by rewrite (proj2 (Z.ltb_lt c (2 ^ 31))) by lia.
Qed.
Lemma next_counter_small c : (0 <= c < 2 ^ 31)%Z -> next_counter c = (c + 1)%Z.
Proof. intros H. unfold next_counter. apply Z.mod_small. lia. Qed.
Lemma effect_matched w p q w' s t : effect w p q w' s t -> id_at w p = Some s -> id_at w q = Some t ->
  (0 <= counter w < 2 ^ 31)%Z ->
  (exists x, (0 <= x)%Z /\ id_at w' p = Some x /\ id_at w' q = Some x) /\
  (counter w <= counter w' <= counter w + 1)%Z.
Proof.
  intros He Hp Hq Hc. destruct He as [Ls Lt Hn H|Ls Lt Hn H|Ls Lt Hn H|L -> ->].
  - rewrite int_of_size_small in H by done. rewrite next_counter_small in Hn by done. split; [|lia].
    exists (counter w). split; [lia|]. rewrite !H, !decide_True by auto. done.
  - split; [|lia]. exists t. split; [done|]. rewrite !H. rewrite decide_True by done. split; [done|].
    destruct (decide (q = p)); done.
  - split; [|lia]. exists s. split; [done|]. rewrite !H. rewrite (decide_True (P := q = q)) by done. split; [|done].
    destruct (decide (p = q)); done.
  - split; [|lia]. exists t. done.
Qed.

(** Everything but the new ids, for any history of matches within one call (or several). *)
Record after (w0 w : world) (E : list (point * point)) : Prop := {
  af_dom : forall r, is_Some (id_at w r) <-> is_Some (id_at w0 r);
  af_keep : forall r x, id_at w0 r = Some x -> (0 <= x)%Z -> id_at w r = Some x;
  af_untouched : forall r, ~ touched E r -> id_at w r = id_at w0 r;
  af_counter : (counter w0 <= counter w <= counter w0 + Z.of_nat (length E))%Z;
  af_match : forall p q, (p, q) ∈ E -> exists x, (0 <= x)%Z /\ id_at w p = Some x /\ id_at w q = Some x }.
Lemma touched_app E F p : touched (E ++ F) p <-> touched E p \/ touched F p.
Proof. unfold touched. setoid_rewrite elem_of_app. naive_solver. Qed.
Lemma touched_single p q r : touched [(p, q)] r <-> p = r \/ q = r.
Proof.
  unfold touched. split.
  - intros (e & He & H). apply elem_of_list_singleton in He as ->. done.
  - intros H. exists (p, q). split; [by apply elem_of_list_singleton|done].
Qed.
Lemma after_step w0 w E a b i j w' :
  (0 <= counter w0)%Z -> (counter w0 + Z.of_nat (length E) < 2 ^ 31)%Z ->
  after w0 w E -> apply_match w a b i j = Some w' -> after w0 w' (E ++ [((a, i), (b, j))]).
Proof.
  intros H0 Hb [D K U C M] H. apply apply_match_spec in H as [(s & t & Hs & Ht & He) _].
  pose proof (effect_matched _ _ _ _ _ _ He Hs Ht ltac:(lia)) as [Hm Hc]. split.
  - intros r. rewrite (id_at_dom _ _ _ _ _ _ He Hs Ht). apply D.
  - intros r x Hr Hx. apply (effect_keeps _ _ _ _ _ _ He Hs Ht); [by apply K|done].
  - intros r Hr. rewrite touched_app, touched_single in Hr.
    rewrite (effect_untouched _ _ _ _ _ _ He) by (intros ->; apply Hr; auto). apply U. tauto.
  - rewrite app_length. cbn. lia.
  - intros p q Hpq. apply elem_of_app in Hpq as [Hpq|Hpq].
    + destruct (M p q Hpq) as (x & Hx & Hp & Hq). exists x. split; [done|].
      split; eapply effect_keeps; eauto.
    + apply elem_of_list_singleton in Hpq. injection Hpq as -> ->. done.
Qed.
Lemma after_loop a b na nb : forall ms w0 w ca cb E w',
  (0 <= counter w0)%Z -> (counter w0 + Z.of_nat (length E + length ms) <= 2 ^ 31)%Z ->
  after w0 w E -> apply_loop w a b na nb ca cb ms = Some w' -> after w0 w' (E ++ edges_of a b ms).
Proof.
  induction ms as [|[i j] ms IH]; intros w0 w ca cb E w' H0 Hb HA H.
  - cbn in *. injection H as <-. by rewrite app_nil_r.
  - apply apply_loop_cons in H as (_ & _ & _ & _ & w1 & H1 & H2). cbn [length] in Hb.
    eapply (IH w0 w1 _ _ (E ++ [((a, Z.to_nat i), (b, Z.to_nat j))])) in H2.
    + rewrite <- app_assoc in H2. exact H2.
    + done.
    + rewrite app_length. cbn. lia.
    + apply (after_step w0 w); [done|lia|done|done].
Qed.
Lemma after_refl w : after w w [].
Proof.
  split; [done|done|done|cbn; lia|]. intros p q H. by apply elem_of_nil in H.
Qed.
Lemma apply_matches_after w a b ms w' : (0 <= counter w)%Z -> (counter w + Z.of_nat (length ms) <= 2 ^ 31)%Z ->
  apply_matches w a b ms = Some w' -> after w w' (edges_of a b ms).
Proof.
  intros H0 Hb H. apply apply_matches_inv in H as (w2 & A & B & Hc & Hi & HA & HB & H).
  eapply (after_loop a b _ _ ms w2 w2 _ _ [] w') in H; [|lia|cbn; lia|apply after_refl].
  destruct H as [D K U C M]. cbn in *. split.
  - intros r. rewrite D, Hi. done.
  - intros r x Hr. apply K. by rewrite Hi.
  - intros r Hr. rewrite U by done. apply Hi.
  - lia.
  - done.
Qed.
