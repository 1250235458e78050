(** Proofs about channel groups: refinement to independent finite maps. *)
From Coq Require Import ZArith Bool Lia.
From stdpp Require Import list gmap strings.
From Verif Require Import ChannelModel ChannelSpec.

(** The data a Channel object holds, and the abstraction of a state. *)
Definition rd (h : list value) (bs : list Z) (l : nat) : data :=
  default (DData 0 0) (v ← h !! l; read_value bs v).
Definition alpha (s : state) : abstract :=
  (fun m : gmap string nat => rd (heap s) (bufs s) <$> m) <$> groups s.

Record inv (s : state) : Prop := Inv {
  inv_valid : forall g m n l, groups s !! g = Some m -> m !! n = Some l -> l < length (heap s);
  inv_inj : forall g1 m1 n1 g2 m2 n2 l, groups s !! g1 = Some m1 -> m1 !! n1 = Some l ->
      groups s !! g2 = Some m2 -> m2 !! n2 = Some l -> g1 = g2 /\ n1 = n2;
  inv_read : forall l v, heap s !! l = Some v -> is_Some (read_value (bufs s) v) }.

Lemma inv_init : inv init.
Proof. constructor; cbn; intros; by rewrite ?lookup_nil in *. Qed.

Lemma alpha_lookup s g : alpha s !! g = (fun m : gmap string nat => rd (heap s) (bufs s) <$> m) <$> groups s !! g.
Proof. unfold alpha. by rewrite list_lookup_fmap. Qed.

Lemma read_app bs bs' v : is_Some (read_value bs v) -> read_value (bs ++ bs') v = read_value bs v.
Proof.
  destruct v as [k z|b]; cbn; [done|]. intros [d Hd].
  destruct (bs !! b) eqn:E; [|done]. by rewrite (lookup_app_l_Some _ _ _ _ E).
Qed.
Lemma rd_app h h' bs bs' l : (forall l v, h !! l = Some v -> is_Some (read_value bs v)) ->
  l < length h -> rd (h ++ h') (bs ++ bs') l = rd h bs l.
Proof.
  intros Hr Hl. unfold rd. rewrite lookup_app_l by done.
  destruct (lookup_lt_is_Some_2 h l Hl) as [v Hv]. rewrite Hv. cbn. by rewrite read_app by eauto.
Qed.
Lemma rd_some s l v : inv s -> heap s !! l = Some v -> read_value (bufs s) v = Some (rd (heap s) (bufs s) l).
Proof.
  intros I Hv. unfold rd. rewrite Hv. cbn. by destruct (inv_read _ I _ _ Hv) as [d ->].
Qed.
Lemma read_type bs v d : read_value bs v = Some d -> data_type d = type_of v.
Proof. destruct v as [k z|b]; cbn; [by intros [= <-]|]. destruct (bs !! b); [by intros [= <-]|done]. Qed.

Lemma store_ok bs d bs' v : store bs d = (bs', v) ->
  (exists x, bs' = bs ++ x) /\ read_value bs' v = Some d.
Proof.
  destruct d as [k z|z]; cbn; intros [= <- <-].
  - split; [by exists []; rewrite app_nil_r|done].
  - split; [by exists [z]|]. cbn. by rewrite lookup_app_r, Nat.sub_diag.
Qed.

(** The abstraction of a state whose heap and buffers only grew. *)
Lemma alpha_grow s h' b' (gs : list (gmap string nat)) : inv s ->
  (forall g m n l, gs !! g = Some m -> m !! n = Some l -> l < length (heap s)) ->
  (fun m : gmap string nat => rd (heap s ++ h') (bufs s ++ b') <$> m) <$> gs
  = (fun m : gmap string nat => rd (heap s) (bufs s) <$> m) <$> gs.
Proof.
  intros I Hv. apply list_fmap_ext. intros g m Hm. apply map_fmap_ext. intros n l Hl.
  apply rd_app; [apply I|by eapply Hv].
Qed.

Lemma bind_None_fmap {A B C} (f : A -> B) (o : option A) (k : B -> option C) :
  (f <$> o) ≫= k = o ≫= (fun x => k (f x)).
Proof. by destruct o. Qed.

Lemma find_ok s g n t : inv s ->
  (m ← alpha s !! g; d ← m !! n; if decide (data_type d = t) then Some d else None)
  = (fun l => rd (heap s) (bufs s) l) <$> find_channel s g n t.
Proof.
  intros I. rewrite alpha_lookup. unfold find_channel.
  destruct (groups s !! g) as [m|] eqn:Hg; [|done]. cbn. rewrite lookup_fmap.
  destruct (m !! n) as [l|] eqn:Hn; [|done]. cbn.
  destruct (lookup_lt_is_Some_2 (heap s) l) as [v Hv]; [by eapply inv_valid|]. rewrite Hv. cbn.
  pose proof (rd_some _ _ _ I Hv) as Hr. pose proof (read_type _ _ _ Hr) as Ht. rewrite Ht.
  by destruct (decide (type_of v = t)).
Qed.
Lemma find_channel_Some s g n t l : find_channel s g n t = Some l ->
  exists m v, groups s !! g = Some m /\ m !! n = Some l /\ heap s !! l = Some v /\ type_of v = t.
Proof.
  unfold find_channel. destruct (groups s !! g) as [m|] eqn:Hg; [|done]. cbn.
  destruct (m !! n) as [l'|] eqn:Hn; [|done]. cbn.
  destruct (heap s !! l') as [v|] eqn:Hv; [|done]. cbn.
  destruct (decide (type_of v = t)); [|done]. intros [= ->]. by exists m, v.
Qed.

(** Writing one Channel object changes one entry of one group. *)
Lemma alpha_write s g m n l bs' b v d : inv s -> groups s !! g = Some m -> m !! n = Some l ->
  bs' = bufs s ++ b -> read_value bs' v = Some d ->
  let s' := State (<[l := v]> (heap s)) bs' (groups s) in
  alpha s' = <[g := <[n := d]> (rd (heap s) (bufs s) <$> m)]> (alpha s) /\ inv s'.
Proof.
  intros I Hg Hn -> Hr s'. pose proof (inv_valid _ I _ _ _ _ Hg Hn) as Hl. split.
  - apply list_eq. intros k. rewrite alpha_lookup.
    change (groups s') with (groups s). change (heap s') with (<[l:=v]> (heap s)).
    change (bufs s') with (bufs s ++ b).
    assert (Hgl : g < length (alpha s)).
    { unfold alpha. rewrite fmap_length. by eapply lookup_lt_Some. }
    assert (Hother : forall l', l' <> l -> l' < length (heap s) ->
      rd (<[l:=v]> (heap s)) (bufs s ++ b) l' = rd (heap s) (bufs s) l').
    { intros l' Hne Hl'. unfold rd. rewrite list_lookup_insert_ne by done.
      destruct (lookup_lt_is_Some_2 _ _ Hl') as [v' Hv']. rewrite Hv'. cbn.
      by rewrite read_app by (by eapply inv_read). }
    assert (Hthis : rd (<[l:=v]> (heap s)) (bufs s ++ b) l = d).
    { unfold rd. rewrite list_lookup_insert by done. cbn. by rewrite Hr. }
    destruct (decide (k = g)) as [->|Hne].
    + rewrite list_lookup_insert by done. rewrite Hg. cbn. f_equal.
      apply map_eq. intros n'. rewrite lookup_fmap.
      destruct (decide (n' = n)) as [->|Hn'].
      * rewrite lookup_insert, Hn. cbn. by rewrite Hthis.
      * rewrite lookup_insert_ne by done. rewrite lookup_fmap.
        destruct (m !! n') as [l'|] eqn:E; [|done]. cbn. f_equal. apply Hother.
        -- intros ->. by destruct (inv_inj _ I _ _ _ _ _ _ _ Hg E Hg Hn).
        -- by eapply inv_valid.
    + rewrite list_lookup_insert_ne by done. rewrite alpha_lookup.
      destruct (groups s !! k) as [m'|] eqn:E; [|done]. cbn. f_equal.
      apply map_fmap_ext. intros n' l' Hl'. apply Hother.
      * intros ->. destruct (inv_inj _ I _ _ _ _ _ _ _ E Hl' Hg Hn). congruence.
      * by eapply inv_valid.
  - constructor; cbn.
    + intros. rewrite insert_length. by eapply inv_valid.
    + apply I.
    + intros k w Hw. destruct (decide (k = l)) as [->|Hne].
      * rewrite list_lookup_insert in Hw by done. injection Hw as <-. eauto.
      * rewrite list_lookup_insert_ne in Hw by done.
        rewrite read_app; by eapply inv_read.
Qed.

(** Cloning. *)
Lemma clone_channels_ok m0 names : forall h, Forall (fun p : string * nat => p.2 < length h) names ->
  NoDup names.*1 ->
  exists h' m', clone_channels h m0 names = Some (h', m') /\ (exists vs, h' = h ++ vs /\ Forall (fun v => v ∈ h) vs) /\
    (forall n loc, m' !! n = Some loc -> length h <= loc < length h' /\
       exists l, (n, l) ∈ names /\ h' !! loc = h !! l) /\
    (forall n l, (n, l) ∈ names -> is_Some (m' !! n)) /\
    (forall n1 n2 loc, m' !! n1 = Some loc -> m' !! n2 = Some loc -> n1 = n2).
Proof.
  induction names as [|[n l] names IH]; intros h HF HN; cbn [clone_channels].
  - exists h, ∅. split; [done|]. split; [exists []; by rewrite app_nil_r|].
    split; [intros ? ?; by rewrite lookup_empty|]. split; [|intros ? ? ?; by rewrite lookup_empty].
    intros ? ? H. by apply elem_of_nil in H.
  - inversion HF as [|? ? Hl HF']; subst. cbn in Hl. inversion HN as [|? ? Hnin HN']; subst.
    destruct (lookup_lt_is_Some_2 h l Hl) as [v Hv]. rewrite Hv. unfold clone_value.
    destruct (IH (h ++ [v])) as (h' & m' & E & (vs & -> & Fvs) & P1 & P2 & P3); [|done|].
    { eapply Forall_impl; [exact HF'|]. intros p Hp. rewrite app_length. cbn in *. lia. }
    rewrite E. exists ((h ++ [v]) ++ vs), (<[n := length h]> m').
    split; [done|]. split.
    { exists (v :: vs). rewrite <- app_assoc. split; [done|].
      assert (v ∈ h) by (by eapply elem_of_list_lookup_2).
      constructor; [done|]. eapply Forall_impl; [exact Fvs|]. intros w. cbn.
      rewrite elem_of_app, elem_of_list_singleton. by intros [? | ->]. }
    split.
    { intros n' loc. rewrite lookup_insert_Some. intros [[<- <-]|[Hne Hl']].
      - split; [rewrite !app_length; cbn; lia|]. exists l. split; [left|].
        rewrite <- app_assoc, lookup_app_r, Nat.sub_diag by lia. by rewrite Hv.
      - destruct (P1 _ _ Hl') as [[B1 B2] (l' & Hin & Heq)]. rewrite app_length in B1. cbn in B1.
        split; [lia|]. exists l'. split; [by right|]. rewrite Heq.
        rewrite Forall_forall in HF'. specialize (HF' _ Hin). cbn in HF'.
        by rewrite lookup_app_l. }
    split.
    { intros n' l'. rewrite elem_of_cons. intros [E0|Hin]; [injection E0 as -> ->|].
      - rewrite lookup_insert. eauto.
      - destruct (decide (n = n')) as [->|]; [rewrite lookup_insert; eauto|].
        rewrite lookup_insert_ne by done. by eapply P2. }
    { intros n1 n2 loc. rewrite !lookup_insert_Some.
      intros [[<- <-]|[? H1]]; intros [[<- E2]|[? H2]]; [done| | |by eapply P3].
      - destruct (P1 _ _ H2) as [[B1 _] _]. rewrite app_length in B1. cbn in B1. lia.
      - destruct (P1 _ _ H1) as [[B1 _] _]. rewrite app_length in B1. cbn in B1. lia. }
Qed.

Lemma clone_ok s g m : inv s -> groups s !! g = Some m ->
  exists s', clone_group s g = Some s' /\ inv s' /\ alpha s' = alpha s ++ [rd (heap s) (bufs s) <$> m].
Proof.
  intros I Hg. unfold clone_group. rewrite Hg. cbn [mbind option_bind].
  destruct (clone_channels_ok m (map_to_list m) (heap s)) as (h' & m' & E & (vs & -> & Fvs) & P1 & P2 & P3).
  { apply Forall_forall. intros [n l] H%elem_of_map_to_list. by eapply inv_valid. }
  { apply NoDup_fst_map_to_list. }
  rewrite E. eexists. split; [done|].
  assert (Hread : forall l v, (heap s ++ vs) !! l = Some v -> is_Some (read_value (bufs s) v)).
  { intros l v Hv. apply lookup_app_Some in Hv as [Hv|[_ Hv]]; [by eapply inv_read|].
    pose proof (Forall_lookup_1 _ _ _ _ Fvs Hv) as Hin. cbv beta in Hin.
    apply elem_of_list_lookup in Hin as [k Hk]. by eapply inv_read. }
  split.
  - constructor; cbn.
    + intros g' m1 n l Hm Hn. apply lookup_app_Some in Hm as [Hm|[_ Hm]].
      * pose proof (inv_valid _ I _ _ _ _ Hm Hn). rewrite app_length. lia.
      * apply list_lookup_singleton_Some in Hm as [_ <-]. apply P1 in Hn as [? _]; lia.
    + intros g1 m1 n1 g2 m2 n2 l H1 Hn1 H2 Hn2.
      apply lookup_app_Some in H1 as [H1|[L1 H1]]; apply lookup_app_Some in H2 as [H2|[L2 H2]].
      * eapply inv_inj; eauto.
      * apply list_lookup_singleton_Some in H2 as [_ <-]. apply P1 in Hn2 as [? _].
        pose proof (inv_valid _ I _ _ _ _ H1 Hn1). lia.
      * apply list_lookup_singleton_Some in H1 as [_ <-]. apply P1 in Hn1 as [? _].
        pose proof (inv_valid _ I _ _ _ _ H2 Hn2). lia.
      * apply list_lookup_singleton_Some in H1 as [? <-]. apply list_lookup_singleton_Some in H2 as [? <-].
        split; [lia|]. by eapply P3.
    + exact Hread.
  - unfold alpha. cbn. rewrite fmap_app. f_equal.
    + pose proof (alpha_grow s vs [] (groups s) I (inv_valid _ I)) as G. by rewrite app_nil_r in G.
    + cbn. f_equal. apply map_eq. intros n. rewrite !lookup_fmap.
      destruct (m' !! n) as [loc|] eqn:E'.
      * destruct (P1 _ _ E') as [_ (l & Hin & Heq)]. apply elem_of_map_to_list in Hin. rewrite Hin. cbn.
        f_equal. unfold rd. by rewrite Heq.
      * destruct (m !! n) as [l|] eqn:E2; [|done].
        apply elem_of_map_to_list, P2 in E2 as [? ?]. congruence.
Qed.

(** Comparing. *)
Lemma compare_ok s ll rl lv rv : inv s -> heap s !! ll = Some lv -> heap s !! rl = Some rv ->
  compare_values (bufs s) lv rv =
  if decide (data_type (rd (heap s) (bufs s) ll) = data_type (rd (heap s) (bufs s) rl))
  then Some (bool_decide (rd (heap s) (bufs s) ll = rd (heap s) (bufs s) rl)) else None.
Proof.
  intros I Hl Hr. pose proof (rd_some _ _ _ I Hl) as El. pose proof (rd_some _ _ _ I Hr) as Er.
  unfold compare_values. rewrite (read_type _ _ _ El), (read_type _ _ _ Er).
  destruct (decide (type_of lv = type_of rv)) as [Et|]; [|done].
  rewrite El, Er. pose proof (read_type _ _ _ El) as Tl. pose proof (read_type _ _ _ Er) as Tr.
  destruct (rd (heap s) (bufs s) ll) as [k x|x], (rd (heap s) (bufs s) rl) as [k' y|y]; cbn in *.
  - f_equal. destruct (Z.eqb_spec x y) as [->|Hne].
    + rewrite bool_decide_eq_true_2; [done|]. congruence.
    + rewrite bool_decide_eq_false_2; [done|]. congruence.
  - congruence.
  - congruence.
  - f_equal. destruct (Z.eqb_spec x y) as [->|Hne].
    + by rewrite bool_decide_eq_true_2.
    + rewrite bool_decide_eq_false_2; [done|]. congruence.
Qed.
Lemma equal_loop_ok s order : inv s -> forall g g' l r, groups s !! g = Some l -> groups s !! g' = Some r ->
  equal_loop s order l r
  = spec_equal order (rd (heap s) (bufs s) <$> l) (rd (heap s) (bufs s) <$> r).
Proof.
  intros I g g' l r Hl Hr. induction order as [|n order IH]; [done|]. cbn [equal_loop spec_equal].
  rewrite !lookup_fmap. destruct (l !! n) as [ll|] eqn:El; [|by destruct (r !! n)].
  destruct (r !! n) as [rl|] eqn:Er; [|done]. cbn.
  destruct (lookup_lt_is_Some_2 (heap s) ll) as [lv Hlv]; [exact (inv_valid _ I _ _ _ _ Hl El)|].
  destruct (lookup_lt_is_Some_2 (heap s) rl) as [rv Hrv]; [exact (inv_valid _ I _ _ _ _ Hr Er)|].
  rewrite Hlv, Hrv, (compare_ok s ll rl lv rv I Hlv Hrv).
  destruct (decide (data_type _ = data_type _)); [|done].
  destruct (decide (rd (heap s) (bufs s) ll = rd (heap s) (bufs s) rl)).
  - by rewrite bool_decide_eq_true_2.
  - by rewrite bool_decide_eq_false_2.
Qed.
Lemma is_order_perm order l1 l2 : l1 ≡ₚ l2 -> is_order order l1 = is_order order l2.
Proof.
  intros P. unfold is_order. rewrite (Permutation_length P). f_equal.
  induction order as [|n order IH]; [done|]. cbn. f_equal; [|done].
  apply bool_decide_ext. by rewrite P.
Qed.
Lemma names_fmap {A B} (f : A -> B) (m : gmap string A) :
  (map_to_list (f <$> m)).*1 ≡ₚ (map_to_list m).*1.
Proof.
  rewrite map_to_list_fmap. rewrite <- list_fmap_compose.
  apply Permutation_refl'. apply list_fmap_ext. by intros ? [].
Qed.

(** One step. *)
Theorem step_refines s a : inv s -> no_alias a = true ->
  match step s a with
  | None => spec_step (alpha s) a = None
  | Some (s', o) => spec_step (alpha s) a = Some (alpha s', o) /\ inv s'
  end.
Proof.
  intros I Hna. destruct a; cbn [step spec_step]; try done.
  - (* new *) split.
    + unfold alpha. cbn. rewrite fmap_app. cbn. by rewrite fmap_empty.
    + destruct I as [I1 I2 I3]. constructor; cbn; [| |done].
      * intros g m n l Hm Hn. apply lookup_app_Some in Hm as [Hm|[_ Hm]]; [eauto|].
        apply list_lookup_singleton_Some in Hm as [_ <-]. done.
      * intros g1 m1 n1 g2 m2 n2 l Hm1 Hn1 Hm2 Hn2.
        apply lookup_app_Some in Hm1 as [Hm1|[_ Hm1]]; apply lookup_app_Some in Hm2 as [Hm2|[_ Hm2]]; [eauto| | |];
        repeat match goal with H : [∅] !! _ = Some _ |- _ => apply list_lookup_singleton_Some in H as [_ <-] end; done.
  - (* add *) unfold add_channel. rewrite alpha_lookup.
    destruct (groups s !! g) as [m|] eqn:Hg; [|done]. cbn. rewrite lookup_fmap.
    destruct (m !! name) as [l|] eqn:Hn; [done|]. cbn.
    destruct (store (bufs s) (default_data t)) as [bs v] eqn:Es.
    destruct (store_ok _ _ _ _ Es) as [[b ->] Hr]. cbn.
    pose proof (lookup_lt_Some _ _ _ Hg) as Hgl. split.
    + f_equal. f_equal. apply list_eq. intros k.
      assert (Hrd : forall l, l < length (heap s) ->
        rd (heap s ++ [v]) (bufs s ++ b) l = rd (heap s) (bufs s) l).
      { intros l Hl. apply rd_app; [apply I|done]. }
      rewrite (list_lookup_fmap _ (<[g:=_]> (groups s))).
      destruct (decide (k = g)) as [->|Hne].
      * rewrite !list_lookup_insert; [| |unfold alpha; rewrite fmap_length]; try done. cbn. f_equal.
        apply map_eq. intros n'. rewrite lookup_fmap. destruct (decide (n' = name)) as [->|Hn'].
        -- rewrite !lookup_insert. cbn. unfold rd. rewrite lookup_app_r, Nat.sub_diag by lia. cbn.
           by rewrite Hr.
        -- rewrite !lookup_insert_ne by done. rewrite lookup_fmap.
           destruct (m !! n') as [l'|] eqn:E; [|done]. cbn. f_equal. symmetry. apply Hrd.
           by eapply inv_valid.
      * rewrite !list_lookup_insert_ne by done. rewrite alpha_lookup.
        destruct (groups s !! k) as [m'|] eqn:E; [|done]. cbn. f_equal. apply map_fmap_ext.
        intros n' l' Hl'. symmetry. apply Hrd. by eapply inv_valid.
    + constructor; cbn.
      * intros k m' n' l'. rewrite app_length. cbn. rewrite list_lookup_insert_Some.
        intros [(-> & <- & _)|[_ Hm']] Hl'.
        -- apply lookup_insert_Some in Hl' as [[_ <-]|[_ Hl']]; [lia|].
           pose proof (inv_valid _ I _ _ _ _ Hg Hl'). lia.
        -- pose proof (inv_valid _ I _ _ _ _ Hm' Hl'). lia.
      * intros g1 m1 n1 g2 m2 n2 l. rewrite !list_lookup_insert_Some.
        intros H1 Hn1 H2 Hn2.
        assert (A : forall g' m' n', (g = g' /\ <[name := length (heap s)]> m = m' /\ g' < length (groups s)) \/ (g <> g' /\ groups s !! g' = Some m') ->
          m' !! n' = Some l -> (g' = g /\ n' = name /\ l = length (heap s)) \/
            (l < length (heap s) /\ exists m'', groups s !! g' = Some m'' /\ m'' !! n' = Some l)).
        { intros g' m' n' [(<- & <- & _)|[Hne Hm']] Hl'.
          - apply lookup_insert_Some in Hl' as [[<- <-]|[_ Hl']]; [by left|]. right.
            split; [by eapply inv_valid|]. by exists m.
          - right. split; [by eapply inv_valid|]. by exists m'. }
        destruct (A _ _ _ H1 Hn1) as [(-> & -> & ->)|[? (? & ? & ?)]];
          destruct (A _ _ _ H2 Hn2) as [(-> & -> & ?)|[? (? & ? & ?)]]; try done; try lia.
        eapply inv_inj; eauto.
      * intros l w Hw. apply lookup_app_Some in Hw as [Hw|[_ Hw]].
        -- rewrite read_app; by eapply inv_read.
        -- apply list_lookup_singleton_Some in Hw as [_ <-]. eauto.
  - (* get *) pose proof (find_ok s g name t I) as F.
    destruct (find_channel s g name t) as [l|] eqn:E; cbn in F |- *.
    + destruct (find_channel_Some _ _ _ _ _ E) as (m & v & Hg & Hn & Hv & Ht). rewrite Hv. cbn.
      rewrite (rd_some _ _ _ I Hv). cbn. split; [|done].
      destruct (alpha s !! g) as [am|]; cbn in F |- *; [|done].
      destruct (am !! name) as [d|]; cbn in F |- *; [|done].
      destruct (decide (data_type d = t)); [|done]. by injection F as ->.
    + destruct (alpha s !! g) as [am|]; cbn in F |- *; [|done].
      destruct (am !! name) as [d|]; cbn in F |- *; [|done].
      by destruct (decide (data_type d = t)).
  - (* write *) pose proof (find_ok s g name (data_type d) I) as F.
    destruct (find_channel s g name (data_type d)) as [l|] eqn:E; cbn in F |- *.
    + destruct (find_channel_Some _ _ _ _ _ E) as (m & v & Hg & Hn & Hv & Ht).
      destruct (store (bufs s) d) as [bs w] eqn:Es.
      destruct (store_ok _ _ _ _ Es) as [[b ->] Hr].
      destruct (alpha_write s g m name l _ b w d I Hg Hn eq_refl Hr) as [Ha Hi]. cbn zeta in Ha.
      split; [|done]. rewrite Ha. clear Ha Hi. rewrite alpha_lookup, Hg in F |- *. cbn in F |- *.
      destruct ((rd (heap s) (bufs s) <$> m) !! name) as [d'|]; cbn in F |- *; [|done].
      by destruct (decide (data_type d' = data_type d)).
    + destruct (alpha s !! g) as [am|]; cbn in F |- *; [|done].
      destruct (am !! name) as [d'|]; cbn in F |- *; [|done].
      by destruct (decide (data_type d' = data_type d)).
  - (* has *) rewrite alpha_lookup. destruct (groups s !! g) as [m|] eqn:Hg; [|done]. cbn. split; [|done].
    rewrite lookup_fmap. by destruct (m !! name).
  - (* remove *) unfold remove_channel. rewrite alpha_lookup.
    destruct (groups s !! g) as [m|] eqn:Hg; [|done]. cbn. rewrite lookup_fmap.
    destruct (m !! name) as [l|] eqn:Hn; [|done]. cbn.
    pose proof (lookup_lt_Some _ _ _ Hg) as Hgl. split.
    + f_equal. f_equal. unfold alpha. cbn. rewrite list_fmap_insert. by rewrite fmap_delete.
    + constructor; cbn; [| |apply I].
      * intros k m' n' l'. rewrite list_lookup_insert_Some. intros [(-> & <- & _)|[_ Hm']] Hl'.
        -- apply lookup_delete_Some in Hl' as [_ Hl']. by eapply inv_valid.
        -- by eapply inv_valid.
      * intros g1 m1 n1 g2 m2 n2 l0. rewrite !list_lookup_insert_Some.
        assert (A : forall g' m' n', (g = g' /\ delete name m = m' /\ g' < length (groups s)) \/ (g <> g' /\ groups s !! g' = Some m') ->
          m' !! n' = Some l0 -> exists m'', groups s !! g' = Some m'' /\ m'' !! n' = Some l0).
        { intros g' m' n' [(<- & <- & _)|[Hne Hm']] Hl'; [|eauto].
          apply lookup_delete_Some in Hl' as [_ Hl']. eauto. }
        intros H1 Hn1 H2 Hn2.
        destruct (A _ _ _ H1 Hn1) as (? & ? & ?). destruct (A _ _ _ H2 Hn2) as (? & ? & ?).
        eapply inv_inj; eauto.
  - (* clone *) rewrite alpha_lookup. destruct (groups s !! g) as [m|] eqn:Hg.
    + destruct (clone_ok s g m I Hg) as (s' & -> & Hi & Ha). cbn. split; [|done]. by rewrite Ha.
    + unfold clone_group. by rewrite Hg.
  - (* equal *) unfold equal_groups. destruct (g =? g')%nat eqn:Egg; [done|].
    rewrite !alpha_lookup. destruct (groups s !! g) as [l|] eqn:Hl; [|done]. cbn.
    destruct (groups s !! g') as [r|] eqn:Hr; [|done]. cbn.
    rewrite !map_size_fmap. destruct (size l =? size r)%nat; cbn; [|done].
    rewrite (is_order_perm order _ _ (names_fmap _ l)).
    destruct (is_order order _); [|done].
    rewrite (equal_loop_ok s order I g g' l r Hl Hr).
    by destruct (spec_equal _ _ _).
Qed.

Theorem run_refines acts : forall s, inv s -> forallb no_alias acts = true ->
  match run s acts with
  | None => spec_run (alpha s) acts = None
  | Some (s', os) => spec_run (alpha s) acts = Some (alpha s', os) /\ inv s'
  end.
Proof.
  induction acts as [|a acts IH]; intros s I Hna; [done|].
  cbn [forallb] in Hna. apply andb_prop in Hna as [H1 H2].
  cbn [run spec_run]. pose proof (step_refines s a I H1) as S.
  destruct (step s a) as [[s1 o]|]; cbn.
  - destruct S as [S I1]. rewrite S. cbn. specialize (IH s1 I1 H2).
    destruct (run s1 acts) as [[s2 os]|]; cbn.
    + destruct IH as [-> I2]. done.
    + by rewrite IH.
  - by rewrite S.
Qed.

(** The abstract comparison. *)
Lemma spec_equal_true order l r : spec_equal order l r = Some true ->
  forall n, n ∈ order -> l !! n = r !! n.
Proof.
  induction order as [|n order IH]; cbn; intros E n' Hn'; [by apply elem_of_nil in Hn'|].
  destruct (l !! n) as [x|] eqn:El; [|by destruct (r !! n)]. destruct (r !! n) as [y|] eqn:Er; [|done].
  destruct (decide (data_type x = data_type y)); [|done]. destruct (decide (x = y)) as [->|]; [|done].
  apply elem_of_cons in Hn' as [->|Hn']; [congruence|auto].
Qed.
Lemma spec_equal_refl order l : Forall (fun n => is_Some (l !! n)) order -> spec_equal order l l = Some true.
Proof.
  induction 1 as [|n order [x Hx] HF IH]; [done|]. cbn. rewrite Hx.
  rewrite decide_True by done. by rewrite decide_True.
Qed.
Lemma spec_equal_false order l r : spec_equal order l r = Some false -> l <> r.
Proof.
  induction order as [|n order IH]; cbn; [done|].
  destruct (l !! n) as [x|] eqn:El; destruct (r !! n) as [y|] eqn:Er; try done; [|congruence].
  destruct (decide (data_type x = data_type y)); [|done]. destruct (decide (x = y)) as [->|]; [done|congruence].
Qed.
Lemma is_order_elem (order : list string) names : NoDup names -> is_order order names = true ->
  forall n, n ∈ names <-> n ∈ order.
Proof.
  unfold is_order. intros ND H. apply andb_prop in H as [H H3]. apply andb_prop in H as [H1 H2].
  apply bool_decide_eq_true in H1, H2.
  assert (Hs : order ⊆ names).
  { intros n Hn. rewrite forallb_forall in H3. apply elem_of_list_In, H3 in Hn. by apply bool_decide_eq_true in Hn. }
  assert (P : order ≡ₚ names).
  { apply submseteq_Permutation_length_eq; [congruence|]. by apply NoDup_submseteq. }
  intros n. by rewrite P.
Qed.
Lemma spec_equal_iff order (l r : gmap string data) b : is_order order (map_to_list l).*1 = true ->
  size l = size r -> spec_equal order l r = Some b -> (b = true <-> l = r).
Proof.
  intros Ho Hs E.
  assert (Hdom : forall n, is_Some (l !! n) <-> n ∈ order).
  { intros n. rewrite <- (is_order_elem _ _ (NoDup_fst_map_to_list l) Ho n).
    rewrite elem_of_list_fmap. split.
    - intros [x Hx]. exists (n, x). split; [done|]. by apply elem_of_map_to_list.
    - intros ([n' x] & -> & Hx). apply elem_of_map_to_list in Hx. cbn. eauto. }
  split.
  - intros ->. pose proof (spec_equal_true _ _ _ E) as H.
    assert (Hsub : l ⊆ r).
    { apply map_subseteq_spec. intros n x Hx. rewrite <- H; [done|]. apply Hdom. eauto. }
    pose proof (map_difference_union l r Hsub) as U.
    assert (Hz : size (r ∖ l) = 0).
    { rewrite <- U in Hs. rewrite map_size_disj_union in Hs by (by apply map_disjoint_difference_r).
      lia. }
    apply map_size_empty_inv in Hz. rewrite Hz in U. by rewrite map_union_empty in U.
  - intros ->. destruct b; [done|]. by apply spec_equal_false in E.
Qed.
