(** Invariants of the assignment of matches. *)
From Coq Require Import ZArith QArith Bool Lia.
From stdpp Require Import list list_numbers gmap sorting.
From Verif Require Import StlHelpersModel GyroTrackerModel GyroMatcherModel GyroMatcherSpec GyroMatcherProofs.
Local Open Scope nat_scope.

Definition good (x : minput) (D : Z) (b a : nat) (sc : Z) : Prop := entry x D b (a, sc) /\ (4 * D / 5 < sc)%Z.
Record core (x : minput) (D : Z) (st : mstate) : Prop := {
  c_pos : forall a p, pos st !! a = Some p -> exists b, out st !! p = Some (a, b);
  c_out : forall p a b, out st !! p = Some (a, b) -> pos st !! a = Some p;
  c_score : forall p a b, out st !! p = Some (a, b) -> exists sc, score st !! a = Some sc /\ good x D b a sc;
  c_dom : forall a, pos st !! a = None -> score st !! a = None;
  c_nodup : NoDup (out st).*2;
  c_range : forall b, b ∈ (out st).*2 -> b < num_k x }.
(** No keypoint of frame k+1 loses its match or gets a worse one. *)
Definition grows (st st' : mstate) : Prop :=
  forall a sc, score st !! a = Some sc -> exists sc', score st' !! a = Some sc' /\ (sc <= sc')%Z.
Definition claimed (a : nat) (sc : Z) (st : mstate) : Prop := exists sc', score st !! a = Some sc' /\ (sc <= sc')%Z.
Lemma grows_refl st : grows st st.
Proof. intros a sc H. by exists sc. Qed.
Lemma grows_trans a b c : grows a b -> grows b c -> grows a c.
Proof. intros H1 H2 i sc H. apply H1 in H as (s1 & H & L1). apply H2 in H as (s2 & H & L2). exists s2. split; [done|lia]. Qed.
Lemma claimed_grows a sc st st' : claimed a sc st -> grows st st' -> claimed a sc st'.
Proof. intros (s & H & L) G. apply G in H as (s' & H & L'). exists s'. split; [done|lia]. Qed.

Lemma out_room x D st b : core x D st -> b < num_k x -> b ∉ (out st).*2 -> length (out st) < num_k x.
Proof.
  intros Hc Hb Hn. assert (S (length (out st)) <= num_k x); [|lia].
  rewrite <- (seq_length (num_k x) 0). rewrite <- (fmap_length snd (out st)). change (length (b :: (out st).*2) <= length (seq 0 (num_k x))).
  apply submseteq_length, NoDup_submseteq; [constructor; [done|apply (c_nodup _ _ _ Hc)]|].
  intros y Hy. apply elem_of_cons in Hy as [->|Hy]; apply elem_of_seq; [lia|]. apply (c_range _ _ _ Hc) in Hy. lia.
Qed.
Lemma add_match_ok x D a b sc st : core x D st -> pos st !! a = None -> b < num_k x -> b ∉ (out st).*2 -> good x D b a sc ->
  exists st', add_match (num_k x) a b sc st = Ok st' /\ core x D st' /\ grows st st' /\ claimed a sc st' /\
    flags st' = flags st /\ tried st' = tried st /\ inferior st' = inferior st /\
    out st' = out st ++ [(a, b)] /\ pos st' = <[a := length (out st)]> (pos st).
Proof.
  intros Hc Hp Hb Hn Hg. unfold add_match. rewrite (proj2 (Nat.leb_gt _ _)) by (by eapply out_room).
  rewrite Hp, (c_dom _ _ _ Hc a Hp). eexists. split; [reflexivity|]. cbn.
  assert (Hne : forall p a' b', out st !! p = Some (a', b') -> a' <> a).
  { intros p a' b' H ->. apply (c_out _ _ _ Hc) in H. congruence. }
  split; [|split; [|split; [|done]]].
  - constructor; cbn.
    + intros a' p H. destruct (decide (a' = a)) as [->|N].
      * rewrite lookup_insert in H. injection H as <-. exists b. by rewrite lookup_app_r, Nat.sub_diag by done.
      * rewrite lookup_insert_ne in H by done. apply (c_pos _ _ _ Hc) in H as [b' H]. exists b'. by apply lookup_app_l_Some.
    + intros p a' b' H. apply lookup_app_Some in H as [H|[L H]].
      * rewrite lookup_insert_ne by (apply not_eq_sym; by eapply Hne). by eapply c_out.
      * apply list_lookup_singleton_Some in H as [E H]. injection H as <- <-. rewrite lookup_insert. f_equal. lia.
    + intros p a' b' H. apply lookup_app_Some in H as [H|[L H]].
      * rewrite lookup_insert_ne by (apply not_eq_sym; by eapply Hne). by eapply c_score.
      * apply list_lookup_singleton_Some in H as [E H]. injection H as <- <-. rewrite lookup_insert. by exists sc.
    + intros a' H. apply lookup_insert_None in H as [H N]. rewrite lookup_insert_ne by done. by apply (c_dom _ _ _ Hc).
    + rewrite fmap_app. cbn. apply NoDup_app. split; [apply (c_nodup _ _ _ Hc)|]. split; [|apply NoDup_singleton].
      intros y Hy Hy'. apply elem_of_list_singleton in Hy' as ->. done.
    + intros y Hy. rewrite fmap_app in Hy. cbn in Hy. apply elem_of_app in Hy as [Hy|Hy]; [by apply (c_range _ _ _ Hc)|].
      apply elem_of_list_singleton in Hy as ->. done.
  - intros a' sc' H. cbn. destruct (decide (a' = a)) as [->|N].
    + rewrite (c_dom _ _ _ Hc a Hp) in H. done.
    + rewrite lookup_insert_ne by done. by exists sc'.
  - exists sc. cbn. rewrite lookup_insert. split; [done|lia].
Qed.
Lemma holder_ok x D a st p : core x D st -> pos st !! a = Some p -> exists b sc,
  out st !! p = Some (a, b) /\ score st !! a = Some sc /\ holder a st = Ok (b, sc).
Proof.
  intros Hc Hp. destruct (c_pos _ _ _ Hc a p Hp) as [b Hb]. destruct (c_score _ _ _ Hc p a b Hb) as (sc & Hs & _).
  exists b, sc. split; [done|]. split; [done|]. unfold holder. rewrite Hp. cbn. by rewrite Hb, Hs.
Qed.
Lemma insert_snd p (m : nat * nat) l : (<[p := m]> l : list (nat * nat)).*2 = <[p := m.2]> l.*2.
Proof. apply list_fmap_insert. Qed.
Lemma elem_of_insert_nodup (l : list nat) p old b y : NoDup l -> l !! p = Some old -> b ∉ l ->
  y ∈ <[p := b]> l <-> y = b \/ (y ∈ l /\ y <> old).
Proof.
  intros ND Hp Hb. rewrite elem_of_list_lookup. split.
  - intros [q Hq]. apply list_lookup_insert_Some in Hq as [(<- & <- & _)|[N Hq]]; [by left|]. right.
    split; [by eapply elem_of_list_lookup_2|]. intros ->. apply N. exact (NoDup_lookup l p q old ND Hp Hq).
  - intros [->|[Hy N]].
    + exists p. apply list_lookup_insert. by eapply lookup_lt_Some.
    + apply elem_of_list_lookup in Hy as [q Hq]. exists q. rewrite list_lookup_insert_ne; [done|]. intros <-. congruence.
Qed.
Lemma NoDup_insert_new (l : list nat) p b : NoDup l -> b ∉ l -> NoDup (<[p := b]> l).
Proof.
  intros ND Hb. apply NoDup_alt. intros i j y Hi Hj.
  apply list_lookup_insert_Some in Hi as [(<- & <- & _)|[Ni Hi]]; apply list_lookup_insert_Some in Hj as [(<- & E & _)|[Nj Hj]].
  - done.
  - exfalso. apply Hb. by eapply elem_of_list_lookup_2.
  - subst. exfalso. apply Hb. by eapply elem_of_list_lookup_2.
  - exact (NoDup_lookup l i j y ND Hi Hj).
Qed.
Lemma replace_match_ok x D a b sc st p old osc : core x D st -> pos st !! a = Some p -> out st !! p = Some (a, old) ->
  score st !! a = Some osc -> (osc <= sc)%Z -> b < num_k x -> b ∉ (out st).*2 -> good x D b a sc ->
  exists st', replace_match a b sc st = Ok st' /\ core x D st' /\ grows st st' /\ claimed a sc st' /\
    flags st' = flags st /\ tried st' = tried st /\ inferior st' = inferior st /\ pos st' = pos st /\
    (forall y, y ∈ (out st').*2 <-> y = b \/ (y ∈ (out st).*2 /\ y <> old)).
Proof.
  intros Hc Hp Ho Hs Hle Hb Hn Hg. unfold replace_match. rewrite Hp. eexists. split; [reflexivity|]. cbn.
  assert (Ho2 : (out st).*2 !! p = Some old) by (apply list_lookup_fmap_Some; by exists (a, old)).
  assert (Hmem : forall y, y ∈ (<[p := (a, b)]> (out st) : list (nat * nat)).*2 <-> y = b \/ (y ∈ (out st).*2 /\ y <> old)).
  { intros y. rewrite insert_snd. apply elem_of_insert_nodup; [apply (c_nodup _ _ _ Hc)|done|done]. }
  split; [|split; [|split; [|done]]].
  - constructor; cbn.
    + intros a' q H. destruct (decide (q = p)) as [->|N].
      * assert (a' = a) as ->. { apply (c_pos _ _ _ Hc) in H as [b' H]. congruence. }
        exists b. apply list_lookup_insert. by eapply lookup_lt_Some.
      * apply (c_pos _ _ _ Hc) in H as [b' H]. exists b'. by rewrite list_lookup_insert_ne.
    + intros q a' b' H. apply list_lookup_insert_Some in H as [(<- & H & _)|[N H]].
      * by injection H as <- <-.
      * by eapply c_out.
    + intros q a' b' H. apply list_lookup_insert_Some in H as [(<- & H & _)|[N H]].
      * injection H as <- <-. rewrite lookup_insert. by exists sc.
      * rewrite lookup_insert_ne; [by eapply c_score|]. intros <-. apply (c_out _ _ _ Hc) in H. congruence.
    + intros a' H. rewrite lookup_insert_ne by congruence. by apply (c_dom _ _ _ Hc).
    + rewrite insert_snd. apply NoDup_insert_new; [apply (c_nodup _ _ _ Hc)|done].
    + intros y Hy. apply Hmem in Hy as [->|[Hy _]]; [done|]. by apply (c_range _ _ _ Hc).
  - intros a' sc' H. cbn. destruct (decide (a' = a)) as [->|N].
    + rewrite lookup_insert. exists sc. split; [done|]. congruence.
    + rewrite lookup_insert_ne by done. by exists sc'.
  - exists sc. cbn. rewrite lookup_insert. split; [done|lia].
Qed.

(** ** First pass *)
Definition flag_of (m : gmap nat nat) (a : nat) : bool := bool_decide (is_Some (m !! a)).
Record pass1 (x : minput) (D : Z) (i : nat) (st : mstate) : Prop := {
  p_core : core x D st;
  p_tried : forall k cs, tried st !! k = Some cs -> k < i /\ Forall (entry x D k) cs;
  p_len : length (flags st) = length (kps x);
  p_flags : forall a, a < length (kps x) -> flags st !! a = Some (flag_of (pos st) a);
  p_inf : NoDup (inferior st);
  p_disj : forall k, k ∈ inferior st -> k ∉ (out st).*2;
  p_done : forall k, k ∈ inferior st \/ k ∈ (out st).*2 -> k < i }.
Lemma flags_insert x (f : list bool) (m : gmap nat nat) a p : length f = length (kps x) ->
  (forall a, a < length (kps x) -> f !! a = Some (flag_of m a)) -> 
  forall a', a' < length (kps x) -> <[a := true]> f !! a' = Some (flag_of (<[a := p]> m) a').
Proof.
  intros L H a' Ha'. destruct (decide (a' = a)) as [->|N].
  - rewrite list_lookup_insert by (by rewrite L). f_equal. symmetry. apply bool_decide_eq_true. rewrite lookup_insert. by eexists.
  - rewrite list_lookup_insert_ne by done. rewrite H by done. unfold flag_of. by rewrite lookup_insert_ne.
Qed.
Lemma record_match_ok x D i st a sc cs : pass1 x D i st -> i < num_k x ->
  Forall (entry x D i) cs -> (a, sc) ∈ cs -> (4 * D / 5 < sc)%Z ->
  exists st', record_match x i (a, sc, cs) st = Ok st' /\ pass1 x D (S i) st' /\ grows st st' /\ claimed a sc st'.
Proof.
  intros [Hc Ht Hl Hf Hi Hd Hdone] Li Fcs Hin Hsc. unfold record_match.
  assert (Hnt : tried st !! i = None).
  { destruct (tried st !! i) as [cs'|] eqn:E; [|done]. apply Ht in E. lia. }
  rewrite Hnt. set (st1 := MState (flags st) (out st) (pos st) (score st) (<[i := cs]> (tried st)) (inferior st)).
  assert (He : entry x D i (a, sc)) by (rewrite Forall_forall in Fcs; by apply Fcs).
  assert (La : a < length (kps x)) by (destruct He as (_ & _ & ? & _); done).
  assert (Hg : good x D i a sc) by (by split).
  assert (Ht1 : forall k c, <[i := cs]> (tried st) !! k = Some c -> k < S i /\ Forall (entry x D k) c).
  { intros k c H. destruct (decide (k = i)) as [->|N]; [rewrite lookup_insert in H; injection H as <-; split; [lia|done]|].
    rewrite lookup_insert_ne in H by done. apply Ht in H as [? ?]. split; [lia|done]. }
  assert (Hc1 : core x D st1) by (destruct Hc; by constructor).
  assert (Hni : i ∉ (out st).*2) by (intros H; specialize (Hdone i (or_intror H)); lia).
  assert (Hni2 : i ∉ inferior st) by (intros H; specialize (Hdone i (or_introl H)); lia).
  unfold at_ub. cbn [flags st1]. rewrite Hf by done. cbn [rbind]. unfold flag_of.
  destruct (bool_decide (is_Some (pos st !! a))) eqn:Ha; [apply bool_decide_eq_true in Ha as [p Hp]|apply bool_decide_eq_false in Ha].
  - destruct (holder_ok x D a st1 p Hc1 Hp) as (old & osc & Ho & Hs & Hh). rewrite Hh. cbn [rbind fst snd].
    cbn [out st1 score] in Ho, Hs.
    destruct (Z.ltb_spec osc sc) as [L|L].
    + assert (Hc2 : core x D (push_inferior old st1)) by (destruct Hc; by constructor).
      destruct (replace_match_ok x D a i sc (push_inferior old st1) p old osc) as
        (st' & E & Hc' & Hg' & Hcl & F1 & F2 & F3 & F4 & Hm); [done|done|done|done|lia|done|done|done|].
      rewrite E. exists st'. split; [done|]. cbn in F1, F2, F3, F4, Hm.
      assert (Hold : old ∈ (out st).*2) by (eapply elem_of_list_lookup_2, list_lookup_fmap_Some; by exists (a, old)).
      split; [|split; [exact Hg'|exact Hcl]]. constructor.
      * done.
      * rewrite F2. exact Ht1.
      * by rewrite F1.
      * intros a' La'. rewrite F1, F4. by apply Hf.
      * rewrite F3. apply NoDup_app. split; [done|]. split; [|apply NoDup_singleton].
        intros y Hy Hy'. apply elem_of_list_singleton in Hy' as ->. by apply (Hd old).
      * rewrite F3. intros k Hk Hk'. apply Hm in Hk' as [->|[Hk' N]]; apply elem_of_app in Hk as [Hk|Hk]; try done.
        -- apply elem_of_list_singleton in Hk as <-. done.
        -- by apply (Hd k).
        -- by apply elem_of_list_singleton in Hk as ->.
      * rewrite F3. intros k [Hk|Hk].
        -- apply elem_of_app in Hk as [Hk|Hk]; [specialize (Hdone k (or_introl Hk)); lia|].
           apply elem_of_list_singleton in Hk as ->. specialize (Hdone old (or_intror Hold)). lia.
        -- apply Hm in Hk as [->|[Hk _]]; [lia|]. specialize (Hdone k (or_intror Hk)). lia.
    + eexists. split; [reflexivity|]. split; [|split].
      * constructor; cbn; [destruct Hc; by constructor|exact Ht1|done|done| | |].
        -- apply NoDup_app. split; [done|]. split; [|apply NoDup_singleton].
           intros y Hy Hy'. apply elem_of_list_singleton in Hy' as ->. done.
        -- intros k Hk. apply elem_of_app in Hk as [Hk|Hk]; [by apply Hd|]. by apply elem_of_list_singleton in Hk as ->.
        -- intros k [Hk|Hk].
           ++ apply elem_of_app in Hk as [Hk|Hk]; [specialize (Hdone k (or_introl Hk)); lia|]. apply elem_of_list_singleton in Hk as ->. lia.
           ++ specialize (Hdone k (or_intror Hk)). lia.
      * intros a' sc' H. by exists sc'.
      * exists osc. cbn. split; [done|lia].
  - assert (Hp : pos st !! a = None) by (destruct (pos st !! a); [exfalso; apply Ha; by eexists|done]).
    assert (Hc2 : core x D (set_flag a st1)) by (destruct Hc; by constructor).
    destruct (add_match_ok x D a i sc (set_flag a st1)) as (st' & E & Hc' & Hg' & Hcl & F1 & F2 & F3 & F4 & F5); [done|done|done|done|done|].
    rewrite E. exists st'. split; [done|]. cbn in F1, F2, F3, F4, F5.
    split; [|split; [exact Hg'|exact Hcl]]. constructor.
    + done.
    + rewrite F2. exact Ht1.
    + by rewrite F1, insert_length.
    + rewrite F1, F5. by apply flags_insert.
    + by rewrite F3.
    + rewrite F3, F4. intros k Hk Hk'. rewrite fmap_app in Hk'. cbn in Hk'. apply elem_of_app in Hk' as [Hk'|Hk'].
      * by apply (Hd k).
      * by apply elem_of_list_singleton in Hk' as ->.
    + rewrite F3, F4. intros k [Hk|Hk]; [specialize (Hdone k (or_introl Hk)); lia|].
      rewrite fmap_app in Hk. cbn in Hk. apply elem_of_app in Hk as [Hk|Hk]; [specialize (Hdone k (or_intror Hk)); lia|].
      apply elem_of_list_singleton in Hk as ->. lia.
Qed.

(** Settings under which the search is specified. *)
Record setting (x : minput) (lut : list nat) : Prop := {
  set_sort : sorts_by_y (std_sort x);
  set_height : 0 < img_height x;
  set_win : (small x <= large x)%Z;
  set_lut : lut_ok (sorted_kps x) (img_height x) lut }.
Lemma pass1_weaken x D i st : pass1 x D i st -> pass1 x D (S i) st.
Proof.
  intros [Hc Ht Hl Hf Hi Hd Hdone]. constructor; try done.
  - intros k cs H. apply Ht in H as [? ?]. split; [lia|done].
  - intros k H. apply Hdone in H. lia.
Qed.
(** The keypoints [from], ..., [to - 1] of frame k found their best candidates, which are all taken. *)
Definition attempts_kept (x : minput) (D : Z) (lut : list nat) (from to : nat) (st : mstate) : Prop :=
  forall k a sc cs, from <= k < to -> search x D (sorted_kps x) lut k = Ok (Some (a, sc, cs)) -> claimed a sc st.
Lemma match_keypoint_ok x D lut i st r : setting x lut -> pass1 x D i st -> i < num_k x ->
  search x D (sorted_kps x) lut i = Ok r ->
  exists st', match_keypoint x D (sorted_kps x) lut i st = Ok st' /\ pass1 x D (S i) st' /\ grows st st' /\
    attempts_kept x D lut i (S i) st'.
Proof.
  intros Hs Hp Li Hr. unfold match_keypoint. rewrite Hr. cbn [rbind]. destruct r as [[[a sc] cs]|].
  - pose proof (search_spec x D lut i _ (set_sort _ _ Hs) (set_height _ _ Hs) (set_win _ _ Hs) (set_lut _ _ Hs) Hr) as (F & Hin & Hsc & _).
    destruct (record_match_ok x D i st a sc cs Hp Li F Hin Hsc) as (st' & E & Hp' & Hg & Hcl).
    exists st'. split; [done|]. split; [done|]. split; [done|]. intros k a' sc' cs' Lk Hk.
    assert (k = i) as -> by lia. rewrite Hr in Hk. by injection Hk as <- <- <-.
  - exists st. split; [done|]. split; [by apply pass1_weaken|]. split; [apply grows_refl|].
    intros k a' sc' cs' Lk Hk. assert (k = i) as -> by lia. congruence.
Qed.
Lemma match_loop_inv x D lut n : setting x lut -> forall i st st', i + n <= num_k x -> pass1 x D i st ->
  match_loop x D (sorted_kps x) lut (seq i n) st = Ok st' ->
  pass1 x D (i + n) st' /\ grows st st' /\ attempts_kept x D lut i (i + n) st'.
Proof.
  intros Hs. induction n as [|n IH]; intros i st st' L Hp H; cbn in H.
  - injection H as <-. rewrite Nat.add_0_r. split; [done|]. split; [apply grows_refl|]. intros k; lia.
  - destruct (match_keypoint x D (sorted_kps x) lut i st) as [st1| |] eqn:H1; [|done|done]. cbn [rbind] in H.
    assert (Hr : exists r, search x D (sorted_kps x) lut i = Ok r).
    { unfold match_keypoint in H1. destruct (search x D (sorted_kps x) lut i); [by eexists|done|done]. }
    destruct Hr as [r Hr]. destruct (match_keypoint_ok x D lut i st r Hs Hp ltac:(lia) Hr) as (st1' & E & Hp1 & Hg1 & Ha1).
    rewrite H1 in E. injection E as <-. apply IH in H as (Hp2 & Hg2 & Ha2); [|lia|done].
    replace (i + S n) with (S i + n) by lia. split; [done|]. split; [by eapply grows_trans|].
    intros k a sc cs Lk Hk. destruct (decide (k = i)) as [->|N].
    + eapply claimed_grows; [|exact Hg2]. eapply (Ha1 i); [lia|exact Hk].
    + eapply (Ha2 k); [lia|exact Hk].
Qed.
Lemma match_loop_total x D lut n : setting x lut -> forall i st, i + n <= num_k x -> pass1 x D i st ->
  (forall k, k < num_k x -> exists r, search x D (sorted_kps x) lut k = Ok r) ->
  exists st', match_loop x D (sorted_kps x) lut (seq i n) st = Ok st'.
Proof.
  intros Hs. induction n as [|n IH]; intros i st L Hp Hr; cbn; [eauto|].
  destruct (Hr i) as [r Hri]; [lia|]. destruct (match_keypoint_ok x D lut i st r Hs Hp ltac:(lia) Hri) as (st1 & -> & Hp1 & _).
  cbn [rbind]. apply IH; [lia|done|done].
Qed.
Lemma pass1_init x D : pass1 x D 0 (mstate0 (length (kps x))).
Proof.
  constructor; cbn.
  - constructor; cbn.
    + intros a p H. by rewrite lookup_empty in H.
    + intros p a b H. by rewrite lookup_nil in H.
    + intros p a b H. by rewrite lookup_nil in H.
    + intros a _. by rewrite lookup_empty.
    + constructor.
    + intros b H. by apply elem_of_nil in H.
  - intros k cs H. by rewrite lookup_empty in H.
  - apply replicate_length.
  - intros a La. rewrite lookup_replicate_2 by done. f_equal.
  - constructor.
  - intros k H. by apply elem_of_nil in H.
  - intros k [H|H]; by apply elem_of_nil in H.
Qed.

(** ** Inferior matches *)
Lemma best_left_ok D fl : forall cs acc, Forall (fun c : nat * Z => c.1 < length fl) cs -> exists o, best_left D fl cs acc = Ok o /\
  (forall m, o = Some m -> acc = Some m \/ (m ∈ cs /\ fl !! m.1 = Some false /\ (17 * D < 20 * m.2 \/ exists m', acc = Some m' /\ m'.2 < m.2)%Z)).
Proof.
  induction cs as [|c cs IH]; intros acc F; cbn; [exists acc; split; [done|intros m ->; by left]|].
  apply Forall_cons in F as [Lc F]. destruct (lookup_lt_is_Some_2 fl c.1 Lc) as [f Hf]. unfold at_ub. rewrite Hf. cbn [rbind].
  destruct f.
  - destruct (IH acc F) as (o & -> & Ho). exists o. split; [done|]. intros m Hm. destruct (Ho m Hm) as [?|(? & ? & ?)]; [by left|].
    right. split; [set_solver|done].
  - set (b := match acc with None => (17 * D <? 20 * c.2)%Z | Some m => (m.2 <? c.2)%Z end).
    destruct (IH (if b then Some c else acc) F) as (o & Eo & Ho). rewrite Eo. exists o. split; [done|]. intros m Hm.
    destruct b eqn:Eb.
    + assert (Hb : (17 * D < 20 * c.2 \/ exists m', acc = Some m' /\ m'.2 < c.2)%Z).
      { destruct acc as [m'|]; cbn in Eb; apply Z.ltb_lt in Eb; [right; by exists m'|by left]. }
      destruct (Ho m Hm) as [E|(H1 & H2 & H3)].
      * injection E as <-. right. split; [set_solver|]. split; [done|]. done.
      * right. split; [set_solver|]. split; [done|]. destruct H3 as [H3|(m' & [= <-] & H3)]; [by left|].
        destruct Hb as [Hb|(m' & E & Hb)]; [left; lia|]. right. exists m'. split; [done|lia].
    + destruct (Ho m Hm) as [E|(H1 & H2 & H3)]; [by left|]. right. split; [set_solver|done].
Qed.
Record pass2 (x : minput) (D : Z) (todo inf : list nat) (t : istate) : Prop := {
  q_core : core x D (ms t);
  q_tried : forall k cs, tried (ms t) !! k = Some cs -> Forall (entry x D k) cs;
  q_len1 : length (flags (ms t)) = length (kps x);
  q_len2 : length (fl2 t) = length (kps x);
  q_flags : forall a, a < length (kps x) -> fl2 t !! a = Some (flag_of (pos (ms t)) a);
  q_inf : inferior (ms t) = inf;
  q_nd : NoDup inf;
  q_todo : NoDup todo /\ forall k, k ∈ todo -> k ∈ inf /\ k ∉ (out (ms t)).*2;
  q_erased : forall k, k ∈ inf -> (k ∈ (out (ms t)).*2 <-> k ∈ erased t);
  q_range : forall k, k ∈ inf -> k < num_k x }.
Lemma match_inferior_ok x D k todo inf t : pass2 x D (k :: todo) inf t ->
  exists t', match_inferior x D k t = Ok t' /\ pass2 x D todo inf t' /\ grows (ms t) (ms t').
Proof.
  intros [Hc Ht L1 L2 Hf Hi Hnd [Htd Htodo] He Hr]. unfold match_inferior.
  apply NoDup_cons in Htd as [Hktd Htd]. destruct (Htodo k) as [Hki Hko]; [set_solver|].
  assert (Hrest : forall y, y ∈ todo -> y ∈ inf /\ y ∉ (out (ms t)).*2) by (intros y Hy; apply Htodo; set_solver).
  assert (Fcs : Forall (entry x D k) (default [] (tried (ms t) !! k))).
  { destruct (tried (ms t) !! k) eqn:E; [by eapply Ht|constructor]. }
  destruct (best_left_ok D (flags (ms t)) (default [] (tried (ms t) !! k)) None) as (o & -> & Ho).
  { eapply Forall_impl; [exact Fcs|]. intros c (_ & _ & ? & _). by rewrite L1. }
  cbn [rbind]. destruct o as [[a sc]|].
  2:{ exists t. split; [done|]. split; [by constructor|apply grows_refl]. }
  destruct (Ho _ eq_refl) as [?|(Hin & Hfa & [Hsc|(? & ? & _)])]; [done| |done]. cbn in Hfa, Hsc.
  assert (Hent : entry x D k (a, sc)) by (rewrite Forall_forall in Fcs; by apply Fcs).
  assert (Hg : good x D k a sc).
  { split; [done|]. destruct Hent as (_ & HD & _). cbn in *. apply Z.div_lt_upper_bound; lia. }
  assert (La : a < length (kps x)) by (destruct Hent as (_ & _ & ? & _); done).
  unfold at_ub. rewrite Hf by done. cbn [rbind]. unfold flag_of.
  destruct (bool_decide (is_Some (pos (ms t) !! a))) eqn:Ha; [apply bool_decide_eq_true in Ha as [p Hp]|apply bool_decide_eq_false in Ha].
  - destruct (holder_ok x D a (ms t) p Hc Hp) as (old & osc & Hold & Hs & Hh). rewrite Hh. cbn [rbind fst snd].
    destruct (Z.ltb_spec osc sc) as [L|L].
    + destruct (replace_match_ok x D a k sc (ms t) p old osc) as
        (st' & E & Hc' & Hg' & Hcl & F1 & F2 & F3 & F4 & Hm); [done|done|done|done|lia|by apply Hr|done|done|].
      rewrite E. cbn [rbind]. eexists. split; [reflexivity|]. split; [|exact Hg'].
      assert (Ho2 : old ∈ (out (ms t)).*2) by (eapply elem_of_list_lookup_2, list_lookup_fmap_Some; by exists (a, old)).
      constructor; cbn.
      * done.
      * by rewrite F2.
      * by rewrite F1.
      * done.
      * by rewrite F4.
      * by rewrite F3.
      * done.
      * split; [done|]. intros y Hy. destruct (Hrest y Hy) as [? Hny]. split; [done|]. intros Hy'. apply Hm in Hy' as [E'|[Hy' _]]; [by subst|done].
      * intros y Hy. rewrite Hm, (He y Hy), elem_of_difference, elem_of_union, !elem_of_singleton.
        split; [|tauto]. intros [->|[? ?]]; [|tauto]. split; [by left|]. intros ->. done.
      * done.
    + eexists. split; [reflexivity|]. split; [by constructor|apply grows_refl].
  - assert (Hp : pos (ms t) !! a = None) by (destruct (pos (ms t) !! a); [exfalso; apply Ha; by eexists|done]).
    destruct (add_match_ok x D a k sc (ms t)) as (st' & E & Hc' & Hg' & Hcl & F1 & F2 & F3 & F4 & F5); [done|done|by apply Hr|done|done|].
    rewrite E. cbn [rbind]. eexists. split; [reflexivity|]. split; [|exact Hg'].
    assert (Hm : forall y, y ∈ (out st').*2 <-> y ∈ (out (ms t)).*2 \/ y = k).
    { intros y. rewrite F4, fmap_app, elem_of_app. cbn. by rewrite elem_of_list_singleton. }
    constructor; cbn.
    + done.
    + by rewrite F2.
    + by rewrite F1.
    + by rewrite insert_length.
    + rewrite F5. by apply flags_insert.
    + by rewrite F3.
    + done.
    + split; [done|]. intros y Hy. destruct (Hrest y Hy) as [? Hny]. split; [done|]. intros Hy'. apply Hm in Hy' as [Hy'|E']; [done|by subst].
    + intros y Hy. rewrite Hm, (He y Hy), elem_of_union, elem_of_singleton. tauto.
    + done.
Qed.
Lemma inferior_loop_ok x D inf : forall todo t, pass2 x D todo inf t ->
  exists t', inferior_loop x D todo t = Ok t' /\ pass2 x D [] inf t' /\ grows (ms t) (ms t').
Proof.
  induction todo as [|k todo IH]; intros t Hp; cbn; [exists t; split; [done|]; split; [done|apply grows_refl]|].
  destruct (match_inferior_ok x D k todo inf t Hp) as (t1 & -> & Hp1 & Hg1). cbn [rbind].
  destruct (IH t1 Hp1) as (t2 & -> & Hp2 & Hg2). exists t2. split; [done|]. split; [done|]. by eapply grows_trans.
Qed.
(** Between the iterations. *)
Record between (x : minput) (D : Z) (st : mstate) : Prop := {
  b_core : core x D st;
  b_tried : forall k cs, tried st !! k = Some cs -> Forall (entry x D k) cs;
  b_len : length (flags st) = length (kps x);
  b_flags : forall a, a < length (kps x) -> flags st !! a = Some (flag_of (pos st) a);
  b_inf : NoDup (inferior st);
  b_disj : forall k, k ∈ inferior st -> k ∉ (out st).*2;
  b_range : forall k, k ∈ inferior st -> k < num_k x }.
Lemma match_inferiors_ok x D st : between x D st -> exists f st' b,
  match_inferiors x D (flags st) st = Ok (f, st', b) /\ between x D st' /\ f = flags st' /\ grows st st'.
Proof.
  intros [Hc Ht L Hf Hi Hd Hr]. unfold match_inferiors. rewrite Nat.eqb_refl. cbn [negb].
  destruct (inferior_loop_ok x D (inferior st) (inferior st) (IState (flags st) ∅ false st)) as (t & -> & Hp & Hg).
  { constructor; cbn; try done.
    - split; [done|]. intros k Hk. split; [done|]. by apply Hd.
    - intros k Hk. split; [intros H; by apply (Hd k) in H|]. intros H. by apply elem_of_empty in H. }
  cbn [rbind]. do 3 eexists. split; [reflexivity|]. destruct Hp as [Hc' Ht' L1 L2 Hf' Hi' Hnd' _ He' Hr']. split; [|split; [done|exact Hg]].
  constructor; cbn.
  - destruct Hc'; by constructor.
  - done.
  - done.
  - done.
  - rewrite Hi'. by apply NoDup_filter.
  - intros k Hk. apply elem_of_list_filter in Hk as [Hk1 Hk2]. rewrite Hi' in Hk2. rewrite (He' k Hk2). done.
  - intros k Hk. apply elem_of_list_filter in Hk as [_ Hk]. rewrite Hi' in Hk. by apply Hr'.
Qed.
Lemma inferior_rounds_ok x D n : forall st, between x D st -> exists st',
  inferior_rounds x D n (flags st) st = Ok st' /\ core x D st' /\ grows st st'.
Proof.
  induction n as [|n IH]; intros st Hb; cbn; [exists st; split; [done|]; split; [apply Hb|apply grows_refl]|].
  destruct (match_inferiors_ok x D st Hb) as (f & st1 & b & -> & Hb1 & -> & Hg1). cbn [rbind fst snd]. destruct b.
  - destruct (IH st1 Hb1) as (st2 & -> & Hc2 & Hg2). exists st2. split; [done|]. split; [done|]. by eapply grows_trans.
  - exists st1. split; [done|]. split; [apply Hb1|done].
Qed.
Lemma pass1_between x D st : pass1 x D (num_k x) st -> between x D st.
Proof.
  intros [Hc Ht Hl Hf Hi Hd Hdone]. constructor; try done.
  - intros k cs H. by apply Ht in H as [_ ?].
  - intros k H. apply Hdone. by left.
Qed.
