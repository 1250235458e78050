(** Proofs about rigs and multi-frames. *)
From Coq Require Import ZArith Bool Lia.
From stdpp Require Import list gmap.
From Verif Require Import RigModel RigSpec.
Local Open Scope nat_scope.

(** ** Timestamps *)
Definition set_at (frames : list (option Z)) (i : nat) (t : Z) : Prop := frames !! i = Some (Some t).

Lemma min_loop_total frames : forall n i acc, i + n <= length frames -> exists m, min_loop frames i n acc = Some m.
Proof.
  induction n as [|n IH]; intros i acc Hl; cbn [min_loop]; [eauto|].
  destruct (lookup_lt_is_Some_2 frames i) as [[t|] Hi]; [lia| |]; rewrite Hi; apply IH; lia.
Qed.
Lemma max_loop_total frames : forall n i acc, i + n <= length frames -> exists m, max_loop frames i n acc = Some m.
Proof.
  induction n as [|n IH]; intros i acc Hl; cbn [max_loop]; [eauto|].
  destruct (lookup_lt_is_Some_2 frames i) as [[t|] Hi]; [lia| |]; rewrite Hi; apply IH; lia.
Qed.
Lemma min_loop_spec frames : forall n i acc m, min_loop frames i n acc = Some m ->
  (m = acc \/ exists j, i <= j < i + n /\ set_at frames j m) /\ (m <= acc)%Z /\
  forall j t, i <= j < i + n -> set_at frames j t -> (m <= t)%Z.
Proof.
  unfold set_at. induction n as [|n IH]; intros i acc m; cbn [min_loop].
  - intros [= ->]. repeat split; [by left|lia|]. intros; lia.
  - destruct (frames !! i) as [[t|]|] eqn:Hi; [| |done]; intros H; apply IH in H as (Ha & Hle & Hb).
    + destruct (Z.ltb_spec t acc) as [L|L]; (split; [|split; [lia|]]).
      * right. destruct Ha as [->|(j & Hj & Hs)]; [exists i|exists j]; (split; [lia|done]).
      * intros j t' Hj Hs. destruct (decide (j = i)) as [->|]; [|apply (Hb j); [lia|done]].
        rewrite Hi in Hs. injection Hs as <-. lia.
      * destruct Ha as [->|(j & Hj & Hs)]; [by left|right; exists j; split; [lia|done]].
      * intros j t' Hj Hs. destruct (decide (j = i)) as [->|]; [|apply (Hb j); [lia|done]].
        rewrite Hi in Hs. injection Hs as <-. lia.
    + split; [|split; [lia|]].
      * destruct Ha as [->|(j & Hj & Hs)]; [by left|right; exists j; split; [lia|done]].
      * intros j t' Hj Hs. destruct (decide (j = i)) as [->|]; [by rewrite Hi in Hs|apply (Hb j); [lia|done]].
Qed.
Lemma max_loop_spec frames : forall n i acc m, max_loop frames i n acc = Some m ->
  (m = acc \/ exists j, i <= j < i + n /\ set_at frames j m) /\ (acc <= m)%Z /\
  forall j t, i <= j < i + n -> set_at frames j t -> (t <= m)%Z.
Proof.
  unfold set_at. induction n as [|n IH]; intros i acc m; cbn [max_loop].
  - intros [= ->]. repeat split; [by left|lia|]. intros; lia.
  - destruct (frames !! i) as [[t|]|] eqn:Hi; [| |done]; intros H; apply IH in H as (Ha & Hle & Hb).
    + destruct (Z.ltb_spec acc t) as [L|L]; (split; [|split; [lia|]]).
      * right. destruct Ha as [->|(j & Hj & Hs)]; [exists i|exists j]; (split; [lia|done]).
      * intros j t' Hj Hs. destruct (decide (j = i)) as [->|]; [|apply (Hb j); [lia|done]].
        rewrite Hi in Hs. injection Hs as <-. lia.
      * destruct Ha as [->|(j & Hj & Hs)]; [by left|right; exists j; split; [lia|done]].
      * intros j t' Hj Hs. destruct (decide (j = i)) as [->|]; [|apply (Hb j); [lia|done]].
        rewrite Hi in Hs. injection Hs as <-. lia.
    + split; [|split; [lia|]].
      * destruct Ha as [->|(j & Hj & Hs)]; [by left|right; exists j; split; [lia|done]].
      * intros j t' Hj Hs. destruct (decide (j = i)) as [->|]; [by rewrite Hi in Hs|apply (Hb j); [lia|done]].
Qed.
Lemma is_valid_spec t : is_valid_time t = true <-> t <> invalid_time.
Proof. unfold is_valid_time. rewrite negb_true_iff, Z.eqb_neq. done. Qed.

(** ** Rigs *)
Definition rig_id (idl : list Z) (g : rig) (i : nat) : option Z := c ← cams g !! i; idl !! c.
Definition rdistinct (idl : list Z) (g : rig) : Prop :=
  forall i j x, rig_id idl g i = Some x -> rig_id idl g j = Some x -> i = j.
Definition rconsistent (idl : list Z) (g : rig) : Prop :=
  forall x i, index g !! x = Some i <-> rig_id idl g i = Some x.
Definition rwf (idl : list Z) (g : rig) : Prop := Forall (fun c => c < length idl) (cams g).
Definition good (w : world) : Prop :=
  Forall (fun g => rwf (ids w) g /\ rconsistent (ids w) g) (rigs w).

Lemma rconsistent_ext idl idl' (g : rig) : rwf idl g ->
  (forall c, c < length idl -> idl' !! c = idl !! c) -> rconsistent idl g -> rconsistent idl' g.
Proof.
  intros Hw E Hc x i. rewrite (Hc x i). unfold rig_id.
  destruct (cams g !! i) as [c|] eqn:Hi; [|done]. cbn.
  pose proof (Forall_lookup_1 _ _ _ _ Hw Hi). cbn in *. rewrite E; done.
Qed.
Lemma rwf_ext idl idl' (g : rig) : length idl <= length idl' -> rwf idl g -> rwf idl' g.
Proof. intros H. unfold rwf. intros Hw. eapply Forall_impl; [exact Hw|]. intros c Hc. cbn in *. lia. Qed.
Lemma good_ext w idl' : length (ids w) <= length idl' ->
  (forall c, c < length (ids w) -> idl' !! c = ids w !! c) -> good w -> good (World idl' (rigs w)).
Proof.
  intros Hl E H. unfold good in *. eapply Forall_impl; [exact H|]. intros g [Hw Hc]. cbn.
  split; [by apply (rwf_ext (ids w))|by apply (rconsistent_ext (ids w))].
Qed.

Lemma init_loop_spec idl : forall cs i m m', init_loop idl i cs m = Some m' ->
  Forall (fun c => c < length idl) cs /\
  ((forall j k c d, cs !! j = Some c -> cs !! k = Some d -> idl !! c = idl !! d -> j = k) ->
   forall x y, m' !! x = Some y <->
     (exists j c, cs !! j = Some c /\ idl !! c = Some x /\ y = i + j) \/
     (m !! x = Some y /\ forall j c, cs !! j = Some c -> idl !! c <> Some x)).
Proof.
  induction cs as [|c cs IH]; intros i m m'; cbn [init_loop].
  - intros [= ->]. split; [constructor|]. intros _ x y. split.
    + intros H. right. split; [done|]. intros j c Hj. by rewrite lookup_nil in Hj.
    + intros [(j & c & Hj & _)|[H _]]; [by rewrite lookup_nil in Hj|done].
  - destruct (idl !! c) as [id|] eqn:Hc; [|done]. destruct (id =? 0)%Z; [done|].
    intros H. apply IH in H as [Hf Hm]. split.
    { constructor; [by eapply lookup_lt_Some|done]. }
    intros D x y. rewrite Hm.
    2:{ intros j k d e Hj Hk E. assert (S j = S k) by (by apply (D (S j) (S k) d e)). lia. }
    split.
    + intros [(j & d & Hj & Hd & ->)|[Hi Hn]].
      * left. exists (S j), d. split; [done|]. split; [done|lia].
      * destruct (decide (x = id)) as [->|Hx].
        -- rewrite lookup_insert in Hi. injection Hi as <-. left. exists 0, c. split; [done|]. split; [done|lia].
        -- rewrite lookup_insert_ne in Hi by done. right. split; [done|].
           intros [|j] d Hj; cbn in Hj; [injection Hj as <-; rewrite Hc; congruence|by eapply Hn].
    + intros [([|j] & d & Hj & Hd & ->)|[Hi Hn]].
      * cbn in Hj. injection Hj as <-. right. assert (x = id) as -> by congruence. split.
        -- rewrite lookup_insert. f_equal. lia.
        -- intros j d' Hj Hd'. assert (S j = 0) by (apply (D (S j) 0 d' c); [done|done|congruence]). lia.
      * left. exists j, d. split; [done|]. split; [done|lia].
      * right. assert (x <> id). { intros ->. by apply (Hn 0 c). }
        rewrite lookup_insert_ne by done. split; [done|]. intros j d Hj. by apply (Hn (S j)).
Qed.
Lemma init_internal_good idl cs m : init_internal idl cs = Some m -> rdistinct idl (Rig cs m) ->
  rwf idl (Rig cs m) /\ rconsistent idl (Rig cs m).
Proof.
  intros H D. apply init_loop_spec in H as [Hf Hm]. split; [done|].
  intros x i. cbn. unfold rig_id. cbn. rewrite Hm.
  - split.
    + intros [(j & c & Hj & Hc & ->)|[Hi _]]; [|by rewrite lookup_empty in Hi]. cbn. by rewrite Hj.
    + destruct (cs !! i) as [c|] eqn:Hi; [|done]. cbn. intros Hc. left. by exists i, c.
  - intros j k c d Hj Hk E.
    destruct (lookup_lt_is_Some_2 idl c) as [x' Hx]; [by apply (Forall_lookup_1 _ _ _ _ Hf Hj)|].
    apply (D j k x'); unfold rig_id; cbn; [by rewrite Hj|]. rewrite Hk. cbn. congruence.
Qed.
Lemma mapM_ids_length (idl : list Z) (cs : list nat) l : mapM (fun c => idl !! c) cs = Some l -> length l = length cs.
Proof. intros H. apply mapM_Some in H. symmetry. by eapply Forall2_length. Qed.

Lemma clone_rig_inv w r w' : clone_rig w r = Some w' ->
  exists new cs m g, rigs w !! r = Some g /\ length new = length (cams g) /\
    mapM (fun c => ids w !! c) (cams g) = Some new /\
    w' = World (ids w ++ new) (rigs w ++ [Rig cs m]) /\ cs = seq (length (ids w)) (length new) /\
    init_internal (ids w ++ new) cs = Some m.
Proof.
  unfold clone_rig. destruct (rigs w !! r) as [g|] eqn:Hg; [|done]. cbn.
  destruct (mapM (fun c : nat => ids w !! c) (cams g)) as [new|] eqn:Hn; [|done]. cbn.
  destruct (init_internal (ids w ++ new) (seq (length (ids w)) (length new))) as [m|] eqn:Hm; [|done]. cbn.
  intros [= <-]. exists new, (seq (length (ids w)) (length new)), m, g. repeat split; try done.
  by apply mapM_ids_length in Hn.
Qed.

Lemma distinct_rig w r g : distinct w -> rigs w !! r = Some g -> rdistinct (ids w) g.
Proof.
  intros D Hg i j x Hi Hj. apply (D r i j x); unfold camera_id; rewrite Hg; done.
Qed.
Lemma distinct_rig' idl rs r g : distinct (World idl rs) -> rs !! r = Some g -> rdistinct idl g.
Proof. intros D H. by apply (distinct_rig (World idl rs) r g). Qed.
Lemma good_app idl rs g : good (World idl rs) -> rwf idl g /\ rconsistent idl g -> good (World idl (rs ++ [g])).
Proof. unfold good. cbn. intros H1 H2. apply Forall_app. split; [done|]. by constructor. Qed.

Lemma reach_good w : reach w -> good w /\ distinct w /\ valid_ids w.
Proof.
  induction 1 as [|w a w' Hr [IH [D0 V0]] Ha Hs D V].
  { split; [constructor|]. split; [|]; intros r ?; unfold camera_id; cbn; by rewrite lookup_nil. }
  split; [|done]. destruct a as [id|cs|r|r new|r i c|r new|c id]; cbn [step] in Hs.
  - injection Hs as <-. apply good_ext; [rewrite app_length; lia| |done].
    intros c Hc. by apply lookup_app_l.
  - destruct (init_internal (ids w) cs) as [m|] eqn:Hm; [|done]. cbn in Hs. injection Hs as <-.
    apply good_app; [by destruct w|]. apply init_internal_good; [done|].
    eapply (distinct_rig' _ _ (length (rigs w))); [exact D|]. cbn. by apply list_lookup_middle.
  - apply clone_rig_inv in Hs as (new & cs & m & g & Hg & Hl & Hn & -> & Hcs & Hm).
    apply good_app.
    + apply good_ext; [rewrite app_length; lia| |done]. intros c Hc. by apply lookup_app_l.
    + apply init_internal_good; [done|]. eapply (distinct_rig' _ _ (length (rigs w))); [exact D|].
      cbn. by apply list_lookup_middle.
  - destruct (clone_rig w r) as [w1|] eqn:Hc; [|done]. cbn in Hs.
    apply clone_rig_inv in Hc as (nw & cs & m & g & Hg & Hl & Hn & -> & Hcs & Hm).
    unfold overwrite_ids in Hs. cbn [rigs ids] in Hs. rewrite last_snoc in Hs. cbn in Hs.
    destruct (length new =? length cs) eqn:Hlen; [|done]. apply Nat.eqb_eq in Hlen.
    cbn in Hs. rewrite last_snoc in Hs. cbn in Hs.
    rewrite Hcs, seq_length in Hlen. rewrite app_length, Hlen, Nat.add_sub, take_app in Hs.
    change (init_loop (ids w ++ new) 0 cs ∅) with (init_internal (ids w ++ new) cs) in Hs.
    destruct (init_internal (ids w ++ new) cs) as [m'|] eqn:Hm'; [|done]. cbn in Hs.
    injection Hs as <-. unfold replace_last_index in *. cbn in *. rewrite last_snoc in *. cbn in *.
    assert (E : <[length (rigs w ++ [Rig cs m]) - 1:=Rig cs m']> (rigs w ++ [Rig cs m]) = rigs w ++ [Rig cs m']).
    { rewrite app_length. cbn. rewrite Nat.add_sub. rewrite insert_app_r_alt by lia. by rewrite Nat.sub_diag. }
    rewrite E in *.
    apply good_app.
    + apply good_ext; [rewrite app_length; lia| |done]. intros c Hc. by apply lookup_app_l.
    + apply init_internal_good; [done|]. eapply (distinct_rig' _ _ (length (rigs w))); [exact D|].
      cbn. by apply list_lookup_middle.
  - destruct (rigs w !! r) as [g|] eqn:Hg; [|done]. cbn in Hs.
    destruct (ids w !! c) as [id|] eqn:Hc; [|done]. cbn in Hs.
    destruct (cams g !! i) as [old|] eqn:Ho; [|done]. cbn in Hs.
    destruct (ids w !! old) as [oid|] eqn:Hoid; [|done]. cbn in Hs. injection Hs as <-.
    pose proof (Forall_lookup_1 _ _ _ _ IH Hg) as [Hw Hco]. cbn in Hw, Hco.
    set (g' := Rig (<[i:=c]> (cams g)) (<[id:=i]> (delete oid (index g)))) in *.
    assert (Dg : rdistinct (ids w) g) by (by eapply distinct_rig).
    assert (Dg' : rdistinct (ids w) g').
    { eapply (distinct_rig' _ _ r); [exact D|]. cbn. apply list_lookup_insert. by eapply lookup_lt_Some. }
    assert (Hi' : rig_id (ids w) g' i = Some id).
    { unfold rig_id, g'. cbn. rewrite list_lookup_insert by (by eapply lookup_lt_Some). done. }
    assert (Hi : rig_id (ids w) g i = Some oid). { unfold rig_id. by rewrite Ho. }
    assert (Hne : forall k, k <> i -> rig_id (ids w) g' k = rig_id (ids w) g k).
    { intros k Hk. unfold rig_id, g'. cbn. by rewrite list_lookup_insert_ne. }
    apply Forall_insert; [done|]. split.
    + unfold rwf, g'. cbn. apply Forall_insert; [done|]. by eapply lookup_lt_Some.
    + intros x k. cbn [ids]. unfold g' at 1. cbn [index].
      destruct (decide (x = id)) as [->|Hx].
      * rewrite lookup_insert. split; [intros [= <-]; done|]. intros Hk. f_equal. by apply (Dg' i k id).
      * rewrite lookup_insert_ne by done.
        destruct (decide (k = i)) as [->|Hk].
        -- rewrite Hi'. split; [|congruence]. intros H. apply lookup_delete_Some in H as [Hn H].
           apply Hco in H. congruence.
        -- rewrite Hne by done. rewrite <- (Hco x k). rewrite lookup_delete_Some. split; [by intros []|].
           intros H. split; [|done]. intros <-. apply Hco in H. apply Hk. by apply (Dg k i oid).
  - done.
  - done.
Qed.
