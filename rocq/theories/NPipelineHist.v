(** Histories of the image synchronisation: where the images go, and the order of the output. *)
From Coq Require Import ZArith Lia Bool Sorting.Sorted.
From stdpp Require Import list.
From Verif Require Import NPipelineModel NPipelineSpec NPipelineProofs.
Open Scope Z_scope.

(** ** Events *)
Lemma left_groups_app e1 e2 : left_groups (e1 ++ e2) = left_groups e1 ++ left_groups e2.
Proof. apply omap_app. Qed.
Lemma emitted_app e1 e2 : emitted (e1 ++ e2) = emitted e1 ++ emitted e2.
Proof. apply omap_app. Qed.
Lemma overwritten_app e1 e2 :
  overwritten_images (e1 ++ e2) = overwritten_images e1 ++ overwritten_images e2.
Proof. apply omap_app. Qed.
Lemma lost_app e1 e2 : lost_groups (e1 ++ e2) = lost_groups e1 ++ lost_groups e2.
Proof. apply omap_app. Qed.
Lemma dropped_app e1 e2 : dropped_groups (e1 ++ e2) = dropped_groups e1 ++ dropped_groups e2.
Proof. apply omap_app. Qed.
Lemma submitted_app a1 a2 : submitted (a1 ++ a2) = submitted a1 ++ submitted a2.
Proof. apply omap_app. Qed.

Lemma emitted_dropped m : emitted (dropped_ev m) = [].
Proof. induction m as [|[k f] m IH]; [done|exact IH]. Qed.
Lemma emitted_cleared m : emitted (cleared_ev m) = [].
Proof. induction m as [|[k f] m IH]; [done|exact IH]. Qed.
Lemma emitted_overwritten i f : emitted (overwritten i f) = [].
Proof. unfold overwritten. by destruct (f !! cam i) as [[]|]. Qed.
Lemma left_dropped m : left_groups (dropped_ev m) = m.
Proof.
  induction m as [|[k f] m IH]; [done|].
  change (left_groups (dropped_ev ((k, f) :: m))) with ((k, f) :: left_groups (dropped_ev m)).
  by rewrite IH.
Qed.
Lemma left_cleared m : left_groups (cleared_ev m) = m.
Proof.
  induction m as [|[k f] m IH]; [done|].
  change (left_groups (cleared_ev ((k, f) :: m))) with ((k, f) :: left_groups (cleared_ev m)).
  by rewrite IH.
Qed.
Lemma dropped_dropped m : dropped_groups (dropped_ev m) = m.
Proof.
  induction m as [|[k f] m IH]; [done|].
  change (dropped_groups (dropped_ev ((k, f) :: m))) with ((k, f) :: dropped_groups (dropped_ev m)).
  by rewrite IH.
Qed.
Lemma lost_dropped m : lost_groups (dropped_ev m) = m.
Proof.
  induction m as [|[k f] m IH]; [done|].
  change (lost_groups (dropped_ev ((k, f) :: m))) with ((k, f) :: lost_groups (dropped_ev m)).
  by rewrite IH.
Qed.
Lemma left_overwritten i f : left_groups (overwritten i f) = [].
Proof. unfold overwritten. by destruct (f !! cam i) as [[]|]. Qed.
Lemma dropped_overwritten i f : dropped_groups (overwritten i f) = [].
Proof. unfold overwritten. by destruct (f !! cam i) as [[]|]. Qed.
Lemma lost_overwritten i f : lost_groups (overwritten i f) = [].
Proof. unfold overwritten. by destruct (f !! cam i) as [[]|]. Qed.
Lemma ow_dropped m : overwritten_images (dropped_ev m) = [].
Proof. induction m as [|[k f] m IH]; [done|exact IH]. Qed.
Lemma ow_cleared m : overwritten_images (cleared_ev m) = [].
Proof. induction m as [|[k f] m IH]; [done|exact IH]. Qed.

(** ** Images *)
Lemma images_app m1 m2 : images_of (m1 ++ m2) = images_of m1 ++ images_of m2.
Proof. apply bind_app. Qed.
Lemma images_perm m1 m2 : m1 ≡ₚ m2 -> images_of m1 ≡ₚ images_of m2.
Proof. intros H. unfold images_of. by rewrite H. Qed.

Lemma omap_replicate_none n : omap id (replicate n (@None image)) = [].
Proof. induction n; [done|simpl; done]. Qed.

Lemma omap_set_frame i (f : nframe) :
  (cam i < length f)%nat ->
  omap id (set_frame i f) ++ overwritten_images (overwritten i f) ≡ₚ i :: omap id f.
Proof.
  intros L. unfold set_frame, overwritten. destruct (f !! cam i) as [x|] eqn:E.
  - rewrite (insert_take_drop f) by done.
    rewrite <- (take_drop_middle f (cam i) x E) at 3.
    rewrite !omap_app. destruct x as [old|]; simpl.
    + rewrite <- app_assoc. simpl.
      rewrite <- !Permutation_middle.
      change (overwritten_images [EvOverwritten old]) with [old].
      constructor. rewrite app_assoc. rewrite Permutation_app_comm. done.
    + rewrite app_nil_r. by rewrite <- Permutation_middle.
  - apply lookup_ge_None in E. lia.
Qed.

(** ** Conservation *)
Definition conserved (acts : list act) (st : state) (evs : list event) : Prop :=
  images_of (processing st) ++ images_of (completed st) ++ images_of (left_groups evs) ++
  overwritten_images evs ≡ₚ submitted acts.

Lemma work_conserves ncam tol i st st' evs :
  Inv ncam tol st -> 0 <= tol -> (cam i < ncam)%nat -> work ncam tol i st = Ok st' evs ->
  images_of (processing st') ++ images_of (completed st') ++ images_of (left_groups evs) ++
  overwritten_images evs ≡ₚ i :: images_of (processing st) ++ images_of (completed st).
Proof.
  intros I T L H.
  destruct (work_spec ncam tol i st I T L)
      as (st2 & evs2 & k & f0 & m1 & n & q0 & evs' & W & R & A & S1 & F0 & P & N & M & Q & E).
  rewrite H in W. injection W as <- <-.
  destruct (move_spec _ _ _ _ _ (ssorted_drop n _ S1) (inv_cs _ _ _ I) M)
      as (q & Eq & Q1 & Q2 & Q3 & Q4 & Q5 & Q6 & Q7 & Q8 & Q9 & Q10 & Q11 & Q12).
  rewrite E, !left_groups_app, left_overwritten, left_dropped, !overwritten_app, ow_dropped, Q10.
  rewrite !app_nil_l, app_nil_r, images_app.
  (* m1 = take ++ q ++ processing st' *)
  assert (images_of (completed st') ++ images_of (left_groups evs') ≡ₚ
          images_of (completed st) ++ images_of q) as E1.
  { rewrite <- !images_app. by apply images_perm. }
  assert (images_of m1 ++ overwritten_images (overwritten i f0) ≡ₚ
          i :: images_of (processing st)) as E2.
  { assert ((cam i < length f0)%nat) as L0 by (destruct F0; lia).
    destruct P as [(_ & r & P & P1 & _)|(-> & _ & _ & _ & P1)].
    - rewrite (images_perm _ _ P1), (images_perm _ _ P). 
      change (images_of ((k, set_frame i f0) :: r)) with (omap id (set_frame i f0) ++ images_of r).
      change (images_of ((k, f0) :: r)) with (omap id f0 ++ images_of r).
      rewrite <- app_assoc, (Permutation_app_comm (images_of r)), app_assoc, omap_set_frame by done.
      done.
    - rewrite (images_perm _ _ P1).
      change (images_of ((k, set_frame i (new_nframe ncam)) :: processing st))
        with (omap id (set_frame i (new_nframe ncam)) ++ images_of (processing st)).
      rewrite <- app_assoc, (Permutation_app_comm (images_of _)), app_assoc, omap_set_frame by done.
      unfold new_nframe. by rewrite omap_replicate_none. }
  assert (images_of m1 ≡ₚ images_of (take n m1) ++ images_of q ++ images_of (processing st')) as E3.
  { rewrite <- images_app, <- Eq, <- images_app, take_drop. done. }
  rewrite E3 in E2.
  transitivity ((images_of (completed st') ++ images_of (left_groups evs')) ++
    images_of (take n m1) ++ images_of (processing st') ++ overwritten_images (overwritten i f0)).
  { solve_Permutation. }
  rewrite E1.
  transitivity (images_of (completed st) ++
    ((images_of (take n m1) ++ images_of q ++ images_of (processing st')) ++
     overwritten_images (overwritten i f0))).
  { solve_Permutation. }
  rewrite E2. solve_Permutation.
Qed.

Lemma step_conserves ncam tol a st st' evs :
  Inv ncam tol st -> 0 <= tol -> legal ncam a -> step ncam tol st a = Ok st' evs ->
  images_of (processing st') ++ images_of (completed st') ++ images_of (left_groups evs) ++
  overwritten_images evs ≡ₚ submitted [a] ++ images_of (processing st) ++ images_of (completed st).
Proof.
  intros I T L H. destruct a as [i| | |max]; cbn [step legal] in *.
  - exact (work_conserves _ _ _ _ _ _ I T L H).
  - unfold get_next in H. destruct (completed st) as [|[k f] c] eqn:E; injection H as <- <-.
    + rewrite E. simpl. by rewrite !app_nil_r.
    + cbn [processing completed].
      change (left_groups [EvEmit k f]) with [(k, f)].
      change (overwritten_images [EvEmit k f]) with (@nil image).
      change (images_of ((k, f) :: c)) with (images_of ([(k, f)] ++ c)). rewrite images_app.
      change (submitted [AGetNext]) with (@nil image). solve_Permutation.
  - unfold get_latest in H. destruct (last (completed st)) as [[k f]|] eqn:E.
    + destruct (drop_until k (processing st)) as [a b] eqn:D. injection H as <- <-.
      destruct (drop_until_spec _ _ _ _ (inv_ps _ _ _ I) D) as (P & _ & _).
      cbn [processing completed]. rewrite P. apply last_elem in E. rewrite E at 3.
      change (EvEmit k f :: cleared_ev (removelast (completed st)) ++ cleared_ev a) with
        ([EvEmit k f] ++ cleared_ev (removelast (completed st)) ++ cleared_ev a).
      rewrite !left_groups_app, !overwritten_app, !left_cleared, !ow_cleared, !images_app.
      change (left_groups [EvEmit k f]) with [(k, f)].
      change (overwritten_images [EvEmit k f]) with (@nil image).
      change (submitted [AGetLatest]) with (@nil image).
      change (images_of []) with (@nil image).
      rewrite !app_nil_r, !app_nil_l. solve_Permutation.
    + injection H as <- <-. simpl. by rewrite !app_nil_r.
  - unfold make_room in H. destruct (max <? 1)%nat; [done|].
    destruct (max <=? length (completed st))%nat.
    + destruct (completed st) as [|[k f] c] eqn:E; [done|]. injection H as <- <-.
      cbn [processing completed].
      change (left_groups [EvEvicted k f]) with [(k, f)].
      change (overwritten_images [EvEvicted k f]) with (@nil image).
      change (images_of ((k, f) :: c)) with (images_of ([(k, f)] ++ c)). rewrite images_app.
      change (submitted [AMakeRoom max]) with (@nil image). solve_Permutation.
    + injection H as <- <-. simpl. by rewrite !app_nil_r.
Qed.

Lemma conservation_lemma ncam tol acts st evs :
  0 <= tol -> Forall (legal ncam) acts -> run ncam tol init acts = Ok st evs ->
  images_of (processing st) ++ images_of (completed st) ++ images_of (left_groups evs) ++
  overwritten_images evs ≡ₚ submitted acts.
Proof.
  intros T L H. revert acts st evs L H.
  apply (run_ind ncam tol (fun acts st evs => conserved acts st evs) T); [apply Permutation_refl|].
  unfold conserved. intros acts a st evs st' e I _ _ L H S.
  pose proof (step_conserves _ _ _ _ _ _ I T L S) as C.
  rewrite submitted_app, left_groups_app, overwritten_app, images_app, <- H.
  transitivity ((images_of (processing st') ++ images_of (completed st') ++
    images_of (left_groups e) ++ overwritten_images e) ++
    images_of (left_groups evs) ++ overwritten_images evs); [solve_Permutation|].
  rewrite C. solve_Permutation.
Qed.

(** ** Synchronisation *)
Lemma emitted_left evs kf : kf ∈ emitted evs -> kf ∈ left_groups evs.
Proof.
  induction evs as [|e evs IH]; [done|].
  change (e :: evs) with ([e] ++ evs). rewrite emitted_app, left_groups_app, !elem_of_app.
  intros [H|H]; [left|right; auto]. destruct e; exact H || by apply elem_of_nil in H.
Qed.

Lemma step_emitted ncam tol a st st' evs k f :
  Inv ncam tol st -> 0 <= tol -> legal ncam a -> step ncam tol st a = Ok st' evs ->
  (k, f) ∈ emitted evs -> (k, f) ∈ completed st.
Proof.
  intros I T L H E. destruct a as [i| | |max]; cbn [step legal] in *.
  - destruct (work_spec ncam tol i st I T L)
      as (st2 & evs2 & k' & f0 & m1 & n & q0 & evs' & W & R & A & S1 & F0 & P & N & M & Q & X).
    rewrite H in W. injection W as <- <-.
    destruct (move_spec _ _ _ _ _ (ssorted_drop n _ S1) (inv_cs _ _ _ I) M)
      as (q & Eq & _ & _ & _ & _ & _ & _ & _ & _ & Q9 & _).
    rewrite X, !emitted_app, emitted_overwritten, emitted_dropped, Q9 in E.
    by apply elem_of_nil in E.
  - unfold get_next in H. destruct (completed st) as [|[k' f'] c] eqn:E'; injection H as <- <-.
    + by apply elem_of_nil in E.
    + change (emitted [EvEmit k' f']) with [(k', f')] in E. apply elem_of_list_singleton in E as ->.
      by left.
  - unfold get_latest in H. destruct (last (completed st)) as [[k' f']|] eqn:E'.
    + destruct (drop_until k' (processing st)) as [a b] eqn:D. injection H as <- <-.
      change (EvEmit k' f' :: cleared_ev (removelast (completed st)) ++ cleared_ev a) with
        ([EvEmit k' f'] ++ cleared_ev (removelast (completed st)) ++ cleared_ev a) in E.
      rewrite !emitted_app, !emitted_cleared in E. apply elem_of_list_singleton in E as [= -> ->].
      apply last_elem in E'. rewrite E'. apply elem_of_app. right. by left.
    + injection H as <- <-. by apply elem_of_nil in E.
  - unfold make_room in H. destruct (max <? 1)%nat; [done|].
    destruct (max <=? length (completed st))%nat.
    + destruct (completed st) as [|[k' f'] c]; [done|]. injection H as <- <-. by apply elem_of_nil in E.
    + injection H as <- <-. by apply elem_of_nil in E.
Qed.

Lemma image_in (m : list (Z * nframe)) k f c i :
  (k, f) ∈ m -> f !! c = Some (Some i) -> i ∈ images_of m.
Proof.
  intros H1 H2. unfold images_of. apply elem_of_list_bind. exists (k, f). split; [|done].
  apply elem_of_list_omap. exists (Some i). split; [|done]. by apply elem_of_list_lookup_2 in H2.
Qed.

Lemma synchronised_lemma ncam tol acts st evs k f :
  0 <= tol -> Forall (legal ncam) acts -> run ncam tol init acts = Ok st evs ->
  (k, f) ∈ emitted evs -> synchronised ncam tol (submitted acts) k f.
Proof.
  intros T L H E.
  assert (forall acts st evs, Forall (legal ncam) acts -> run ncam tol init acts = Ok st evs ->
    forall k f, (k, f) ∈ emitted evs -> fits ncam tol k f /\ complete f) as G.
  { apply (run_ind ncam tol (fun acts st evs => forall k f, (k, f) ∈ emitted evs ->
      fits ncam tol k f /\ complete f) T).
    - intros k' f' X. by apply elem_of_nil in X.
    - intros acts' a st1 evs1 st' e I _ _ La H1 S k' f' X. rewrite emitted_app, elem_of_app in X.
      destruct X as [X|X]; [by apply H1|].
      apply (step_emitted _ _ _ _ _ _ _ _ I T La S) in X. by apply (inv_cf _ _ _ I). }
  destruct (G _ _ _ L H _ _ E) as [[F1 F2] C]. split; [done|]. intros c Hc.
  destruct (f !! c) as [[i|]|] eqn:X.
  - exists i. destruct (F2 c i X) as [X1 X2]. do 3 (split; [done|]).
    rewrite <- (conservation_lemma ncam tol acts st evs T L H).
    rewrite !elem_of_app. right. right. left. apply (image_in _ k f c); [|done].
    by apply emitted_left.
  - by apply C in X.
  - apply lookup_ge_None in X. lia.
Qed.

(** No image is delivered twice. *)
Lemma emitted_once_lemma ncam tol acts st evs :
  0 <= tol -> Forall (legal ncam) acts -> run ncam tol init acts = Ok st evs ->
  NoDup (submitted acts) -> NoDup (images_of (emitted evs)).
Proof.
  intros T L H N. rewrite <- (conservation_lemma ncam tol acts st evs T L H) in N.
  apply NoDup_app in N as (_ & _ & N). apply NoDup_app in N as (_ & _ & N).
  apply NoDup_app in N as (N & _ & _).
  clear -N. induction evs as [|e evs IH]; [constructor|].
  change (e :: evs) with ([e] ++ evs) in *. rewrite left_groups_app, images_app in N.
  rewrite emitted_app, images_app. apply NoDup_app in N as (N1 & N2 & N3).
  apply NoDup_app. split; [|split; [|by apply IH]].
  - destruct e; try exact N1; constructor.
  - intros x Hx. intros Hy. assert (x ∈ images_of (left_groups evs)) as Hy'.
    { unfold images_of in *. apply elem_of_list_bind in Hy as (kf & X & Y).
      apply elem_of_list_bind. exists kf. split; [done|]. by apply emitted_left. }
    apply (N2 x); [|done]. destruct e; try exact Hx; by apply elem_of_nil in Hx.
Qed.

(** ** Order *)
(** All groups handed over, then the completed ones, then the pending ones, in increasing order. *)
Definition all_keys (evs : list event) (st : state) : list Z :=
  keys (emitted evs) ++ keys (completed st) ++ keys (processing st).

Record Ordered (hi : option Z) (st : state) (evs : list event) : Prop := {
  ord_sorted : StronglySorted Z.lt (all_keys evs st);
  ord_hi : forall k, k ∈ all_keys evs st -> exists h, hi = Some h /\ k <= h;
  ord_lost : forall k f, EvShadowed k f ∉ evs }.

Lemma ss_app (a b : list Z) :
  StronglySorted Z.lt (a ++ b) <->
  StronglySorted Z.lt a /\ StronglySorted Z.lt b /\ forall x y, x ∈ a -> y ∈ b -> x < y.
Proof.
  induction a as [|x a IH]; simpl.
  - split; [|tauto]. intros H. split; [constructor|]. split; [done|]. by intros ? ? ?%elem_of_nil.
  - split.
    + intros H. apply StronglySorted_inv in H as [H1 H2]. apply IH in H1 as (A & B & C).
      rewrite Forall_forall in H2. split; [|split; [done|]].
      * constructor; [done|]. apply Forall_forall. intros y Hy. apply H2, elem_of_app. by left.
      * intros u v Hu Hv. apply elem_of_cons in Hu as [->|Hu]; [|auto].
        apply H2, elem_of_app. by right.
    + intros (A & B & C). apply StronglySorted_inv in A as [A1 A2]. constructor.
      * apply IH. split; [done|]. split; [done|]. intros u v Hu Hv. apply C; [by right|done].
      * apply Forall_forall. intros y Hy. apply elem_of_app in Hy as [Hy|Hy].
        -- rewrite Forall_forall in A2. auto.
        -- apply C; [by left|done].
Qed.

Lemma ss_perm (a b : list Z) :
  StronglySorted Z.lt a -> StronglySorted Z.lt b -> a ≡ₚ b -> a = b.
Proof.
  revert b. induction a as [|x a IH]; intros b A B P.
  - by apply Permutation_nil in P as ->.
  - destruct b as [|y b]; [by apply Permutation_sym, Permutation_nil in P|].
    apply StronglySorted_inv in A as [A1 A2]. apply StronglySorted_inv in B as [B1 B2].
    rewrite Forall_forall in A2, B2.
    assert (x = y) as ->.
    { assert (x ∈ y :: b) as X by (rewrite <- P; by left).
      assert (y ∈ x :: a) as Y by (rewrite P; by left).
      apply elem_of_cons in X as [X|X]; [done|]. apply elem_of_cons in Y as [Y|Y]; [done|].
      apply A2 in Y. apply B2 in X. lia. }
    f_equal. apply IH; [done|done|]. by apply Permutation_cons_inv in P.
Qed.

Lemma move_no_shadow (p : groups) : forall c,
  ssorted (c ++ p) ->
  exists q pr, p = q ++ pr /\ move_complete p c = (pr, c ++ q, []).
Proof.
  induction p as [|[k f] p IH]; intros c S.
  - exists [], []. simpl. by rewrite app_nil_r.
  - simpl. destruct (all_set f).
    + assert (k ∉ keys c) as N.
      { intros X. assert (k < k); [|lia]. apply (ssorted_app_lt c ((k, f) :: p)); [done|done|].
        by left. }
      assert (ssorted c) as Sc by (rewrite fmap_app in S; by apply ss_app in S as (X & _)).
      assert (ssorted (c ++ [(k, f)])) as Sc'.
      { rewrite fmap_app in *. apply ss_app in S as (A & B & C). apply ss_app.
        split; [done|]. split; [by repeat constructor|]. intros x y Hx Hy. apply C; [done|].
        apply elem_of_list_singleton in Hy as ->. by left. }
      rewrite map_insert_some by done.
      assert (lower_bound k c = length c) as ->.
      { clear -S. induction c as [|[k0 f0] c IH]; [done|]. simpl.
        assert (k0 < k) as X.
        { apply (ssorted_app_lt ((k0, f0) :: c) ((k, f) :: p)); [done|by left|by left]. }
        destruct (k0 <? k) eqn:E; [|lia]. f_equal. apply IH.
        change (((k0, f0) :: c) ++ (k, f) :: p) with ((k0, f0) :: (c ++ (k, f) :: p)) in S.
        apply ssorted_cons in S. tauto. }
      rewrite firstn_all, drop_all.
      destruct (IH (c ++ [(k, f)])) as (q & pr & -> & E).
      { by rewrite <- app_assoc. }
      exists ((k, f) :: q), pr. split; [done|]. rewrite E. by rewrite <- app_assoc.
    + exists [], ((k, f) :: p). by rewrite app_nil_r.
Qed.

Lemma step_ordered ncam tol a hi st evs st' e :
  Inv ncam tol st -> 0 <= tol -> legal ncam a -> step ncam tol st a = Ok st' e ->
  Ordered hi st evs ->
  match a with
  | AWork i =>
    if existsb (fun k => Z.abs (k - stamp i) <=? tol) (keys (processing st))
    then Ordered hi st' (evs ++ e)
    else (match hi with Some h => h < stamp i | None => True end) ->
         Ordered (Some (stamp i)) st' (evs ++ e)
  | _ => Ordered hi st' (evs ++ e)
  end.
Proof.
  intros I T L H [O1 O2 O3]. unfold all_keys in *. destruct a as [i| | |max]; cbn [step legal] in *.
  - destruct (work_spec ncam tol i st I T L)
      as (st2 & evs2 & k & f0 & m1 & n & q0 & evs' & W & R & A & S1 & F0 & P & N & M & Q & X).
    rewrite H in W. injection W as <- <-.
    apply ss_app in O1 as (OE & OR & OER). apply ss_app in OR as (OC & OP & OCP).
    assert (forall hi', (forall x, x ∈ keys m1 -> forall y, y ∈ keys (emitted evs) \/ y ∈ keys (completed st) -> y < x) ->
      (forall x, x ∈ keys (emitted evs) ++ keys (completed st) ++ keys m1 ->
         exists h, hi' = Some h /\ x <= h) ->
      Ordered hi' st' (evs ++ e)) as Fin.
    { intros hi' B1 B2.
      assert (ssorted (completed st ++ drop n m1)) as SS.
      { rewrite fmap_app. apply ss_app. split; [done|]. split; [by apply ssorted_drop|].
        intros x y Hx Hy. apply (B1 y); [|by right].
        rewrite <- (take_drop n m1), fmap_app. apply elem_of_app. by right. }
      destruct (move_no_shadow _ _ SS) as (q & pr & E1 & E2). rewrite M in E2.
      injection E2 as Ep Ec Ee. rewrite Ee, app_nil_r in X.
      assert (emitted (evs ++ e) = emitted evs) as EE.
      { by rewrite X, !emitted_app, emitted_overwritten, emitted_dropped, !app_nil_r. }
      assert (forall x, x ∈ keys (completed st') ++ keys (processing st') ->
        x ∈ keys (completed st) \/ x ∈ keys m1) as Sub.
      { rewrite Ec, Ep, fmap_app. intros x. rewrite !elem_of_app.
        assert (x ∈ keys q \/ x ∈ keys pr -> x ∈ keys m1) as Y.
        { rewrite <- elem_of_app, <- fmap_app, <- E1. intros Y.
          rewrite <- (take_drop n m1), fmap_app, elem_of_app. by right. }
        tauto. }
      split; unfold all_keys.
      - rewrite EE. apply ss_app. split; [done|]. split.
        + rewrite Ec, Ep, <- fmap_app, <- app_assoc, <- E1. done.
        + intros x y Hx Hy. apply Sub in Hy as [Hy|Hy].
          * apply OER; [done|]. apply elem_of_app. by left.
          * apply (B1 y); [done|by left].
      - rewrite EE. intros x Hx. apply B2. rewrite !elem_of_app in *.
        destruct Hx as [Hx|Hx]; [by left|]. rewrite <- elem_of_app in Hx. apply Sub in Hx. tauto.
      - intros k' f' Hx. apply elem_of_app in Hx as [Hx|Hx]; [by apply O3 in Hx|].
        rewrite X in Hx. apply elem_of_app in Hx as [Hx|Hx].
        + unfold overwritten in Hx. destruct (f0 !! cam i) as [[]|].
          * by apply elem_of_list_singleton in Hx.
          * by apply elem_of_nil in Hx.
          * by apply elem_of_nil in Hx.
        + apply elem_of_list_fmap in Hx as ([] & ? & _). done. }
    destruct (existsb (fun k => Z.abs (k - stamp i) <=? tol) (keys (processing st))) eqn:B.
    + destruct P as [(I0 & r & P & P1 & K)|(_ & -> & _ & Far & _)].
      * apply Fin; rewrite K.
        -- intros x Hx y [Hy|Hy]; [apply OER; [done|]; apply elem_of_app; by right|auto].
        -- exact O2.
      * apply existsb_exists in B as (k' & B1 & B2). apply elem_of_list_In, Far in B1. lia.
    + intros Hhi. destruct P as [(I0 & r & P & P1 & K)|(_ & -> & N0 & Far & P1)].
      * exfalso. assert (k ∈ keys (processing st)) as Ik by (apply elem_keys; eauto).
        apply not_true_iff_false in B. apply B, existsb_exists. exists k.
        split; [by apply elem_of_list_In|]. lia.
      * assert (forall x, x ∈ keys (emitted evs) ++ keys (completed st) ++ keys (processing st) ->
          x < stamp i) as Lt.
        { intros x Hx. destruct (O2 _ Hx) as (h & -> & Hh). lia. }
        assert (forall x, x ∈ keys m1 <-> x = stamp i \/ x ∈ keys (processing st)) as Km.
        { intros x. rewrite P1, fmap_cons, elem_of_cons. done. }
        apply Fin.
        -- intros x Hx y Hy. apply Km in Hx as [->|Hx].
           ++ apply Lt. rewrite !elem_of_app. tauto.
           ++ destruct Hy as [Hy|Hy]; [apply OER; [done|]; apply elem_of_app; by right|auto].
        -- intros x Hx. exists (stamp i). split; [done|]. rewrite !elem_of_app, Km in Hx.
           destruct Hx as [Hx|[Hx|[->|Hx]]]; [| |lia|];
             apply Z.lt_le_incl, Lt; rewrite !elem_of_app; tauto.
  - unfold get_next in H. destruct (completed st) as [|[k f] c] eqn:E; injection H as <- <-.
    + split; unfold all_keys; rewrite ?emitted_app, ?app_nil_r, ?E.
      * exact O1.
      * exact O2.
      * intros k f Hx. apply elem_of_app in Hx as [Hx|Hx]; [by apply O3 in Hx|].
        by apply elem_of_list_singleton in Hx.
    + assert (keys (emitted (evs ++ [EvEmit k f])) ++ keys c ++ keys (processing st) =
        keys (emitted evs) ++ keys ((k, f) :: c) ++ keys (processing st)) as EK.
      { rewrite emitted_app. change (emitted [EvEmit k f]) with [(k, f)].
        rewrite fmap_app, <- app_assoc. done. }
      split; unfold all_keys; cbn [processing completed]; rewrite ?EK; try done.
      intros k' f' Hx. apply elem_of_app in Hx as [Hx|Hx]; [by apply O3 in Hx|].
      by apply elem_of_list_singleton in Hx.
  - unfold get_latest in H. destruct (last (completed st)) as [[k f]|] eqn:E.
    + destruct (drop_until k (processing st)) as [a b] eqn:D. injection H as <- <-.
      destruct (drop_until_spec _ _ _ _ (inv_ps _ _ _ I) D) as (P & _ & _).
      assert (emitted (evs ++ EvEmit k f :: cleared_ev (removelast (completed st)) ++ cleared_ev a)
        = emitted evs ++ [(k, f)]) as EE.
      { change (EvEmit k f :: cleared_ev (removelast (completed st)) ++ cleared_ev a) with
        ([EvEmit k f] ++ cleared_ev (removelast (completed st)) ++ cleared_ev a).
        by rewrite !emitted_app, !emitted_cleared, !app_nil_r. }
      apply last_elem in E.
      split; unfold all_keys; cbn [processing completed]; rewrite ?EE.
      * rewrite E, P in O1. rewrite !fmap_app in *. simpl in *.
        apply ss_app in O1 as (A1 & A2 & A3). apply ss_app in A2 as (B1 & B2 & B3).
        apply ss_app in B1 as (C1 & C2 & C3). apply ss_app in B2 as (D1 & D2 & D3).
        apply ss_app. split; [|split; [done|]].
        -- apply ss_app. split; [done|]. split; [done|]. intros x y Hx Hy. apply A3; [done|].
           rewrite !elem_of_app. tauto.
        -- intros x y Hx Hy. rewrite elem_of_app in Hx. destruct Hx as [Hx|Hx].
           ++ apply A3; [done|]. rewrite !elem_of_app. tauto.
           ++ apply B3; rewrite !elem_of_app; tauto.
      * intros x Hx. apply O2. rewrite E, P. rewrite !fmap_app, !elem_of_app in *. simpl in *.
        rewrite elem_of_nil in Hx. tauto.
      * intros k' f' Hx. apply elem_of_app in Hx as [Hx|Hx]; [by apply O3 in Hx|].
        apply elem_of_cons in Hx as [Hx|Hx]; [done|].
        apply elem_of_app in Hx as [Hx|Hx]; apply elem_of_list_fmap in Hx as ([] & ? & _); done.
    + injection H as <- <-. split; unfold all_keys; rewrite ?emitted_app, ?app_nil_r; try done.
      intros k' f' Hx. apply elem_of_app in Hx as [Hx|Hx]; [by apply O3 in Hx|].
      by apply elem_of_list_singleton in Hx.
  - unfold make_room in H. destruct (max <? 1)%nat; [done|].
    destruct (max <=? length (completed st))%nat.
    + destruct (completed st) as [|[k f] c] eqn:E; [done|]. injection H as <- <-.
      assert (emitted (evs ++ [EvEvicted k f]) = emitted evs) as EE
        by by rewrite emitted_app, app_nil_r.
      split; unfold all_keys; cbn [processing completed]; rewrite ?EE.
      * rewrite fmap_cons in O1. apply ss_app in O1 as (A1 & A2 & A3).
        simpl in A2. apply StronglySorted_inv in A2 as [A2 _].
        apply ss_app. split; [done|]. split; [done|]. intros x y Hx Hy. apply A3; [done|].
        simpl. by right.
      * intros x Hx. apply O2. rewrite fmap_cons. rewrite !elem_of_app in *. rewrite elem_of_cons.
        tauto.
      * intros k' f' Hx. apply elem_of_app in Hx as [Hx|Hx]; [by apply O3 in Hx|].
        by apply elem_of_list_singleton in Hx.
    + injection H as <- <-. rewrite app_nil_r. done.
Qed.

Lemma run_ordered ncam tol acts : forall hi st evs st' e,
  Inv ncam tol st -> 0 <= tol -> Forall (legal ncam) acts ->
  run ncam tol st acts = Ok st' e -> Ordered hi st evs ->
  in_order Z.lt ncam tol hi st acts ->
  exists hi', Ordered hi' st' (evs ++ e).
Proof.
  induction acts as [|a acts IH]; intros hi st evs st' e I T L H O IO.
  - injection H as <- <-. rewrite app_nil_r. eauto.
  - apply Forall_cons in L as [L1 L2]. simpl in H, IO.
    destruct (step ncam tol st a) as [s1 e1| |] eqn:S; try done.
    destruct (run ncam tol s1 acts) as [s2 e2| |] eqn:R; try done. injection H as <- <-.
    pose proof (step_ordered _ _ _ _ _ _ _ _ I T L1 S O) as SO.
    pose proof (step_inv' _ _ _ _ _ _ I T L1 S) as I1.
    rewrite app_assoc.
    destruct a as [i| | |max]; try (by apply (IH hi s1)).
    destruct (existsb (fun k => Z.abs (k - stamp i) <=? tol) (keys (processing st))) eqn:B.
    + by apply (IH hi s1).
    + destruct IO as [IO1 IO2]. apply (IH (Some (stamp i)) s1); try done. by apply SO.
Qed.

Lemma order_lemma ncam tol acts st evs :
  0 <= tol -> Forall (legal ncam) acts -> run ncam tol init acts = Ok st evs ->
  in_order Z.lt ncam tol None init acts ->
  StronglySorted Z.lt (fst <$> emitted evs) /\ forall k f, EvShadowed k f ∉ evs.
Proof.
  intros T L H IO.
  destruct (run_ordered ncam tol acts None init [] st evs (inv_init _ _) T L H) as (hi & [O1 O2 O3]).
  - split; [constructor| |]; intros; match goal with X : _ ∈ _ |- _ => by apply elem_of_nil in X
      | _ => apply not_elem_of_nil end.
  - done.
  - split; [|done]. simpl in O1. unfold all_keys in O1. by apply ss_app in O1 as (O1 & _).
Qed.
