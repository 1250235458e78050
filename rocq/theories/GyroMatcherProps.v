(** Properties C42 - C44, C70, C71. *)
From Coq Require Import ZArith QArith Qround Qabs Bool Lia Lqa.
From stdpp Require Import list list_numbers gmap sorting.
From Verif Require Import StlHelpersModel GyroTrackerModel GyroMatcherModel GyroMatcherSpec GyroMatcherProofs GyroMatcherAssign.
Local Open Scope nat_scope.

Lemma setting_of x lut : sorts_by_y (std_sort x) -> 0 < img_height x -> (small x <= large x)%Z ->
  lut_loop (std_sort x (indexed (kps x))) (img_height x) 0 0 = Ok lut -> setting x lut.
Proof.
  intros Hs Hh Hw Hl. constructor; [done|done|done|]. fold (sorted_kps x) in Hl.
  destruct (Hs (indexed (kps x))) as [_ Hsorted]. fold (sorted_kps x) in Hsorted.
  apply lut_spec in Hl as [L Hl]; [|done|lia|lia]. by split.
Qed.
Lemma match_frames_inv stat x o : sorts_by_y (std_sort x) -> match_frames stat x = Ok o ->
  (o = [] /\ (num_k x = 0 \/ length (kps x) = 0)) \/ exists lut st,
    lut_loop (std_sort x (indexed (kps x))) (img_height x) 0 0 = Ok lut /\
    setting x lut /\ core x (used_bits stat x) st /\ out st = o /\ attempts_kept x (used_bits stat x) lut 0 (num_k x) st.
Proof.
  intros Hs H. unfold match_frames in H.
  destruct ((512 <? 8 * bytes x) || (img_height x =? 0) || negb (length (success x) =? length (preds x))
     || (small x <=? 0)%Z || (large x <=? 0)%Z || (large x <? small x)%Z) eqn:Hchk; [done|].
  apply orb_false_iff in Hchk as [Hchk H1]. apply orb_false_iff in Hchk as [Hchk _]. apply orb_false_iff in Hchk as [Hchk _].
  apply orb_false_iff in Hchk as [Hchk _]. apply orb_false_iff in Hchk as [_ H2].
  apply Z.ltb_ge in H1. apply Nat.eqb_neq in H2. cbn zeta in H.
  destruct (lut_loop (std_sort x (indexed (kps x))) (img_height x) 0 0) as [lut| |] eqn:Hl; [|done|done]. cbn [rbind] in H.
  destruct ((num_k x =? 0) || (length (kps x) =? 0)) eqn:H0.
  { injection H as <-. left. split; [done|]. apply orb_true_iff in H0 as [H0|H0]; apply Nat.eqb_eq in H0; tauto. }
  pose proof (setting_of x lut Hs ltac:(lia) ltac:(lia) Hl) as Hset. fold (sorted_kps x) in H.
  destruct (match_loop x (used_bits stat x) (sorted_kps x) lut (seq 0 (num_k x)) (mstate0 (length (kps x)))) as [st1| |] eqn:Hm; [|done|done].
  cbn [rbind] in H. apply match_loop_inv in Hm as (Hp & _ & Ha); [|done|lia|apply pass1_init].
  change (0 + num_k x) with (num_k x) in *. apply pass1_between in Hp.
  destruct (inferior_rounds_ok x (used_bits stat x) 3 st1 Hp) as (st2 & E & Hc & Hg). rewrite E in H. cbn [rbind] in H. injection H as <-.
  right. exists lut, st2. split; [done|]. split; [done|]. split; [done|]. split; [done|].
  intros k a sc cs Lk Hk. eapply claimed_grows; [|exact Hg]. by eapply Ha.
Qed.

(** ** C42 *)
Theorem mx_one_to_one stat x o : sorts_by_y (std_sort x) -> match_frames stat x = Ok o ->
  NoDup o.*1 /\ NoDup o.*2 /\
  forall a b, (a, b) ∈ o -> exists p q,
    success x !! b = Some true /\ preds x !! b = Some p /\ kps x !! a = Some q /\ near (large x) p q.
Proof.
  intros Hs H. apply match_frames_inv in H as [[-> _]|(lut & st & _ & _ & Hc & <- & _)]; [|split; [|split]|done].
  - split; [constructor|]. split; [constructor|]. intros a b H. by apply elem_of_nil in H.
  - apply NoDup_alt. intros i j a Hi Hj. apply list_lookup_fmap_Some in Hi as ([a1 b1] & Hi & ->).
    apply list_lookup_fmap_Some in Hj as ([a2 b2] & Hj & E). cbn in E. subst a2.
    apply (c_out _ _ _ Hc) in Hi, Hj. congruence.
  - apply (c_nodup _ _ _ Hc).
  - intros a b H. apply elem_of_list_lookup in H as [i Hi]. destruct (c_score _ _ _ Hc _ _ _ Hi) as (sc & _ & (_ & _ & _ & Hr) & _).
    exact Hr.
Qed.
Print Assumptions mx_one_to_one.

Theorem mx_threshold_partial stat x o a b : sorts_by_y (std_sort x) -> same_size stat x -> match_frames stat x = Ok o ->
  (a, b) ∈ o -> similar x b a.
Proof.
  intros Hs Hsame H Hab. apply match_frames_inv in H as [[-> _]|(lut & st & _ & _ & Hc & <- & _)]; [by apply elem_of_nil in Hab| |done].
  apply elem_of_list_lookup in Hab as [i Hi]. destruct (c_score _ _ _ Hc _ _ _ Hi) as (sc & _ & (E & HD & _) & Hg).
  cbn in E. assert (HDe : used_bits stat x = (8 * Z.of_nat (bytes x))%Z).
  { unfold used_bits. destruct stat as [z|]; [by apply Hsame|done]. }
  rewrite HDe in *. unfold similar. pose proof (Z.mul_succ_div_gt (4 * (8 * Z.of_nat (bytes x))) 5 ltac:(lia)). lia.
Qed.
Print Assumptions mx_threshold_partial.

(** ** C71 *)
Theorem mx_best_kept stat x o k a sc cs : sorts_by_y (std_sort x) -> match_frames stat x = Ok o -> k < num_k x ->
  attempt stat x k = Ok (Some (a, sc, cs)) ->
  (forall c s, (c, s) ∈ cs -> (dist x k a <= dist x k c)%Z) /\
  exists b, (a, b) ∈ o /\ (dist x b a <= dist x k a)%Z.
Proof.
  intros Hs H Lk Hat. unfold attempt in Hat. cbn zeta in Hat.
  destruct (lut_loop (std_sort x (indexed (kps x))) (img_height x) 0 0) as [lut| |] eqn:Hl; [|done|done]. cbn [rbind] in Hat.
  fold (sorted_kps x) in Hat.
  assert (H' := H). apply match_frames_inv in H' as [[-> [?|H0]]|(lut' & st & Hl' & Hset & Hc & <- & Ha)]; [lia| | |done].
  - exfalso. unfold match_frames in H.
    destruct ((512 <? 8 * bytes x) || (img_height x =? 0) || negb (length (success x) =? length (preds x))
     || (small x <=? 0)%Z || (large x <=? 0)%Z || (large x <? small x)%Z) eqn:Hchk; [done|].
    apply orb_false_iff in Hchk as [Hchk H1]. apply orb_false_iff in Hchk as [Hchk _]. apply orb_false_iff in Hchk as [Hchk _].
    apply orb_false_iff in Hchk as [Hchk _]. apply orb_false_iff in Hchk as [_ H2]. apply Z.ltb_ge in H1. apply Nat.eqb_neq in H2.
    pose proof (setting_of x lut Hs ltac:(lia) ltac:(lia) Hl) as Hset.
    destruct (search_spec x _ lut k _ Hs (set_height _ _ Hset) (set_win _ _ Hset) (set_lut _ _ Hset) Hat) as (F & Hin & _).
    rewrite Forall_forall in F. apply F in Hin as (_ & _ & L & _). cbn in L. lia.
  - assert (lut' = lut) as -> by congruence.
    destruct (search_spec x _ lut k _ Hs (set_height _ _ Hset) (set_win _ _ Hset) (set_lut _ _ Hset) Hat) as (F & Hin & _ & Hmax).
    rewrite Forall_forall in F, Hmax. destruct (F _ Hin) as (Esc & _). cbn in Esc. split.
    + intros c s Hc'. destruct (F _ Hc') as (Es & _). specialize (Hmax _ Hc'). cbn in Es, Hmax. lia.
    + destruct (Ha k a sc cs ltac:(lia) Hat) as (sc' & Hs' & L).
      destruct (pos st !! a) as [p|] eqn:Hp; [|by rewrite (c_dom _ _ _ Hc a Hp) in Hs'].
      destruct (c_pos _ _ _ Hc a p Hp) as [b Hb]. exists b. split; [by eapply elem_of_list_lookup_2|].
      destruct (c_score _ _ _ Hc _ _ _ Hb) as (sc2 & Hs2 & (E2 & _) & _). cbn in E2. assert (sc2 = sc') by congruence. lia.
Qed.
Print Assumptions mx_best_kept.

(** ** C70 *)
Theorem mx_no_abort_partial stat x : proper x -> same_size stat x ->
  (forall b a, b < num_k x -> a < length (kps x) -> (dist x b a < 8 * Z.of_nat (bytes x))%Z) ->
  exists o, match_frames stat x = Ok o.
Proof.
  intros Hx Hsame Hd. unfold match_frames. pose proof (pr_bytes x Hx). pose proof (pr_height x Hx). pose proof (pr_windows x Hx).
  rewrite (proj2 (Nat.ltb_ge _ _)) by lia. rewrite (proj2 (Nat.eqb_neq _ 0)) by lia.
  rewrite (pr_success x Hx), (pr_num x Hx), Nat.eqb_refl.
  rewrite !(proj2 (Z.leb_gt _ _)) by lia. rewrite (proj2 (Z.ltb_ge _ _)) by lia. cbn [orb negb].
  destruct (lut_total (std_sort x (indexed (kps x))) (img_height x)) with (y := 0%Z) (v := 0) as [lut Hl].
  { rewrite Forall_forall. intros k Hk. apply (sorted_kps_spec x k (pr_sort x Hx)) in Hk. apply elem_of_list_lookup_2 in Hk.
    pose proof (pr_kps x Hx) as F. rewrite Forall_forall in F. by apply (F _ Hk). }
  rewrite Hl. cbn [rbind]. destruct (_ || _); [eauto|]. fold (sorted_kps x).
  pose proof (setting_of x lut (pr_sort x Hx) ltac:(lia) ltac:(lia) Hl) as Hset.
  assert (HD : used_bits stat x = (8 * Z.of_nat (bytes x))%Z).
  { unfold used_bits. destruct stat as [z|]; [by apply Hsame|done]. }
  destruct (match_loop_total x (used_bits stat x) lut (num_k x) Hset 0 (mstate0 (length (kps x)))) as [st Hst]; [lia|apply pass1_init| |].
  { intros k Lk. apply search_total; [done|rewrite HD; lia|apply (set_lut _ _ Hset)|done|].
    intros a La. pose proof (pr_dist x Hx k a Lk La). pose proof (Hd k a Lk La). rewrite HD. lia. }
  rewrite Hst. cbn [rbind]. apply match_loop_inv in Hst as (Hp & _); [|done|lia|apply pass1_init].
  apply pass1_between in Hp. destruct (inferior_rounds_ok x (used_bits stat x) 3 st Hp) as (st2 & E & _). rewrite E. cbn [rbind]. eauto.
Qed.
Print Assumptions mx_no_abort_partial.

(** ** C44 *)
Lemma max_trunc_floor q : Z.max (trunc q) 0 = Z.max (Qfloor q) 0.
Proof.
  destruct (Qlt_le_dec q 0) as [L|L]; [|by rewrite trunc_floor].
  destruct (trunc_nonpos q ltac:(lra)) as (_ & _ & H). assert (Qfloor q <= 0)%Z; [|lia].
  change 0%Z with (Qfloor 0). apply Qfloor_resp_le. lra.
Qed.
Theorem mx_window_rows_partial s h lut p w l : StronglySorted (fun a b => (ky a <= ky b)%Q) s -> 0 < h ->
  Forall (fun k => (0 <= ky k)%Q) s -> lut_loop s h 0 0 = Ok lut -> window s lut h p w = Ok l ->
  l `sublist_of` s /\
  (forall k, k ∈ l <-> k ∈ s /\ (first_row h p w <= row (ky k) < end_row h p w)%Z) /\
  (forall k, k ∈ s -> (row (ky k) < Z.of_nat h - 1)%Z -> (Qabs (ky k - p.2) < inject_Z w - (1 # 2))%Q -> k ∈ l).
Proof.
  intros Hs Hh F Hl H.
  assert (Hlut : lut_ok s h lut). { apply lut_spec in Hl as [L Hl]; [by split|done|lia|lia]. }
  assert (Hall : forall k, k ∈ l <-> k ∈ s /\ (first_row h p w <= row (ky k) < end_row h p w)%Z).
  { intros k. apply (window_spec s lut h p w l Hh Hlut) in H as [_ H]. rewrite H. unfold top_row, bottom_row, clamp, first_row, end_row, row.
    rewrite !max_trunc_floor. split; intros [Hk L]; (split; [done|]); rewrite Forall_forall in F; specialize (F k Hk);
      rewrite (trunc_floor (ky k) F) in *; done. }
  split; [|split; [done|]].
  - unfold window in H. destruct (w <=? 0)%Z; [done|].
    destruct (to_int _) as [t| |]; [|done|done]. cbn [rbind] in H. destruct (to_int _) as [b| |]; [|done|done]. cbn [rbind] in H.
    destruct (at_ub lut _) as [i| |]; [|done|done]. cbn [rbind] in H. destruct (at_ub lut _) as [j| |]; [|done|done]. cbn [rbind] in H.
    destruct (_ <=? _)%Z; [|done]. injection H as <-. etransitivity; [apply sublist_take|apply sublist_drop].
  - intros k Hk Hr Hn. apply Hall. split; [done|]. apply Qabs_Qlt_condition in Hn as [N1 N2]. unfold first_row, end_row, row in *.
    rewrite Forall_forall in F. specialize (F k Hk).
    assert (L1 : (Qfloor (p.2 + (1 # 2) - inject_Z w) <= Qfloor (ky k))%Z) by (apply Qfloor_resp_le; lra).
    assert (L2 : (0 <= Qfloor (ky k))%Z) by (change 0%Z with (Qfloor 0); apply Qfloor_resp_le; lra).
    assert (L3 : (Qfloor (ky k) + 1 <= Qfloor (p.2 + (1 # 2) + inject_Z w))%Z).
    { rewrite <- (Qfloor_Z (Qfloor (ky k) + 1)). apply Qfloor_resp_le. rewrite inject_Z_plus. pose proof (Qfloor_le (ky k)).
      change (inject_Z 1) with 1%Q. lra. }
    lia.
Qed.
Print Assumptions mx_window_rows_partial.
(** The search window is undefined exactly if one of its bounds does not fit into an int: predictions far outside of the image are not clamped before the conversion. *)
Lemma to_int_defined q : to_int q <> Ub <-> (-2147483649 < q)%Q /\ (q < 2147483648)%Q.
Proof.
  assert (E : to_int q <> Ub <-> (-2147483648 <= trunc q)%Z /\ (trunc q < 2147483648)%Z).
  { unfold to_int. change (- 2 ^ 31)%Z with (-2147483648)%Z. change (2 ^ 31)%Z with 2147483648%Z.
    destruct (Z.leb_spec (-2147483648) (trunc q)), (Z.ltb_spec (trunc q) 2147483648); cbn; split; intros K; try done; try lia. }
  rewrite E. clear E. destruct (Qlt_le_dec q 0) as [L|L].
  - destruct (trunc_nonpos q ltac:(lra)) as (A & B & C). split; intros [K1 K2].
    + rewrite Zle_Qle in K1. change (inject_Z (-2147483648)) with (-2147483648)%Q in K1. lra.
    + split; [|lia]. apply Z.nlt_ge. intros D. assert (D2 : (trunc q <= -2147483649)%Z) by lia. rewrite Zle_Qle in D2. change (inject_Z (-2147483649)) with (-2147483649)%Q in D2. lra.
  - destruct (trunc_pos q L) as (A & B & C). split; intros [K1 K2].
    + assert (D2 : (trunc q <= 2147483647)%Z) by lia. rewrite Zle_Qle in D2. change (inject_Z 2147483647) with 2147483647%Q in D2. lra.
    + split; [lia|]. rewrite Zlt_Qlt. change (inject_Z 2147483648) with 2147483648%Q. lra.
Qed.
Theorem mx_window_defined s h lut p w : 0 < h -> length lut = h -> (0 < w)%Z ->
  window s lut h p w <> Ub <-> (-2147483649 < p.2 + (1 # 2) - inject_Z w)%Q /\ (p.2 + (1 # 2) + inject_Z w < 2147483648)%Q.
Proof.
  intros Hh Hl Hw. assert (W : (0 < inject_Z w)%Q) by (change 0%Q with (inject_Z 0); by rewrite <- Zlt_Qlt).
  pose proof (to_int_defined (p.2 + (1 # 2) - inject_Z w)%Q) as T. pose proof (to_int_defined (p.2 + (1 # 2) + inject_Z w)%Q) as B.
  unfold window. destruct (Z.leb_spec w 0); [lia|].
  destruct (to_int (p.2 + (1 # 2) - inject_Z w)%Q) as [t| |] eqn:ET; cbn [rbind].
  - destruct (to_int (p.2 + (1 # 2) + inject_Z w)%Q) as [b| |] eqn:EB; cbn [rbind].
    + assert (forall z, exists i, at_ub lut (Z.to_nat (clamp 0 (Z.of_nat h - 1) z)) = Ok i) as AT.
      { intros z. unfold at_ub. destruct (lut !! Z.to_nat (clamp 0 (Z.of_nat h - 1) z)) as [i|] eqn:E; [by exists i|]. apply lookup_ge_None in E. unfold clamp in E. lia. }
      destruct (AT t) as [i ->], (AT b) as [j ->]. cbn [rbind]. split; [|by destruct (_ <=? _)%Z].
      intros _. assert (Ok t <> Ub) as TO by done. assert (Ok b <> Ub) as BO by done. apply T in TO. apply B in BO. lra.
    + unfold to_int in EB. by destruct (_ && _).
    + split; [done|]. intros [K1 K2]. exfalso. apply (proj2 B); [lra|done].
  - unfold to_int in ET. by destruct (_ && _).
  - split; [done|]. intros [K1 K2]. exfalso. apply (proj2 T); [lra|done].
Qed.
Print Assumptions mx_window_defined.

(** A keypoint of the last row is not found, even exactly at the predicted position, whatever the window. *)
Theorem mx_last_row_refuted : exists s h lut k, s = [k] /\ (0 <= kx k)%Q /\ (0 <= ky k < inject_Z (Z.of_nat h))%Q /\
  lut_loop s h 0 0 = Ok lut /\
  forall w l, window s lut h (kx k, ky k) w = Ok l -> k ∉ l.
Proof.
  exists [Kp 5 9 0], 10, [0; 0; 0; 0; 0; 0; 0; 0; 0; 0], (Kp 5 9 0). split; [done|]. split; [by vm_compute|]. split; [by vm_compute|].
  assert (Hl : lut_loop [Kp 5 9 0] 10 0 0 = Ok [0; 0; 0; 0; 0; 0; 0; 0; 0; 0]) by (by vm_compute).
  split; [done|]. intros w l H.
  apply (mx_window_rows_partial _ _ _ _ _ _) in H as (_ & H & _); [|repeat constructor|lia|repeat constructor; by vm_compute|done].
  rewrite H. intros [_ [_ L]]. unfold end_row, row in L. cbn [ky] in L. change (Qfloor 9) with 9%Z in L. lia.
Qed.
Print Assumptions mx_last_row_refuted.

(** ** C43 *)
Definition in_cols (lo hi : Z) (k : kp) : bool := negb (Qltb (kx k) (inject_Z lo) || Qltb (inject_Z hi) (kx k)).
Definition ins (m : Z * Z) (d : Z) : Z * Z :=
  if (d <? m.1)%Z then (d, m.1) else if (d <? m.2)%Z then (m.1, d) else m.
Lemma visit_best D d c s s' : visit D d c s = Ok s' -> best s' = Z.max (best s) (D - d).
Proof.
  unfold visit. cbn zeta. destruct (_ && _); [|done]. intros [= <-]. cbn.
  destruct (Z.ltb_spec (best s) (D - d)); cbn; [lia|]. destruct (_ <? _)%Z; cbn; lia.
Qed.
Lemma scan_best D n1 dk lo hi : forall l s s', scan_loop D n1 dk [] lo hi l s = Ok s' ->
  best s' = foldr (fun k m => Z.max (D - dk (ci k)) m) (best s) (List.filter (in_cols lo hi) l).
Proof.
  induction l as [|k l IH]; intros s s' H; cbn [scan_loop List.filter] in *; [by injection H as <-|].
  rewrite bool_decide_eq_false_2 in H by apply not_elem_of_nil. cbn [orb] in H. unfold in_cols at 1.
  destruct (Qltb (kx k) (inject_Z lo) || Qltb (inject_Z hi) (kx k)); cbn [negb]; [by apply IH|].
  destruct (n1 <=? ci k); [done|]. destruct (visit D (dk (ci k)) (ci k) s) as [s1| |] eqn:Hv; [|done|done]. cbn [rbind] in H.
  apply IH in H. rewrite H. apply visit_best in Hv. rewrite Hv. cbn [foldr].
  generalize (List.filter (in_cols lo hi) l). intros r. induction r as [|k' r IHr]; cbn; lia.
Qed.
Lemma filter_perm {A} (f : A -> bool) l l' : l ≡ₚ l' -> List.filter f l ≡ₚ List.filter f l'.
Proof.
  induction 1 as [|a l l' _ IH|a b l|l l' l'' _ IH1 _ IH2]; cbn; [done| | |by etransitivity].
  - destruct (f a); [by constructor|done].
  - destruct (f a), (f b); try done. constructor.
Qed.
Lemma foldr_max_perm (g : kp -> Z) b l l' : l ≡ₚ l' ->
  foldr (fun k m => Z.max (g k) m) b l = foldr (fun k m => Z.max (g k) m) b l'.
Proof. induction 1; cbn; lia. Qed.
Lemma ins_comm m a b : (m.1 <= m.2)%Z -> ins (ins m a) b = ins (ins m b) a.
Proof.
  destruct m as [m1 m2]. unfold ins. cbn [fst snd]. intros H.
  repeat (match goal with |- context [(?u <? ?v)%Z] => destruct (Z.ltb_spec u v) end; cbn [fst snd] in *);
    try lia; try reflexivity; f_equal; lia.
Qed.
Lemma ins_le m a : (m.1 <= m.2)%Z -> ((ins m a).1 <= (ins m a).2)%Z.
Proof.
  unfold ins. destruct (Z.ltb_spec a m.1); cbn; [lia|]. destruct (Z.ltb_spec a m.2); cbn; lia.
Qed.
Lemma fold_ins_perm l l' : l ≡ₚ l' -> forall m, (m.1 <= m.2)%Z -> foldl ins m l = foldl ins m l'.
Proof.
  induction 1 as [|a l l' _ IH|a b l|l l' l'' _ IH1 _ IH2]; intros m Hm; cbn; [done| | |by rewrite IH1, IH2].
  - apply IH. by apply ins_le.
  - by rewrite ins_comm.
Qed.
Lemma scan_two D n1 dk lo hi : forall l s s', scan_ok D dk (fun _ => True) s -> scan_loop D n1 dk [] lo hi l s = Ok s' ->
  (forall k, k ∈ l -> in_cols lo hi k = true -> qualifies D (dk (ci k))) ->
  (d1 s', d2 s') = foldl ins (d1 s, d2 s) (map (fun k => dk (ci k)) (List.filter (in_cols lo hi) l)).
Proof.
  induction l as [|k l IH]; intros s s' Hok H Hq; cbn [scan_loop List.filter map foldl] in *; [by injection H as <-|].
  rewrite bool_decide_eq_false_2 in H by apply not_elem_of_nil. cbn [orb] in H.
  assert (Hq' : forall k, k ∈ l -> in_cols lo hi k = true -> qualifies D (dk (ci k))) by (intros k' Hk'; apply Hq; set_solver).
  specialize (Hq k ltac:(set_solver)). unfold in_cols in Hq. unfold in_cols at 1.
  destruct (Qltb (kx k) (inject_Z lo) || Qltb (inject_Z hi) (kx k)); cbn [negb] in *; [by apply IH|].
  specialize (Hq eq_refl). unfold qualifies in Hq.
  destruct (n1 <=? ci k); [done|]. destruct (visit D (dk (ci k)) (ci k) s) as [s1| |] eqn:Hv; [|done|done]. cbn [rbind] in H.
  assert (Hok1 : scan_ok D dk (fun _ => True) s1) by (by eapply visit_ok).
  rewrite (IH s1 s' Hok1 H Hq'). cbn [map foldl]. f_equal.
  unfold visit in Hv. cbn zeta in Hv. destruct (_ && _) eqn:Hchk; [|done]. injection Hv as <-.
  apply andb_true_iff in Hchk as [Hchk _]. apply andb_true_iff in Hchk as [Hc1 Hc2]. apply Z.ltb_lt in Hc1. apply Z.leb_le in Hc2.
  destruct Hok as [_ Hh]. unfold ins. cbn [fst snd d1 d2].
  destruct (hit s) as [a|].
  - destruct Hh as (E1 & E2 & _ & _ & _). destruct (Z.ltb_spec (best s) (D - dk (ci k))) as [L|L]; cbn [d1 d2].
    + rewrite (proj2 (Z.ltb_lt _ _)) by lia. done.
    + rewrite (proj2 (Z.ltb_ge (dk (ci k)) (d1 s))) by lia. destruct (_ <? _)%Z; done.
  - destruct Hh as [E1 E2].
    rewrite (proj2 (Z.ltb_lt (best s) _)).
    + cbn [d1 d2]. rewrite (proj2 (Z.ltb_lt _ _)) by lia. done.
    + rewrite E1. apply Z.div_lt_upper_bound; lia.
Qed.
Theorem mx_decision_order_partial D n1 dk lo hi l l' s s' : l ≡ₚ l' ->
  scan_loop D n1 dk [] lo hi l (scan0 D) = Ok s -> scan_loop D n1 dk [] lo hi l' (scan0 D) = Ok s' ->
  (is_Some (hit s) <-> is_Some (hit s')) /\ best s = best s' /\ d1 s = d1 s' /\
  ((forall k, k ∈ l -> (inject_Z lo <= kx k <= inject_Z hi)%Q -> qualifies D (dk (ci k))) ->
   ratio_test D (d1 s) (d2 s) = ratio_test D (d1 s') (d2 s')).
Proof.
  intros HP H H'.
  assert (Hb : best s = best s').
  { rewrite (scan_best _ _ _ _ _ _ _ _ H), (scan_best _ _ _ _ _ _ _ _ H'). apply foldr_max_perm. by apply filter_perm. }
  assert (Hok : scan_ok D dk (fun _ => True) s) by (eapply scan_loop_ok; [|apply scan0_ok|exact H]; done).
  assert (Hok' : scan_ok D dk (fun _ => True) s') by (eapply scan_loop_ok; [|apply scan0_ok|exact H']; done).
  assert (Hh : (is_Some (hit s) <-> is_Some (hit s')) /\ d1 s = d1 s').
  { destruct Hok as [_ Hh], Hok' as [_ Hh']. destruct (hit s), (hit s').
    - destruct Hh as (? & ? & _), Hh' as (? & ? & _). split; [done|lia].
    - destruct Hh as (? & ? & _ & _ & ?), Hh' as (? & ?). lia.
    - destruct Hh as (? & ?), Hh' as (? & ? & _ & _ & ?). lia.
    - destruct Hh as (? & ?), Hh' as (? & ?). split; [done|lia]. }
  split; [tauto|]. split; [done|]. split; [tauto|]. intros Hq.
  assert (Hq' : forall k, k ∈ l -> in_cols lo hi k = true -> qualifies D (dk (ci k))).
  { intros k Hk Hc. apply Hq; [done|]. unfold in_cols in Hc. apply negb_true_iff, orb_false_iff in Hc as [H1 H2].
    split; by apply Qltb_false. }
  pose proof (scan_two _ _ _ _ _ _ _ _ (scan0_ok D dk _) H Hq') as E.
  assert (Hq2 : forall k, k ∈ l' -> in_cols lo hi k = true -> qualifies D (dk (ci k))) by (intros k Hk; apply Hq'; by rewrite HP).
  pose proof (scan_two _ _ _ _ _ _ _ _ (scan0_ok D dk _) H' Hq2) as E'.
  rewrite (fold_ins_perm _ (map (fun k => dk (ci k)) (List.filter (in_cols lo hi) l'))) in E; [|by apply Permutation_map, filter_perm|cbn; lia].
  rewrite <- E' in E. injection E as E1 E2. by rewrite E1, E2.
Qed.
Print Assumptions mx_decision_order_partial.

(** ** C72 *)
Definition distinct (D : Z) (dk : nat -> Z) (s : scan) : Prop :=
  scan_ok D dk (fun _ => True) s /\
  forall a c m, hit s = Some a -> (c, m) ∈ cands s -> c <> a -> (4 * D / 5 < m)%Z -> (d2 s <= dk c)%Z.
Lemma visit_distinct D dk c s s' : distinct D dk s -> visit D (dk c) c s = Ok s' -> distinct D dk s'.
Proof.
  intros [Hok Hd] H. split; [by eapply visit_ok|]. unfold visit in H. cbn zeta in H. destruct (_ && _); [|done]. injection H as <-.
  destruct Hok as [Hc Hh]. rewrite Forall_forall in Hc. cbn. intros a c' m.
  destruct (Z.ltb_spec (best s) (D - dk c)) as [L|L]; cbn.
  - intros [= <-] Hin N Hm. apply elem_of_app in Hin as [Hin|Hin].
    + destruct (Hc _ Hin) as (E & _ & _ & Hle). cbn in E, Hle. destruct (hit s) as [a|].
      * destruct Hh as (? & ? & _). lia.
      * destruct Hh as (? & ?). lia.
    + apply elem_of_list_singleton in Hin. by injection Hin as -> ->.
  - destruct (Z.ltb_spec (dk c) (d2 s)) as [L2|L2]; cbn; intros Ha Hin N Hm; apply elem_of_app in Hin as [Hin|Hin].
    + specialize (Hd a c' m Ha Hin N Hm). lia.
    + apply elem_of_list_singleton in Hin. by injection Hin as -> ->.
    + by eapply (Hd a).
    + apply elem_of_list_singleton in Hin. by injection Hin as -> ->.
Qed.
Lemma scan_loop_distinct D n1 dk skip lo hi : forall l s s', distinct D dk s -> scan_loop D n1 dk skip lo hi l s = Ok s' -> distinct D dk s'.
Proof.
  induction l as [|k l IH]; intros s s' Hs H; cbn in H; [by injection H as <-|].
  destruct (_ || _); [by apply (IH s)|]. destruct (n1 <=? ci k); [done|].
  destruct (visit D (dk (ci k)) (ci k) s) as [s1| |] eqn:Hv; [|done|done]. cbn [rbind] in H.
  apply (IH s1); [|done]. by eapply visit_distinct.
Qed.
Lemma scan_window_distinct x D s lut k p w skip st st' : distinct D (dist x k) st ->
  scan_window x D s lut k p w skip st = Ok st' -> distinct D (dist x k) st'.
Proof.
  intros Hs H. unfold scan_window in H.
  destruct (window _ _ _ _ _) as [l| |]; [|done|done]. cbn [rbind] in H.
  destruct (to_int _) as [lo| |]; [|done|done]. cbn [rbind] in H. destruct (to_int _) as [hi| |]; [|done|done]. cbn [rbind] in H.
  by eapply scan_loop_distinct.
Qed.
(** An accepted best candidate is clearly better than every other candidate that could have been a match. *)
Theorem mx_distinctive stat x k a sc cs c m : attempt stat x k = Ok (Some (a, sc, cs)) -> same_size stat x ->
  (c, m) ∈ cs -> c <> a -> similar x k c -> (0 < dist x k a)%Z ->
  (5 * dist x k a < 4 * dist x k c)%Z.
Proof.
  intros H Hsame Hin N Hsim Hpos. unfold attempt in H. cbn zeta in H.
  destruct (lut_loop _ _ _ _) as [lut| |]; [|done|done]. cbn [rbind] in H.
  assert (HD : used_bits stat x = (8 * Z.of_nat (bytes x))%Z).
  { unfold used_bits. destruct stat as [z|]; [by apply Hsame|done]. }
  rewrite HD in H. set (D := (8 * Z.of_nat (bytes x))%Z) in *.
  unfold search, at_ub in H. destruct (success x !! k) as [ok|]; [|done]. cbn [rbind] in H. destruct ok; [|done]. cbn [negb] in H.
  destruct (preds x !! k) as [p|]; [|done]. cbn [rbind] in H.
  destruct (scan_window x D (std_sort x (indexed (kps x))) lut k p (small x) [] (scan0 D)) as [s1| |] eqn:Hs1; [|done|done]. cbn [rbind] in H.
  apply scan_window_distinct in Hs1; [|split; [apply scan0_ok|done]].
  destruct (match hit s1 with Some _ => Ok s1 | None => scan_window x D (std_sort x (indexed (kps x))) lut k p (large x) (cands s1).*1 s1 end)
    as [s2| |] eqn:Hs2; [|done|done]. cbn [rbind] in H.
  assert (Hd2 : distinct D (dist x k) s2).
  { destruct (hit s1); [by injection Hs2 as <-|]. by eapply scan_window_distinct. }
  destruct (hit s2) as [a'|] eqn:Hhit; [|done].
  destruct (ratio_test D (d1 s2) (d2 s2)) as [b| |] eqn:Hr; [|done|done]. cbn [rbind] in H. destruct b; [|done]. injection H as -> <- <-.
  destruct Hd2 as [[Hc Hh] Hd]. rewrite Hhit in Hh. destruct Hh as (E1 & E2 & _ & L12 & _).
  rewrite Forall_forall in Hc. destruct (Hc _ Hin) as (Em & HD0 & _ & Hle). cbn in Em, Hle.
  unfold similar in Hsim. fold D in Hsim.
  assert (Hq : (4 * D / 5 < m)%Z) by (apply Z.div_lt_upper_bound; lia).
  specialize (Hd a c m Hhit Hin N Hq). unfold ratio_test in Hr.
  destruct (Z.ltb_spec (d2 s2) (d1 s2)); [done|]. destruct (Z.ltb_spec D (d2 s2)); [lia|].
  destruct (Z.eqb_spec (d2 s2) 0); [lia|]. injection Hr as Hr. apply Z.ltb_lt in Hr. lia.
Qed.
Print Assumptions mx_distinctive.

(** ** Examples *)
Definition Y (a b : kp) : Prop := (ky a <= ky b)%Q.
Global Instance Y_dec a b : Decision (Y a b).
Proof. unfold Y. destruct (Qle_bool (ky a) (ky b)) eqn:E; [left; by apply Qle_bool_iff|right; intros H; apply Qle_bool_iff in H; congruence]. Defined.
Definition sort1 (l : list kp) := merge_sort Y l.
Definition sort2 (l : list kp) := merge_sort Y (rev l).
Lemma sort1_sorts : sorts_by_y sort1.
Proof.
  intros l. split; [apply merge_sort_Permutation|].
  assert (Ht : Transitive Y) by (unfold Y; intros p q r; apply Qle_trans).
  assert (Ho : Total Y) by (unfold Y; intros p q; destruct (Qlt_le_dec (ky p) (ky q)) as [L|L]; [left; by apply Qlt_le_weak|by right]).
  exact (StronglySorted_merge_sort Y l).
Qed.
Lemma sort2_sorts : sorts_by_y sort2.
Proof.
  intros l. destruct (sort1_sorts (rev l)) as [H1 H2]. split; [|exact H2]. etransitivity; [exact H1|]. symmetry. apply Permutation_rev.
Qed.
(** Keypoints of frame k+1 at (20, 50) and (22, 50); all predictions at (20, 50). *)
Definition ex_in (b n : nat) (d : nat -> nat -> Z) : minput :=
  MInput b [(20, 50); (22, 50)]%Q n d (replicate n (20, 50)%Q) (replicate n true) 100 10 20 sort1.
Lemma ex_proper b n d : 0 < b <= 64 -> (forall k a, k < n -> a < 2 -> (0 <= d k a <= 8 * Z.of_nat b)%Z) -> proper (ex_in b n d).
Proof.
  intros Hb Hd. constructor; cbn; [done|lia|lia| | | | |apply sort1_sorts|done].
  - repeat constructor; by vm_compute.
  - apply Forall_replicate. split; by vm_compute.
  - apply replicate_length.
  - apply replicate_length.
Qed.

(** The first call that searches at all fixes the descriptor size, and no later call changes it. *)
Theorem mx_first_call : forall x b,
  stat_after (Some b) x = Some b /\
  (stat_after None x = Some (8 * Z.of_nat (bytes x))%Z <-> kps x <> [] /\ exists k, k < num_k x /\ success x !! k = Some true) /\
  (stat_after None x = None <-> kps x = [] \/ forall k, k < num_k x -> success x !! k <> Some true).
Proof.
  intros x b. unfold stat_after, used_bits. split.
  { by destruct (_ && _). }
  assert (H : negb (num_k x =? 0) && negb (length (kps x) =? 0) && bool_decide (true ∈ take (num_k x) (success x)) = true <->
    kps x <> [] /\ exists k, k < num_k x /\ success x !! k = Some true).
  { rewrite !andb_true_iff, bool_decide_eq_true, elem_of_list_lookup. split.
    - intros [[_ H] (k & Hk)]. apply lookup_take_Some in Hk as [Hk Hl]. split; [|by exists k]. intros E. by rewrite E in H.
    - intros [H (k & Hk & Hs)]. split; [split|].
      + apply negb_true_iff, Nat.eqb_neq. lia.
      + apply negb_true_iff, Nat.eqb_neq. by destruct (kps x).
      + exists k. by apply lookup_take_Some. }
  destruct (_ && _); cbn.
  - split; [by split; [intros _; apply H|]|]. split; [done|]. intros [E|E]; destruct (proj1 H eq_refl) as [Hk (k & ? & ?)]; [done|]. by destruct (E k).
  - split; [split; [done|]; intros E; by apply H in E|]. split; [intros _|done].
    destruct (kps x) eqn:E; [by left|right]. intros k Hk Hs. assert (false = true); [|done]. apply H. split; [done|by exists k].
Qed.
Print Assumptions mx_first_call.

(** The first call fixes the descriptor size for the whole process: 32-byte descriptors are then compared
    with the threshold of 64-byte ones, and a pair that differs in 100 of 256 bits is a match. *)
Theorem mx_threshold_refuted : exists x1 x2 o1 o2 a b, proper x1 /\ proper x2 /\
  match_frames None x1 = Ok o1 /\ match_frames (stat_after None x1) x2 = Ok o2 /\ (a, b) ∈ o2 /\ ~ similar x2 b a.
Proof.
  exists (ex_in 64 1 (fun _ a => if a =? 0 then 5%Z else 200%Z)), (ex_in 32 1 (fun _ a => if a =? 0 then 100%Z else 200%Z)), [(0, 0)], [(0, 0)], 0, 0.
  split; [apply ex_proper; [lia|intros k a _ _; destruct (a =? 0); lia]|]. split; [apply ex_proper; [lia|intros k a _ _; destruct (a =? 0); lia]|].
  split; [by vm_compute|]. split; [by vm_compute|]. split; [by apply elem_of_list_singleton|]. unfold similar. cbn. lia.
Qed.
Print Assumptions mx_threshold_refuted.

(** With descriptors of different sizes in one process the second call can also abort. *)
Theorem mx_sizes_abort_refuted : exists x1 x2 o1, proper x1 /\ proper x2 /\
  (forall b a, (dist x2 b a < 8 * Z.of_nat (bytes x2))%Z) /\
  match_frames None x1 = Ok o1 /\ match_frames None x2 = Ok [] /\ match_frames (stat_after None x1) x2 = Abort.
Proof.
  exists (ex_in 32 1 (fun _ a => if a =? 0 then 5%Z else 200%Z)), (ex_in 64 1 (fun _ _ => 300)%Z), [(0, 0)].
  split; [apply ex_proper; [lia|intros k a _ _; destruct (a =? 0); lia]|]. split; [apply ex_proper; [lia|intros k a _ _; lia]|].
  split; [intros b a; cbn; lia|]. split; [by vm_compute|]. split; by vm_compute.
Qed.
Print Assumptions mx_sizes_abort_refuted.

(** Two complementary descriptors in one window abort the process. *)
Theorem mx_complement_abort_refuted : exists x, proper x /\ match_frames None x = Abort.
Proof.
  exists (ex_in 64 1 (fun _ a => if a =? 0 then 5%Z else 512%Z)). split; [|by vm_compute].
  apply ex_proper; [lia|]. intros k a _ _. destruct (a =? 0); lia.
Qed.
Print Assumptions mx_complement_abort_refuted.

(** The candidates at distances 100 and 110 have the same row: which one is visited first is up to std::sort,
    and it decides whether the best candidate is accepted. *)
Theorem mx_decision_order_refuted : exists x f g, proper (with_sort x f) /\ proper (with_sort x g) /\
  match_frames None (with_sort x f) = Ok [] /\ match_frames None (with_sort x g) = Ok [(0, 0)].
Proof.
  set (x := ex_in 64 1 (fun _ a => if a =? 0 then 100%Z else 110%Z)).
  assert (Hx : proper x) by (apply ex_proper; [lia|intros k a _ _; destruct (a =? 0); lia]).
  exists x, sort1, sort2. split; [exact Hx|]. split; [|split; by vm_compute].
  destruct Hx. constructor; try done. apply sort2_sorts.
Qed.
Print Assumptions mx_decision_order_refuted.

(** Two keypoints of frame k compete for keypoint 0; the better one gets it, the other one the second best. *)
Example ex_compete :
  match_frames None (ex_in 64 2 (fun k a => if a =? 0 then (if k =? 0 then 20%Z else 10%Z) else (if k =? 0 then 50%Z else 90%Z))) = Ok [(0, 1); (1, 0)] /\
  (exists cs, attempt None (ex_in 64 2 (fun k a => if a =? 0 then (if k =? 0 then 20%Z else 10%Z) else (if k =? 0 then 50%Z else 90%Z))) 0 = Ok (Some (0, 492%Z, cs))).
Proof. split; [by vm_compute|]. eexists. by vm_compute. Qed.
(** In a call with three competitors the strict threshold leaves one without match. *)
Example ex_three :
  match_frames None (ex_in 64 3 (fun k a => if a =? 0 then (Z.of_nat k * 5)%Z else (50 + Z.of_nat k)%Z)) = Ok [(0, 0); (1, 1)].
Proof. by vm_compute. Qed.
Example ex_order : exists s s', let l := [Kp 20 50 0; Kp 22 50 1; Kp 300 50 2] in
  let dk := fun a => if a =? 0 then 40%Z else 30%Z in
  scan_loop 512 3 dk [] 10 30 l (scan0 512) = Ok s /\ scan_loop 512 3 dk [] 10 30 (rev l) (scan0 512) = Ok s' /\
  hit s = Some 1 /\ d1 s = 30%Z /\ d2 s = 40%Z /\ d1 s' = 30%Z /\ d2 s' = 40%Z.
Proof. do 2 eexists. repeat (split; [vm_compute; reflexivity|]). by vm_compute. Qed.
Example ex_window : exists lut l, let s := [Kp 20 10 0; Kp 22 (81 # 2) 1; Kp 20 60 2; Kp 30 98 3; Kp 5 99 4] in
  lut_loop s 100 0 0 = Ok lut /\ window s lut 100 (20, 50)%Q 10 = Ok l /\ l = [Kp 22 (81 # 2) 1].
Proof. do 2 eexists. split; [vm_compute; reflexivity|]. split; [vm_compute; reflexivity|done]. Qed.
Example ex_distinctive : let x := ex_in 64 1 (fun _ a => if a =? 0 then 30%Z else 60%Z) in
  exists cs m, attempt None x 0 = Ok (Some (0, 482%Z, cs)) /\ (1, m) ∈ cs /\ same_size None x /\ similar x 0 1.
Proof. do 2 eexists. split; [vm_compute; reflexivity|]. split; [by apply elem_of_list_further, elem_of_list_singleton|]. done. Qed.
