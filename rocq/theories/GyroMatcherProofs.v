(** Lemmas about the two-frame matcher. *)
From Coq Require Import ZArith QArith Qround Qabs Bool Lia Lqa.
From stdpp Require Import list gmap sorting.
From Verif Require Import StlHelpersModel GyroTrackerModel GyroMatcherModel GyroMatcherSpec.
Local Open Scope nat_scope.

(** ** Truncation *)
Lemma trunc_floor q : (0 <= q)%Q -> trunc q = Qfloor q.
Proof.
  destruct q as [n d]. unfold Qle, trunc, Qfloor. cbn. intros H. apply Z.quot_div_nonneg; lia.
Qed.
Lemma trunc_neg q : trunc (- q) = (- trunc q)%Z.
Proof. destruct q as [n d]. unfold trunc. cbn. apply Z.quot_opp_l. lia. Qed.
Lemma trunc_mono q r : (q <= r)%Q -> (trunc q <= trunc r)%Z.
Proof.
  destruct q as [n d], r as [n' d']. unfold Qle, trunc. cbn. intros H.
  rewrite <- (Z.quot_mul_cancel_r n (Zpos d) (Zpos d')) by lia.
  rewrite <- (Z.quot_mul_cancel_r n' (Zpos d') (Zpos d)) by lia.
  rewrite (Z.mul_comm (Zpos d') (Zpos d)). apply Z.quot_le_mono; lia.
Qed.
Lemma trunc_pos q : (0 <= q)%Q -> (inject_Z (trunc q) <= q)%Q /\ (q < inject_Z (trunc q) + 1)%Q /\ (0 <= trunc q)%Z.
Proof.
  intros H. rewrite trunc_floor by done. split; [apply Qfloor_le|]. split.
  - pose proof (Qlt_floor q) as L. rewrite inject_Z_plus in L. exact L.
  - change 0%Z with (Qfloor 0). by apply Qfloor_resp_le.
Qed.
Lemma trunc_nonpos q : (q <= 0)%Q -> (q <= inject_Z (trunc q))%Q /\ (inject_Z (trunc q) < q + 1)%Q /\ (trunc q <= 0)%Z.
Proof.
  intros H. destruct (trunc_pos (- q)) as (H1 & H2 & H3); [lra|]. rewrite trunc_neg in *.
  rewrite inject_Z_opp in *. split; [lra|]. split; [lra|lia].
Qed.
Lemma trunc_bounds q : (inject_Z (trunc q) - 1 < q)%Q /\ (q < inject_Z (trunc q) + 1)%Q.
Proof.
  destruct (Qlt_le_dec q 0) as [L|L].
  - destruct (trunc_nonpos q) as (? & ? & _); [by apply Qlt_le_weak|]. lra.
  - destruct (trunc_pos q L) as (? & ? & _). lra.
Qed.
Lemma to_int_ok q z : to_int q = Ok z -> z = trunc q.
Proof. unfold to_int. by destruct (_ && _); intros [= <-]. Qed.
Lemma to_int_total q : (Qabs q <= inject_Z (2 ^ 30))%Q -> to_int q = Ok (trunc q).
Proof.
  intros H. apply Qabs_Qle_condition in H as [H1 H2]. unfold to_int.
  apply trunc_mono in H1, H2. change (trunc (inject_Z (2 ^ 30))) with (2 ^ 30)%Z in H2.
  rewrite trunc_neg in H1. change (trunc (inject_Z (2 ^ 30))) with (2 ^ 30)%Z in H1.
  rewrite (proj2 (Z.leb_le _ _)), (proj2 (Z.ltb_lt _ _)) by lia. done.
Qed.
Lemma to_size_ok q z : to_size q = Ok z -> z = trunc q.
Proof. unfold to_size. by destruct (_ && _); intros [= <-]. Qed.

(** ** Look-up table *)
Notation by_y := (fun a b : kp => (ky a <= ky b)%Q).
Lemma sorted_rows s i j a b : StronglySorted by_y s -> i <= j -> s !! i = Some a -> s !! j = Some b ->
  (trunc (ky a) <= trunc (ky b))%Z.
Proof.
  intros Hs. revert i j. induction Hs as [|c l _ IH F]; intros i j L Hi Hj; [by rewrite lookup_nil in Hi|].
  destruct i as [|i], j as [|j]; cbn in Hi, Hj.
  - by injection Hi as <-; injection Hj as <-.
  - injection Hi as <-. rewrite Forall_forall in F. apply trunc_mono, F. by eapply elem_of_list_lookup_2.
  - lia.
  - eapply (IH i j); [lia|done|done].
Qed.
Lemma advance_spec y s : forall l v v', l = drop v s -> advance y v l = Ok v' ->
  v <= v' /\ (forall i k, v <= i < v' -> s !! i = Some k -> (trunc (ky k) < y)%Z) /\
  (forall k, s !! v' = Some k -> (y <= trunc (ky k))%Z) /\ (v <= length s -> v' <= length s).
Proof.
  induction l as [|k l IH]; intros v v' El H; cbn in H.
  - injection H as <-. split; [done|]. split; [lia|]. split; [|done].
    intros k Hk. pose proof (lookup_drop s v 0) as Hd. rewrite <- El, Nat.add_0_r in Hd. rewrite <- Hd in Hk. done.
  - assert (Hk : s !! v = Some k).
    { pose proof (lookup_drop s v 0) as Hd. rewrite <- El, Nat.add_0_r in Hd. by rewrite <- Hd. }
    destruct (to_size (ky k)) as [r| |] eqn:Hr; [|done|done]. cbn [rbind] in H. apply to_size_ok in Hr as ->.
    destruct (Z.ltb_spec (trunc (ky k)) y) as [L|L].
    + destruct (IH (S v) v') as (L1 & H2 & H3 & H4); [|done|].
      { replace (S v) with (v + 1) by lia. rewrite <- drop_drop, <- El. done. }
      split; [lia|]. split; [|split].
      * intros i k' Hi Hk'. destruct (decide (i = v)) as [->|N]; [congruence|]. apply (H2 i); [lia|done].
      * done.
      * intros _. apply H4. by apply lookup_lt_Some in Hk.
    + injection H as <-. split; [done|]. split; [lia|]. split; [|done]. intros k' Hk'. congruence.
Qed.
Definition row_index (s : list kp) (y : Z) (v : nat) : Prop :=
  v <= length s /\ forall i k, s !! i = Some k -> (i < v <-> (trunc (ky k) < y)%Z).
Lemma lut_spec s n : StronglySorted by_y s -> forall y v lut, lut_loop s n y v = Ok lut ->
  v <= length s -> (forall i k, i < v -> s !! i = Some k -> (trunc (ky k) < y)%Z) ->
  length lut = n /\ forall j v', lut !! j = Some v' -> row_index s (y + Z.of_nat j) v'.
Proof.
  intros Hs. induction n as [|n IH]; intros y v lut H Lv Hv; cbn in H.
  { injection H as <-. split; [done|]. intros j v' Hj. by rewrite lookup_nil in Hj. }
  destruct (advance y v (drop v s)) as [v1| |] eqn:Ha; [|done|done]. cbn [rbind] in H.
  destruct (lut_loop s n (y + 1) v1) as [r| |] eqn:Hr; [|done|done]. cbn [rbind] in H. injection H as <-.
  destruct (advance_spec y s _ _ _ eq_refl Ha) as (L1 & H2 & H3 & H4).
  assert (Hlt : forall i k, i < v1 -> s !! i = Some k -> (trunc (ky k) < y)%Z).
  { intros i k Li Hk. destruct (decide (i < v)); [by apply (Hv i)|]. apply (H2 i); [lia|done]. }
  apply IH in Hr as [Lr Hr]; [|by apply H4|intros i k Li Hk; specialize (Hlt i k Li Hk); lia].
  split; [cbn; lia|]. intros [|j] v' Hj; cbn in Hj.
  - injection Hj as <-. rewrite Z.add_0_r. split; [by apply H4|]. intros i k Hk. split; [intros Li; by apply (Hlt i)|].
    intros Ly. destruct (decide (i < v1)); [done|].
    destruct (lookup_lt_is_Some_2 s v1) as [k1 Hk1]; [apply lookup_lt_Some in Hk; lia|].
    pose proof (H3 _ Hk1). pose proof (sorted_rows s v1 i k1 k Hs ltac:(lia) Hk1 Hk). lia.
  - replace (y + Z.of_nat (S j))%Z with (y + 1 + Z.of_nat j)%Z by lia. by apply Hr.
Qed.
Lemma advance_total y : forall l v, Forall (fun k => (0 <= ky k <= inject_Z (2 ^ 20))%Q) l -> exists v', advance y v l = Ok v'.
Proof.
  induction l as [|k l IH]; intros v F; cbn; [eauto|]. apply Forall_cons in F as [[H1 H2] F].
  unfold to_size. apply trunc_mono in H1, H2. change (trunc (inject_Z (2 ^ 20))) with (2 ^ 20)%Z in H2.
  change (trunc 0) with 0%Z in H1. rewrite (proj2 (Z.leb_le _ _)), (proj2 (Z.ltb_lt _ _)) by lia. cbn [andb rbind].
  destruct (_ <? y)%Z; eauto.
Qed.
Lemma lut_total s n : Forall (fun k => (0 <= ky k <= inject_Z (2 ^ 20))%Q) s -> forall y v, exists lut, lut_loop s n y v = Ok lut.
Proof.
  intros F. induction n as [|n IH]; intros y v; cbn; [eauto|].
  destruct (advance_total y (drop v s) v) as [v' ->]; [by apply Forall_drop|]. cbn [rbind].
  destruct (IH (y + 1)%Z v') as [r ->]. cbn [rbind]. eauto.
Qed.

(** ** Window *)
Definition lut_ok (s : list kp) (h : nat) (lut : list nat) : Prop :=
  length lut = h /\ forall j v, lut !! j = Some v -> row_index s (Z.of_nat j) v.
Definition top_row (h : nat) (p : Q * Q) (w : Z) : Z := clamp 0 (Z.of_nat h - 1) (trunc (p.2 + (1 # 2) - inject_Z w)%Q).
Definition bottom_row (h : nat) (p : Q * Q) (w : Z) : Z := clamp 0 (Z.of_nat h - 1) (trunc (p.2 + (1 # 2) + inject_Z w)%Q).
Lemma elem_of_segment {A} (s : list A) i j k : k ∈ take (j - i) (drop i s) <-> exists n, i <= n < j /\ s !! n = Some k.
Proof.
  rewrite elem_of_take. split.
  - intros (n & Hn & L). rewrite lookup_drop in Hn. exists (i + n). split; [lia|done].
  - intros (n & L & Hn). exists (n - i). rewrite lookup_drop. split; [|lia]. by replace (i + (n - i)) with n by lia.
Qed.
Lemma window_spec s lut h p w l : 0 < h -> lut_ok s h lut -> window s lut h p w = Ok l ->
  (0 < w)%Z /\ forall k, k ∈ l <-> k ∈ s /\ (top_row h p w <= trunc (ky k) < bottom_row h p w)%Z.
Proof.
  intros Hh [Ll Hlut] H. unfold window in H. destruct (Z.leb_spec w 0) as [|Hw]; [done|]. split; [done|].
  destruct (to_int (p.2 + (1 # 2) - inject_Z w)%Q) as [t| |] eqn:Ht; [|done|done]. cbn [rbind] in H.
  destruct (to_int (p.2 + (1 # 2) + inject_Z w)%Q) as [b| |] eqn:Hb; [|done|done]. cbn [rbind] in H.
  apply to_int_ok in Ht as ->. apply to_int_ok in Hb as ->. fold (top_row h p w) (bottom_row h p w) in H.
  unfold at_ub in H. destruct (lut !! Z.to_nat (top_row h p w)) as [i|] eqn:Hi; [|done]. cbn [rbind] in H.
  destruct (lut !! Z.to_nat (bottom_row h p w)) as [j|] eqn:Hj; [|done]. cbn [rbind] in H.
  destruct (_ <=? _)%Z; [|done]. injection H as <-. intros k. rewrite elem_of_segment.
  apply Hlut in Hi as [_ Hi]. apply Hlut in Hj as [_ Hj].
  rewrite Z2Nat.id in Hi by (unfold top_row, clamp; lia). rewrite Z2Nat.id in Hj by (unfold bottom_row, clamp; lia).
  split.
  - intros (n & L & Hn). pose proof (Hi n k Hn). pose proof (Hj n k Hn). split; [by eapply elem_of_list_lookup_2|]. lia.
  - intros [Hk L]. apply elem_of_list_lookup in Hk as [n Hn]. exists n. pose proof (Hi n k Hn). pose proof (Hj n k Hn).
    split; [lia|done].
Qed.
Lemma window_total s lut h p w : 0 < h -> lut_ok s h lut -> (0 < w <= 2 ^ 20)%Z -> (Qabs p.2 <= inject_Z (2 ^ 20))%Q ->
  exists l, window s lut h p w = Ok l.
Proof.
  intros Hh [Ll Hlut] Hw Hp. unfold window. rewrite (proj2 (Z.leb_gt _ _)) by lia.
  apply Qabs_Qle_condition in Hp as [P1 P2].
  assert (Hw1 : (0 <= inject_Z w)%Q) by (change 0%Q with (inject_Z 0); rewrite <- Zle_Qle; lia).
  assert (Hw2 : (inject_Z w <= inject_Z (2 ^ 20))%Q) by (rewrite <- Zle_Qle; lia).
  change (inject_Z (2 ^ 20)) with (1048576 # 1) in *.
  rewrite !to_int_total by (apply Qabs_Qle_condition; change (inject_Z (2 ^ 30)) with (1073741824 # 1); split; lra).
  cbn [rbind]. fold (top_row h p w) (bottom_row h p w).
  assert (Hle : (top_row h p w <= bottom_row h p w)%Z).
  { unfold top_row, bottom_row, clamp. pose proof (trunc_mono (p.2 + (1 # 2) - inject_Z w) (p.2 + (1 # 2) + inject_Z w) ltac:(lra)). lia. }
  unfold at_ub.
  destruct (lookup_lt_is_Some_2 lut (Z.to_nat (top_row h p w))) as [i ->]; [rewrite Ll; unfold top_row, clamp; lia|]. cbn [rbind].
  destruct (lookup_lt_is_Some_2 lut (Z.to_nat (bottom_row h p w))) as [j ->]; [rewrite Ll; unfold bottom_row, clamp; lia|]. cbn [rbind].
  rewrite (proj2 (Z.leb_le _ _)) by done. eauto.
Qed.
(** Keypoints of the window are near. *)
Lemma row_near h p w y : 0 < h -> (0 < w)%Z -> (0 <= y)%Q -> (top_row h p w <= trunc y < bottom_row h p w)%Z ->
  (Qabs (y - p.2) < inject_Z w + (1 # 2))%Q.
Proof.
  intros Hh Hw Hy [L1 L2]. apply Qabs_Qlt_condition. unfold top_row, bottom_row, clamp in *.
  pose proof (trunc_bounds (p.2 + (1 # 2) - inject_Z w)) as [_ T2].
  pose proof (trunc_nonpos (p.2 + (1 # 2) + inject_Z w)) as Bn.
  pose proof (trunc_pos (p.2 + (1 # 2) + inject_Z w)) as Bp.
  pose proof (trunc_pos (p.2 + (1 # 2) - inject_Z w)) as Tp.
  destruct (trunc_pos y Hy) as (Y1 & Y2 & Y3).
  generalize dependent (trunc (p.2 + (1 # 2) - inject_Z w)%Q). intros t L1 T2 Tp.
  generalize dependent (trunc (p.2 + (1 # 2) + inject_Z w)%Q). intros b L2 Bn Bp.
  assert (T : (t <= trunc y)%Z) by lia. assert (B : (trunc y + 1 <= b)%Z) by lia.
  rewrite Zle_Qle in T, B. rewrite inject_Z_plus in B. change (inject_Z 1) with 1%Q in B.
  split; [lra|].
  destruct (Qlt_le_dec (p.2 + (1 # 2) + inject_Z w) 0) as [N|P].
  - destruct Bn as (_ & _ & Bn); [lra|]. lia.
  - destruct Bp as (Bp & _ & _); [lra|]. lra.
Qed.
Lemma col_near w px qx : (inject_Z (trunc (px - inject_Z w)) <= qx)%Q -> (qx <= inject_Z (trunc (px + inject_Z w)))%Q ->
  (Qabs (qx - px) < inject_Z w + 1)%Q.
Proof.
  intros L R. apply Qabs_Qlt_condition. pose proof (trunc_bounds (px - inject_Z w)). pose proof (trunc_bounds (px + inject_Z w)). lra.
Qed.

(** ** Search *)
Definition scan_ok (D : Z) (dk : nat -> Z) (P : nat -> Prop) (s : scan) : Prop :=
  Forall (fun c : nat * Z => c.2 = (D - dk c.1)%Z /\ (0 < D)%Z /\ P c.1 /\ (c.2 <= best s)%Z) (cands s) /\
  match hit s with
  | None => best s = (4 * D / 5)%Z /\ d1 s = (D + 1)%Z
  | Some a => best s = (D - dk a)%Z /\ d1 s = dk a /\ (a, best s) ∈ cands s /\ (d1 s <= d2 s)%Z /\ (4 * D / 5 < best s)%Z
  end.
Lemma scan0_ok D dk P : scan_ok D dk P (scan0 D).
Proof. split; [constructor|done]. Qed.
Lemma visit_ok D dk P c s s' : scan_ok D dk P s -> P c -> visit D (dk c) c s = Ok s' -> scan_ok D dk P s'.
Proof.
  intros [Hc Hh] Pc H. unfold visit in H. cbn zeta in H.
  destruct ((0 <? D - dk c)%Z && (D - dk c <=? D)%Z && (0 <? D)%Z) eqn:Hchk; [|done]. injection H as <-.
  apply andb_true_iff in Hchk as [Hchk HD]. apply andb_true_iff in Hchk as [H1 H2].
  apply Z.ltb_lt in H1, HD. apply Z.leb_le in H2. unfold scan_ok. cbn.
  destruct (Z.ltb_spec (best s) (D - dk c)) as [L|L]; cbn.
  - split.
    + apply Forall_app. split; [|constructor; [|constructor]].
      * eapply Forall_impl; [exact Hc|]. cbn. intros m (? & ? & ? & ?). split; [done|]. split; [done|]. split; [done|]. lia.
      * cbn. split; [done|]. split; [done|]. split; [done|]. lia.
    + split; [done|]. split; [done|]. split; [set_solver|]. destruct (hit s) as [a|].
      * destruct Hh as (E1 & E2 & _ & E3 & E4). lia.
      * destruct Hh as (E1 & E2). lia.
  - assert (Hlast : forall s', best s' = best s -> cands s' = cands s -> Forall (fun m : nat * Z => m.2 = (D - dk m.1)%Z /\ (0 < D)%Z /\ P m.1 /\ (m.2 <= best s')%Z)
              (cands s' ++ [(c, (D - dk c)%Z)])).
    { intros s' E1 E2. rewrite E1, E2. apply Forall_app. split; [done|]. constructor; [|constructor]. cbn. repeat split; [done|done|lia]. }
    destruct (Z.ltb_spec (dk c) (d2 s)) as [L2|L2]; cbn.
    + split; [by apply (Hlast s)|]. destruct (hit s) as [a|]; [|done]. destruct Hh as (E1 & E2 & E3 & E4 & E5).
      split; [done|]. split; [done|]. split; [set_solver|]. split; [lia|done].
    + split; [by apply (Hlast s)|]. destruct (hit s) as [a|]; [|done]. destruct Hh as (E1 & E2 & E3 & E4 & E5).
      split; [done|]. split; [done|]. split; [set_solver|]. done.
Qed.
Lemma Qltb_false a b : Qltb a b = false -> (b <= a)%Q.
Proof. unfold Qltb. intros H. apply negb_false_iff in H. by apply Qle_bool_iff. Qed.
Lemma scan_loop_ok D n1 dk (P : nat -> Prop) skip lo hi : forall l s s',
  (forall k, k ∈ l -> ci k < n1 -> (inject_Z lo <= kx k)%Q -> (kx k <= inject_Z hi)%Q -> P (ci k)) ->
  scan_ok D dk P s -> scan_loop D n1 dk skip lo hi l s = Ok s' -> scan_ok D dk P s'.
Proof.
  induction l as [|k l IH]; intros s s' HP Hs H; cbn in H; [by injection H as <-|].
  destruct (bool_decide (ci k ∈ skip) || Qltb (kx k) (inject_Z lo) || Qltb (inject_Z hi) (kx k)) eqn:Hskip.
  - apply (IH s); [|done|done]. intros k' Hk'. apply HP. set_solver.
  - apply orb_false_iff in Hskip as [Hskip H2]. apply orb_false_iff in Hskip as [_ H1]. apply Qltb_false in H1, H2.
    destruct (Nat.leb_spec n1 (ci k)) as [|L]; [done|].
    destruct (visit D (dk (ci k)) (ci k) s) as [s1| |] eqn:Hv; [|done|done]. cbn [rbind] in H.
    apply (IH s1); [intros k' Hk'; apply HP; set_solver| |done].
    eapply visit_ok; [exact Hs| |exact Hv]. apply HP; [set_solver|done|done|done].
Qed.
Lemma scan_loop_total D n1 dk skip lo hi : (0 < D)%Z -> forall l s,
  (forall k, k ∈ l -> ci k < n1 /\ (0 <= dk (ci k) < D)%Z) -> exists s', scan_loop D n1 dk skip lo hi l s = Ok s'.
Proof.
  intros HD. induction l as [|k l IH]; intros s H; cbn; [eauto|].
  destruct (_ || _); [apply IH; intros k' Hk'; apply H; set_solver|].
  destruct (H k) as [L1 L2]; [set_solver|]. rewrite (proj2 (Nat.leb_gt _ _)) by done.
  unfold visit. rewrite (proj2 (Z.ltb_lt 0 (D - dk (ci k)))), (proj2 (Z.leb_le (D - dk (ci k)) D)), (proj2 (Z.ltb_lt 0 D)) by lia.
  cbn [andb rbind]. apply IH. intros k' Hk'. apply H. set_solver.
Qed.

(** Keypoint a of frame k+1 lies in the large window of keypoint b of frame k. *)
Definition reach (x : minput) (b a : nat) : Prop := exists p q,
  success x !! b = Some true /\ preds x !! b = Some p /\ kps x !! a = Some q /\ near (large x) p q.
Definition entry (x : minput) (D : Z) (b : nat) (c : nat * Z) : Prop :=
  c.2 = (D - dist x b c.1)%Z /\ (0 < D)%Z /\ c.1 < length (kps x) /\ reach x b c.1.
Definition sorted_kps (x : minput) : list kp := std_sort x (indexed (kps x)).
Lemma indexed_spec l k : k ∈ indexed l -> l !! ci k = Some (kx k, ky k).
Proof.
  unfold indexed. intros H. apply elem_of_list_lookup in H as [i Hi]. rewrite list_lookup_imap in Hi.
  destruct (l !! i) as [[qx qy]|] eqn:Hl; [|done]. cbn in Hi. injection Hi as <-. by cbn.
Qed.
Lemma sorted_kps_spec x k : sorts_by_y (std_sort x) -> k ∈ sorted_kps x -> kps x !! ci k = Some (kx k, ky k).
Proof. intros Hs Hk. apply indexed_spec. destruct (Hs (indexed (kps x))) as [P _]. by rewrite <- P. Qed.
Lemma near_le w w' p q : (w <= w')%Z -> near w p q -> near w' p q.
Proof.
  intros L [H1 H2]. rewrite Zle_Qle in L. split; [eapply Qlt_le_trans; [exact H1|lra]|].
  intros Hy. specialize (H2 Hy). eapply Qlt_le_trans; [exact H2|lra].
Qed.
Lemma scan_window_ok x D lut k p w skip st st' : sorts_by_y (std_sort x) -> 0 < img_height x ->
  lut_ok (sorted_kps x) (img_height x) lut -> (w <= large x)%Z -> success x !! k = Some true -> preds x !! k = Some p ->
  scan_ok D (dist x k) (fun c => c < length (kps x) /\ reach x k c) st ->
  scan_window x D (sorted_kps x) lut k p w skip st = Ok st' ->
  scan_ok D (dist x k) (fun c => c < length (kps x) /\ reach x k c) st'.
Proof.
  intros Hsort Hh Hlut Hw Hsu Hp Hst H. unfold scan_window in H.
  destruct (window (sorted_kps x) lut (img_height x) p w) as [l| |] eqn:Hl; [|done|done]. cbn [rbind] in H.
  destruct (to_int (p.1 - inject_Z w)%Q) as [lo| |] eqn:Hlo; [|done|done]. cbn [rbind] in H.
  destruct (to_int (p.1 + inject_Z w)%Q) as [hi| |] eqn:Hhi; [|done|done]. cbn [rbind] in H.
  apply to_int_ok in Hlo as ->. apply to_int_ok in Hhi as ->.
  apply window_spec in Hl as [Hw0 Hl]; [|done|done].
  eapply scan_loop_ok; [|exact Hst|exact H]. intros q Hq Lq Q1 Q2. cbn. split; [done|].
  apply Hl in Hq as [Hq Hrow]. exists p, (kx q, ky q). split; [done|]. split; [done|]. split; [by apply sorted_kps_spec|].
  apply (near_le w); [done|]. split; [by apply col_near|]. intros Hy. by eapply row_near.
Qed.
Lemma search_spec x D lut k r : sorts_by_y (std_sort x) -> 0 < img_height x -> (small x <= large x)%Z ->
  lut_ok (sorted_kps x) (img_height x) lut -> search x D (sorted_kps x) lut k = Ok (Some r) ->
  let '(a, sc, cs) := r in
  Forall (entry x D k) cs /\ (a, sc) ∈ cs /\ (4 * D / 5 < sc)%Z /\ Forall (fun c => (c.2 <= sc)%Z) cs.
Proof.
  intros Hsort Hh Hsl Hlut H. unfold search, at_ub in H.
  destruct (success x !! k) as [ok|] eqn:Hsu; [|done]. cbn [rbind] in H. destruct ok; [|done]. cbn [negb] in H.
  destruct (preds x !! k) as [p|] eqn:Hp; [|done]. cbn [rbind] in H.
  destruct (scan_window x D (sorted_kps x) lut k p (small x) [] (scan0 D)) as [s1| |] eqn:Hs1; [|done|done]. cbn [rbind] in H.
  apply scan_window_ok in Hs1; [|done|done|done|lia|done|done|apply scan0_ok].
  destruct (match hit s1 with Some _ => Ok s1 | None => scan_window x D (sorted_kps x) lut k p (large x) (cands s1).*1 s1 end)
    as [s2| |] eqn:Hs2; [|done|done]. cbn [rbind] in H.
  assert (Hok2 : scan_ok D (dist x k) (fun c => c < length (kps x) /\ reach x k c) s2).
  { destruct (hit s1); [by injection Hs2 as <-|]. eapply scan_window_ok; [done|done|exact Hlut| |done|exact Hp|exact Hs1|exact Hs2]. lia. }
  destruct (hit s2) as [a|] eqn:Hhit; [|done].
  destruct (ratio_test D (d1 s2) (d2 s2)) as [b| |]; [|done|done]. cbn [rbind] in H. destruct b; [|done]. injection H as <-.
  destruct Hok2 as [Hc Hm]. rewrite Hhit in Hm. destruct Hm as (E1 & _ & E2 & _ & E3).
  split; [|split; [done|split; [done|]]].
  - eapply Forall_impl; [exact Hc|]. cbn. intros c (? & ? & (? & ?) & _). done.
  - eapply Forall_impl; [exact Hc|]. cbn. intros c (_ & _ & _ & ?). done.
Qed.
Lemma scan_window_total x D lut k p w skip st : proper x -> (0 < D)%Z -> lut_ok (sorted_kps x) (img_height x) lut ->
  (0 < w <= 2 ^ 20)%Z -> k < num_k x -> p ∈ preds x -> (forall a, a < length (kps x) -> (0 <= dist x k a < D)%Z) ->
  exists st', scan_window x D (sorted_kps x) lut k p w skip st = Ok st'.
Proof.
  intros Hx HD Hlut Hw Hk Hp Hd. destruct (proj1 (Forall_forall _ _) (pr_preds x Hx) p Hp) as [P1 P2]. unfold scan_window.
  destruct (window_total (sorted_kps x) lut (img_height x) p w (pr_height x Hx) Hlut Hw P2) as [l Hl]. rewrite Hl. cbn [rbind].
  apply Qabs_Qle_condition in P1 as [P3 P4].
  assert (Hw1 : (0 <= inject_Z w)%Q) by (change 0%Q with (inject_Z 0); rewrite <- Zle_Qle; lia).
  assert (Hw2 : (inject_Z w <= inject_Z (2 ^ 20))%Q) by (rewrite <- Zle_Qle; lia).
  change (inject_Z (2 ^ 20)) with (1048576 # 1) in *.
  rewrite !to_int_total by (apply Qabs_Qle_condition; change (inject_Z (2 ^ 30)) with (1073741824 # 1); split; lra). cbn [rbind].
  apply scan_loop_total; [done|]. intros q Hq.
  apply (window_spec _ _ _ _ _ _ (pr_height x Hx) Hlut) in Hl as [_ Hl]. apply Hl in Hq as [Hq _].
  apply (sorted_kps_spec x q (pr_sort x Hx)) in Hq. apply lookup_lt_Some in Hq. split; [done|]. by apply Hd.
Qed.
Lemma search_total x D lut k : proper x -> (0 < D)%Z -> lut_ok (sorted_kps x) (img_height x) lut ->
  k < num_k x -> (forall a, a < length (kps x) -> (0 <= dist x k a < D)%Z) ->
  exists r, search x D (sorted_kps x) lut k = Ok r.
Proof.
  intros Hx HD Hlut Hk Hd. unfold search, at_ub.
  destruct (lookup_lt_is_Some_2 (success x) k) as [ok Hsu]; [by rewrite (pr_success x Hx)|]. rewrite Hsu. cbn [rbind].
  destruct ok; cbn [negb]; [|eauto].
  destruct (lookup_lt_is_Some_2 (preds x) k) as [p Hp]; [by rewrite (pr_num x Hx)|]. rewrite Hp. cbn [rbind].
  pose proof (elem_of_list_lookup_2 _ _ _ Hp) as Hpe. destruct (pr_windows x Hx) as [Hw1 Hw2].
  destruct (scan_window_total x D lut k p (small x) [] (scan0 D) Hx HD Hlut ltac:(lia) Hk Hpe Hd) as [s1 Hs1]. rewrite Hs1. cbn [rbind].
  apply scan_window_ok in Hs1; [|apply (pr_sort x Hx)|apply (pr_height x Hx)|done|lia|done|done|apply scan0_ok].
  assert (H2 : exists s2, match hit s1 with Some _ => Ok s1 | None => scan_window x D (sorted_kps x) lut k p (large x) (cands s1).*1 s1 end = Ok s2 /\
    scan_ok D (dist x k) (fun c => c < length (kps x) /\ reach x k c) s2).
  { destruct (hit s1) as [a|] eqn:Hh; [by exists s1|].
    destruct (scan_window_total x D lut k p (large x) (cands s1).*1 s1 Hx HD Hlut ltac:(lia) Hk Hpe Hd) as [s2 Hs2].
    exists s2. split; [done|].
    eapply scan_window_ok; [apply (pr_sort x Hx)|apply (pr_height x Hx)|exact Hlut| |done|exact Hp|exact Hs1|exact Hs2]. lia. }
  destruct H2 as (s2 & -> & Hok2). cbn [rbind]. destruct (hit s2) as [a|] eqn:Hh; [|eauto].
  destruct Hok2 as [_ Hm]. rewrite Hh in Hm. destruct Hm as (_ & _ & _ & Hm & _).
  unfold ratio_test. rewrite (proj2 (Z.ltb_ge _ _)) by done. destruct (_ <? _)%Z; cbn [rbind]; [eauto|].
  destruct (_ =? _)%Z; cbn [rbind]; eauto.
Qed.
