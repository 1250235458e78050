(** Property C54: disparity bounding box of a feature track. *)
From Coq Require Import ZArith QArith Lia Lqa.
From stdpp Require Import list.
From Verif Require Import StlHelpersModel TrackBoxModel TrackBoxSpec.
Local Open Scope Q_scope.

Lemma foldl_proj ks : forall b, foldl box_step b ks =
  Box (foldl std_min (u_min b) (ks.*1)) (foldl std_max (u_max b) (ks.*1)) (foldl std_min (v_min b) (ks.*2)) (foldl std_max (v_max b) (ks.*2)).
Proof. induction ks as [|k ks IH]; intros b; [by destruct b|]. cbn [foldl fmap list_fmap]. by rewrite IH. Qed.
Lemma foldl_min_spec l : forall a, (foldl std_min a l = a \/ foldl std_min a l ∈ l) /\ foldl std_min a l <= a /\ forall x, x ∈ l -> foldl std_min a l <= x.
Proof.
  induction l as [|y l IH]; intros a; cbn [foldl]. { split; [by left|]. split; [lra|]. intros x Hx. by apply not_elem_of_nil in Hx. }
  destruct (IH (std_min a y)) as (H1 & H2 & H3).
  assert ((std_min a y = a \/ std_min a y = y) /\ std_min a y <= a /\ std_min a y <= y) as (Hz & Za & Zy).
  { unfold std_min. destruct (Qlt_le_dec y a); (split; [tauto|]); lra. }
  split; [|split].
  - destruct H1 as [H1|H1]; [|right; by right]. rewrite H1. destruct Hz as [->| ->]; [by left|right; left].
  - lra.
  - intros x [->|Hx]%elem_of_cons; [|by apply H3]. lra.
Qed.
Lemma foldl_max_spec l : forall a, (foldl std_max a l = a \/ foldl std_max a l ∈ l) /\ a <= foldl std_max a l /\ forall x, x ∈ l -> x <= foldl std_max a l.
Proof.
  induction l as [|y l IH]; intros a; cbn [foldl]. { split; [by left|]. split; [lra|]. intros x Hx. by apply not_elem_of_nil in Hx. }
  destruct (IH (std_max a y)) as (H1 & H2 & H3).
  assert ((std_max a y = a \/ std_max a y = y) /\ a <= std_max a y /\ y <= std_max a y) as (Hz & Za & Zy).
  { unfold std_max. destruct (Qlt_le_dec a y); (split; [tauto|]); lra. }
  split; [|split].
  - destruct H1 as [H1|H1]; [|right; by right]. rewrite H1. destruct Hz as [->| ->]; [by left|right; left].
  - lra.
  - intros x [->|Hx]%elem_of_cons; [|by apply H3]. lra.
Qed.
(** ** The starting values do not matter if some element is beyond them. *)
Lemma fold_min_is_min l : l <> [] -> (forall x, x ∈ l -> x <= dbl_max) -> exists m, is_min m l /\ foldl std_min dbl_max l == m.
Proof.
  intros Hn Hb. destruct (foldl_min_spec l dbl_max) as ([E|E] & H2 & H3).
  - destruct l as [|y l]; [exfalso; apply Hn; reflexivity|]. assert (Hy : y ∈ y :: l) by left. exists y. pose proof (H3 y Hy) as H4. pose proof (Hb y Hy) as H5.
    rewrite E in H4. assert (Ey : y == dbl_max) by lra. split; [split; [done|]|by rewrite E, Ey]. intros x Hx. rewrite Ey, <- E. by apply H3.
  - eexists. split; [split; [exact E|exact H3]|reflexivity].
Qed.
Lemma fold_max_is_max l : (exists x, x ∈ l /\ dbl_min <= x) -> exists m, is_max m l /\ foldl std_max dbl_min l == m.
Proof.
  intros (y & Hy & Ly). destruct (foldl_max_spec l dbl_min) as ([E|E] & H2 & H3).
  - exists y. pose proof (H3 y Hy) as H4. rewrite E in H4. assert (Ey : y == dbl_min) by lra.
    split; [split; [done|]|by rewrite E, Ey]. intros x Hx. rewrite Ey, <- E. by apply H3.
  - eexists. split; [split; [exact E|exact H3]|reflexivity].
Qed.
Lemma min_le_max l m M : is_min m l -> is_max M l -> m <= M.
Proof. intros [H _] [_ H']. by apply H'. Qed.

Lemma tiny_min : dbl_min == tiny.
Proof. vm_compute. reflexivity. Qed.
Lemma huge_max : dbl_max == huge.
Proof. vm_compute. reflexivity. Qed.

(** Correct as soon as some keypoint has a positive (normal) first coordinate and some has a positive second one. *)
Theorem bx_diagonal_partial ks : (exists k, k ∈ ks /\ tiny <= k.1) -> (exists k, k ∈ ks /\ tiny <= k.2) ->
  (forall k, k ∈ ks -> k.1 <= huge /\ k.2 <= huge) ->
  exists d, diagonal_sq ks = Ok d /\ box_diagonal_sq ks d.
Proof.
  intros (k1 & Hk1 & L1) (k2 & Hk2 & L2) Hb. unfold diagonal_sq. rewrite foldl_proj. cbn [u_min u_max v_min v_max box0].
  assert (N : forall A (f : Q * Q -> A), f <$> ks <> []). { intros A f E. apply fmap_nil_inv in E. subst. by apply not_elem_of_nil in Hk1. }
  destruct (fold_min_is_min (ks.*1) (N _ _)) as (u0 & Hu0 & E0). { intros x (k & -> & Hk)%elem_of_list_fmap. by apply Hb. }
  destruct (fold_min_is_min (ks.*2) (N _ _)) as (v0 & Hv0 & F0). { intros x (k & -> & Hk)%elem_of_list_fmap. by apply Hb. }
  destruct (fold_max_is_max (ks.*1)) as (u1 & Hu1 & E1). { exists (k1.1). split; [|done]. by apply elem_of_list_fmap_1. }
  destruct (fold_max_is_max (ks.*2)) as (v1 & Hv1 & F1). { exists (k2.2). split; [|done]. by apply elem_of_list_fmap_1. }
  pose proof (min_le_max _ _ _ Hu0 Hu1). pose proof (min_le_max _ _ _ Hv0 Hv1).
  destruct (Qlt_le_dec _ _) as [X|_]; [lra|]. destruct (Qlt_le_dec _ _) as [X|_]; [lra|].
  eexists. split; [reflexivity|]. exists u0, u1, v0, v1. repeat (split; [done|]). rewrite E0, F0, E1, F1. ring.
Qed.
Print Assumptions bx_diagonal_partial.
Example bx_diagonal_case : exists d, diagonal_sq [(3, 4); (-5, 1); (7, 9 # 2)] = Ok d /\ d == 625 # 4.
Proof. eexists. split; [vm_compute; reflexivity|]. vm_compute. reflexivity. Qed.
Example bx_diagonal_hyps : let ks := [(3, 4); (-5, 1); (7, 9 # 2)] : list (Q * Q) in
  (exists k, k ∈ ks /\ tiny <= k.1) /\ (exists k, k ∈ ks /\ tiny <= k.2) /\ (forall k, k ∈ ks -> k.1 <= huge /\ k.2 <= huge).
Proof.
  cbn. split; [|split].
  - exists (3, 4). split; [left|]. vm_compute. discriminate.
  - exists (3, 4). split; [left|]. vm_compute. discriminate.
  - intros k [->|[->|[->|H]%elem_of_cons]%elem_of_cons]%elem_of_cons; [..|by apply not_elem_of_nil in H]; split; vm_compute; discriminate.
Qed.
(** Refuted for negative coordinates: one keypoint has the box diagonal 0, the code returns more than 2. *)
Theorem bx_diagonal_refuted : exists ks d, ks <> [] /\ diagonal_sq ks = Ok d /\ 2 < d /\ forall d', box_diagonal_sq ks d' -> d' == 0.
Proof.
  exists [(-1, -1)]. eexists. split; [done|]. split; [vm_compute; reflexivity|]. split; [vm_compute; reflexivity|].
  intros d' (u0 & u1 & v0 & v1 & [Hu0 _] & [Hu1 _] & [Hv0 _] & [Hv1 _] & ->). cbn in *.
  apply elem_of_list_singleton in Hu0, Hu1, Hv0, Hv1. subst. reflexivity.
Qed.
Print Assumptions bx_diagonal_refuted.
(** Whenever all first coordinates are negative, the result exceeds the squared diagonal. *)
Theorem bx_diagonal_negative ks d d' : ks <> [] -> (forall k, k ∈ ks -> k.1 < 0 /\ k.2 <= huge) -> (exists k, k ∈ ks /\ tiny <= k.2) ->
  diagonal_sq ks = Ok d -> box_diagonal_sq ks d' -> d' < d.
Proof.
  intros Hn Hneg (k2 & Hk2 & L2) E (u0 & u1 & v0 & v1 & Hu0 & Hu1 & Hv0 & Hv1 & ->).
  unfold diagonal_sq in E. rewrite foldl_proj in E. cbn [u_min u_max v_min v_max box0] in E.
  assert (N : forall A (f : Q * Q -> A), f <$> ks <> []). { intros A f X. by apply fmap_nil_inv in X. }
  assert (M0 : 0 < dbl_min) by (vm_compute; reflexivity).
  destruct (fold_min_is_min (ks.*1) (N _ _)) as (a0 & Ha0 & E0).
  { intros x (k & -> & Hk)%elem_of_list_fmap. destruct (Hneg k Hk) as [X _]. assert (0 <= dbl_max) by (vm_compute; discriminate). lra. }
  destruct (fold_min_is_min (ks.*2) (N _ _)) as (b0 & Hb0 & F0). { intros x (k & -> & Hk)%elem_of_list_fmap. by apply Hneg. }
  destruct (fold_max_is_max (ks.*2)) as (b1 & Hb1 & F1). { exists (k2.2). split; [|done]. by apply elem_of_list_fmap_1. }
  destruct (foldl_max_spec (ks.*1) dbl_min) as ([E1|E1] & HM & _).
  2:{ apply elem_of_list_fmap in E1 as (k & E1 & Hk). destruct (Hneg k Hk) as [X _]. rewrite E1 in HM. lra. }
  rewrite E1 in E. destruct (Qlt_le_dec _ _) as [X|_]; [done|]. destruct (Qlt_le_dec _ _) as [X|_]; [done|]. injection E as <-.
  assert (Eu : u0 == a0). { destruct Hu0 as [X1 X2], Ha0 as [Y1 Y2]. apply X2 in Y1. apply Y2 in X1. lra. }
  assert (Ev : v0 == b0). { destruct Hv0 as [X1 X2], Hb0 as [Y1 Y2]. apply X2 in Y1. apply Y2 in X1. lra. }
  assert (Ev1 : v1 == b1). { destruct Hv1 as [X1 X2], Hb1 as [Y1 Y2]. apply X2 in Y1. apply Y2 in X1. lra. }
  rewrite E0, F0, F1, <- Eu, <- Ev, <- Ev1.
  assert (Hu1n : u1 < 0). { destruct Hu1 as [X _]. apply elem_of_list_fmap in X as (k & -> & Hk). by apply Hneg. }
  pose proof (min_le_max _ _ _ Hu0 Hu1). nra.
Qed.
Print Assumptions bx_diagonal_negative.
Example bx_diagonal_negative_hyps : let ks := [(-3, 4); (-5, 1)] : list (Q * Q) in ks <> [] /\
  (forall k, k ∈ ks -> k.1 < 0 /\ k.2 <= huge) /\ (exists k, k ∈ ks /\ tiny <= k.2) /\ (exists d, diagonal_sq ks = Ok d) /\ box_diagonal_sq ks 13.
Proof.
  cbn. split; [done|]. split; [|split; [|split]].
  - intros k [->|[->|H]%elem_of_cons]%elem_of_cons; [..|by apply not_elem_of_nil in H]; (split; [vm_compute; reflexivity|vm_compute; discriminate]).
  - exists (-3, 4). split; [left|]. vm_compute. discriminate.
  - eexists. vm_compute. reflexivity.
  - exists (-5), (-3), 1, 4. cbn. split; [|split; [|split; [|split; [|reflexivity]]]]; (split; [repeat constructor|]);
      intros x [->|[->|H]%elem_of_cons]%elem_of_cons; try (by apply not_elem_of_nil in H); vm_compute; discriminate.
Qed.
(** An empty track aborts. *)
Theorem bx_empty : diagonal_sq [] = Abort.
Proof. vm_compute. reflexivity. Qed.
Print Assumptions bx_empty.
