(** The growth of regions of the line segment detector. *)
From Coq Require Import ZArith Reals Lra Lia List Bool Arith.
Import ListNotations.
From Verif Require Import OrientModel OrientSpec OrientProps LsdOrderModel LsdRegionModel LsdRegionSpec.
Local Open Scope R_scope.

Lemma same_spec p q : same p q = true <-> p = q.
Proof. unfold same. rewrite andb_true_iff, !Z.eqb_eq. destruct p, q; cbn [fst snd]. split; [intros [-> ->]; reflexivity|intros E; injection E; auto]. Qed.
Lemma same_false p q : same p q = false <-> p <> q.
Proof. rewrite <- not_true_iff_false, same_spec. reflexivity. Qed.
Lemma mark_same u p b : mark u p b p = b.
Proof. unfold mark. rewrite (proj2 (same_spec p p) eq_refl). reflexivity. Qed.
Lemma mark_other u p b q : q <> p -> mark u p b q = u q.
Proof. intros N. unfold mark. rewrite (proj2 (same_false q p) N). reflexivity. Qed.
Lemma mark_true u p q : mark u p true q = true <-> u q = true \/ q = p.
Proof. unfold mark. destruct (same q p) eqn:E; [apply same_spec in E; tauto|apply same_false in E; tauto]. Qed.
Lemma between_in a b z : In z (between a b) <-> (a <= z <= b)%Z.
Proof.
  unfold between. rewrite in_map_iff. split.
  - intros (k & <- & I). apply in_seq in I. lia.
  - intros B. exists (Z.to_nat (z - a)). split; [lia|]. apply in_seq. lia.
Qed.
Lemma neighbours_in w h p q : in_image w h p -> In q (neighbours w h p) <-> near p q /\ in_image w h q.
Proof.
  destruct p as [x y], q as [x' y']. unfold in_image, near, neighbours. cbn [fst snd]. intros [P1 P2]. rewrite in_flat_map. split.
  - intros (yy & I1 & I2). apply in_map_iff in I2 as (xx & E & I2). injection E as -> ->. apply between_in in I1, I2. lia.
  - intros B. exists y'. split; [apply between_in; lia|]. apply in_map_iff. exists x'. split; [reflexivity|apply between_in; lia].
Qed.

Section Grow.
Variables (w h : Z) (ang : pixel -> option R) (prec : R) (used0 : pixel -> bool) (s : pixel) (a0 : R).
Hypothesis angle_s : ang s = Some a0.
(** reg_angle as a function of the points. *)
Definition run_angle (l : list pixel) : R := match l with [_] => a0 | _ => fast_atan2 (total sin ang l) (total cos ang l) end.
Definition accepts (l : list pixel) (q : pixel) : Prop := is_aligned (run_angle l) prec (ang q) = true.
Definition free (q : pixel) : Prop := used0 q = false.
Notation G := (grown w h free accepts s).

Lemma total_app f l1 l2 : total f ang (l1 ++ l2) = total f ang l1 + total f ang l2.
Proof. unfold total. rewrite fold_right_app. induction l1 as [|p l1 IH]; cbn [fold_right app]; [lra|]. rewrite IH. destruct (ang p); lra. Qed.

Record state_of (st : growth) : Prop := {
  of_grown : G (reg st);
  of_used : forall q, used st q = true <-> used0 q = true \/ In q (reg st);
  of_x : sumdx st = total cos ang (reg st);
  of_y : sumdy st = total sin ang (reg st);
  of_angle : reg_angle st = run_angle (reg st) }.

Lemma grown_image (F : list pixel -> pixel -> Prop) fr l p : grown w h fr F s l -> In p l -> in_image w h p /\ fr p.
Proof. induction 1 as [? ?|l p' q' G IH ? ? ? ? ? ?]; intros I; [destruct I as [<-|[]]; auto|]. apply in_app_iff in I as [I|[<-|[]]]; auto. Qed.
Lemma grown_nodup (F : list pixel -> pixel -> Prop) fr l : grown w h fr F s l -> NoDup l.
Proof.
  induction 1 as [? ?|l p' q' G IH ? ? ? ? N ?]; [repeat constructor; intros []|].
  assert (forall (l : list pixel) q, NoDup l -> ~ In q l -> NoDup (l ++ [q])) as A.
  { induction l0 as [|a l0 IHl]; intros q ND NI; [repeat constructor; intros []|]. inversion ND; subst. cbn [app]. constructor; [|apply IHl; [assumption|intros I; apply NI; right; exact I]]. rewrite in_app_iff. intros [I|[<-|[]]]; [contradiction|]. apply NI. left. reflexivity. }
  apply A; assumption.
Qed.
Lemma grown_nonempty (F : list pixel -> pixel -> Prop) fr l : grown w h fr F s l -> exists l', l = s :: l'.
Proof. induction 1 as [? ?|l p' q' G [l' ->] ? ? ? ? ? ?]; [exists []; reflexivity|]. exists (l' ++ [q']). reflexivity. Qed.

Lemma try_point_spec st q p : state_of st -> In p (reg st) -> near p q -> in_image w h q ->
  let st' := try_point ang prec st q in
  state_of st' /\ (exists l, reg st' = reg st ++ l) /\ (used0 q = false -> In q (reg st') \/ ~ accepts (reg st) q).
Proof.
  intros [SG SU SX SY SA] IP NQ IQ. destruct st as [u r sx sy ra]. cbn [reg used sumdx sumdy reg_angle] in *. unfold try_point.
  destruct (negb (u q)) eqn:U; cbn [andb].
  - apply negb_true_iff in U. destruct (is_aligned ra prec (ang q)) eqn:AL.
    + destruct (ang q) as [a|] eqn:AQ; [|discriminate]. cbv zeta. cbn [reg]. assert (used0 q = false /\ ~ In q r) as [U0 NI].
      { split; [destruct (used0 q) eqn:E; [|reflexivity]|intros I]; exfalso; assert (u q = true) by (apply SU; auto); congruence. }
      split; [|split; [exists [q]; reflexivity|intros _; left; apply in_app_iff; right; left; reflexivity]].
      split; cbn [reg used sumdx sumdy reg_angle].
      * apply (grown_add _ _ _ _ _ r p q); auto. unfold accepts. rewrite <- SA, AQ. exact AL.
      * intros q'. rewrite mark_true, SU, in_app_iff. cbn [In]. intuition congruence.
      * rewrite total_app, SX. cbn. rewrite AQ. lra.
      * rewrite total_app, SY. cbn. rewrite AQ. lra.
      * unfold run_angle. rewrite !total_app, <- SX, <- SY. cbn [total fold_right]. rewrite AQ, !Rplus_0_r. destruct (grown_nonempty _ _ _ SG) as [l' ->]. destruct l'; reflexivity.
    + cbv zeta. cbn [reg]. split; [split; assumption|]. split; [exists []; rewrite app_nil_r; reflexivity|]. intros _. right. unfold accepts. rewrite <- SA, AL. discriminate.
  - apply negb_false_iff in U. cbv zeta. cbn [reg]. split; [split; assumption|]. split; [exists []; rewrite app_nil_r; reflexivity|]. intros F. left. apply SU in U as [U|U]; [congruence|exact U].
Qed.
(** What is known of a neighbour that has been tried. *)
Definition settled (r : list pixel) (p q : pixel) : Prop := In q r \/ exists l1 l2, r = l1 ++ l2 /\ In p l1 /\ ~ accepts l1 q.
Lemma settled_app r l p q : settled r p q -> settled (r ++ l) p q.
Proof. intros [I|(l1 & l2 & -> & I & N)]; [left; apply in_app_iff; auto|]. right. exists l1, (l2 ++ l). rewrite app_assoc. auto. Qed.
Lemma try_points_spec p Q : forall st, state_of st -> In p (reg st) -> (forall q, In q Q -> near p q /\ in_image w h q) ->
  let st' := fold_left (try_point ang prec) Q st in
  state_of st' /\ (exists l, reg st' = reg st ++ l) /\ forall q, In q Q -> used0 q = false -> settled (reg st') p q.
Proof.
  induction Q as [|q Q IH]; intros st S IP B; [cbn; split; [exact S|]; split; [exists []; rewrite app_nil_r; reflexivity|intros ? []]|]. cbn [fold_left].
  destruct (B q (or_introl eq_refl)) as [NQ IQ]. destruct (try_point_spec st q p S IP NQ IQ) as (S1 & (l1 & E1) & T1). cbv zeta in *. set (st1 := try_point ang prec st q) in *.
  destruct (IH st1 S1) as (S2 & (l2 & E2) & T2); [rewrite E1; apply in_app_iff; auto|intros q' I'; apply B; right; exact I'|]. split; [exact S2|]. split; [exists (l1 ++ l2); rewrite E2, E1, app_assoc; reflexivity|]. intros q' [<-|I'] U; [|apply T2; assumption]. rewrite E2. apply settled_app. destruct (T1 U) as [I|N]; [left; exact I|]. right. exists (reg st), l1. auto.
Qed.
Lemma grown_bound l (F : list pixel -> pixel -> Prop) fr : grown w h fr F s l -> (length l <= Z.to_nat (w * h))%nat.
Proof.
  intros Gl. set (all := flat_map (fun y => map (fun x => (x, y)) (between 0 (w - 1))) (between 0 (h - 1))). assert (incl l all) as I.
  { intros [x y] I. destruct (grown_image _ _ _ _ Gl I) as [[B1 B2] _]. cbn [fst snd] in *. apply in_flat_map. exists y. split; [apply between_in; lia|]. apply in_map_iff. exists x. split; [reflexivity|apply between_in; lia]. }
  pose proof (NoDup_incl_length (grown_nodup _ _ _ Gl) I) as L. assert (length all = (length (between 0 (h - 1)) * length (between 0 (w - 1)))%nat) as E.
  { clear I L. unfold all. clear all. induction (between 0 (h - 1)) as [|y ys IH]; [reflexivity|]. cbn [flat_map length]. rewrite app_length, IH, map_length. lia. }
  rewrite E in L. unfold between in L. rewrite !map_length, !seq_length in L. destruct (grown_nonempty _ _ _ Gl) as [l' ->]. destruct (grown_image _ _ _ _ Gl (or_introl eq_refl)) as [[B1 B2] _]. replace (w - 1 - 0 + 1)%Z with w in L by ring. replace (h - 1 - 0 + 1)%Z with h in L by ring. rewrite Z2Nat.inj_mul by lia. lia.
Qed.
Lemma grow_from_spec fuel : forall i st, state_of st -> (Z.to_nat (w * h) <= fuel + i)%nat ->
  (forall j p q, (j < i)%nat -> nth_error (reg st) j = Some p -> near p q -> in_image w h q -> used0 q = false -> settled (reg st) p q) ->
  exists st', grow_from w h ang fuel prec i st = Ok st' /\ state_of st' /\ forall p q, In p (reg st') -> near p q -> in_image w h q -> used0 q = false -> settled (reg st') p q.
Proof.
  induction fuel as [|fuel IH]; intros i st S F E.
  - cbn [grow_from]. pose proof (grown_bound _ _ _ (of_grown _ S)) as B. destruct (nth_error (reg st) i) as [p|] eqn:N; [exfalso; assert (i < length (reg st))%nat as Li by (apply nth_error_Some; congruence); exact (Nat.lt_irrefl _ (Nat.lt_le_trans _ _ _ Li (Nat.le_trans _ _ _ B F)))|]. exists st. split; [reflexivity|]. split; [exact S|]. intros p q I. apply In_nth_error in I as [j I]. apply nth_error_None in N. apply (E j); [|exact I]. assert (j < length (reg st))%nat by (apply nth_error_Some; congruence). lia.
  - cbn [grow_from]. destruct (nth_error (reg st) i) as [p|] eqn:N.
    + assert (In p (reg st)) as IP by exact (nth_error_In _ _ N). destruct (grown_image _ _ _ _ (of_grown _ S) IP) as [II _]. destruct (try_points_spec p (neighbours w h p) st S IP) as (S' & (l & El) & T); [intros q I; apply (neighbours_in w h p q II), I|]. cbv zeta in *. apply IH; [exact S'|lia|]. intros j p' q J Nj NE IQ U. rewrite El in Nj. destruct (Nat.eq_dec j i) as [->|JI].
      * assert (p' = p) as -> by (rewrite nth_error_app1 in Nj by (apply nth_error_Some; congruence); congruence). apply T; [apply neighbours_in; auto|exact U].
      * rewrite El. apply settled_app. apply (E j); auto; [lia|]. rewrite nth_error_app1 in Nj; [exact Nj|]. assert (i < length (reg st))%nat by (apply nth_error_Some; congruence). lia.
    + exists st. split; [reflexivity|]. split; [exact S|]. intros p q I. apply In_nth_error in I as [j I]. apply nth_error_None in N. apply (E j); [|exact I]. assert (j < length (reg st))%nat by (apply nth_error_Some; congruence). lia.
Qed.
Lemma region_grow_spec : in_image w h s -> used0 s = false ->
  exists st, region_grow w h ang used0 s prec = Ok st /\ state_of st /\ forall p q, In p (reg st) -> near p q -> in_image w h q -> used0 q = false -> settled (reg st) p q.
Proof.
  intros I U. unfold region_grow. rewrite angle_s. apply grow_from_spec; [|lia|intros j p q J; lia]. split; cbn [reg used sumdx sumdy reg_angle].
  - constructor; assumption.
  - intros q. rewrite mark_true. cbn [In]. intuition congruence.
  - cbn. rewrite angle_s. lra.
  - cbn. rewrite angle_s. lra.
  - reflexivity.
Qed.
End Grow.
