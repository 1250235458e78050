(** The loops of refine and reduce_region_radius, and the map of used pixels. *)
From Coq Require Import ZArith Reals Lra Lia List Bool Arith Permutation.
Import ListNotations.
From Verif Require Import OrientModel LsdOrderModel LsdRegionModel LsdRegionSpec LsdGrowProofs LsdGrowProps LsdRectSpec LsdRectProps.
Local Open Scope R_scope.

(** ** Removal of far points *)
Lemma split_last {A} (l : list A) : l = [] \/ exists l' z, l = l' ++ [z].
Proof. destruct l as [|a l]; [left; reflexivity|]. right. destruct (exists_last (l := a :: l) ltac:(discriminate)) as (l' & z & E). exists l', z. exact E. Qed.
Lemma set_nth_app l1 p q l2 : set_nth (l1 ++ p :: l2) (length l1) q = l1 ++ q :: l2.
Proof. induction l1 as [|a l1 IH]; [reflexivity|]. cbn. rewrite IH. reflexivity. Qed.
Lemma drop_spec l1 p l2 : exists l2', removelast (set_nth (l1 ++ p :: l2) (length l1) (last (l1 ++ p :: l2) p)) = l1 ++ l2' /\ Permutation l2' l2.
Proof.
  rewrite set_nth_app. destruct (split_last l2) as [->|(l & z & ->)].
  - exists []. rewrite removelast_last, app_nil_r. auto.
  - exists (z :: l). split; [|apply Permutation_cons_append]. assert (forall y, l1 ++ y :: l ++ [z] = (l1 ++ y :: l) ++ [z]) as E by (intros; rewrite <- app_assoc; reflexivity). rewrite !E, last_last, removelast_last. reflexivity.
Qed.
Section Far.
Variables (xc yc rad : R).
Definition far (p : pixel) : Prop := rad < dist_sq xc yc (IZR (fst p)) (IZR (snd p)).
Definition farb (p : pixel) : bool := if Rlt_dec rad (dist_sq xc yc (IZR (fst p)) (IZR (snd p))) then true else false.
Lemma farb_spec p : farb p = true <-> far p.
Proof. unfold farb, far. destruct (Rlt_dec _ _) as [H|H]; (split; intros E; [first [exact H|discriminate]|first [reflexivity|contradiction]]). Qed.
Lemma remove_far_spec fuel : forall l1 l2 used, (length l2 <= fuel)%nat ->
  exists used' l2', remove_far fuel xc yc rad (length l1) used (l1 ++ l2) = (used', l1 ++ l2') /\ Permutation l2' (filter (fun p => negb (farb p)) l2) /\
  forall q, used' q = true <-> used q = true /\ ~ (In q l2 /\ far q).
Proof.
  induction fuel as [|fuel IH]; intros l1 l2 used L; cbn [remove_far].
  - destruct l2; [|cbn in L; lia]. exists used, []. split; [reflexivity|]. split; [constructor|]. intros q. cbn [In]. tauto.
  - destruct l2 as [|p l2]; [rewrite app_nil_r, (proj2 (nth_error_None l1 (length l1)) ltac:(lia)); exists used, []; rewrite app_nil_r; split; [reflexivity|]; split; [constructor|]; intros q; cbn [In]; tauto|].
    rewrite nth_error_app2, Nat.sub_diag by lia. cbn [nth_error]. cbn [length] in L. destruct (Rlt_dec rad _) as [F|F].
    + destruct (drop_spec l1 p l2) as (l2' & -> & P). destruct (IH l1 l2' (mark used p false)) as (used' & r & E & PR & U); [rewrite (Permutation_length P); lia|]. exists used', r. split; [exact E|]. split.
      * cbn [filter]. rewrite (proj2 (farb_spec p) F). cbn [negb]. rewrite PR. clear - P. induction P as [|a l l' P IH|a b l|l l' l'' P1 IH1 P2 IH2]; cbn [filter]; [constructor|destruct (negb (farb a)); [constructor; exact IH|exact IH]|destruct (negb (farb a)); destruct (negb (farb b)); try apply Permutation_refl; apply perm_swap|exact (Permutation_trans IH1 IH2)].
      * intros q. rewrite U. unfold mark. destruct (same q p) eqn:S.
        -- apply same_spec in S as ->. split; [intros [? _]; discriminate|intros [_ H]; exfalso; apply H; split; [left; reflexivity|exact F]].
        -- apply same_false in S. split; intros [H1 H2]; (split; [exact H1|]); intros [I FQ]; apply H2.
           ++ destruct I as [<-|I]; [contradiction|]. split; [apply (Permutation_in _ (Permutation_sym P)), I|exact FQ].
           ++ split; [right; apply (Permutation_in _ P), I|exact FQ].
    + specialize (IH (l1 ++ [p]) l2 used ltac:(lia)). rewrite app_length in IH. cbn [length] in IH. rewrite Nat.add_1_r, <- app_assoc in IH. cbn [app] in IH. destruct IH as (used' & r & E & PR & U). exists used', (p :: r). split; [rewrite E, <- app_assoc; reflexivity|]. split.
      * cbn [filter]. replace (farb p) with false by (symmetry; apply not_true_iff_false; rewrite farb_spec; exact F). constructor. exact PR.
      * intros q. rewrite U. split; intros [H1 H2]; (split; [exact H1|]); intros [I FQ]; apply H2; [|split; [right; exact I|exact FQ]]. destruct I as [<-|I]; [contradiction|auto].
Qed.
End Far.

(** Different pixels are at least 1 apart. *)
Lemma apart p q : p <> q -> 1 <= dist_sq (IZR (fst p)) (IZR (snd p)) (IZR (fst q)) (IZR (snd q)).
Proof.
  intros N. unfold dist_sq. rewrite <- !minus_IZR, <- !mult_IZR, <- plus_IZR. apply IZR_le. destruct p as [a b], q as [c d]. cbn [fst snd]. assert (c - a <> 0 \/ d - b <> 0)%Z as H; [|revert H; generalize (c - a)%Z (d - b)%Z; intros u v H; pose proof (Z.square_nonneg u); pose proof (Z.square_nonneg v); assert (u * u <> 0 \/ v * v <> 0)%Z by (destruct H as [H|H]; [left|right]; intros E; apply H; apply Z.eq_square_0; exact E); lia]. destruct (Z.eq_dec c a) as [->|]; [|left; lia]. right. intros E. apply N. f_equal. lia.
Qed.

Section Segments.
Variables (w h : Z) (ang : pixel -> option R) (grad : pixel -> R) (prec density_th : R).
Hypothesis weights : forall p, in_image w h p -> ang p <> None -> 0 < grad p.
Notation region2rect := (region2rect grad).

Definition region_ok (used0 : pixel -> bool) (l : list pixel) : Prop := NoDup l /\ forall p, In p l -> in_image w h p /\ ang p <> None /\ used0 p = false.
Definition marks (used0 used : pixel -> bool) (l : list pixel) : Prop := forall q, used q = true <-> used0 q = true \/ In q l.
Lemma rect_exists used0 l a : region_ok used0 l -> (2 <= length l)%nat -> exists rec, region2rect l a prec = Ok rec.
Proof.
  intros [N I] L. destruct (region2rect_cases grad l a prec) as [T|E]; [|exact E]. exfalso. destruct l as [|p [|q l]]; [cbn in L; lia|cbn in L; lia|]. assert (p = q) as E.
  { apply (proj1 (lcx_throw grad (p :: q :: l) a prec ltac:(intros r R; apply weights; apply I, R) ltac:(discriminate)) T); [left; reflexivity|right; left; reflexivity]. }
  inversion N as [|? ? N1 _]; subst. apply N1. left. reflexivity.
Qed.

Lemma grow_ok used0 s tau : in_image w h s -> ang s <> None -> used0 s = false ->
  exists st, region_grow w h ang used0 s tau = Ok st /\ hd_error (reg st) = Some s /\ region_ok used0 (reg st) /\ marks used0 (used st) (reg st).
Proof.
  intros I A U. destruct (ang s) as [a|] eqn:E; [|contradiction]. destruct (lgx_region w h ang tau used0 s a E I U) as (st & G & H & N & _ & J & M). exists st. split; [exact G|]. split; [exact H|]. split; [|exact M]. split; [exact N|]. intros p P. specialize (J p P). destruct J as [? [? ?]|? ? ? ? ? [? ?]]; auto.
Qed.

(** ** reduce_region_radius *)
Section Reduce.
Variables (used0 : pixel -> bool) (s : pixel) (a : R).
Notation reduce fuel := (reduce grad fuel a prec density_th (IZR (fst s)) (IZR (snd s))).
Definition reported (r : list pixel) (rec : rect) : Prop := (2 <= length r)%nat /\ (exists a, region2rect r a prec = Ok rec) /\ low_density rec (length r) density_th = false.
Lemma shrink l used rad : region_ok used0 l -> hd_error l = Some s -> marks used0 used l -> 0 <= rad ->
  exists used' l', remove_far (length l) (IZR (fst s)) (IZR (snd s)) rad 0 used l = (used', l') /\ region_ok used0 l' /\ hd_error l' = Some s /\ marks used0 used' l' /\ incl l' l /\ (rad < 1 -> l' = [s]).
Proof.
  intros [N I] H M P. destruct l as [|s' l]; [discriminate|]. injection H as ->. assert (~ far (IZR (fst s)) (IZR (snd s)) rad s) as F by (unfold far, dist_sq; rewrite !Rminus_eq_0; lra).
  cbn [length remove_far nth_error]. destruct (Rlt_dec rad _) as [F'|_]; [contradiction|]. destruct (remove_far_spec (IZR (fst s)) (IZR (snd s)) rad (length l) [s] l used (le_n _)) as (used' & l2 & E & PM & U). cbn [length app] in E. exists used', (s :: l2). split; [exact E|].
  assert (forall q, In q l2 <-> In q l /\ ~ far (IZR (fst s)) (IZR (snd s)) rad q) as Q.
  { intros q. rewrite <- farb_spec, not_true_iff_false, <- negb_true_iff. rewrite <- (filter_In (fun p => negb (farb (IZR (fst s)) (IZR (snd s)) rad p)) q l). split; apply Permutation_in; [exact PM|symmetry; exact PM]. }
  inversion N as [|? ? N1 N2]; subst. split; [|split; [reflexivity|]]; [split|split; [|split]].
  - constructor; [rewrite Q; tauto|]. apply (Permutation_NoDup (Permutation_sym PM)), NoDup_filter, N2.
  - intros p [<-|J]; apply I; [left; reflexivity|]. right. apply Q, J.
  - intros q. rewrite U. cbn [In]. rewrite Q, (M q). cbn [In]. split; [|intros [H|[<-|[H1 H2]]]].
    + intros [[H|[H|H]] H']; [left; exact H|right; left; exact H|]. right. right. tauto.
    + split; [left; exact H|]. intros [J _]. destruct (I q (or_intror J)) as (_ & _ & H'). congruence.
    + split; [right; left; reflexivity|]. tauto.
    + split; [right; right; exact H1|]. tauto.
  - intros q [<-|J]; [left; reflexivity|right; apply Q, J].
  - intros L. assert (forall q, ~ In q l2) as V; [|destruct l2 as [|q l2]; [reflexivity|exfalso; apply (V q); left; reflexivity]]. intros q J. apply Q in J as [J1 J2]. apply J2. unfold far. eapply Rlt_le_trans; [exact L|]. apply apart. intros <-. contradiction.
Qed.
Definition result_ok (l : list pixel) (o : (pixel -> bool) * list pixel * rect * bool) : Prop :=
  let '(used', l', rec', good) := o in region_ok used0 l' /\ marks used0 used' l' /\ incl l' l /\ (good = true -> reported l' rec').
Lemma reduce_ok fuel : forall rad used l rec, region_ok used0 l -> hd_error l = Some s -> marks used0 used l -> 0 <= rad -> (2 <= length l)%nat -> region2rect l a prec = Ok rec ->
  reduce fuel rad used l rec = Fuel \/ exists o, reduce fuel rad used l rec = Ok o /\ result_ok l o.
Proof.
  induction fuel as [|fuel IH]; intros rad used l rec O H M P L E; cbn [LsdRegionModel.reduce]; destruct (low_density rec (length l) density_th) eqn:D.
  - left. reflexivity.
  - right. eexists. split; [reflexivity|]. split; [exact O|]. split; [exact M|]. split; [apply incl_refl|]. intros _. split; [exact L|]. split; [eauto|exact D].
  - destruct (shrink l used (rad * (75 / 100 * (75 / 100))) O H M ltac:(lra)) as (used' & l' & -> & O' & H' & M' & I' & _). destruct (length l' <? 2)%nat eqn:B.
    + right. eexists. split; [reflexivity|]. split; [exact O'|]. split; [exact M'|]. split; [exact I'|discriminate].
    + apply Nat.ltb_ge in B. destruct (rect_exists used0 l' a O' B) as (rec' & E'). rewrite E'. cbn [bind]. destruct (IH (rad * (75 / 100 * (75 / 100))) used' l' rec' O' H' M' ltac:(lra) B E') as [F|(o & F & R)]; [left; exact F|]. right. exists o. split; [exact F|]. destruct o as [[[u r] c] g]. destruct R as (R1 & R2 & R3 & R4). split; [exact R1|]. split; [exact R2|]. split; [exact (incl_tran R3 I')|exact R4].
  - right. eexists. split; [reflexivity|]. split; [exact O|]. split; [exact M|]. split; [apply incl_refl|]. intros _. split; [exact L|]. split; [eauto|exact D].
Qed.
Lemma reduce_ends fuel : forall rad used l rec, region_ok used0 l -> hd_error l = Some s -> marks used0 used l -> 0 <= rad -> rad * (9 / 16) ^ fuel < 1 -> reduce (S fuel) rad used l rec <> Fuel.
Proof.
  induction fuel as [|fuel IH]; intros rad used l rec O H M P B; cbn [LsdRegionModel.reduce]; destruct (low_density rec (length l) density_th); try discriminate.
  - destruct (shrink l used (rad * (75 / 100 * (75 / 100))) O H M ltac:(lra)) as (used' & l' & -> & _ & _ & _ & _ & Z). cbn in B. rewrite (Z ltac:(lra)). cbn. discriminate.
  - destruct (shrink l used (rad * (75 / 100 * (75 / 100))) O H M ltac:(lra)) as (used' & l' & -> & O' & H' & M' & _). destruct (length l' <? 2)%nat eqn:L; [discriminate|]. apply Nat.ltb_ge in L. destruct (rect_exists used0 l' a O' L) as (rec' & ->). cbn [bind]. apply IH; try assumption; [lra|]. replace (rad * (75 / 100 * (75 / 100)) * (9 / 16) ^ fuel) with (rad * (9 / 16) ^ S fuel) by (cbn [pow]; field). exact B.
Qed.
Lemma shrinks rad : exists fuel, rad * (9 / 16) ^ fuel < 1.
Proof.
  destruct (Rle_dec rad 0) as [N|N]; [exists 0%nat; cbn; lra|]. apply Rnot_le_lt in N. destruct (pow_lt_1_zero (9 / 16) ltac:(rewrite Rabs_right; lra) (/ rad) (Rinv_0_lt_compat _ N)) as (n & B). exists n. specialize (B n (le_n n)). rewrite Rabs_right in B by (apply Rle_ge, pow_le; lra). apply Rmult_lt_compat_l with (r := rad) in B; [|exact N]. rewrite Rinv_r in B by lra. exact B.
Qed.
Lemma reduce_S fuel rad used l rec : reduce (S fuel) rad used l rec = if low_density rec (length l) density_th then
    let '(used, l) := remove_far (length l) (IZR (fst s)) (IZR (snd s)) (rad * (75 / 100 * (75 / 100))) 0 used l in
    if (length l <? 2)%nat then Ok (used, l, rec, false) else bind (region2rect l a prec) (fun rec => reduce fuel (rad * (75 / 100 * (75 / 100))) used l rec)
  else Ok (used, l, rec, true).
Proof. reflexivity. Qed.
Lemma reduce_more fuel : forall rad used l rec, reduce fuel rad used l rec <> Fuel -> reduce (S fuel) rad used l rec = reduce fuel rad used l rec.
Proof.
  induction fuel as [|fuel IH]; intros rad used l rec N.
  - cbn in *. destruct (low_density rec (length l) density_th); [contradiction|reflexivity].
  - rewrite (reduce_S (S fuel)). rewrite (reduce_S fuel) in N |- *. destruct (low_density rec (length l) density_th); [|reflexivity]. destruct (remove_far _ _ _ _ _ _ _) as [u r]. destruct (length r <? 2)%nat; [reflexivity|]. destruct (region2rect r a prec); [|reflexivity|reflexivity]. cbn [bind] in *. apply IH, N.
Qed.
End Reduce.

(** ** refine *)
Lemma unmark l : forall used q, fold_left (fun u p => mark u p false) l used q = true <-> used q = true /\ ~ In q l.
Proof.
  induction l as [|p l IH]; intros used q; cbn [fold_left In]; [tauto|]. rewrite IH. unfold mark. destruct (same q p) eqn:E.
  - apply same_spec in E as ->. split; [intros [? _]; discriminate|intros [_ H]; exfalso; apply H; left; reflexivity].
  - apply same_false in E. split; intros [H1 H2]; (split; [exact H1|]); [intros [H|H]; [congruence|contradiction]|tauto].
Qed.
Lemma region_ok_ext u u' l : (forall q, u q = true <-> u' q = true) -> region_ok u l -> region_ok u' l.
Proof. intros E [N I]. split; [exact N|]. intros p P. destruct (I p P) as (I1 & I2 & I3). split; [exact I1|]. split; [exact I2|]. apply not_true_iff_false. rewrite <- E. congruence. Qed.
Section Refine.
Variables (used0 : pixel -> bool) (s : pixel).
Notation refine fuel := (refine w h ang grad fuel).
Lemma released used l : region_ok used0 l -> marks used0 used l -> forall q, fold_left (fun u p => mark u p false) l used q = true <-> used0 q = true.
Proof.
  intros [_ I] M q. rewrite unmark, (M q). split; [intros [[H|H] H']; [exact H|contradiction]|]. intros H. split; [left; exact H|]. intros J. destruct (I q J) as (_ & _ & F). congruence.
Qed.
Definition refined_ok (o : (pixel -> bool) * list pixel * rect * bool) : Prop :=
  let '(used', l', rec', good) := o in region_ok used0 l' /\ marks used0 used' l' /\ (good = true -> reported l' rec').
Lemma refine_ok fuel a um l rec : region_ok used0 l -> hd_error l = Some s -> marks used0 um l -> (2 <= length l)%nat -> region2rect l a prec = Ok rec ->
  refine fuel a prec density_th um l rec = Fuel \/ exists o, refine fuel a prec density_th um l rec = Ok o /\ refined_ok o.
Proof.
  intros O H M L E. unfold LsdRegionModel.refine. destruct (low_density rec (length l) density_th) eqn:D.
  2: { right. eexists. split; [reflexivity|]. split; [exact O|]. split; [exact M|]. intros _. split; [exact L|]. split; [eauto|exact D]. }
  set (u1 := fold_left _ l um). pose proof (released um l O M) as R. fold u1 in R. assert (hd (0, 0)%Z l = s /\ In s l) as [-> IS] by (destruct l as [|z l]; [discriminate|injection H as ->; split; [reflexivity|left; reflexivity]]). destruct O as [N I]. destruct (I s IS) as (I1 & I2 & I3). destruct (grow_ok u1 s (tolerance ang l (width rec)) I1 I2) as (st & -> & H' & O' & M'); [apply not_true_iff_false; rewrite R; congruence|]. cbn [bind]. destruct st as [u2 l2 ? ? a2]. cbn [reg used] in *.
  assert (region_ok used0 l2) as O2 by (apply (region_ok_ext u1); assumption). assert (marks used0 u2 l2) as M2 by (intros q; rewrite (M' q), R; reflexivity).
  destruct (length l2 <? 2)%nat eqn:B; [right; eexists; split; [reflexivity|]; split; [exact O2|]; split; [exact M2|discriminate]|]. apply Nat.ltb_ge in B. destruct (rect_exists used0 l2 a2 O2 B) as (rec2 & E2). rewrite E2. cbn [bind]. destruct (low_density rec2 (length l2) density_th) eqn:D2.
  - unfold reduce_region_radius. assert (hd (0, 0)%Z l2 = s) as -> by (destruct l2 as [|z l2]; [discriminate|injection H' as ->; reflexivity]). cbv zeta.
    match goal with |- LsdRegionModel.reduce _ _ _ _ _ _ _ ?r _ _ _ = _ \/ _ => assert (0 <= r) as P by (destruct (Rlt_dec _ _); unfold dist_sq; apply Rplus_le_le_0_compat; apply Rle_0_sqr) end.
    destruct (reduce_ok used0 s a2 fuel _ u2 l2 rec2 O2 H' M2 P B E2) as [F|(o & F & RO)]; [left; exact F|]. right. exists o. split; [exact F|]. destruct o as [[[u3 l3] rec3] g]. destruct RO as (R1 & R2 & _ & R4). split; [exact R1|]. split; [exact R2|exact R4].
  - right. eexists. split; [reflexivity|]. split; [exact O2|]. split; [exact M2|]. intros _. split; [exact B|]. split; [eauto|exact D2].
Qed.
Lemma refine_ends a um l rec : region_ok used0 l -> hd_error l = Some s -> marks used0 um l -> exists fuel, refine fuel a prec density_th um l rec <> Fuel.
Proof.
  intros O H M. unfold LsdRegionModel.refine. destruct (low_density rec (length l) density_th) eqn:D; [|exists 0%nat; discriminate].
  set (u1 := fold_left _ l um). pose proof (released um l O M) as R. fold u1 in R. assert (hd (0, 0)%Z l = s /\ In s l) as [-> IS] by (destruct l as [|z l]; [discriminate|injection H as ->; split; [reflexivity|left; reflexivity]]). destruct O as [N I]. destruct (I s IS) as (I1 & I2 & I3). destruct (grow_ok u1 s (tolerance ang l (width rec)) I1 I2) as (st & -> & H' & O' & M'); [apply not_true_iff_false; rewrite R; congruence|]. cbn [bind]. destruct st as [u2 l2 ? ? a2]. cbn [reg used] in *.
  assert (region_ok used0 l2) as O2 by (apply (region_ok_ext u1); assumption). assert (marks used0 u2 l2) as M2 by (intros q; rewrite (M' q), R; reflexivity).
  destruct (length l2 <? 2)%nat eqn:B; [exists 0%nat; discriminate|]. apply Nat.ltb_ge in B. destruct (rect_exists used0 l2 a2 O2 B) as (rec2 & E2). rewrite E2. cbn [bind]. destruct (low_density rec2 (length l2) density_th) eqn:D2; [|exists 0%nat; discriminate].
  unfold reduce_region_radius. assert (hd (0, 0)%Z l2 = s) as -> by (destruct l2 as [|z l2]; [discriminate|injection H' as ->; reflexivity]). cbv zeta.
  match goal with |- exists f, LsdRegionModel.reduce _ _ _ _ _ _ _ ?r _ _ _ <> _ => assert (0 <= r) as P by (destruct (Rlt_dec _ _); unfold dist_sq; apply Rplus_le_le_0_compat; apply Rle_0_sqr); destruct (shrinks r) as (rounds & F) end.
  exists (S rounds). apply (reduce_ends used0); assumption.
Qed.
End Refine.
Lemma refine_more fuel a used l rec : refine w h ang grad fuel a prec density_th used l rec <> Fuel -> refine w h ang grad (S fuel) a prec density_th used l rec = refine w h ang grad fuel a prec density_th used l rec.
Proof.
  unfold refine. destruct (low_density rec (length l) density_th); [|reflexivity]. destruct (region_grow _ _ _ _ _ _) as [[u2 l2 ? ? a2]| |]; [|reflexivity|reflexivity]. cbn [bind]. destruct (length l2 <? 2)%nat; [reflexivity|]. destruct (region2rect l2 a2 prec); [|reflexivity|reflexivity]. cbn [bind]. destruct (low_density _ _ _); [|reflexivity]. apply reduce_more.
Qed.

(** ** The loop over the seeds *)
Variables (std : bool) (size : Z).
Notation try_seed fuel := (try_seed w h ang grad fuel std prec density_th size).
Notation try_seeds fuel := (try_seeds w h ang grad fuel std prec density_th size).
Lemma try_seed_more fuel st s : try_seed fuel st s <> Fuel -> try_seed (S fuel) st s = try_seed fuel st s.
Proof.
  unfold LsdRegionModel.try_seed. destruct st as [used lines]. destruct (used s); [reflexivity|]. destruct (ang s); [|reflexivity]. destruct (region_grow _ _ _ _ _ _) as [[u2 l2 ? ? a2]| |]; [|reflexivity|reflexivity]. cbn [bind]. destruct (_ <? _)%Z; [reflexivity|]. destruct (region2rect l2 a2 prec); [|reflexivity|reflexivity]. cbn [bind]. destruct std; [|reflexivity]. intros N. rewrite refine_more; [reflexivity|]. intros E. rewrite E in N. apply N. reflexivity.
Qed.
Lemma try_seeds_more l fuel : forall st, try_seeds fuel st l <> Fuel -> try_seeds (S fuel) st l = try_seeds fuel st l.
Proof.
  induction l as [|s l IH]; intros st N; [reflexivity|]. cbn [LsdRegionModel.try_seeds] in *. rewrite try_seed_more; [|intros E; rewrite E in N; apply N; reflexivity]. destruct (try_seed fuel st s); [|reflexivity|reflexivity]. cbn [bind] in *. apply IH, N.
Qed.

Definition segment_ok (f : found) : Prop :=
  (1 <= length (fst f))%nat /\ (forall p, In p (fst f) -> in_image w h p /\ ang p <> None) /\ (exists a, region2rect (fst f) a prec = Ok (snd f)) /\
  (if std then (2 <= length (fst f))%nat /\ low_density (snd f) (length (fst f)) density_th = false else (size <= Z.of_nat (length (fst f)))%Z).
Definition state_ok (st : (pixel -> bool) * list found) : Prop :=
  let '(used, lines) := st in NoDup (concat (map fst lines)) /\ (forall p, In p (concat (map fst lines)) -> used p = true) /\ Forall segment_ok lines.
Lemma state_add used0 used lines l rec : state_ok (used0, lines) -> region_ok used0 l -> marks used0 used l -> segment_ok (l, rec) -> state_ok (used, lines ++ [(l, rec)]).
Proof.
  intros (N & U & F) [NL IL] M S. unfold state_ok. rewrite map_app, concat_app. cbn [map concat fst]. rewrite app_nil_r. split; [|split].
  - apply NoDup_app_intro; [exact N|exact NL|]. intros x X Y. apply U in X. destruct (IL x Y) as (_ & _ & ?). congruence.
  - intros p P. apply M. apply in_app_or in P as [P|P]; [left; apply U, P|right; exact P].
  - apply Forall_app. split; [exact F|]. constructor; [exact S|constructor].
Qed.
Lemma state_skip used0 used lines l : state_ok (used0, lines) -> marks used0 used l -> state_ok (used, lines).
Proof. intros (N & U & F) M. split; [exact N|]. split; [|exact F]. intros p P. apply M. left. apply U, P. Qed.
Lemma try_seed_ok fuel st s : in_image w h s -> state_ok st ->
  try_seed fuel st s = Fuel \/ (try_seed fuel st s = Throw /\ (size <= 1)%Z) \/ exists st', try_seed fuel st s = Ok st' /\ state_ok st'.
Proof.
  intros I OK. unfold LsdRegionModel.try_seed. destruct st as [used0 lines]. destruct (used0 s) eqn:U; [right; right; eauto|]. destruct (ang s) as [as_|] eqn:A; [|right; right; eauto]. destruct (grow_ok used0 s prec I ltac:(congruence) U) as (st & -> & H & O & M). cbn [bind]. destruct st as [u1 l1 ? ? a1]. cbn [reg used] in *. destruct (_ <? _)%Z eqn:B; [right; right; eexists; split; [reflexivity|exact (state_skip _ _ _ _ OK M)]|]. apply Z.ltb_ge in B.
  assert (1 <= length l1)%nat as L1 by (destruct l1; [discriminate|cbn; lia]). destruct (region2rect_cases grad l1 a1 prec) as [T|(rec & E)].
  { right. left. rewrite T. split; [reflexivity|]. destruct (le_lt_dec 2 (length l1)) as [L|L]; [|lia]. destruct (rect_exists used0 l1 a1 O L) as (rec & E). congruence. }
  rewrite E. cbn [bind]. destruct std eqn:ST.
  2: { right. right. eexists. split; [reflexivity|]. apply (state_add used0); try assumption. unfold segment_ok. cbn [fst snd]. rewrite ST. split; [exact L1|]. split; [intros p P; apply O in P; tauto|]. split; [eauto|exact B]. }
  assert (2 <= length l1)%nat as L2.
  { destruct (le_lt_dec 2 (length l1)) as [L|L]; [exact L|]. exfalso. assert (region2rect l1 a1 prec = Throw); [|congruence]. destruct l1 as [|z [|z' l1]]; [discriminate| |cbn in L; lia]. apply lcx_throw; [intros p P; apply weights; apply O, P|discriminate|]. intros p q [<-|[]] [<-|[]]. reflexivity. }
  destruct (refine_ok used0 s fuel a1 u1 l1 rec O H M L2 E) as [F|(o & F & RO)]; rewrite F; [left; reflexivity|]. right. right. cbn [bind]. destruct o as [[[u2 l2] rec2] g]. destruct RO as (O2 & M2 & G). eexists. split; [reflexivity|]. destruct g; [|exact (state_skip _ _ _ _ OK M2)]. destruct (G eq_refl) as (G1 & G2 & G3). apply (state_add used0); try assumption. unfold segment_ok. cbn [fst snd]. rewrite ST. split; [lia|]. split; [intros p P; apply O2 in P; tauto|]. split; [exact G2|]. split; assumption.
Qed.
Lemma try_seed_ends st s : in_image w h s -> exists fuel, try_seed fuel st s <> Fuel.
Proof.
  intros I. unfold LsdRegionModel.try_seed. destruct st as [used0 lines]. destruct (used0 s) eqn:U; [exists 0%nat; discriminate|]. destruct (ang s) as [as_|] eqn:A; [|exists 0%nat; discriminate]. destruct (grow_ok used0 s prec I ltac:(congruence) U) as (st & -> & H & O & M). cbn [bind]. destruct st as [u1 l1 ? ? a1]. cbn [reg used] in *. destruct (_ <? _)%Z; [exists 0%nat; discriminate|]. destruct (region2rect_cases grad l1 a1 prec) as [T|(rec & E)]; [exists 0%nat; rewrite T; discriminate|]. rewrite E. cbn [bind]. destruct std; [|exists 0%nat; discriminate]. destruct (refine_ends used0 s a1 u1 l1 rec O H M) as (f & F). exists f. destruct (LsdRegionModel.refine w h ang grad f a1 prec density_th u1 l1 rec) as [[[[? ?] ?] ?]| |]; [discriminate|discriminate|contradiction].
Qed.
Lemma try_seeds_ok fuel l : (forall s, In s l -> in_image w h s) -> forall st, state_ok st ->
  try_seeds fuel st l = Fuel \/ (try_seeds fuel st l = Throw /\ (size <= 1)%Z) \/ exists st', try_seeds fuel st l = Ok st' /\ state_ok st'.
Proof.
  induction l as [|s l IH]; intros I st OK; cbn [LsdRegionModel.try_seeds]; [right; right; eauto|]. destruct (try_seed_ok fuel st s (I s (or_introl eq_refl)) OK) as [->|[[-> S]|(st' & -> & OK')]]; [left; reflexivity|right; left; auto|]. cbn [bind]. apply IH; [intros; apply I; right; assumption|exact OK'].
Qed.
Lemma more_all (f : nat -> bool) : (forall n, f n = true -> f (S n) = true) -> forall n k, f n = true -> f (n + k)%nat = true.
Proof. intros H n k E. induction k as [|k IH]; [rewrite Nat.add_0_r; exact E|]. rewrite Nat.add_succ_r. apply H, IH. Qed.
Lemma try_seed_most fuel k st s : try_seed fuel st s <> Fuel -> try_seed (fuel + k) st s = try_seed fuel st s.
Proof. intros N. induction k as [|k IH]; [rewrite Nat.add_0_r; reflexivity|]. rewrite Nat.add_succ_r, try_seed_more; [exact IH|rewrite IH; exact N]. Qed.
Lemma try_seeds_most fuel k st l : try_seeds fuel st l <> Fuel -> try_seeds (fuel + k) st l = try_seeds fuel st l.
Proof. intros N. induction k as [|k IH]; [rewrite Nat.add_0_r; reflexivity|]. rewrite Nat.add_succ_r, try_seeds_more; [exact IH|rewrite IH; exact N]. Qed.
Lemma try_seeds_ends l : (forall s, In s l -> in_image w h s) -> forall st, exists fuel, try_seeds fuel st l <> Fuel.
Proof.
  induction l as [|s l IH]; intros I st; [exists 0%nat; discriminate|]. destruct (try_seed_ends st s (I s (or_introl eq_refl))) as (f1 & F1). destruct (try_seed f1 st s) as [st'| |] eqn:E; [|exists f1; cbn [LsdRegionModel.try_seeds]; rewrite E; discriminate|contradiction].
  destruct (IH ltac:(intros; apply I; right; assumption) st') as (f2 & F2). exists (f1 + f2)%nat. cbn [LsdRegionModel.try_seeds]. rewrite try_seed_most by (rewrite E; discriminate). rewrite E. cbn [bind]. rewrite Nat.add_comm, try_seeds_most by exact F2. exact F2.
Qed.
End Segments.
