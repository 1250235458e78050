(** The lists of bins of the line segment detector. *)
From Coq Require Import ZArith Lia List Permutation Sorted Arith.
Import ListNotations.
From Verif Require Import LsdOrderModel.

Fixpoint links (nxt : nat -> option nat) (l : list nat) (tl : option nat) : Prop :=
  match l with
  | [] => True
  | a :: t => nxt a = match t with [] => tl | b :: _ => Some b end /\ links nxt t tl
  end.
Definition hd_or (l : list nat) (tl : option nat) : option nat := match l with [] => tl | a :: _ => Some a end.
Fixpoint last_opt (l : list nat) : option nat := match l with [] => None | [a] => Some a | _ :: t => last_opt t end.

Lemma links_app nxt l1 l2 tl : links nxt (l1 ++ l2) tl <-> links nxt l1 (hd_or l2 tl) /\ links nxt l2 tl.
Proof.
  induction l1 as [|a l1 IH]; cbn [app links]; [tauto|]. rewrite IH. destruct l1 as [|b l1]; cbn [app]; [destruct l2; cbn [hd_or]; tauto|tauto].
Qed.
Lemma links_ext nxt nxt' l tl : (forall i, In i l -> nxt' i = nxt i) -> links nxt l tl -> links nxt' l tl.
Proof.
  induction l as [|a l IH]; intros E L; [exact I|]. destruct L as [L1 L2]. split; [rewrite E by (left; reflexivity); exact L1|]. apply IH; [intros; apply E; right; assumption|exact L2].
Qed.
Lemma last_opt_split l e : last_opt l = Some e -> exists l', l = l' ++ [e].
Proof.
  induction l as [|a l IH]; intros H; [discriminate|]. destruct l as [|b l]; [injection H as ->; exists []; reflexivity|]. destruct (IH H) as [l' ->]. exists (a :: l'). reflexivity.
Qed.
Lemma last_opt_app l e : last_opt (l ++ [e]) = Some e.
Proof. induction l as [|a l IH]; [reflexivity|]. cbn [app]. destruct (l ++ [e]) eqn:E; [destruct l; discriminate|]. exact IH. Qed.
Lemma last_opt_none l : last_opt l = None -> l = [].
Proof. induction l as [|a l IH]; [reflexivity|]. intros H. destruct l as [|b l]; [discriminate|]. specialize (IH H). discriminate. Qed.
Lemma links_relink nxt l e tl tl' : NoDup l -> last_opt l = Some e -> links nxt l tl -> links (upd nxt e tl') l tl'.
Proof.
  intros ND H L. destruct (last_opt_split l e H) as [l' ->]. apply links_app in L as [L1 L2]. apply links_app. split.
  - apply (links_ext nxt); [|exact L1]. intros i I. unfold upd. destruct (Nat.eqb_spec i e) as [->|]; [|reflexivity]. exfalso. apply NoDup_remove_2 in ND. rewrite app_nil_r in ND. contradiction.
  - cbn. split; [|exact I]. unfold upd. rewrite Nat.eqb_refl. reflexivity.
Qed.

Lemma NoDup_app_l {A} (l1 l2 : list A) : NoDup (l1 ++ l2) -> NoDup l1.
Proof. induction l1 as [|a l1 IH]; intros H; [constructor|]. inversion H as [|? ? N D]; subst. constructor; [intros I; apply N, in_app_iff; left; exact I|apply IH, D]. Qed.

(** The indices of the pixels of a bin. *)
Definition is_in (L : list ((Z * Z) * nat)) (b i : nat) : bool := match nth_error L i with Some (_, b') => Nat.eqb b' b | None => false end.
Definition members (L : list ((Z * Z) * nat)) (b : nat) : list nat := filter (is_in L b) (seq 0 (length L)).
Lemma members_in L b i : In i (members L b) <-> exists p, nth_error L i = Some (p, b).
Proof.
  unfold members. rewrite filter_In, in_seq. unfold is_in. split.
  - intros (_ & E). destruct (nth_error L i) as [[p b']|]; [|discriminate]. apply Nat.eqb_eq in E as ->. eauto.
  - intros (p & E). rewrite E, Nat.eqb_refl. split; [|reflexivity]. assert (i < length L) by (apply nth_error_Some; congruence). lia.
Qed.
Lemma members_nodup L b : NoDup (members L b).
Proof. apply NoDup_filter, seq_NoDup. Qed.
Lemma members_lt L b i : In i (members L b) -> i < length L.
Proof. intros I. unfold members in I. apply filter_In in I as [I _]. apply in_seq in I. lia. Qed.
Lemma members_snoc L p b b' : members (L ++ [(p, b)]) b' = members L b' ++ (if Nat.eqb b b' then [length L] else []).
Proof.
  unfold members. rewrite app_length. cbn [length]. rewrite seq_app, filter_app. f_equal.
  - apply filter_ext_in. intros i I. apply in_seq in I. unfold is_in. rewrite nth_error_app1 by lia. reflexivity.
  - cbn [seq filter Nat.add]. unfold is_in. rewrite nth_error_app2 by lia. rewrite Nat.sub_diag. cbn [nth_error]. reflexivity.
Qed.

Record good (L : list ((Z * Z) * nat)) (st : lists) : Prop := {
  good_count : count st = length L;
  good_pts : forall i p b, nth_error L i = Some (p, b) -> pts st i = p;
  good_rest : forall i, length L <= i -> pts st i = (0, 0)%Z;
  good_s : forall b, range_s st b = hd_error (members L b);
  good_e : forall b, range_e st b = last_opt (members L b);
  good_links : forall b, links (next st) (members L b) None }.

Lemma good_empty : good [] empty_lists.
Proof. split; cbn; try reflexivity; try (intros [|i]; discriminate); auto. Qed.
Lemma upd_same {A} (f : nat -> A) i v : upd f i v i = v.
Proof. unfold upd. rewrite Nat.eqb_refl. reflexivity. Qed.
Lemma upd_other {A} (f : nat -> A) i j v : j <> i -> upd f i v j = f j.
Proof. intros H. unfold upd. destruct (Nat.eqb_spec j i); [contradiction|reflexivity]. Qed.

Lemma good_store L st p b : good L st -> good (L ++ [(p, b)]) (store st (p, b)).
Proof.
  intros G. assert (forall i q b', nth_error (L ++ [(p, b)]) i = Some (q, b') -> upd (pts st) (count st) p i = q) as P.
  { intros i q b' E. rewrite (good_count _ _ G). destruct (Nat.eq_dec i (length L)) as [->|N].
    - rewrite upd_same. rewrite nth_error_app2, Nat.sub_diag in E by lia. cbn in E. congruence.
    - rewrite upd_other by exact N. assert (i < length (L ++ [(p, b)])) as B by (apply nth_error_Some; congruence). rewrite app_length in B. cbn in B. rewrite nth_error_app1 in E by lia. exact (good_pts _ _ G i q b' E). }
  assert (forall i, length (L ++ [(p, b)]) <= i -> upd (pts st) (count st) p i = (0, 0)%Z) as R.
  { intros i B. rewrite app_length in B. cbn in B. rewrite (good_count _ _ G), upd_other by lia. apply (good_rest _ _ G). lia. }
  assert (forall b', b <> b' -> members (L ++ [(p, b)]) b' = members L b') as O.
  { intros b' N. rewrite members_snoc. destruct (Nat.eqb_spec b b'); [contradiction|]. apply app_nil_r. }
  assert (members (L ++ [(p, b)]) b = members L b ++ [length L]) as S by (rewrite members_snoc, Nat.eqb_refl; reflexivity).
  assert (count st = length L) as C by apply (good_count _ _ G).
  unfold store. cbv zeta. rewrite (good_e _ _ G b). destruct (last_opt (members L b)) as [e|] eqn:E.
  - split; cbn [count pts next LsdOrderModel.range_s LsdOrderModel.range_e].
    + rewrite app_length, C. cbn. lia.
    + exact P.
    + exact R.
    + intros b'. rewrite (good_s _ _ G). destruct (Nat.eq_dec b b') as [<-|N]; [|rewrite O by exact N; reflexivity]. rewrite S. destruct (members L b); [discriminate|reflexivity].
    + intros b'. destruct (Nat.eq_dec b b') as [<-|N]; [rewrite upd_same, S, last_opt_app, C; reflexivity|rewrite upd_other, O by congruence; apply (good_e _ _ G)].
    + intros b'. rewrite C. destruct (Nat.eq_dec b b') as [<-|N].
      * rewrite S. apply links_app. split.
        -- apply (links_ext (upd (next st) e (Some (length L)))).
           { intros i I. apply upd_other. intros ->. apply members_lt in I. lia. }
           eapply links_relink; [apply members_nodup|exact E|apply (good_links _ _ G)].
        -- cbn. split; [apply upd_same|exact I].
      * rewrite O by exact N. apply (links_ext (next st)); [|apply (good_links _ _ G)]. intros i I. rewrite !upd_other; [reflexivity| |intros ->; apply members_lt in I; lia].
        intros ->. destruct (last_opt_split _ _ E) as [l' EL]. assert (In e (members L b)) as I2 by (rewrite EL; apply in_app_iff; right; left; reflexivity). apply members_in in I as [q1 I], I2 as [q2 I2]. congruence.
  - apply last_opt_none in E. split; cbn [count pts next LsdOrderModel.range_s LsdOrderModel.range_e].
    + rewrite app_length, C. cbn. lia.
    + exact P.
    + exact R.
    + intros b'. destruct (Nat.eq_dec b b') as [<-|N]; [rewrite upd_same, S, E, C; reflexivity|rewrite upd_other, O by congruence; apply (good_s _ _ G)].
    + intros b'. destruct (Nat.eq_dec b b') as [<-|N]; [rewrite upd_same, S, last_opt_app, C; reflexivity|rewrite upd_other, O by congruence; apply (good_e _ _ G)].
    + intros b'. rewrite C. destruct (Nat.eq_dec b b') as [<-|N].
      * rewrite S, E. cbn. split; [apply upd_same|exact I].
      * rewrite O by exact N. apply (links_ext (next st)); [|apply (good_links _ _ G)]. intros i I. apply upd_other. intros ->. apply members_lt in I. lia.
Qed.
Lemma good_fold L' : forall L st, good L st -> good (L ++ L') (fold_left store L' st).
Proof.
  induction L' as [|[p b] L' IH]; intros L st G; [rewrite app_nil_r; exact G|]. cbn [fold_left]. replace (L ++ (p, b) :: L') with ((L ++ [(p, b)]) ++ L') by (rewrite <- app_assoc; reflexivity). apply IH, good_store, G.
Qed.
Lemma good_filled L : good L (fold_left store L empty_lists).
Proof. exact (good_fold L [] _ good_empty). Qed.

(** ** Linking the bins *)
Fixpoint down (n : nat) : list nat := match n with O => [] | S i => i :: down i end.
Lemma down_in n i : In i (down n) <-> i < n.
Proof. induction n as [|n IH]; cbn [down In]; [lia|]. rewrite IH. lia. Qed.
Definition chain (L : list ((Z * Z) * nat)) (n : nat) : list nat := flat_map (members L) (down n).
Lemma chain_in L n i : In i (chain L n) <-> exists p b, nth_error L i = Some (p, b) /\ b < n.
Proof.
  unfold chain. rewrite in_flat_map. split.
  - intros (b & I1 & I2). apply down_in in I1. apply members_in in I2 as [p E]. eauto.
  - intros (p & b & E & B). exists b. split; [apply down_in; exact B|apply members_in; eauto].
Qed.
Lemma chain_nodup L n : NoDup (chain L n).
Proof.
  induction n as [|n IH]; [constructor|]. unfold chain in *. cbn [down flat_map]. assert (forall l1 l2 : list nat, NoDup l1 -> NoDup l2 -> (forall i, In i l1 -> ~ In i l2) -> NoDup (l1 ++ l2)) as A.
  { induction l1 as [|a l1 IHl]; intros l2 N1 N2 D; [exact N2|]. inversion N1; subst. cbn [app]. constructor.
    - rewrite in_app_iff. intros [I|I]; [contradiction|]. exact (D a (or_introl eq_refl) I).
    - apply IHl; auto. intros i I. apply D. right. exact I. }
  apply A; [apply members_nodup|exact IH|]. intros i I1 I2. apply members_in in I1 as [p E]. change (In i (chain L n)) in I2. apply chain_in in I2 as (q & b & E' & B). rewrite E in E'. injection E' as _ <-. lia.
Qed.

Section Link.
Variables (L : list ((Z * Z) * nat)) (st : lists).
Hypothesis G : good L st.
(** [done] is what is linked already, it ends in [last]; the bins below [idx] are as before. *)
Lemma link_chain idx : forall nxt done last, NoDup (done ++ chain L idx) -> last_opt done = Some last -> links nxt done None -> (forall b, b < idx -> links nxt (members L b) None) ->
  links (link (range_s st) (range_e st) idx nxt last) (done ++ chain L idx) None.
Proof.
  induction idx as [|idx IH]; intros nxt done last ND E LD LM; [unfold chain; cbn; rewrite app_nil_r; exact LD|]. cbn [link]. rewrite (good_s _ _ G), (good_e _ _ G). unfold chain in *. cbn [down flat_map] in *. fold (chain L idx) in *.
  destruct (members L idx) as [|a t] eqn:M.
  - cbn [hd_error]. apply IH; auto.
  - cbn [hd_error]. destruct (last_opt (a :: t)) as [e|] eqn:EL; [|apply last_opt_none in EL; discriminate]. rewrite app_assoc. rewrite app_assoc in ND. apply IH.
    + exact ND.
    + destruct (last_opt_split _ _ EL) as [l' EL']. rewrite EL', app_assoc. apply last_opt_app.
    + apply NoDup_app_l in ND. apply links_app. split.
      * eapply links_relink; [exact (NoDup_app_l _ _ ND)|exact E|exact LD].
      * apply (links_ext nxt); [|rewrite <- M; apply LM; lia]. intros i I. apply upd_other. intros ->. destruct (last_opt_split _ _ E) as [l' EL']. rewrite EL', <- app_assoc in ND. cbn [app] in ND. apply NoDup_remove_2 in ND. apply ND. apply in_app_iff. right. exact I.
    + intros b B. apply (links_ext nxt); [|apply LM; lia]. intros i I. apply upd_other. intros ->. destruct (last_opt_split _ _ E) as [l' EL']. rewrite EL', <- !app_assoc in ND. cbn [app] in ND. apply NoDup_remove_2 in ND. apply ND. apply in_app_iff. right. apply (in_app_iff (a :: t)). right. apply chain_in. apply members_in in I as [p I]. eauto.
Qed.
Lemma top_spec n : chain L (S n) = chain L (S (top (range_s st) n)).
Proof.
  induction n as [|n IH]; [reflexivity|]. cbn [top]. rewrite (good_s _ _ G). destruct (members L (S n)) as [|a t] eqn:M; cbn [hd_error]; [|reflexivity]. rewrite <- IH. unfold chain at 1. change (down (S (S n))) with (S n :: down (S n)). cbn [flat_map]. rewrite M. reflexivity.
Qed.
Lemma sorted_chain n : 0 < n -> links (sorted_next n st) (chain L n) None /\ start n st = hd_error (chain L n).
Proof.
  intros N. destruct n as [|n]; [lia|]. unfold sorted_next, start. cbn [Nat.sub]. rewrite Nat.sub_0_r, top_spec. set (k := top (range_s st) n). rewrite (good_s _ _ G), (good_e _ _ G). unfold chain. cbn [down flat_map]. fold (chain L k). destruct (members L k) as [|a t] eqn:M; cbn [hd_error].
  - assert (k = 0) as K.
    { subst k. clear N. induction n as [|n IH]; [reflexivity|]. cbn [top] in *. rewrite (good_s _ _ G) in *. destruct (members L (S n)) eqn:M'; cbn [hd_error] in *; [|congruence]. apply IH, M. }
    rewrite K. cbn. split; [exact I|reflexivity].
  - destruct (last_opt (a :: t)) as [e|] eqn:EL; [|apply last_opt_none in EL; discriminate]. split; [|reflexivity]. apply link_chain.
    + rewrite <- M. exact (chain_nodup L (S k)).
    + exact EL.
    + rewrite <- M. apply (good_links _ _ G).
    + intros b _. apply (good_links _ _ G).
Qed.
End Link.

Lemma walk_links nxt l : forall fuel, length l <= fuel -> links nxt l None -> walk fuel nxt (hd_error l) = l.
Proof.
  induction l as [|a l IH]; intros fuel F LK; [destruct fuel; reflexivity|]. destruct fuel as [|fuel]; [cbn in F; lia|]. cbn [hd_error walk]. destruct LK as [E LK]. f_equal. rewrite E. rewrite <- (IH fuel) at 2; [|cbn in F; lia|exact LK]. destruct l; reflexivity.
Qed.
Lemma chain_perm L n : (forall p b, In (p, b) L -> b < n) -> Permutation (chain L n) (seq 0 (length L)).
Proof.
  intros B. apply NoDup_Permutation; [apply chain_nodup|apply seq_NoDup|]. intros i. rewrite chain_in, in_seq. split.
  - intros (p & b & E & _). assert (i < length L) by (apply nth_error_Some; congruence). lia.
  - intros H. destruct (nth_error L i) as [[p b]|] eqn:E; [|apply nth_error_None in E; lia]. exists p, b. split; [reflexivity|]. apply (B p). exact (nth_error_In _ _ E).
Qed.
Definition bin_of (L : list ((Z * Z) * nat)) (i : nat) : nat := match nth_error L i with Some (_, b) => b | None => 0 end.
Lemma chain_sorted L n : StronglySorted (fun i j => bin_of L j <= bin_of L i) (chain L n).
Proof.
  induction n as [|n IH]; [constructor|]. unfold chain in *. cbn [down flat_map]. fold (chain L n) in *. assert (forall i, In i (members L n) -> bin_of L i = n) as M by (intros i I; apply members_in in I as [p E]; unfold bin_of; rewrite E; reflexivity). assert (forall i, In i (chain L n) -> bin_of L i <= n) as C by (intros i I; apply chain_in in I as (p & b & E & B); unfold bin_of; rewrite E; lia).
  induction (members L n) as [|a l IHl]; [exact IH|]. cbn [app]. constructor; [apply IHl; intros; apply M; right; assumption|]. apply Forall_forall. intros j J. rewrite (M a) by (left; reflexivity). apply in_app_iff in J as [J|J]; [rewrite M by (right; exact J); lia|apply C, J].
Qed.
