From Coq Require Import ZArith Lia Bool ZifyBool.
From stdpp Require Import list.
From Verif Require Import Counting RwLockModel RwLockSpec.
Open Scope Z_scope.

Definition pc_eqb (p q : pc) : bool :=
  match p, q with
  | Idle, Idle | Reading, Reading | Writing, Writing | WrNotify, WrNotify => true
  | RdWait a, RdWait b | WrWait1 a, WrWait1 b | WrWait2 a, WrWait2 b | UpWait a, UpWait b =>
    eqb a b
  | _, _ => false
  end.

Definition c (p : pc) (ps : list pc) : Z := cnt (pc_eqb p) ps.

Lemma c_nonneg p ps : 0 <= c p ps.
Proof. apply cnt_nonneg. Qed.

Lemma c_insert p ps t q r :
  ps !! t = Some q -> c p (<[t := r]> ps) = c p ps - bz (pc_eqb p q) + bz (pc_eqb p r).
Proof. apply cnt_insert. Qed.

Lemma c_wake_r p ps :
  c p (wake_readers_cv <$> ps) =
  match p with
  | WrWait1 true => c (WrWait1 true) ps + c (WrWait1 false) ps
  | WrWait1 false => 0
  | UpWait true => c (UpWait true) ps + c (UpWait false) ps
  | UpWait false => 0
  | _ => c p ps
  end.
Proof.
  unfold c. rewrite cnt_fmap.
  destruct p as [|[]| |[]|[]| | |[]]; try (apply cnt_ext; intros [|[]| |[]|[]| | |[]]; done);
   try (apply cnt_zero; intros [|[]| |[]|[]| | |[]]; done);
   apply cnt_split; intros [|[]| |[]|[]| | |[]]; done.
Qed.

Lemma c_wake_w p ps :
  c p (wake_writer_cv <$> ps) =
  match p with
  | RdWait true => c (RdWait true) ps + c (RdWait false) ps
  | RdWait false => 0
  | WrWait2 true => c (WrWait2 true) ps + c (WrWait2 false) ps
  | WrWait2 false => 0
  | _ => c p ps
  end.
Proof.
  unfold c. rewrite cnt_fmap.
  destruct p as [|[]| |[]|[]| | |[]]; try (apply cnt_ext; intros [|[]| |[]|[]| | |[]]; done);
   try (apply cnt_zero; intros [|[]| |[]|[]| | |[]]; done);
   apply cnt_split; intros [|[]| |[]|[]| | |[]]; done.
Qed.

(** The invariant, as linear facts about the number of threads at each position. *)
Definition n_up ps := c (UpWait true) ps + c (UpWait false) ps.
Definition n_w1 ps := c (WrWait1 true) ps + c (WrWait1 false) ps.
Definition n_w2 ps := c (WrWait2 true) ps + c (WrWait2 false) ps.
Definition n_rd ps := c (RdWait true) ps + c (RdWait false) ps.

Record Inv (k : kind) (st : state) : Prop := {
  inv_nr : num_readers (sh st) = c Reading (pcs st) + n_up (pcs st);
  inv_cw : b2z (current_writer (sh st)) = c Writing (pcs st);
  inv_pu : b2z (pending_upgrade (sh st)) = n_up (pcs st);
  inv_pr : pending_readers (sh st) = match k with Base => n_rd (pcs st) | _ => 0 end;
  inv_pw : num_pending_writers (sh st)
           = match k with Base => n_w1 (pcs st) + n_w2 (pcs st) | _ => 0 end;
  inv_ex : current_writer (sh st) = true -> num_readers (sh st) = 0;
  inv_w2 : match k with
           | Base => 0 < n_w2 (pcs st) -> num_readers (sh st) <= b2z (pending_upgrade (sh st))
           | ReaderFirst => True end;
  inv_s1 : 0 < c (WrWait1 false) (pcs st) -> b2z (pending_upgrade (sh st)) < num_readers (sh st);
  inv_su : 0 < c (UpWait false) (pcs st) -> 1 < num_readers (sh st);
  inv_sr : 0 < c (RdWait false) (pcs st) ->
           read_blocked k (sh st) = true \/ 0 < c WrNotify (pcs st);
  inv_s2 : 0 < c (WrWait2 false) (pcs st) ->
           write_blocked2 (sh st) = true \/ 0 < c WrNotify (pcs st) }.

Lemma inv_init k n : Inv k (init n).
Proof.
  assert (H : forall p, p <> Idle -> c p (replicate n Idle) = 0).
  { intros p Hp. apply cnt_replicate. by destruct p as [| | | | | | |]. }
  constructor; unfold n_up, n_w1, n_w2, n_rd; cbn [init sh pcs num_readers current_writer
    pending_upgrade pending_readers num_pending_writers b2z];
  rewrite ?H by done; destruct k; try done; intros; lia.
Qed.

Ltac insert_counts :=
  repeat match goal with
  | Hl : ?ps !! ?t = Some ?q |- context [c ?p (<[?t := ?r]> ?ps)] =>
    rewrite (c_insert p ps t q r Hl)
  | Hl : ?ps !! ?t = Some ?q |- context [c ?p (<[?t := ?r]> (?g <$> ?ps))] =>
    rewrite (c_insert p (g <$> ps) t (g q) r)
      by (rewrite list_lookup_fmap, Hl; reflexivity)
  end;
  rewrite ?c_wake_r, ?c_wake_w.

Ltac all_nonneg ps :=
  pose proof (c_nonneg Idle ps); pose proof (c_nonneg (RdWait true) ps);
  pose proof (c_nonneg (RdWait false) ps); pose proof (c_nonneg Reading ps);
  pose proof (c_nonneg (WrWait1 true) ps); pose proof (c_nonneg (WrWait1 false) ps);
  pose proof (c_nonneg (WrWait2 true) ps); pose proof (c_nonneg (WrWait2 false) ps);
  pose proof (c_nonneg Writing ps); pose proof (c_nonneg WrNotify ps);
  pose proof (c_nonneg (UpWait true) ps); pose proof (c_nonneg (UpWait false) ps).

Lemma c_here p ps t q : ps !! t = Some q -> pc_eqb p q = true -> 1 <= c p ps.
Proof. apply cnt_lookup. Qed.
Lemma pc_eqb_refl p : pc_eqb p p = true.
Proof. by destruct p as [|[]| |[]|[]| | |[]]. Qed.

Lemma step_inv k st t a st' evs : Inv k st -> step k st t a = Some (st', evs) -> Inv k st'.
Proof.
  destruct st as [[pr nr pw cw pu] ps]. intros HI Hs.
  unfold step in Hs. cbn [sh pcs] in Hs.
  destruct (ps !! t) as [p|] eqn:Hl; [|done].
  pose proof (c_here p ps t p Hl (pc_eqb_refl p)) as Hp.
  destruct HI as [H1 H2 H3 H4 H5 H6 H7 H8 H9 H10 H11].
  cbn [sh pcs pending_readers num_readers num_pending_writers current_writer pending_upgrade] in *.
  all_nonneg ps.
  unfold n_up, n_w1, n_w2, n_rd, read_blocked, write_blocked2 in *.
  destruct a, p as [|[]| |[]|[]| | |[]]; cbn in Hs; try done;
  destruct k; cbn in Hs;
  unfold read_loop, write_loop, write_loop2_base, upgrade, upgrade_loop, release_read,
    release_write, read_blocked, write_blocked1, write_blocked2, add_pending_readers,
    add_pending_writers, add_readers, set_writer, set_upgrade, b2z in *;
  cbn [sh pcs pending_readers num_readers num_pending_writers current_writer pending_upgrade] in *;
  destruct cw, pu; cbn [negb andb orb] in *;
  repeat match type of Hs with
    | context [if ?b then _ else _] => destruct b eqn:?
    end; cbn [num_readers] in *;
  try (injection Hs as <- <-); try discriminate;
  (constructor; unfold n_up, n_w1, n_w2, n_rd, read_blocked, write_blocked2, b2z;
   cbn [sh pcs pending_readers num_readers num_pending_writers current_writer pending_upgrade];
   insert_counts; cbn [pc_eqb eqb bz wake_readers_cv wake_writer_cv];
   try done; try (intros; lia)).
Qed.

Lemma run_inv k acts : forall st st' evs,
  Inv k st -> run k st acts = Some (st', evs) -> Inv k st'.
Proof.
  induction acts as [|[t a] acts IH]; intros st st' evs HI Hr; cbn in Hr.
  - by injection Hr as <- <-.
  - destruct (step k st t a) as [[st1 e1]|] eqn:Hs; [|done].
    destruct (run k st1 acts) as [[st2 e2]|] eqn:Hr2; [|done].
    injection Hr as <- <-. eapply IH; [|done]. by eapply step_inv.
Qed.

Definition reachable k n st : Prop := exists acts evs, run k (init n) acts = Some (st, evs).

Lemma reachable_inv k n st : reachable k n st -> Inv k st.
Proof. intros (acts & evs & H). eapply run_inv; [apply inv_init|done]. Qed.

