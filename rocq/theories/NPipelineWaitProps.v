(** Property theorems about the blocking calls of VisualNPipeline (C16, C58). *)
From Coq Require Import ZArith Bool Lia.
From stdpp Require Import list.
From Verif Require Import NPipelineWaitModel NPipelineWaitSpec NPipelineWaitProofs.

(** ** C16: shutdown() releases blocked producers and consumers *)
(** Refuted: shutdown() completes between the reading of the flag and wait(); afterwards the consumer
    sleeps, shutdown() has returned and no thread can take a step. *)
Theorem nw_shutdown_hang_refuted : exists acts st evs,
  run (init 2) acts = Some (st, evs) /\ shut st /\ threads st !! 0 = Some (TSleep KNext) /\
  forall a, internal a = true -> step st a = None.
Proof.
  exists [ACall 0 KNext; AEnter 0; AShutdown 1; ASetFlag 1; ANotifyEmpty 1; ANotifyFull 1; ABody 0].
  do 2 eexists. split; [vm_compute; reflexivity|]. split; [|split; [done|]].
  - split; [done|]. intros [|[|t]] x; cbn; intros [=]; subst; done.
  - intros a Ia. destruct a as [| | | | | | | | | | | |]; try discriminate Ia;
      destruct t as [|[|t]]; vm_compute; reflexivity.
Qed.
Print Assumptions nw_shutdown_hang_refuted.

(** The same for a producer whose output queue is full. *)
Theorem nw_shutdown_hang_producer_refuted : exists acts st evs,
  run (init 2) acts = Some (st, evs) /\ shut st /\ threads st !! 0 = Some (TSleep (KImage 1)) /\
  forall a, internal a = true -> step st a = None.
Proof.
  exists [AWork 1; ACall 0 (KImage 1); AEnter 0; AShutdown 1; ASetFlag 1; ANotifyEmpty 1;
          ANotifyFull 1; ABody 0].
  do 2 eexists. split; [vm_compute; reflexivity|]. split; [|split; [done|]].
  - split; [done|]. intros [|[|t]] x; cbn; intros [=]; subst; done.
  - intros a Ia. destruct a as [| | | | | | | | | | | |]; try discriminate Ia;
      destruct t as [|[|t]]; vm_compute; reflexivity.
Qed.
Print Assumptions nw_shutdown_hang_producer_refuted.

(** If the flag is only set while nobody is between the reading and wait() (for instance if shutdown()
    took the mutex), then after shutdown() every thread in a blocking call is able to return with its
    next step, whatever the other threads do. *)
Theorem nw_shutdown_releases_partial : forall m acts st evs t k,
  run (init m) acts = Some (st, evs) -> careful (init m) acts -> shut st -> waiting st t k ->
  exists a st' b, (a = AEnter t \/ a = AResume t) /\
    step st a = Some (st', [EvReturn t k b]) /\ threads st' !! t = Some TIdle.
Proof. exact released_lemma. Qed.
Print Assumptions nw_shutdown_releases_partial.

Definition shut_demo : list act :=
  [ACall 0 KNext; AEnter 0; ABody 0; ACall 2 (KImage 0); AEnter 2; ABody 2; AShutdown 1; ASetFlag 1;
   ANotifyEmpty 1; ANotifyFull 1].
Example shut_demo_careful : careful (init 3) shut_demo.
Proof.
  cbn. repeat split; intros t0 E; try discriminate E. intros [|[|[|t]]] k; done.
Qed.
Example shut_demo_shut : exists st evs,
  run (init 3) shut_demo = Some (st, evs) /\ shut st /\ waiting st 0 KNext /\ waiting st 2 (KImage 0).
Proof.
  do 2 eexists. split; [vm_compute; reflexivity|]. split; [|split; right; right; by right].
  split; [done|]. intros [|[|[|t]]] x; cbn; intros [=]; subst; done.
Qed.

(** A blocking call reports failure only if the pipeline has been shut down. *)
Theorem nw_false_means_shutdown : forall m acts st evs t k,
  run (init m) acts = Some (st, evs) -> EvReturn t k false ∈ evs -> flag st = true.
Proof. intros m acts st evs t k. exact (false_only_shut acts (init m) st evs t k). Qed.
Print Assumptions nw_false_means_shutdown.
Example false_demo : exists st evs,
  run (init 3) (shut_demo ++ [AResume 0]) = Some (st, evs) /\ evs = [EvReturn 0 KNext false].
Proof. do 2 eexists. split; [vm_compute; reflexivity|]. done. Qed.

(** ** C58: no lost wake-up of the blocking calls *)
(** A consumer sleeps only while no frame is available, a producer only while the queue is full. *)
Theorem nw_no_lost_wakeup : forall m acts st evs t k,
  run (init m) acts = Some (st, evs) -> threads st !! t = Some (TSleep k) ->
  match k with
  | KNext | KLatest => count st = 0
  | KImage max => max <= count st
  end.
Proof.
  intros m acts st evs t k H E.
  pose proof (inv_sleep st (run_inv _ _ _ _ (inv_init m) H) t k E) as B.
  destruct k; cbn [blocked] in B; [by apply Nat.eqb_eq|by apply Nat.eqb_eq|by apply Nat.leb_le].
Qed.
Print Assumptions nw_no_lost_wakeup.
Example sleeping_demo : exists st evs,
  run (init 2) [ACall 0 KNext; AEnter 0; ABody 0; AWork 2; ACall 1 (KImage 2); AEnter 1; ABody 1;
                AResume 0] = Some (st, evs) /\
  threads st = [TIdle; TWoken (KImage 2)] /\ evs = [EvReturn 0 KNext true].
Proof. do 2 eexists. split; [vm_compute; reflexivity|]. done. Qed.
