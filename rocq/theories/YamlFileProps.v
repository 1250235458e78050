(** C135: objects in YAML files. *)
From Coq Require Import List Bool Arith Lia.
From Verif Require Import YamlFileModel YamlFileSpec.
Import ListNotations.

Section P.
Context {char node object : Type}.
Implicit Types (lib : library char node) (d e : disk char) (serialize encode : object -> option node) (decode : node -> option object) (deserialize : object -> node -> ending bool * object).

Lemma store_kept d f t : others_kept f d (store d f t) /\ content (store d f t) f = Some t.
Proof. unfold others_kept, store. cbn. rewrite Nat.eqb_refl. repeat split; auto. intros g N. destruct (Nat.eqb_spec g f); congruence. Qed.
Lemma write_kept d f t : others_kept f d (write (store d f []) f t) /\ content (write (store d f []) f t) f = Some (firstn (room d f) t).
Proof. unfold write, others_kept, store. cbn. rewrite Nat.eqb_refl. repeat split; auto. intros g N. destruct (Nat.eqb_spec g f); congruence. Qed.

(** A call that has enough room replaces the file by the document, and touches no other file. *)
Theorem yfx_write lib serialize d f o n : serialize o = Some n -> openable d f = true -> fits d f (emit lib n) ->
  exists e, serialize_to_file lib serialize d f o = (Returned tt, e) /\ holds e f (emit lib n) /\ others_kept f d e.
Proof.
  intros S O F. unfold serialize_to_file, open_write. rewrite S, O. eexists. split; [reflexivity|]. destruct (write_kept d f (emit lib n)) as [K C].
  split; [|exact K]. unfold holds. rewrite C, firstn_all2 by exact F. reflexivity.
Qed.
(** The call never throws, and aborts exactly if there is no node or the file cannot be opened; the disk is as before then. *)
Theorem yfx_abort lib serialize d f o : fst (serialize_to_file lib serialize d f o) <> Thrown /\
  (fst (serialize_to_file lib serialize d f o) = Aborted <-> serialize o = None \/ openable d f = false) /\
  (fst (serialize_to_file lib serialize d f o) = Aborted -> snd (serialize_to_file lib serialize d f o) = d).
Proof.
  unfold serialize_to_file, open_write. destruct (serialize o); [destruct (openable d f)|]; cbn; (split; [discriminate|]; split; [split|]); try discriminate; auto.
  intros [|]; discriminate.
Qed.
(** Reading: a file that is not there, cannot be opened or is no document is reported and leaves the object alone; else the node decides. *)
Theorem yfx_read lib deserialize d f o :
  (forall n, document_in lib d f n -> deserialize_from_file lib deserialize d f o = deserialize o n) /\
  ((forall n, ~ document_in lib d f n) -> deserialize_from_file lib deserialize d f o = (Returned false, o)).
Proof.
  unfold deserialize_from_file, load_file, document_in. split.
  - intros n (t & C & R & P). rewrite C, R, P. reflexivity.
  - intros N. destruct (content d f) as [t|] eqn:C; [|reflexivity]. destruct (readable d f) eqn:R; [|reflexivity]. destruct (parse lib t) as [n|] eqn:P; [|reflexivity].
    exfalso. apply (N n). eauto.
Qed.
(** What was written is what is read. *)
Theorem yfx_round_trip lib serialize deserialize d f o o' n : serialize o = Some n -> openable d f = true -> readable d f = true -> fits d f (emit lib n) ->
  parse lib (emit lib n) = Some n ->
  exists e, serialize_to_file lib serialize d f o = (Returned tt, e) /\ deserialize_from_file lib deserialize e f o' = deserialize o' n.
Proof.
  intros S O R F P. destruct (yfx_write lib serialize d f o n S O F) as (e & E & H & K). exists e. split; [exact E|]. apply (yfx_read lib deserialize e f o').
  exists (emit lib n). split; [exact H|]. split; [|exact P]. destruct K as (_ & _ & K & _). rewrite K. exact R.
Qed.
(** Save: what it returns, and what is on the disk. *)
Theorem yfx_save lib encode debug d f o :
  (openable d f = true -> encode o = None -> exists e, save lib encode debug d f o = (Returned false, e) /\ holds e f [] /\ others_kept f d e) /\
  (forall n, openable d f = true -> encode o = Some n -> fits d f (emit lib n) -> exists e, save lib encode debug d f o = (Returned true, e) /\ holds e f (emit lib n) /\ others_kept f d e) /\
  (openable d f = false -> save lib encode debug d f o = (if debug then Aborted else Returned (match encode o with Some _ => true | None => false end), d)).
Proof.
  unfold save, open_write, save_stream. split; [|split].
  - intros -> ->. rewrite andb_false_r. eexists. split; [reflexivity|]. destruct (store_kept d f []). auto.
  - intros n -> -> F. rewrite andb_false_r. eexists. split; [reflexivity|]. destruct (write_kept d f (emit lib n)) as [K C]. split; [|exact K].
    unfold holds. rewrite C, firstn_all2 by exact F. reflexivity.
  - intros ->. rewrite andb_true_r. destruct debug; [reflexivity|]. destruct (encode o); reflexivity.
Qed.
(** Save to a stream: a null pointer aborts, so does in a debug build a stream that is not good; nothing is written unless true is returned. *)
Theorem yfx_save_stream {W} lib encode debug (w : W) put good o :
  save_stream lib encode debug w None o = (Aborted, w) /\
  (good = true \/ debug = false -> save_stream lib encode debug w (Some (good, put)) o =
    match encode o with None => (Returned false, w) | Some n => (Returned true, if good then put w (emit lib n) else w) end) /\
  save_stream lib encode true w (Some (false, put)) o = (Aborted, w).
Proof. split; [reflexivity|]. split; [|reflexivity]. unfold save_stream. intros [-> | ->]; [rewrite andb_false_r|]; destruct (encode o); reflexivity. Qed.
(** Load: true exactly if the file holds a document of an object, which is then the result; else the object is as before. No exception leaves it. *)
Theorem yfx_load lib decode d f o :
  (forall v, load lib decode d f (Some o) = (Returned true, Some v) <-> exists n, document_in lib d f n /\ decode n = Some v) /\
  (load lib decode d f (Some o) = (Returned false, Some o) <-> forall n, document_in lib d f n -> decode n = None) /\
  load lib decode d f None = (Aborted, None).
Proof.
  unfold load, load_file, document_in. destruct (content d f) as [t|]; [destruct (readable d f) eqn:R; [destruct (parse lib t) as [n|] eqn:P; [destruct (decode n) as [v|] eqn:D|]|]|].
  - split; [|split; [|reflexivity]].
    + intros v'. split; [intros E; injection E as <-; eauto 8|]. intros (n' & (t' & T & _ & P') & D'). injection T as <-. congruence.
    + split; [discriminate|]. intros H. rewrite (H n) in D; [discriminate|]. eauto.
  - split; [|split; [|reflexivity]].
    + intros v'. split; [discriminate|]. intros (n' & (t' & T & _ & P') & D'). injection T as <-. congruence.
    + split; [|reflexivity]. intros _ n' (t' & T & _ & P'). injection T as <-. congruence.
  - split; [|split; [|reflexivity]].
    + intros v'. split; [discriminate|]. intros (n' & (t' & T & _ & P') & D'). injection T as <-. congruence.
    + split; [|reflexivity]. intros _ n' (t' & T & _ & P'). injection T as <-. congruence.
  - split; [|split; [|reflexivity]].
    + intros v'. split; [discriminate|]. intros (n' & (t' & _ & X & _) & _). discriminate.
    + split; [|reflexivity]. intros _ n' (t' & _ & X & _). discriminate.
  - split; [|split; [|reflexivity]].
    + intros v'. split; [discriminate|]. intros (n' & (t' & X & _) & _). discriminate.
    + split; [|reflexivity]. intros _ n' (t' & X & _). discriminate.
Qed.
(** Save, then Load. *)
Theorem yfx_save_load lib encode decode debug d f o o' n : encode o = Some n -> decode n = Some o -> openable d f = true -> readable d f = true -> fits d f (emit lib n) ->
  parse lib (emit lib n) = Some n ->
  exists e, save lib encode debug d f o = (Returned true, e) /\ load lib decode e f (Some o') = (Returned true, Some o).
Proof.
  intros E D O R F P. destruct (yfx_save lib encode debug d f o) as (_ & S & _). destruct (S n O E F) as (e & SE & H & K). exists e. split; [exact SE|].
  apply (yfx_load lib decode e f o'). exists n. split; [|exact D]. exists (emit lib n). split; [exact H|]. split; [|exact P]. destruct K as (_ & _ & K & _). rewrite K. exact R.
Qed.

(** ** Histories *)
Lemma kept_refl f d : others_kept f d d.
Proof. repeat split; auto. Qed.
Lemma request_kept lib serialize encode debug d r e : perform lib serialize encode debug d [r] = (Returned tt, e) -> others_kept (target r) d e.
Proof.
  destruct r as [f o|f o]; cbn [perform target].
  - unfold serialize_to_file, open_write. destruct (serialize o); [|discriminate]. destruct (openable d f); [|discriminate]. intros E. injection E as <-. apply write_kept.
  - unfold save, open_write, save_stream. destruct (openable d f).
    + rewrite andb_false_r. destruct (encode o); intros E; injection E as <-; [apply write_kept|apply store_kept].
    + rewrite andb_true_r. destruct debug; [discriminate|]. destruct (encode o); intros E; injection E as <-; apply kept_refl.
Qed.
Lemma perform_app lib serialize encode debug l m : forall d e, perform lib serialize encode debug d (l ++ m) = (Returned tt, e) <->
  exists d', perform lib serialize encode debug d l = (Returned tt, d') /\ perform lib serialize encode debug d' m = (Returned tt, e).
Proof.
  induction l as [|r l IH]; intros d e; cbn [app perform].
  - split; [eauto|]. intros (d' & X & Y). injection X as <-. exact Y.
  - destruct r as [f o|f o]; [destruct (serialize_to_file lib serialize d f o) as [[]?]|destruct (save lib encode debug d f o) as [[]?]]; try apply IH;
      (split; [discriminate|intros (? & ? & _); discriminate]).
Qed.
(** Files that no request is for are as before. *)
Theorem yfx_untouched lib serialize encode debug l f : forall d e, perform lib serialize encode debug d l = (Returned tt, e) -> Forall (fun r => target r <> f) l ->
  content e f = content d f /\ openable e f = openable d f /\ readable e f = readable d f /\ room e f = room d f.
Proof.
  induction l as [|r l IH]; intros d e P F; [injection P as <-; auto|]. inversion F as [|? ? N F']; subst.
  change (r :: l) with ([r] ++ l) in P. apply perform_app in P. destruct P as (d' & P1 & P2). destruct (IH d' e P2 F') as (A & B & C & D). apply request_kept in P1. destruct P1 as (K1 & K2 & K3 & K4).
  rewrite A, B, C, D, K1, K2, K3, K4 by congruence. auto.
Qed.
Lemma perform_flags lib serialize encode debug l : forall d e, perform lib serialize encode debug d l = (Returned tt, e) ->
  (forall f, openable e f = openable d f) /\ (forall f, readable e f = readable d f) /\ forall f, room e f = room d f.
Proof.
  induction l as [|r l IH]; intros d e P; [injection P as <-; auto|].
  change (r :: l) with ([r] ++ l) in P. apply perform_app in P. destruct P as (d' & P1 & P2). destruct (IH d' e P2) as (B & C & D). apply request_kept in P1. destruct P1 as (_ & K2 & K3 & K4).
  repeat split; intros; rewrite ?B, ?C, ?D, ?K2, ?K3, ?K4; reflexivity.
Qed.
(** The last object that was written to a file is the one in it. *)
Theorem yfx_last lib serialize encode debug d e before r after n : perform lib serialize encode debug d (before ++ r :: after) = (Returned tt, e) ->
  Forall (fun q => target q <> target r) after -> node_of serialize encode r = Some n -> openable d (target r) = true -> fits d (target r) (emit lib n) ->
  holds e (target r) (emit lib n).
Proof.
  intros P F N O R. apply perform_app in P. destruct P as (d1 & P1 & P2). change (r :: after) with ([r] ++ after) in P2. apply perform_app in P2. destruct P2 as (d2 & P2 & P3).
  destruct (perform_flags _ _ _ _ _ _ _ P1) as (A & _ & C). destruct (yfx_untouched _ _ _ _ _ _ _ _ P3 F) as (E & _). unfold holds. rewrite E. rewrite <- A in O. unfold fits in R. rewrite <- C in R.
  destruct r as [f o|f o]; cbn [target node_of] in *; cbn [perform] in P2.
  - destruct (yfx_write lib serialize d1 f o n N O R) as (x & X & H & _). rewrite X in P2. injection P2 as <-. exact H.
  - destruct (yfx_save lib encode debug d1 f o) as (_ & S & _). destruct (S n O N R) as (x & X & H & _). rewrite X in P2. injection P2 as <-. exact H.
Qed.
(** A history ends normally exactly if every node is there and every file can be opened; without assertions Save does not care. *)
Theorem yfx_history lib serialize encode debug l : forall d, (exists e, perform lib serialize encode debug d l = (Returned tt, e)) <->
  Forall (fun r => match r with Serialize f o => serialize o <> None /\ openable d f = true | Store f _ => debug = false \/ openable d f = true end) l.
Proof.
  induction l as [|r l IH]; intros d; [split; [constructor|eexists; reflexivity]|].
  assert (FL : forall d', (forall f, openable d' f = openable d f) -> Forall (fun r : request => match r with Serialize f o => serialize o <> None /\ openable d' f = true | Store f _ => debug = false \/ openable d' f = true end) l <->
    Forall (fun r : request => match r with Serialize f o => serialize o <> None /\ openable d f = true | Store f _ => debug = false \/ openable d f = true end) l).
  { intros d' Q. split; apply Forall_impl; intros [?|?]; rewrite Q; auto. }
  destruct r as [f o|f o]; cbn [perform].
  - unfold serialize_to_file, open_write. destruct (serialize o) as [n|] eqn:S; [destruct (openable d f) eqn:O|].
    + rewrite IH, FL by reflexivity. split; [intros; constructor; [rewrite S, O; split; [discriminate|auto]|auto]|intros X; inversion X; auto].
    + split; [intros [? ?]; discriminate|]. intros X. inversion X as [|? ? Y]. destruct Y as [_ Y]. rewrite O in Y. discriminate.
    + split; [intros [? ?]; discriminate|]. intros X. inversion X as [|? ? Y]. destruct Y as [Y _]. congruence.
  - unfold save, open_write, save_stream. destruct (openable d f) eqn:O.
    + rewrite andb_false_r. destruct (encode o); rewrite IH, FL by reflexivity; (split; [intros; constructor; [rewrite O; auto|auto]|intros X; inversion X; auto]).
    + rewrite andb_true_r. destruct debug.
      * split; [intros [? ?]; discriminate|]. intros X. inversion X as [|? ? Y]. rewrite O in Y. destruct Y; discriminate.
      * destruct (encode o); rewrite IH; (split; [intros; constructor; auto|intros X; inversion X; auto]).
Qed.
End P.
Print Assumptions yfx_write.
Print Assumptions yfx_abort.
Print Assumptions yfx_read.
Print Assumptions yfx_round_trip.
Print Assumptions yfx_save.
Print Assumptions yfx_save_stream.
Print Assumptions yfx_load.
Print Assumptions yfx_save_load.
Print Assumptions yfx_untouched.
Print Assumptions yfx_last.
Print Assumptions yfx_history.

(** ** A disk and objects to try *)
(** Nodes are numbers, written with a mark behind; the text of the number 9 cannot be read as an object, and 7 cannot be written. *)
Definition demo_lib : library nat nat := Library (fun n => [n; 100]) (fun t => match t with [n; 100] => Some n | _ => None end).
Definition demo_put (o : nat) : option nat := if o =? 7 then None else Some o.
Definition demo_get (n : nat) : option nat := if n =? 9 then None else Some n.
Definition demo_deserialize (o n : nat) : ending bool * nat := if n =? 9 then (Thrown, o) else (Returned true, n).
Definition demo_disk : disk nat := Disk (fun f => if f =? 0 then Some [5; 100] else if f =? 3 then Some [9; 100] else None) (fun f => negb (f =? 2)) (fun _ => true) (fun f => if f =? 4 then 1 else 50).
Example yfx_write_ex : demo_put 6 = Some 6 /\ openable demo_disk 0 = true /\ fits demo_disk 0 (emit demo_lib 6) /\ holds demo_disk 0 [5; 100] /\
  holds (snd (serialize_to_file demo_lib demo_put demo_disk 0 6)) 0 [6; 100] /\ document_in demo_lib demo_disk 0 5 /\ parse demo_lib (emit demo_lib 6) = Some 6 /\ demo_get 6 = Some 6.
Proof. repeat split; try reflexivity. - unfold fits. cbn. lia. - exists [5; 100]. auto. Qed.
Example yfx_last_ex : let l := [Serialize 0 1; Store 1 2] ++ Store 0 3 :: [Serialize 1 4; Store 2 7] in
  fst (perform demo_lib demo_put demo_put false demo_disk l) = Returned tt /\ Forall (fun q : request (object := nat) => target q <> 0) [Serialize 1 4; Store 2 7] /\
  fst (perform demo_lib demo_put demo_put true demo_disk l) = Aborted.
Proof. cbn. repeat split; repeat constructor; discriminate. Qed.

(** ** What does not hold *)
(** serializeToFile returns although the disk has no room: the document is cut off, and the next call cannot read it. *)
Theorem yfx_full_refuted : exists (lib : library nat nat) (serialize : nat -> option nat) deserialize d f o, openable d f = true /\ readable d f = true /\
  (forall n, parse lib (emit lib n) = Some n) /\ fst (serialize_to_file lib serialize d f o) = Returned tt /\
  deserialize_from_file lib deserialize (snd (serialize_to_file lib serialize d f o)) f 1 = (Returned false, 1) /\ fst (deserialize 1 o) = Returned true.
Proof. exists demo_lib, demo_put, demo_deserialize, demo_disk, 4, 6. repeat split. Qed.
Print Assumptions yfx_full_refuted.
(** deserializeFromFile handles the exceptions of the parser only: those of deserialize leave it. *)
Theorem yfx_throws_refuted : exists (lib : library nat nat) deserialize d f (o : nat), fst (deserialize_from_file lib deserialize d f o) = Thrown.
Proof. exists demo_lib, demo_deserialize, demo_disk, 3, 1. reflexivity. Qed.
Print Assumptions yfx_throws_refuted.
(** Save returns true without assertions although the file cannot be opened, or has no room; a later Load fails. *)
Theorem yfx_save_refuted : exists (lib : library nat nat) (encode : nat -> option nat) decode d f g o, (forall n, parse lib (emit lib n) = Some n) /\ (forall n, encode o = Some n -> decode n = Some o) /\
  fst (save lib encode false d f o) = Returned true /\ snd (save lib encode false d f o) = d /\ content d f = None /\
  fst (save lib encode true d g o) = Returned true /\ fst (load lib decode (snd (save lib encode true d g o)) g (Some 1)) = Returned false.
Proof. exists demo_lib, demo_put, demo_get, demo_disk, 2, 4, 6. repeat split. intros n E. injection E as <-. reflexivity. Qed.
Print Assumptions yfx_save_refuted.
(** Save that returns false has already emptied the file. *)
Theorem yfx_save_loses_refuted : exists (lib : library nat nat) (encode : nat -> option nat) decode d f o v, fst (load lib decode d f (Some o)) = Returned true /\ v = snd (load lib decode d f (Some o)) /\
  forall debug, fst (save lib encode debug d f o) = Returned false /\ fst (load lib decode (snd (save lib encode debug d f o)) f (Some o)) = Returned false.
Proof. exists demo_lib, demo_put, demo_get, demo_disk, 0, 7, (Some 5). repeat split; destruct debug; reflexivity. Qed.
Print Assumptions yfx_save_loses_refuted.
