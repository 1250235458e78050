(** Proofs about descriptor references. *)
From Coq Require Import NArith Bool Lia.
From stdpp Require Import gmap list.
From Verif Require Import StlHelpersModel GyroTrackerModel DescRefModel DescRefSpec.
Local Open Scope nat_scope.

(** Invariant. *)
Definition obj_ok (m : gmap nat block) (r : ref) : Prop :=
  match owned r with
  | None => False
  | Some h => (data r = None /\ size r = 0) \/
              exists a bs, data r = Some a /\ m !! a = Some (Block h bs) /\ size r <= length bs /\ (h = true -> length bs = size r)
  end.
Record wf (s : state) : Prop := Wf {
  wf_obj : forall i r, objects s !! i = Some r -> obj_ok (memory s) r;
  wf_distinct : forall i j r t a, objects s !! i = Some r -> objects s !! j = Some t -> owned r = Some true -> owned t = Some true ->
                data r = Some a -> data t = Some a -> i = j;
  wf_owned : forall a bs, memory s !! a = Some (Block true bs) -> exists i r, objects s !! i = Some r /\ owned r = Some true /\ data r = Some a }.

Lemma wf_start : wf start.
Proof. split; cbn; intros *; rewrite ?lookup_empty; congruence. Qed.

Lemma obj_ok_ext m m' r : (forall a b, data r = Some a -> m !! a = Some b -> m' !! a = Some b) -> obj_ok m r -> obj_ok m' r.
Proof.
  intros E. unfold obj_ok. destruct (owned r); [|done]. intros [?|(a & bs & D & M & L & Q)]; [by left|]. right. exists a, bs. eauto.
Qed.
Lemma load_ext m m' p n : (forall a, p = Some a -> m' !! a = m !! a) -> load m' p n = load m p n.
Proof. intros E. unfold load. destruct p as [a|]; [|done]. by rewrite (E a eq_refl). Qed.
Lemma contents_ext s s' k : objects s' !! k = objects s !! k ->
  (forall r a, objects s !! k = Some r -> data r = Some a -> memory s' !! a = memory s !! a) -> contents s' k = contents s k.
Proof.
  intros E M. unfold contents, get_object. rewrite E. destruct (objects s !! k) as [r|] eqn:O; [|done]. cbn. apply load_ext. intros a D. by apply (M r).
Qed.

(** Releasing and removing an object. *)
Lemma release_ok s i r : wf s -> objects s !! i = Some r ->
  exists m r', release (memory s) r = Ok (m, r') /\ wf (State (base.delete i (objects s)) m) /\
    (forall k, k <> i -> contents (State (base.delete i (objects s)) m) k = contents s k) /\
    (forall a bs, memory s !! a = Some (Block false bs) -> m !! a = Some (Block false bs)) /\
    (owned r = Some false -> m = memory s /\ r' = r).
Proof.
  intros W O. pose proof (wf_obj s W i r O) as K. unfold obj_ok in K. unfold release, read_owned.
  destruct (owned r) as [[]|] eqn:OW; [| |done]; cbn.
  - destruct K as [[D Z]|(a & bs & D & M & L & Q)].
    + rewrite D. cbn. eexists _, _. split; [reflexivity|]. split; [|split; [|split]]; [| | |done].
      * split; cbn.
        -- intros k t Hk. apply lookup_delete_Some in Hk as [? Hk]. exact (wf_obj s W k t Hk).
        -- intros k l t u a Hk Hl. apply lookup_delete_Some in Hk as [? Hk]. apply lookup_delete_Some in Hl as [? Hl]. exact (wf_distinct s W k l t u a Hk Hl).
        -- intros a bs M. destruct (wf_owned s W a bs M) as (k & t & Hk & HO & HD). exists k, t. split; [|done].
           apply lookup_delete_Some. split; [|done]. intros ->. congruence.
      * intros k Ne. apply contents_ext; [cbn; by rewrite lookup_delete_ne|done].
      * done.
    + rewrite D. cbn. rewrite M. cbn. eexists _, _. split; [reflexivity|]. split; [|split; [|split]]; [| | |done].
      * split; cbn.
        -- intros k t Hk. apply lookup_delete_Some in Hk as [Ne Hk]. refine (obj_ok_ext _ _ _ _ (wf_obj s W k t Hk)).
           intros a' b HD HM. apply lookup_delete_Some. split; [|done]. intros ->.
           assert (owned t = Some true) as OT.
           { pose proof (wf_obj s W k t Hk) as Kt. unfold obj_ok in Kt. destruct (owned t) as [h|]; [|done]. destruct Kt as [[? _]|(a2 & b2 & D2 & M2 & _)]; congruence. }
           apply Ne. symmetry. exact (wf_distinct s W k i t r a' Hk O OT OW HD D).
        -- intros k l t u a' Hk Hl. apply lookup_delete_Some in Hk as [? Hk]. apply lookup_delete_Some in Hl as [? Hl]. exact (wf_distinct s W k l t u a' Hk Hl).
        -- intros a' bs' HM. apply lookup_delete_Some in HM as [Ne HM]. destruct (wf_owned s W a' bs' HM) as (k & t & Hk & HO & HD). exists k, t.
           split; [|done]. apply lookup_delete_Some. split; [|done]. intros ->. congruence.
      * intros k Ne. apply contents_ext; cbn; [by rewrite lookup_delete_ne|]. intros t a' Hk HD. apply lookup_delete_ne. intros ->.
        assert (owned t = Some true) as OT.
        { pose proof (wf_obj s W k t Hk) as Kt. unfold obj_ok in Kt. destruct (owned t) as [h|]; [|done]. destruct Kt as [[? _]|(a2 & b2 & D2 & M2 & _)]; congruence. }
        apply Ne. exact (wf_distinct s W k i t r a' Hk O OT OW HD D).
      * intros a' bs' HM. apply lookup_delete_Some. split; [|done]. intros ->. congruence.
  - eexists _, _. split; [reflexivity|]. split; [|split; [|split]]; [| | |done].
    + split; cbn.
      * intros k t Hk. apply lookup_delete_Some in Hk as [? Hk]. exact (wf_obj s W k t Hk).
      * intros k l t u a Hk Hl. apply lookup_delete_Some in Hk as [? Hk]. apply lookup_delete_Some in Hl as [? Hl]. exact (wf_distinct s W k l t u a Hk Hl).
      * intros a bs M. destruct (wf_owned s W a bs M) as (k & t & Hk & HO & HD). exists k, t. split; [|done].
        apply lookup_delete_Some. split; [|done]. intros ->. congruence.
    + intros k Ne. apply contents_ext; [cbn; by rewrite lookup_delete_ne|done].
    + done.
Qed.

(** Constructing an object with a new buffer. *)
Lemma construct_owner s i a bs : wf s -> objects s !! i = None -> memory s !! a = None ->
  let s' := State (<[i := Ref (Some a) (length bs) (Some true)]> (objects s)) (<[a := Block true bs]> (memory s)) in
  wf s' /\ (forall k, k <> i -> contents s' k = contents s k) /\ contents s' i = Ok bs /\
  (forall b x, memory s !! b = Some x -> memory s' !! b = Some x).
Proof.
  intros W O F s'. assert (forall b x, memory s !! b = Some x -> memory s' !! b = Some x) as X.
  { intros b x M. cbn. rewrite lookup_insert_ne; [done|]. congruence. }
  split; [|split; [|split]]; [| | |exact X].
  - split; cbn.
    + intros k t Hk. apply lookup_insert_Some in Hk as [[<- <-]|[Ne Hk]].
      * cbn. right. exists a, bs. rewrite lookup_insert. eauto.
      * refine (obj_ok_ext _ _ _ _ (wf_obj s W k t Hk)). intros b x _. apply X.
    + assert (forall k t, objects s !! k = Some t -> owned t = Some true -> data t = Some a -> False) as N.
      { intros k t Hk OT HD. pose proof (wf_obj s W k t Hk) as K. unfold obj_ok in K. rewrite OT in K.
        destruct K as [[? _]|(a2 & b2 & D2 & M2 & _)]; congruence. }
      intros k l t u b Hk Hl OT OU DT DU. apply lookup_insert_Some in Hk as [[<- <-]|[Nk Hk]]; apply lookup_insert_Some in Hl as [[<- <-]|[Nl Hl]]; try done.
      * cbn in DT. exfalso. apply (N l u Hl OU). congruence.
      * cbn in DU. exfalso. apply (N k t Hk OT). congruence.
      * exact (wf_distinct s W k l t u b Hk Hl OT OU DT DU).
    + intros b xs M. apply lookup_insert_Some in M as [[<- _]|[Ne M]].
      * exists i. eexists. by rewrite lookup_insert.
      * destruct (wf_owned s W b xs M) as (k & t & Hk & HO & HD). exists k, t. split; [|done]. rewrite lookup_insert_ne; [done|]. congruence.
  - intros k Ne. apply contents_ext; cbn; [by rewrite lookup_insert_ne|]. intros t b Hk HD. pose proof (wf_obj s W k t Hk) as K. unfold obj_ok in K.
    rewrite lookup_insert_ne; [done|]. intros <-. destruct (owned t); [|done]. destruct K as [[? _]|(a2 & b2 & D2 & M2 & _)]; congruence.
  - unfold contents, get_object. cbn. rewrite lookup_insert. cbn. unfold load. cbn [data size]. rewrite lookup_insert.
    destruct (length bs =? 0) eqn:Z.
    + apply Nat.eqb_eq in Z. by destruct bs.
    + cbn [bytes]. rewrite Nat.leb_refl. by rewrite firstn_all.
Qed.
(** Constructing an object without a buffer. *)
Lemma construct_view s i p n : wf s -> objects s !! i = None -> obj_ok (memory s) (Ref p n (Some false)) ->
  let s' := State (<[i := Ref p n (Some false)]> (objects s)) (memory s) in
  wf s' /\ (forall k, k <> i -> contents s' k = contents s k).
Proof.
  intros W O K s'. split.
  - split; cbn.
    + intros k t Hk. apply lookup_insert_Some in Hk as [[<- <-]|[Ne Hk]]; [exact K|exact (wf_obj s W k t Hk)].
    + intros k l t u b Hk Hl OT OU DT DU. apply lookup_insert_Some in Hk as [[<- <-]|[Nk Hk]]; apply lookup_insert_Some in Hl as [[<- <-]|[Nl Hl]]; try done.
      exact (wf_distinct s W k l t u b Hk Hl OT OU DT DU).
    + intros b xs M. destruct (wf_owned s W b xs M) as (k & t & Hk & HO & HD). exists k, t. split; [|done]. rewrite lookup_insert_ne; [done|]. congruence.
  - intros k Ne. apply contents_ext; cbn; [by rewrite lookup_insert_ne|done].
Qed.
(** ... or as an empty owner. *)
Lemma construct_null s i h : wf s -> objects s !! i = None ->
  let s' := State (<[i := Ref None 0 (Some h)]> (objects s)) (memory s) in
  wf s' /\ (forall k, k <> i -> contents s' k = contents s k).
Proof.
  intros W O s'. split.
  - split; cbn.
    + intros k t Hk. apply lookup_insert_Some in Hk as [[<- <-]|[Ne Hk]]; [cbn; by left|exact (wf_obj s W k t Hk)].
    + intros k l t u b Hk Hl OT OU DT DU. apply lookup_insert_Some in Hk as [[<- <-]|[Nk Hk]]; apply lookup_insert_Some in Hl as [[<- <-]|[Nl Hl]]; try done.
      exact (wf_distinct s W k l t u b Hk Hl OT OU DT DU).
    + intros b xs M. destruct (wf_owned s W b xs M) as (k & t & Hk & HO & HD). exists k, t. split; [|done]. rewrite lookup_insert_ne; [done|]. congruence.
  - intros k Ne. apply contents_ext; cbn; [by rewrite lookup_insert_ne|done].
Qed.
(** Changing the bytes of a block. *)
Lemma overwrite s a h bs bs' : wf s -> memory s !! a = Some (Block h bs) -> length bs' = length bs ->
  let s' := State (objects s) (<[a := Block h bs']> (memory s)) in
  wf s' /\ (forall k, (forall r, objects s !! k = Some r -> data r <> Some a) -> contents s' k = contents s k).
Proof.
  intros W M L s'. split.
  - split; cbn.
    + intros k t Hk. pose proof (wf_obj s W k t Hk) as K. unfold obj_ok in *. destruct (owned t) as [h'|]; [|done].
      destruct K as [?|(a2 & b2 & D2 & M2 & L2 & Q2)]; [by left|]. right. destruct (decide (a2 = a)) as [->|Ne].
      * exists a, bs'. rewrite lookup_insert. assert (h' = h /\ b2 = bs) as [-> ->] by (split; congruence). rewrite L. eauto.
      * exists a2, b2. rewrite lookup_insert_ne by done. eauto.
    + exact (wf_distinct s W).
    + intros b xs Mb. apply lookup_insert_Some in Mb as [[<- E]|[Ne Mb]]; [|exact (wf_owned s W b xs Mb)].
      apply (wf_owned s W a bs). congruence.
  - intros k N. apply contents_ext; [done|]. intros r b Hk HD. cbn. rewrite lookup_insert_ne; [done|]. intros <-. by apply (N r Hk).
Qed.

Lemma contents_ok s j r : wf s -> objects s !! j = Some r -> exists bs, contents s j = Ok bs /\ length bs = size r.
Proof.
  intros W O. pose proof (wf_obj s W j r O) as K. unfold obj_ok in K. unfold contents, get_object. rewrite O. cbn. unfold load.
  destruct (size r =? 0) eqn:Z; [apply Nat.eqb_eq in Z; exists []; by rewrite Z|]. apply Nat.eqb_neq in Z.
  destruct (owned r) as [h|]; [|done]. destruct K as [[_ ?]|(a & bs & D & M & L & _)]; [done|]. rewrite D, M. cbn. rewrite (proj2 (Nat.leb_le _ _) L).
  exists (take (size r) bs). split; [done|]. rewrite take_length. lia.
Qed.
(** An owned buffer is not referred to by any other object. *)
Lemma exclusive s i k r t a : wf s -> objects s !! i = Some r -> owned r = Some true -> data r = Some a ->
  objects s !! k = Some t -> data t = Some a -> k = i.
Proof.
  intros W O OW D Ok DT. pose proof (wf_obj s W i r O) as K. pose proof (wf_obj s W k t Ok) as Kt. unfold obj_ok in *. rewrite OW in K.
  destruct K as [[? _]|(a1 & b1 & D1 & M1 & _)]; [congruence|]. destruct (owned t) as [h|] eqn:OT; [|done].
  destruct Kt as [[? _]|(a2 & b2 & D2 & M2 & _)]; [congruence|]. assert (h = true) as -> by congruence.
  exact (wf_distinct s W k i t r a Ok O OT OW DT D).
Qed.

Lemma allocate_ok s i r n : wf s -> objects s !! i = Some r ->
  exists m r', allocate (memory s) r n = Ok (m, r') /\ wf (State (<[i := r']> (objects s)) m) /\
    (forall k, k <> i -> contents (State (<[i := r']> (objects s)) m) k = contents s k) /\
    (forall a bs, memory s !! a = Some (Block false bs) -> m !! a = Some (Block false bs)) /\
    size r' = n /\ owned r' = Some true.
Proof.
  intros W O. assert (Ow := wf_obj s W i r O). assert (exists h, owned r = Some h) as [h OW] by (unfold obj_ok in Ow; destruct (owned r); [eauto|done]).
  unfold allocate. unfold read_owned at 1. rewrite OW.
  assert ((exists m r', (let! x := release (memory s) r in let '(m', _) := x in
            Ok (<[fresh (dom m' : gset nat) := Block true (replicate n None)]> m', Ref (Some (fresh (dom m' : gset nat))) n (Some true))) = Ok (m, r') /\
          wf (State (<[i := r']> (objects s)) m) /\
          (forall k, k <> i -> contents (State (<[i := r']> (objects s)) m) k = contents s k) /\
          (forall a bs, memory s !! a = Some (Block false bs) -> m !! a = Some (Block false bs)) /\ size r' = n /\ owned r' = Some true)) as G.
  { destruct (release_ok s i r W O) as (m1 & r1 & E & W1 & F1 & X1 & _). rewrite E. cbn.
    set (a := fresh (dom m1 : gset nat)). assert (m1 !! a = None) as Fa by (apply (not_elem_of_dom (D := gset nat)), is_fresh).
    destruct (construct_owner (State (base.delete i (objects s)) m1) i a (replicate n None) W1) as (W2 & F2 & C2 & X2); [cbn; by rewrite lookup_delete|done|].
    cbn in W2, F2, X2. rewrite insert_delete_insert, replicate_length in *. eexists _, _. split; [reflexivity|]. split; [exact W2|]. split; [|split; [|done]].
    - intros k Ne. etransitivity; [apply F2, Ne|apply F1, Ne].
    - intros b xs M. apply X2, X1, M. }
  destruct (n =? size r) eqn:Z; cbn; [|exact G]. destruct h; [|exact G].
  apply Nat.eqb_eq in Z. exists (memory s), r. split; [done|]. rewrite insert_id by done. split; [by destruct s|]. split; [by destruct s|]. done.
Qed.

Lemma store_all m a h bs bs' : m !! a = Some (Block h bs) -> length bs' <= length bs ->
  exists m', store m (Some a) bs' = Ok m' /\ m' = <[a := Block h (bs' ++ drop (length bs') bs)]> m.
Proof.
  intros M L. unfold store. destruct bs' as [|x bs'].
  - exists m. split; [done|]. cbn. by rewrite insert_id.
  - rewrite M. cbn [DescRefModel.bytes heap]. rewrite (proj2 (Nat.leb_le _ _) L). by eexists.
Qed.

Lemma copy_contents_ok s i j r lhs : wf s -> i <> j -> objects s !! i = Some r -> objects s !! j = Some lhs ->
  exists m r', copy_contents (memory s) r lhs = Ok (m, r') /\ let s' := State (<[i := r']> (objects s)) m in
    wf s' /\ (forall k, k <> i -> contents s' k = contents s k) /\ contents s' i = contents s j /\
    (forall a bs, memory s !! a = Some (Block false bs) -> m !! a = Some (Block false bs)) /\ size r' = size lhs /\ owned r' = Some true.
Proof.
  intros W Ne O OJ. unfold copy_contents. destruct (allocate_ok s i r (size lhs) W O) as (m1 & r1 & E & W1 & F1 & X1 & S1 & O1). rewrite E. cbn.
  rewrite S1, Nat.eqb_refl. set (s1 := State (<[i := r1]> (objects s)) m1) in *.
  assert (objects s1 !! i = Some r1) as Oi by (cbn; apply lookup_insert).
  assert (objects s1 !! j = Some lhs) as Oj by (cbn; by rewrite lookup_insert_ne).
  destruct (contents_ok s1 j lhs W1 Oj) as (bs & Cj & Lj).
  assert (load m1 (data lhs) (size lhs) = Ok bs) as LD by (unfold contents, get_object in Cj; rewrite Oj in Cj; exact Cj).
  unfold memcpy. destruct (size lhs =? 0) eqn:Z.
  - apply Nat.eqb_eq in Z. cbn. exists m1, r1. split; [done|]. split; [done|]. split; [done|]. split; [|done].
    rewrite <- (F1 j) by done. destruct (contents_ok s1 i r1 W1 Oi) as (bs1 & C1 & L1). fold s1. rewrite C1, Cj. rewrite Z in *. f_equal.
    destruct bs, bs1; try done; cbn in *; lia.
  - pose proof (wf_obj s1 W1 i r1 Oi) as K. unfold obj_ok in K. rewrite O1 in K. apply Nat.eqb_neq in Z.
    destruct K as [[_ ?]|(a & b1 & D & M & L & Q)]; [congruence|]. specialize (Q eq_refl).
    rewrite D. destruct (decide (Some a = data lhs)) as [Eq|Nq].
    { exfalso. apply Ne. symmetry. exact (exclusive s1 i j r1 lhs a W1 Oi O1 D Oj (eq_sym Eq)). }
    rewrite LD. cbn. destruct (store_all m1 a true b1 bs M) as (m2 & E2 & ->); [lia|]. rewrite E2. cbn.
    destruct (overwrite s1 a true b1 (bs ++ drop (length bs) b1) W1 M) as [W2 F2]; [rewrite app_length, drop_length; lia|].
    eexists _, _. split; [reflexivity|]. cbn in W2, F2. split; [exact W2|]. split; [|split; [|split; [|done]]].
    + intros k Nk. etransitivity; [|apply F1, Nk]. apply F2. intros t Ok DT. apply Nk. exact (exclusive s1 i k r1 t a W1 Oi O1 D Ok DT).
    + rewrite <- (F1 j) by done. fold s1. rewrite Cj. unfold contents, get_object. cbn. rewrite lookup_insert. cbn. rewrite S1, D. unfold load.
      rewrite (proj2 (Nat.eqb_neq _ _) Z), lookup_insert. cbn [DescRefModel.bytes]. rewrite (proj2 (Nat.leb_le _ _)) by (rewrite app_length, drop_length; lia).
      rewrite <- Lj. by rewrite take_app.
    + intros b xs Mb. rewrite lookup_insert_ne; [by apply X1|]. intros <-. apply X1 in Mb. change (m1 !! a = Some (Block true b1)) in M. congruence.
Qed.

Definition frame (s s' : state) (o : op) : Prop :=
  (forall k, target o <> Some k -> (writes o = false \/ forall t, target o = Some t -> ~ shared s t k) -> contents s' k = contents s k) /\
  (writes o = false -> forall a bs, memory s !! a = Some (Block false bs) -> memory s' !! a = Some (Block false bs)).

Lemma write_block s i r a h bs bs' o : wf s -> objects s !! i = Some r -> data r = Some a -> memory s !! a = Some (Block h bs) -> length bs' = length bs ->
  target o = Some i -> writes o = true -> wf (State (objects s) (<[a := Block h bs']> (memory s))) /\ frame s (State (objects s) (<[a := Block h bs']> (memory s))) o.
Proof.
  intros W O D M L T Wr. destruct (overwrite s a h bs bs' W M L) as [W' F]. split; [done|]. split; [|congruence].
  intros k Nk [?|N]; [congruence|]. apply F. intros t Ht Dt. apply (N i T). exists r, t, a. done.
Qed.
Lemma obj_data s i r : wf s -> objects s !! i = Some r -> data r = None -> size r = 0.
Proof.
  intros W O D. pose proof (wf_obj s W i r O) as K. unfold obj_ok in K. destruct (owned r); [|done]. destruct K as [[_ ?]|(a & bs & D' & _)]; [done|congruence].
Qed.
Lemma obj_block s i r a : wf s -> objects s !! i = Some r -> data r = Some a -> exists h bs, memory s !! a = Some (Block h bs) /\ size r <= length bs.
Proof.
  intros W O D. pose proof (wf_obj s W i r O) as K. unfold obj_ok in K. destruct (owned r) as [h|]; [|done].
  destruct K as [[? _]|(a' & bs & D' & M & L & _)]; [congruence|]. exists h, bs. split; [congruence|done].
Qed.
Lemma not_owner s i r : wf s -> objects s !! i = Some r -> ~ owner s i -> owned r = Some false.
Proof.
  intros W O N. pose proof (wf_obj s W i r O) as K. unfold obj_ok in K. destruct (owned r) as [[]|] eqn:E; [|done|done]. exfalso. apply N. by exists r.
Qed.

Lemma step_ok g s o : wf s -> legal s o -> exists s', apply_op (Some g) s o = Ok s' /\ wf s' /\ frame s s' o.
Proof.
  intros W Lg. destruct o as [i|i a n own|i n|i j|i j|i n|i|i|i gen|i|i k x|i a own|a bs]; cbn in Lg.
  - destruct (construct_null s i false W Lg) as [W' F']. eexists. split; [reflexivity|]. split; [exact W'|]. split; [|done].
    intros k Nk _. apply F'. cbn in Nk. congruence.
  - destruct Lg as (U & -> & bs & M & L). destruct (construct_view s i (Some a) n W U) as [W' F'].
    { cbn. right. exists a, bs. done. }
    eexists. split; [reflexivity|]. split; [exact W'|]. split; [|done]. intros k Nk _. apply F'. cbn in Nk. congruence.
  - assert (memory s !! fresh (dom (memory s) : gset nat) = None) as Fa by (apply (not_elem_of_dom (D := gset nat)), is_fresh).
    destruct (construct_owner s i _ (replicate n None) W Lg Fa) as (W' & F' & _ & X'). rewrite replicate_length in *.
    eexists. split; [reflexivity|]. split; [exact W'|]. split.
    + intros k Nk _. apply F'. cbn in Nk. congruence.
    + intros _ b xs. apply X'.
  - destruct Lg as (U & lhs & OJ). cbn. unfold get_object. rewrite OJ. cbn. pose proof (wf_obj s W j lhs OJ) as K. unfold obj_ok in K. unfold read_owned.
    destruct (owned lhs) as [h|] eqn:OW; [|done]. cbn. destruct h.
    + destruct (construct_null s i g W U) as [W1 F1]. set (s1 := State (<[i := Ref None 0 (Some g)]> (objects s)) (memory s)) in *.
      assert (i <> j) as Ne by (intros ->; unfold unused in U; congruence).
      destruct (copy_contents_ok s1 i j (Ref None 0 (Some g)) lhs W1 Ne) as (m & r' & E & W' & F' & C' & X' & _ & _); [cbn; apply lookup_insert|cbn; by rewrite lookup_insert_ne|].
      cbn in E. rewrite E. cbn. eexists. split; [reflexivity|]. cbn in W', F', X'. rewrite insert_insert in *. split; [exact W'|]. split; [|by intros _].
      intros k Nk _. cbn in Nk. etransitivity; [apply F'; congruence|apply F1; congruence].
    + destruct (construct_view s i (data lhs) (size lhs) W U) as [W' F'].
      { cbn. destruct K as [K|(a & bs & K)]; [by left|right; by exists a, bs]. }
      eexists. split; [reflexivity|]. split; [exact W'|]. split; [|done]. intros k Nk _. apply F'. cbn in Nk. congruence.
  - destruct Lg as ((r & O) & (lhs & OJ)). cbn. destruct (i =? j) eqn:EQ.
    + eexists. split; [reflexivity|]. split; [done|]. split; done.
    + apply Nat.eqb_neq in EQ. unfold get_object. rewrite O, OJ. cbn. pose proof (wf_obj s W i r O) as KI. pose proof (wf_obj s W j lhs OJ) as K. unfold obj_ok in K, KI.
      unfold read_owned. destruct (owned r) as [h1|] eqn:O1; [|done]. destruct (owned lhs) as [h|] eqn:OW; [|done]. cbn.
      assert (exists s', (let! x := copy_contents (memory s) r lhs in Ok (State (<[i:=x.2]> (objects s)) x.1)) = Ok s' /\ wf s' /\ frame s s' (Assign i j)) as G.
      { destruct (copy_contents_ok s i j r lhs W EQ O OJ) as (m & r' & E & W' & F' & C' & X' & _ & _). rewrite E. cbn. eexists. split; [reflexivity|].
        split; [exact W'|]. split; [|by intros _]. intros k Nk _. apply F'. cbn in Nk. congruence. }
      destruct h1; cbn; [exact G|]. destruct h; [exact G|].
      assert (wf (State (base.delete i (objects s)) (memory s)) /\ forall k, k <> i -> contents (State (base.delete i (objects s)) (memory s)) k = contents s k) as [W1 F1].
      { destruct (release_ok s i r W O) as (m & r' & _ & W1 & F1 & _ & Q). destruct (Q O1) as [-> ->]. done. }
      destruct (construct_view (State (base.delete i (objects s)) (memory s)) i (data lhs) (size lhs) W1) as [W' F']; [cbn; apply lookup_delete| |].
      { cbn. destruct K as [K|(a & bs & K)]; [by left|right; by exists a, bs]. }
      cbn in W', F'. rewrite insert_delete_insert in *. eexists. split; [reflexivity|]. split; [exact W'|]. split; [|done].
      intros k Nk _. cbn in Nk. etransitivity; [apply F'; congruence|apply F1; congruence].
  - destruct Lg as (r & O). cbn. unfold get_object. rewrite O. cbn. destruct (allocate_ok s i r n W O) as (m & r' & E & W' & F' & X' & _ & _). rewrite E. cbn.
    eexists. split; [reflexivity|]. split; [exact W'|]. split; [|by intros _]. intros k Nk _. apply F'. cbn in Nk. congruence.
  - destruct Lg as ((r & O) & N). cbn. unfold get_object. rewrite O. cbn. pose proof (not_owner s i r W O N) as OW. unfold release, read_owned. rewrite OW. cbn.
    rewrite insert_id by done. exists s. split; [by destruct s|]. split; [done|]. split; done.
  - destruct Lg as (r & O). cbn. unfold get_object. rewrite O. cbn. destruct (release_ok s i r W O) as (m & r' & E & W' & F' & X' & _). rewrite E. cbn.
    eexists. split; [reflexivity|]. split; [exact W'|]. split; [|by intros _]. intros k Nk _. apply F'. cbn in Nk. congruence.
  - destruct Lg as (r & O). cbn. unfold get_object. rewrite O. cbn. destruct (data r) as [a|] eqn:D; [|exists s; repeat split; try done; by apply W].
    destruct (obj_block s i r a W O D) as (h & bs & M & L).
    destruct (store_all (memory s) a h bs (Some ∘ gen <$> seq 0 (size r)) M) as (m & E & ->); [rewrite fmap_length, seq_length; lia|].
    rewrite E. cbn. eexists. split; [reflexivity|]. apply (write_block s i r a h bs); try done. rewrite app_length, drop_length, fmap_length, seq_length. lia.
  - destruct Lg as (r & O). cbn. unfold get_object. rewrite O. cbn. destruct (data r) as [a|] eqn:D; [|exists s; repeat split; try done; by apply W].
    destruct (obj_block s i r a W O D) as (h & bs & M & L).
    destruct (store_all (memory s) a h bs (replicate (size r) (Some 0%N)) M) as (m & E & ->); [rewrite replicate_length; lia|].
    rewrite E. cbn. eexists. split; [reflexivity|]. apply (write_block s i r a h bs); try done. rewrite app_length, drop_length, replicate_length. lia.
  - destruct Lg as (r & O & Lk). cbn [apply_op]. unfold get_object. rewrite O. cbn [rbind]. rewrite (proj2 (Nat.ltb_lt _ _) Lk). destruct (data r) as [a|] eqn:D.
    + destruct (obj_block s i r a W O D) as (h & bs & M & L). rewrite M. cbn [DescRefModel.bytes heap]. rewrite (proj2 (Nat.ltb_lt _ _)) by lia.
      eexists. split; [reflexivity|]. apply (write_block s i r a h bs); try done. by rewrite insert_length.
    + rewrite (obj_data s i r W O D) in Lk. lia.
  - destruct Lg as (N & -> & r & O & bs & M & L). cbn. unfold get_object. rewrite O. cbn. pose proof (not_owner s i r W O N) as OW.
    destruct (release_ok s i r W O) as (m & r' & _ & W1 & F1 & _ & Q). destruct (Q OW) as [-> ->].
    destruct (construct_view (State (base.delete i (objects s)) (memory s)) i (Some a) (size r) W1) as [W' F']; [cbn; apply lookup_delete| |].
    { cbn. right. by exists a, bs. }
    cbn in W', F'. rewrite insert_delete_insert in *. eexists. split; [reflexivity|]. split; [exact W'|]. split; [|done].
    intros k Nk _. cbn in Nk. etransitivity; [apply F'; congruence|apply F1; congruence].
  - cbn. rewrite Lg. eexists. split; [reflexivity|]. split.
    + split; cbn.
      * intros k t Hk. refine (obj_ok_ext _ _ _ _ (wf_obj s W k t Hk)). intros b x _ Mb. rewrite lookup_insert_ne; [done|]. congruence.
      * exact (wf_distinct s W).
      * intros b xs Mb. apply lookup_insert_Some in Mb as [[<- E]|[Ne Mb]]; [congruence|]. exact (wf_owned s W b xs Mb).
    + split.
      * intros k _ _. apply contents_ext; [done|]. cbn. intros r b Hk D. destruct (obj_block s k r b W Hk D) as (h & xs & M & _). rewrite lookup_insert_ne; [done|]. congruence.
      * intros _ b xs Mb. cbn. rewrite lookup_insert_ne; [done|]. congruence.
Qed.

Lemma run_ok g ops : forall s, wf s -> legal_run (Some g) s ops -> exists s', run (Some g) s ops = Ok s' /\ wf s'.
Proof.
  induction ops as [|o ops IH]; intros s W L; [by exists s|]. destruct L as [L R]. destruct (step_ok g s o W L) as (s1 & E & W1 & _). cbn. rewrite E. cbn.
  exact (IH s1 W1 (R s1 E)).
Qed.

(** What the operations leave in the object. *)
Lemma copy_ok g s i j : wf s -> legal s (Copy i j) -> exists s', apply_op (Some g) s (Copy i j) = Ok s' /\ contents s' i = contents s j /\
  (owner s' i <-> owner s j) /\ exists r t, objects s' !! i = Some r /\ objects s !! j = Some t /\ size r = size t /\ (0 < size t -> data t <> None /\ data r <> None).
Proof.
  intros W (U & lhs & OJ). destruct (step_ok g s (Copy i j) W) as (s' & E & W' & _); [split; [done|by exists lhs]|]. exists s'. split; [exact E|].
  assert (forall z z' r, wf z -> objects z !! z' = Some r -> 0 < size r -> data r <> None) as ND by (intros z z' r Wz Oz P D; rewrite (obj_data z z' r Wz Oz D) in P; lia).
  revert E. cbn. unfold get_object. rewrite OJ. cbn. pose proof (wf_obj s W j lhs OJ) as K. unfold obj_ok in K. unfold read_owned.
  destruct (owned lhs) as [h|] eqn:OW; [|done]. cbn. destruct h.
  - destruct (construct_null s i g W U) as [W1 F1]. set (s1 := State (<[i := Ref None 0 (Some g)]> (objects s)) (memory s)) in *.
    assert (i <> j) as Ne by (intros ->; unfold unused in U; congruence).
    destruct (copy_contents_ok s1 i j (Ref None 0 (Some g)) lhs W1 Ne) as (m & r' & E & _ & F' & C' & X' & S' & O'); [cbn; apply lookup_insert|cbn; by rewrite lookup_insert_ne|].
    cbn in E. rewrite E. cbn. intros [= <-]. cbn in C'. rewrite insert_insert in C'. split; [etransitivity; [exact C'|apply F1; congruence]|]. split.
    + split; intros _; [by exists lhs|]. exists r'. cbn. by rewrite lookup_insert.
    + exists r', lhs. cbn. rewrite lookup_insert. split; [done|]. split; [done|]. split; [done|]. intros P. split; [by apply (ND s j)|].
      apply (ND (State (<[i := r']> (objects s)) m) i); [exact W'|cbn; apply lookup_insert|congruence].
  - intros [= <-]. split; [|split].
    + unfold contents, get_object. cbn. rewrite lookup_insert, OJ. done.
    + split; intros (r & Or & OO); [cbn in Or; rewrite lookup_insert in Or; injection Or as <-; done|congruence].
    + eexists _, lhs. cbn. rewrite lookup_insert. split; [done|]. split; [done|]. split; [done|]. intros P. split; exact (ND s j lhs W OJ P).
Qed.
Lemma assign_ok g s i j : wf s -> legal s (Assign i j) -> exists s', apply_op (Some g) s (Assign i j) = Ok s' /\ contents s' i = contents s j /\
  (owner s' i <-> owner s i \/ owner s j) /\
  exists r t, objects s' !! i = Some r /\ objects s !! j = Some t /\ size r = size t /\ (0 < size t -> data t <> None /\ data r <> None).
Proof.
  intros W ((r & O) & (lhs & OJ)). destruct (step_ok g s (Assign i j) W) as (s' & E & W' & _); [split; [by exists r|by exists lhs]|]. exists s'. split; [exact E|].
  assert (forall z z' r, wf z -> objects z !! z' = Some r -> 0 < size r -> data r <> None) as ND by (intros z z' x Wz Oz P D; rewrite (obj_data z z' x Wz Oz D) in P; lia).
  revert E. cbn. destruct (i =? j) eqn:EQ.
  - apply Nat.eqb_eq in EQ. subst j. intros [= <-]. split; [done|]. split; [tauto|]. exists r, r. split; [done|]. split; [done|]. split; [done|].
    intros P. split; by apply (ND s i).
  - apply Nat.eqb_neq in EQ. unfold get_object. rewrite O, OJ. cbn. pose proof (wf_obj s W i r O) as KI. pose proof (wf_obj s W j lhs OJ) as K. unfold obj_ok in K, KI.
    unfold read_owned. destruct (owned r) as [h1|] eqn:O1; [|done]. destruct (owned lhs) as [h|] eqn:OW; [|done]. cbn.
    assert (forall s', (let! x := copy_contents (memory s) r lhs in Ok (State (<[i:=x.2]> (objects s)) x.1)) = Ok s' -> wf s' -> contents s' i = contents s j /\ owner s' i /\
      exists r t, objects s' !! i = Some r /\ Some lhs = Some t /\ size r = size t /\ (0 < size t -> data t <> None /\ data r <> None)) as G.
    { destruct (copy_contents_ok s i j r lhs W EQ O OJ) as (m & r' & E & Wm & F' & C' & X' & S' & O'). rewrite E. cbn. intros s'' [= <-] Ws. split; [done|].
      assert (objects (State (<[i:=r']> (objects s)) m) !! i = Some r') as Oi by (cbn; apply lookup_insert). split; [by exists r'|].
      exists r', lhs. split; [done|]. split; [done|]. split; [done|]. intros P. split; [by apply (ND s j)|]. apply (ND _ i r' Ws Oi). congruence. }
    assert (owned r = Some true \/ owned lhs = Some true -> owner s i \/ owner s j) as OO by (intros [?|?]; [left; by exists r|right; by exists lhs]).
    destruct h1; cbn; [intros E; destruct (G s' E W') as (G1 & G2 & G3); split; [done|]; split; [split; [intros _; apply OO; by left|intros _; exact G2]|exact G3]|].
    destruct h; [intros E; destruct (G s' E W') as (G1 & G2 & G3); split; [done|]; split; [split; [intros _; apply OO; by right|intros _; exact G2]|exact G3]|].
    intros [= <-]. split; [|split].
    + unfold contents, get_object. cbn. rewrite lookup_insert, OJ. done.
    + split; [intros (x & Ox & HO); cbn in Ox; rewrite lookup_insert in Ox; injection Ox as <-; done|]. intros [(x & Ox & HO)|(x & Ox & HO)]; congruence.
    + eexists _, lhs. cbn. rewrite lookup_insert. split; [done|]. split; [done|]. split; [done|]. intros P. split; exact (ND s j lhs W OJ P).
Qed.
Lemma write_ok g s i k x r : wf s -> objects s !! i = Some r -> k < size r ->
  exists s' bs, apply_op (Some g) s (Write i k x) = Ok s' /\ contents s i = Ok bs /\ contents s' i = Ok (<[k := Some x]> bs).
Proof.
  intros W O Lk. destruct (contents_ok s i r W O) as (bs & C & L). revert C. cbn [apply_op]. unfold contents, get_object. rewrite O. cbn [rbind]. rewrite (proj2 (Nat.ltb_lt _ _) Lk).
  unfold load. rewrite (proj2 (Nat.eqb_neq (size r) 0)) by lia. destruct (data r) as [a|] eqn:D; [|done]. destruct (obj_block s i r a W O D) as (h & xs & M & Lx).
  rewrite M. cbn [DescRefModel.bytes heap]. rewrite (proj2 (Nat.leb_le _ _) Lx). intros [= <-]. rewrite (proj2 (Nat.ltb_lt _ _)) by lia. eexists _, _. split; [reflexivity|].
  split; [done|]. cbn [objects memory]. rewrite O. cbn [rbind]. rewrite (proj2 (Nat.eqb_neq (size r) 0)) by lia. rewrite D, lookup_insert. cbn [DescRefModel.bytes]. rewrite insert_length, (proj2 (Nat.leb_le _ _) Lx).
  f_equal. by rewrite take_insert_lt || (apply list_eq; intros q; destruct (decide (q < size r));
    [rewrite lookup_take by done; destruct (decide (q = k)) as [->|]; [rewrite !list_lookup_insert; [done|rewrite take_length; lia|lia]|rewrite !list_lookup_insert_ne by done; by rewrite lookup_take]
    |rewrite !lookup_ge_None_2; [done|rewrite insert_length, take_length; lia|rewrite take_length; lia]]).
Qed.
