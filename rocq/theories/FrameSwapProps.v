(** C142: exchanging data with a frame. *)
From Coq Require Import ZArith List Bool Permutation Lia.
From Verif Require Import FrameSwapModel FrameSwapSpec.
Import ListNotations.

Lemma channel_eqb_iff a b : channel_eqb a b = true <-> a = b.
Proof. destruct a, b; cbn; split; intros H; try reflexivity; discriminate. Qed.
Lemma kind_eqb_iff a b : kind_eqb a b = true <-> a = b.
Proof. destruct a, b; cbn; split; intros H; try reflexivity; discriminate. Qed.
Lemma channel_eqb_refl a : channel_eqb a a = true. Proof. apply channel_eqb_iff. reflexivity. Qed.
Lemma kind_eqb_refl a : kind_eqb a a = true. Proof. apply kind_eqb_iff. reflexivity. Qed.
Lemma channel_eqb_neq a b : a <> b -> channel_eqb a b = false.
Proof. intros N. destruct (channel_eqb a b) eqn:E; [apply channel_eqb_iff in E; contradiction|reflexivity]. Qed.
Lemma kind_eqb_neq a b : a <> b -> kind_eqb a b = false.
Proof. intros N. destruct (kind_eqb a b) eqn:E; [apply kind_eqb_iff in E; contradiction|reflexivity]. Qed.
Lemma replace_length {A} n (x : A) l : length (replace n x l) = length l.
Proof. revert n. induction l as [|y l IH]; intros [|n]; cbn; try reflexivity. rewrite IH. reflexivity. Qed.
Lemma replace_same {A} n (x : A) l : n < length l -> nth_error (replace n x l) n = Some x.
Proof. revert n. induction l as [|y l IH]; intros [|n] L; cbn in *; try lia; [reflexivity|apply IH; lia]. Qed.
Lemma replace_other {A} n m (x : A) l : m <> n -> nth_error (replace n x l) m = nth_error l m.
Proof. revert n m. induction l as [|y l IH]; intros [|n] [|m] N; cbn; try reflexivity; [lia|]. apply IH. lia. Qed.
Lemma replace_twice {A} n (x y : A) l : replace n x (replace n y l) = replace n x l.
Proof. revert n. induction l as [|z l IH]; intros [|n]; cbn; try reflexivity. rewrite IH. reflexivity. Qed.
Lemma replace_nth {A} n (x : A) l : nth_error l n = Some x -> replace n x l = l.
Proof. revert n. induction l as [|z l IH]; intros [|n] E; cbn in *; try discriminate; [congruence|]. rewrite (IH _ E). reflexivity. Qed.
Lemma replace_perm {A} n (x y : A) l : nth_error l n = Some x -> Permutation (x :: replace n y l) (y :: l).
Proof.
  revert n. induction l as [|z l IH]; intros [|n] E; cbn in *; try discriminate.
  - injection E as ->. apply perm_swap.
  - etransitivity; [apply perm_swap|]. etransitivity; [apply perm_skip, (IH _ E)|]. apply perm_swap.
Qed.
Lemma replace_forall {A} (P : A -> Prop) n x l : P x -> Forall P l -> Forall P (replace n x l).
Proof. intros Px. revert n. induction l as [|y l IH]; intros [|n] F; cbn; [constructor|constructor|inversion F; subst; constructor; assumption|inversion F; subst; constructor; [assumption|apply IH; assumption]]. Qed.
Lemma var_ok s k n : n < length (vars s k) -> exists v, var s k n = Ok v /\ nth_error (vars s k) n = Some v.
Proof. intros L. unfold var. destruct (nth_error (vars s k) n) as [v|] eqn:E; [exists v; split; reflexivity|]. apply nth_error_None in E. lia. Qed.
Lemma var_inv s k n v : var s k n = Ok v -> nth_error (vars s k) n = Some v.
Proof. unfold var. destruct (nth_error (vars s k) n); intros [= ->]. reflexivity. Qed.

(** ** Keypoint channels *)
(** An exchange puts the variable into the channel, which is made if it is missing, and what the channel held into the variable; nothing else changes. *)
Theorem fsx_exchange s c n v : nth_error (vars s (kind_of c)) n = Some v -> exists s', step s (Swap c (Some n)) = Ok s' /\ chan s' c = Some v /\ nth_error (vars s' (kind_of c)) n = Some (holds s c) /\ same_but s s' c n.
Proof.
  intros E. eexists. cbn [step]. unfold var. rewrite E. cbn [bind]. split; [reflexivity|]. assert (n < length (vars s (kind_of c))) as L by (apply nth_error_Some; congruence).
  cbn [put_var put_chan chan vars]. rewrite channel_eqb_refl, kind_eqb_refl. split; [reflexivity|]. split; [apply replace_same, L|]. repeat split.
  - intros d N. cbn. rewrite channel_eqb_neq by congruence. reflexivity.
  - intros k. cbn. destruct (kind_eqb (kind_of c) k); [apply replace_length|reflexivity].
  - intros k m N. cbn. destruct (kind_eqb (kind_of c) k) eqn:K; [|reflexivity]. apply kind_eqb_iff in K. subst k. apply replace_other. congruence.
Qed.
(** Setting copies, getting copies out: the channel, respectively the variable, changes and nothing else; a missing channel cannot be read. *)
Theorem fsx_copy s c n v : nth_error (vars s (kind_of c)) n = Some v ->
  (exists s', step s (Set_ c n) = Ok s' /\ chan s' c = Some v /\ (forall k, vars s' k = vars s k) /\ same_but s s' c n) /\
  match chan s c with
  | Some w => exists s', step s (Get c n) = Ok s' /\ chan s' c = Some w /\ nth_error (vars s' (kind_of c)) n = Some w /\ same_but s s' c n
  | None => step s (Get c n) = Abort
  end.
Proof.
  intros E. assert (n < length (vars s (kind_of c))) as L by (apply nth_error_Some; congruence). split.
  - eexists. cbn [step]. unfold var. rewrite E. cbn [bind]. split; [reflexivity|]. cbn. rewrite channel_eqb_refl. split; [reflexivity|]. split; [reflexivity|]. repeat split; cbn. intros d N. rewrite channel_eqb_neq by congruence. reflexivity.
  - cbn [step]. destruct (chan s c) as [w|] eqn:C; [|reflexivity]. eexists. unfold var. rewrite E. cbn [bind]. split; [reflexivity|]. cbn. rewrite kind_eqb_refl. split; [exact C|]. split; [apply replace_same, L|]. repeat split.
    + intros k. cbn. destruct (kind_eqb (kind_of c) k); [apply replace_length|reflexivity].
    + intros k m N. cbn. destruct (kind_eqb (kind_of c) k) eqn:K; [|reflexivity]. apply kind_eqb_iff in K. subst k. apply replace_other. congruence.
Qed.
(** Exchanging twice with the same variable undoes the exchange, but for the channel that now exists. *)
Theorem fsx_twice s c n s' : run s [Swap c (Some n); Swap c (Some n)] = Ok s' -> chan s' c = Some (holds s c) /\ (forall d, d <> c -> chan s' d = chan s d) /\ blocks s' = blocks s /\ types s' = types s /\ returned s' = returned s /\ forall k, vars s' k = vars s k.
Proof.
  cbn [run]. intros R. destruct (step s (Swap c (Some n))) as [s1| |] eqn:S1; try discriminate. cbn [bind] in R.
  cbn [step] in S1. destruct (var s (kind_of c) n) as [v| |] eqn:V; try discriminate. apply var_inv in V. cbn [bind] in S1. injection S1 as <-. assert (n < length (vars s (kind_of c))) as L by (apply nth_error_Some; congruence).
  cbn [step] in R. unfold var in R. cbn [put_var put_chan vars] in R. rewrite kind_eqb_refl, replace_same in R by exact L. cbn [bind] in R. injection R as <-. cbn. rewrite channel_eqb_refl. split; [reflexivity|]. split; [intros d N; rewrite channel_eqb_neq by congruence; reflexivity|]. do 3 (split; [reflexivity|]).
  intros k. destruct (kind_eqb (kind_of c) k) eqn:K; [|reflexivity]. apply kind_eqb_iff in K. subst k. rewrite replace_twice. apply replace_nth. exact V.
Qed.
(** A null pointer: only the track ids and the descriptors are guarded by a check; for the other channels the behaviour is undefined. *)
Theorem fsx_null_refuted s c index type : (c = Tracks -> step s (Swap c None) = Abort) /\ step s (SwapBlock None index type) = Abort /\ (c <> Tracks -> step s (Swap c None) = Undef).
Proof. destruct c; cbn; (repeat split; intros H; try reflexivity; try discriminate; contradiction). Qed.
Print Assumptions fsx_exchange.
Print Assumptions fsx_copy.
Print Assumptions fsx_twice.
Print Assumptions fsx_null_refuted.

(** ** Descriptors *)
(** With blocks and types that belong together: the block with the index is exchanged with the variable, its type is returned and replaced, nothing else changes; an index outside fails. *)
Theorem fsx_block s n index type v b t : nth_error (vars s Bytes) n = Some v -> paired s -> blocks s = Some b -> types s = Some t ->
  if index <? length b then
    exists s' w i, step s (SwapBlock (Some n) index type) = Ok s' /\ nth_error b index = Some w /\ nth_error t index = Some (Some i) /\
      blocks s' = Some (firstn index b ++ v :: skipn (S index) b) /\ types s' = Some (firstn index t ++ Some type :: skipn (S index) t) /\
      nth_error (vars s' Bytes) n = Some w /\ returned s' = Some i :: returned s /\ (forall c, chan s' c = chan s c) /\ forall k m, (k, m) <> (Bytes, n) -> nth_error (vars s' k) m = nth_error (vars s k) m
  else step s (SwapBlock (Some n) index type) = Abort.
Proof.
  intros V P B T. unfold paired in P. rewrite B, T in P. destruct P as (LE & L1 & F).
  assert (forall (A : Type) (x : A) l i, i < length l -> replace i x l = firstn i l ++ x :: skipn (S i) l) as RS. { intros A x l. induction l as [|y l IH]; intros [|i] L; cbn in L; try lia; [reflexivity|]. cbn [replace firstn app]. rewrite IH by lia. reflexivity. }
  cbn [step]. unfold var. rewrite V. cbn [bind]. unfold descriptor_channels. unfold value in *. rewrite B, T, LE, Nat.eqb_refl. cbn [bind fst]. destruct (Nat.eqb_spec (length b) 0) as [Z|_]; [lia|]. destruct (Nat.ltb_spec index (length b)) as [I|I].
  - rewrite <- LE. destruct (Nat.ltb_spec index (length b)) as [_|?]; [|lia]. destruct (nth_error b index) as [w|] eqn:W; [|apply nth_error_None in W; lia]. destruct (nth_error t index) as [i|] eqn:Ti; [|apply nth_error_None in Ti; lia].
    destruct i as [i|]; [|exfalso; apply nth_error_In in Ti; rewrite Forall_forall in F; exact (F _ Ti eq_refl)]. destruct (Nat.eqb_spec (length b) 0) as [Z|_]; [lia|]. cbv beta iota zeta. rewrite ?W, ?Ti. eexists _, w, i. split; [reflexivity|]. do 2 (split; [reflexivity|]). cbn. rewrite !RS by lia. do 2 (split; [reflexivity|]).
    assert (n < length (vars s Bytes)) by (apply nth_error_Some; intros Q; unfold value in *; rewrite Q in V; discriminate). split; [apply replace_same; assumption|]. do 2 (split; [reflexivity|]). intros k m N. destruct k; try reflexivity. apply replace_other. congruence.
  - rewrite <- LE. destruct (Nat.ltb_spec index (length b)) as [?|_]; [lia|]. destruct (Nat.eqb_spec (length b) 0) as [Z|_]; [lia|]. rewrite (proj2 (nth_error_None b index)) by lia. reflexivity.
Qed.
(** The first exchange of descriptors with a frame: there is one block afterwards, with the variable and the type; the variable is empty. *)
Theorem fsx_first s n type v : nth_error (vars s Bytes) n = Some v -> blocks s = None -> forall index,
  if index =? 0 then exists s', step s (SwapBlock (Some n) index type) = Ok s' /\ blocks s' = Some [v] /\ types s' = Some [Some type] /\ nth_error (vars s' Bytes) n = Some []
  else step s (SwapBlock (Some n) index type) = Abort.
Proof.
  intros V B index. cbn [step]. unfold var. rewrite V. cbn [bind]. unfold descriptor_channels. rewrite B. cbn [bind fst length Nat.eqb]. destruct index as [|index]; cbn [nth_error Nat.eqb].
  - eexists. split; [reflexivity|]. cbn. do 2 (split; [reflexivity|]). apply replace_same. apply nth_error_Some. congruence.
  - destruct index; reflexivity.
Qed.
(** The type that it returns was never set: the value of the integer is indeterminate. *)
Theorem fsx_type_refuted s n type v s' : nth_error (vars s Bytes) n = Some v -> blocks s = None -> step s (SwapBlock (Some n) 0 type) = Ok s' -> returned s' = None :: returned s.
Proof.
  intros V B. cbn [step]. unfold var. rewrite V. cbn [bind]. unfold descriptor_channels. rewrite B. cbn. intros [= <-]. reflexivity.
Qed.
Print Assumptions fsx_block.
Print Assumptions fsx_first.
Print Assumptions fsx_type_refuted.

(** Setting, extending and reading blocks: a set replaces the block with the index (or makes the first), an extension adds one behind, reading copies out. *)
Theorem fsx_blocks s n index type v : paired s -> nth_error (vars s Bytes) n = Some v ->
  let b := match blocks s with Some b => b | None => [] end in let t := match types s with Some t => t | None => [] end in
  (exists s', step s (ExtendBlock n type) = Ok s' /\ blocks s' = Some (b ++ [v]) /\ types s' = Some (t ++ [Some type]) /\ (forall c, chan s' c = chan s c) /\ vars s' = vars s) /\
  (if (index <? length b) || (length b =? 0) then exists s', step s (SetBlock n index type) = Ok s' /\
     blocks s' = Some (firstn index b ++ v :: skipn (S index) b) /\ types s' = Some (firstn index t ++ Some type :: skipn (S index) t) /\ (forall c, chan s' c = chan s c) /\ vars s' = vars s
   else step s (SetBlock n index type) = Abort) /\
  match nth_error b index with
  | Some w => exists s', step s (GetBlock index n) = Ok s' /\ blocks s' = blocks s /\ types s' = types s /\ nth_error (vars s' Bytes) n = Some w
  | None => step s (GetBlock index n) = Abort
  end /\
  match nth_error t index with
  | Some i => exists s', step s (GetType index) = Ok s' /\ blocks s' = blocks s /\ types s' = types s /\ vars s' = vars s /\ returned s' = i :: returned s /\ i <> None
  | None => step s (GetType index) = Abort
  end.
Proof.
  intros P V b t. assert (forall (A : Type) (x : A) l i, i < length l -> replace i x l = firstn i l ++ x :: skipn (S i) l) as RS. { intros A x l. induction l as [|y l IH]; intros [|i] L; cbn in L; try lia; [reflexivity|]. cbn [replace firstn app]. rewrite IH by lia. reflexivity. }
  assert (n < length (vars s Bytes)) as L by (apply nth_error_Some; intros Q; unfold value in *; rewrite Q in V; discriminate).
  assert (descriptor_channels s = Ok (b, t) /\ length b = length t /\ Forall (fun i => i <> None) t /\ (blocks s = None /\ b = [] /\ types s = None /\ t = [] \/ blocks s = Some b /\ types s = Some t)) as (D & LE & F & C).
  { unfold b, t, descriptor_channels. unfold paired in P. destruct (blocks s) as [b0|], (types s) as [t0|]; try contradiction.
    - destruct P as (P1 & P2 & P3). rewrite P1, Nat.eqb_refl. repeat split; try assumption. right. split; reflexivity.
    - repeat split; [constructor|left; repeat split]. }
  clearbody b t. split; [|split; [|split]].
  - eexists. cbn [step]. unfold var. rewrite V. cbn [bind]. rewrite D. cbn [bind]. repeat split.
  - cbn [step]. unfold var. rewrite V. cbn [bind]. rewrite D. cbn [bind]. destruct (Nat.eqb_spec (length b) 0) as [Z|Z].
    + rewrite orb_true_r. eexists. split; [reflexivity|]. cbn [put_blocks blocks types chan vars]. destruct b; [|discriminate Z]. destruct t; [|discriminate LE]. rewrite !firstn_nil, !skipn_nil. repeat split.
    + rewrite orb_false_r. destruct (Nat.ltb_spec index (length b)) as [I|I]; [|reflexivity]. eexists. split; [reflexivity|]. cbn [put_blocks blocks types chan vars]. rewrite !RS by lia. repeat split.
  - cbn [step]. destruct C as [(-> & -> & _)|(Cb & _)]; [destruct index; reflexivity|]. rewrite Cb. destruct (nth_error b index) as [w|]; [|reflexivity]. eexists. unfold var. rewrite V. cbn [bind]. split; [reflexivity|]. cbn. split; [exact Cb|]. split; [reflexivity|]. apply replace_same. exact L.
  - cbn [step]. destruct C as [(_ & _ & -> & ->)|(_ & Ct)]; [destruct index; reflexivity|]. rewrite Ct. destruct (nth_error t index) as [i|] eqn:Ti; [|reflexivity]. eexists. split; [reflexivity|]. cbn. split; [reflexivity|]. split; [exact Ct|]. do 2 (split; [reflexivity|]). apply nth_error_In in Ti. rewrite Forall_forall in F. exact (F _ Ti).
Qed.
Print Assumptions fsx_blocks.

(** ** All programs *)
Lemma paired_step s o s' : paired s -> step s o = Ok s' -> paired s'.
Proof.
  intros P E. assert (forall b t, descriptor_channels s = Ok (b, t) -> length b = length t /\ Forall (fun i => i <> None) t) as DC.
  { intros b t D. unfold descriptor_channels in D. unfold paired in P. destruct (blocks s) as [b0|], (types s) as [t0|]; try contradiction; [|injection D as <- <-; split; [reflexivity|constructor]]. destruct (Nat.eqb _ _); [|discriminate]. injection D as <- <-. split; apply P. }
  assert (forall (s0 : state) b t, length b = length t -> 1 <= length b -> Forall (fun i : option Z => i <> None) t -> paired (put_blocks s0 b t)) as PB by (intros; repeat split; assumption).
  destruct o as [c n|c n|c p|index n|index|n index type|n type|p index type]; cbn [step] in E.
  - destruct (chan s c); [|discriminate]. destruct (var s (kind_of c) n); try discriminate. injection E as <-. exact P.
  - destruct (var s (kind_of c) n); try discriminate. injection E as <-. exact P.
  - destruct p as [n|]; [|destruct c; discriminate]. destruct (var s (kind_of c) n); try discriminate. injection E as <-. exact P.
  - destruct (blocks s) as [b|] eqn:B; [|discriminate]. destruct (nth_error b index); [|discriminate]. destruct (var s Bytes n); try discriminate. injection E as <-. exact P.
  - destruct (types s) as [t|] eqn:T; [|discriminate]. destruct (nth_error t index); [|discriminate]. injection E as <-. exact P.
  - destruct (var s Bytes n) as [v| |]; try discriminate. cbn [bind] in E. destruct (descriptor_channels s) as [[b t]| |] eqn:D; try discriminate. cbn [bind] in E. destruct (DC b t eq_refl) as [L F]. destruct (Nat.eqb_spec (length b) 0) as [Z|Z].
    + injection E as <-. apply PB; [reflexivity|cbn; lia|repeat constructor; discriminate].
    + destruct (index <? length b); [|discriminate]. injection E as <-. apply PB; [rewrite !replace_length; exact L|rewrite replace_length; lia|apply replace_forall; [discriminate|exact F]].
  - destruct (var s Bytes n) as [v| |]; try discriminate. cbn [bind] in E. destruct (descriptor_channels s) as [[b t]| |] eqn:D; try discriminate. cbn [bind] in E. destruct (DC b t eq_refl) as [L F]. injection E as <-. apply PB; [rewrite !app_length; cbn; lia|rewrite app_length; cbn; lia|apply Forall_app; split; [exact F|repeat constructor; discriminate]].
  - destruct p as [n|]; [|discriminate]. destruct (var s Bytes n) as [v| |]; try discriminate. cbn [bind] in E. destruct (descriptor_channels s) as [[b t]| |] eqn:D; try discriminate. cbn [bind fst] in E. destruct (DC b t eq_refl) as [L F]. destruct (Nat.eqb_spec (length b) 0) as [Z|Z].
    + destruct index as [|[|index]]; cbn in E; try discriminate. injection E as <-. repeat split; [cbn; lia|repeat constructor; discriminate].
    + destruct (nth_error b index); [|discriminate]. destruct (nth_error t index); [|discriminate]. injection E as <-. cbn. unfold paired. cbn. rewrite !replace_length. split; [exact L|]. split; [lia|]. apply replace_forall; [discriminate|exact F].
Qed.
(** Whatever is done with a frame that was empty at first, its blocks and types belong together, and no type that can be read is indeterminate. *)
Theorem fsx_paired v l s : run (start v) l = Ok s -> paired s.
Proof.
  assert (forall l s0 s, paired s0 -> run s0 l = Ok s -> paired s) as G. { clear. induction l as [|o l IH]; intros s0 s P E; cbn in E; [injection E as <-; exact P|]. destruct (step s0 o) as [s1| |] eqn:S1; try discriminate. eapply IH; [eapply paired_step; eassumption|exact E]. }
  intros E. eapply G; [|exact E]. exact I.
Qed.
(** With pointers to variables no call is undefined. *)
Theorem fsx_defined s o : pointers_ok s o -> step s o <> Undef.
Proof.
  assert (descriptor_channels s <> Undef) as DC by (unfold descriptor_channels; destruct (blocks s), (types s); try discriminate; destruct (Nat.eqb _ _); discriminate).
  destruct o as [c n|c n|c [n|]|index n|index|n index type|n type|[n|] index type]; cbn [pointers_ok step]; intros L; try contradiction; try (destruct (var_ok _ _ _ L) as (v & -> & _); cbn [bind]).
  - destruct (chan s c); discriminate.
  - discriminate.
  - discriminate.
  - destruct (blocks s); [|discriminate]. destruct (nth_error _ _); discriminate.
  - destruct (types s); [|discriminate]. destruct (nth_error _ _); discriminate.
  - destruct (descriptor_channels s) as [[b t]| |]; try contradiction; [|discriminate]. cbn [bind]. destruct (Nat.eqb _ _); [discriminate|]. destruct (index <? length b); discriminate.
  - destruct (descriptor_channels s) as [[b t]| |]; try contradiction; discriminate.
  - destruct (descriptor_channels s) as [[b t]| |]; try contradiction; [|discriminate]. cbn [bind fst]. destruct (Nat.eqb _ _); (destruct (nth_error _ index); [|discriminate]; destruct (nth_error _ index); discriminate).
Qed.
Print Assumptions fsx_paired.
Print Assumptions fsx_defined.

(** *** No data is lost or doubled *)
Lemma concat_update {A B} (eqb : A -> A -> bool) (f g : A -> list B) (x y : list B) (a : A) l : (forall b, eqb a b = true <-> a = b) -> NoDup l -> In a l ->
  (forall b, b <> a -> g b = f b) -> Permutation (x ++ g a) (y ++ f a) -> Permutation (x ++ concat (map g l)) (y ++ concat (map f l)).
Proof.
  intros EQ ND I O P. induction l as [|b l IH]; [contradiction|]. cbn [map concat]. inversion ND as [|? ? NI ND']; subst. destruct (eqb a b) eqn:E.
  - apply EQ in E. subst b. rewrite !app_assoc. apply Permutation_app; [exact P|]. replace (map g l) with (map f l); [reflexivity|]. apply map_ext_in. intros c Hc. symmetry. apply O. intros ->. contradiction.
  - assert (b <> a) as N by (intros ->; rewrite (proj2 (EQ a) eq_refl) in E; discriminate). rewrite (O b N). destruct I as [I|I]; [congruence|]. rewrite !(Permutation_app_comm (f b)), !app_assoc. apply Permutation_app_tail. apply IH; assumption.
Qed.
Lemma all_kinds_nodup : NoDup all_kinds. Proof. unfold all_kinds. repeat constructor; cbn; intros H; repeat (destruct H as [H|H]; [discriminate|]); exact H. Qed.
Lemma all_channels_nodup : NoDup all_channels. Proof. unfold all_channels. repeat constructor; cbn; intros H; repeat (destruct H as [H|H]; [discriminate|]); exact H. Qed.
Lemma all_kinds_in k : In k all_kinds. Proof. destruct k; cbn; tauto. Qed.
Lemma all_channels_in c : In c all_channels. Proof. destruct c; cbn; tauto. Qed.
Lemma vars_update s k n v w : nth_error (vars s k) n = Some v -> Permutation (v :: concat (map (vars (put_var s k n w)) all_kinds)) (w :: concat (map (vars s) all_kinds)).
Proof.
  intros E. apply (concat_update kind_eqb (vars s) (vars (put_var s k n w)) [v] [w] k); [apply kind_eqb_iff|apply all_kinds_nodup|apply all_kinds_in| |].
  - intros b N. cbn. rewrite kind_eqb_neq by congruence. reflexivity.
  - cbn. rewrite kind_eqb_refl. apply replace_perm. exact E.
Qed.
Definition chans (s : state) : list value := concat (map (fun c => match chan s c with Some v => [v] | None => [] end) all_channels).
Lemma chans_update s c v : Permutation ((match chan s c with Some w => [w] | None => [] end) ++ chans (put_chan s c v)) (v :: chans s).
Proof.
  apply (concat_update channel_eqb (fun d => match chan s d with Some w => [w] | None => [] end) (fun d => match chan (put_chan s c v) d with Some w => [w] | None => [] end) _ [v] c); [apply channel_eqb_iff|apply all_channels_nodup|apply all_channels_in| |].
  - intros b N. cbn. rewrite channel_eqb_neq by congruence. reflexivity.
  - cbn. rewrite channel_eqb_refl. destruct (chan s c); cbn; [apply perm_swap|reflexivity].
Qed.
Lemma perm_filter {A} (f : A -> bool) l l' : Permutation l l' -> Permutation (filter f l) (filter f l').
Proof. induction 1; cbn; [constructor|destruct (f x); [constructor|]; assumption|destruct (f x), (f y); try reflexivity; apply perm_swap|etransitivity; eassumption]. Qed.
Lemma exchange_step s o s' : exchanges o -> step s o = Ok s' -> exists e, (e = [] \/ e = [[]]) /\ Permutation (data s') (e ++ data s).
Proof.
  intros X E. destruct o as [c n|c n|c p|index n|index|n index type|n type|p index type]; try contradiction; cbn [step] in E.
  - destruct p as [n|]; [|destruct c; discriminate]. destruct (var s (kind_of c) n) as [v| |] eqn:V; try discriminate. apply var_inv in V. cbn [bind] in E. injection E as <-.
    exists (match chan s c with Some _ => [] | None => [[]] end). split; [destruct (chan s c); [left|right]; reflexivity|].
    set (w := match chan s c with Some w => w | None => [] end). unfold data. change (concat (map (fun c0 => match chan (put_var (put_chan s c v) (kind_of c) n w) c0 with Some v0 => [v0] | None => [] end) all_channels)) with (chans (put_chan s c v)). change (concat (map (fun c0 => match chan s c0 with Some v0 => [v0] | None => [] end) all_channels)) with (chans s).
    pose proof (vars_update (put_chan s c v) (kind_of c) n v w V) as PV. change (concat (map (vars (put_chan s c v)) all_kinds)) with (concat (map (vars s) all_kinds)) in PV. cbn [blocks put_var put_chan] in *. set (B := match blocks s with Some b => b | None => [] end).
    pose proof (chans_update s c v) as PC. set (V' := concat (map (vars (put_var (put_chan s c v) (kind_of c) n w)) all_kinds)) in *. set (V0 := concat (map (vars s) all_kinds)) in *. set (C' := chans (put_chan s c v)) in *. set (C0 := chans s) in *.
    apply (Permutation_cons_inv (a := v)). transitivity (w :: V0 ++ C' ++ B); [exact (Permutation_app_tail (C' ++ B) PV)|]. unfold w. destruct (chan s c) as [w0|]; cbn [app] in *.
    + transitivity (V0 ++ (w0 :: C') ++ B); [apply Permutation_middle|]. rewrite PC. cbn. symmetry. apply Permutation_middle.
    + rewrite PC. cbn. rewrite perm_swap. apply perm_skip. symmetry. apply Permutation_middle.
  - destruct p as [n|]; [|discriminate]. destruct (var s Bytes n) as [v| |] eqn:V; try discriminate. apply var_inv in V. cbn [bind] in E. destruct (descriptor_channels s) as [[b t]| |] eqn:D; try discriminate. cbn [bind fst] in E.
    assert (match blocks s with Some b0 => b0 | None => [] end = b) as Bs. { unfold descriptor_channels in D. destruct (blocks s) as [b0|], (types s) as [t0|]; try discriminate; try (injection D as <- _; reflexivity). destruct (Nat.eqb _ _); [injection D as <- _; reflexivity|discriminate]. }
    assert (forall b1 t1 w i, nth_error b1 index = Some w -> Permutation (data (return_int (put_var (put_blocks s (replace index v b1) t1) Bytes n w) i)) (concat (map (vars s) all_kinds) ++ chans s ++ b1)) as Main.
    { intros b1 t1 w i W. unfold data. cbn [blocks return_int put_var put_blocks]. set (s1 := put_blocks s (replace index v b1) t1). change (concat (map (vars (return_int (put_var s1 Bytes n w) i)) all_kinds)) with (concat (map (vars (put_var s1 Bytes n w)) all_kinds)).
      change (concat (map (fun c => match chan (return_int (put_var s1 Bytes n w) i) c with Some v0 => [v0] | None => [] end) all_channels)) with (chans s).
      pose proof (vars_update s1 Bytes n v w V) as PV. change (concat (map (vars s1) all_kinds)) with (concat (map (vars s) all_kinds)) in PV. set (V' := concat (map (vars (put_var s1 Bytes n w)) all_kinds)) in *. set (V0 := concat (map (vars s) all_kinds)) in *.
      apply (Permutation_cons_inv (a := v)). transitivity (w :: V0 ++ chans s ++ replace index v b1); [exact (Permutation_app_tail _ PV)|]. pose proof (replace_perm index w v b1 W) as PB.
      rewrite !app_assoc. transitivity ((V0 ++ chans s) ++ w :: replace index v b1); [apply Permutation_middle|]. rewrite PB. symmetry. apply Permutation_middle. }
    unfold data at 2. rewrite Bs. change (concat (map (fun c => match chan s c with Some v0 => [v0] | None => [] end) all_channels)) with (chans s). destruct (Nat.eqb_spec (length b) 0) as [Z|Z].
    + destruct b; [|discriminate Z]. destruct (nth_error [[] : value] index) as [w|] eqn:W; [|discriminate]. destruct (nth_error [None : option BinNums.Z] index) as [i|]; [|discriminate]. injection E as <-. exists [[]]. split; [right; reflexivity|]. rewrite (Main [[] : value] _ w i W). rewrite app_nil_r, app_assoc. symmetry. apply Permutation_cons_append.
    + destruct (nth_error b index) as [w|] eqn:W; [|discriminate]. destruct (nth_error t index) as [i|]; [|discriminate]. injection E as <-. exists []. split; [left; reflexivity|]. apply Main. exact W.
Qed.
(** Any sequence of exchanges keeps all the data: what is in the frame and in the variables afterwards is a rearrangement of what was there before, with an empty matrix for each channel that was made. *)
Theorem fsx_conserve l : forall s s', Forall exchanges l -> run s l = Ok s' -> (exists k, Permutation (data s') (repeat [] k ++ data s)) /\ Permutation (filter not_empty (data s')) (filter not_empty (data s)).
Proof.
  assert (forall s s', Forall exchanges l -> run s l = Ok s' -> exists k, Permutation (data s') (repeat [] k ++ data s)) as G.
  { induction l as [|o l IH]; intros s s' F E; cbn in E; [injection E as <-; exists 0; reflexivity|]. inversion F; subst. destruct (step s o) as [s1| |] eqn:S1; try discriminate. destruct (IH s1 s') as (k & P); [assumption|exact E|]. destruct (exchange_step s o s1) as (e & [He|He] & Q); try assumption; subst e.
    - exists k. rewrite P, Q. reflexivity.
    - exists (S k). rewrite P, Q. cbn. symmetry. apply Permutation_middle. }
  intros s s' F E. destruct (G s s' F E) as (k & P). split; [exists k; exact P|]. rewrite (perm_filter not_empty _ _ P). clear. induction k; [reflexivity|exact IHk].
Qed.
Print Assumptions fsx_conserve.

(** The hypotheses can be met. *)
Definition some_vars (k : kind) : list value := match k with Doubles => [[1; 2]; [3]] | Bytes => [[7; 8; 9]; []] | Integers => [[5]] | _ => [] end%Z.
Example fsx_run_met : match run (start some_vars) [Swap Scales (Some 0); Swap Scores (Some 1); Swap Scales (Some 1); SwapBlock (Some 0) 0 4; SwapBlock (Some 1) 0 6; Swap Tracks (Some 0)] with
  | Ok s => chan s Scales = Some [] /\ chan s Scores = Some [3]%Z /\ vars s Doubles = [[]; [1; 2]]%Z /\ vars s Bytes = [[]; [7; 8; 9]]%Z /\ types s = Some [Some 6%Z] /\ returned s = [Some 4%Z; None] /\ chan s Tracks = Some [5]%Z
  | _ => False
  end.
Proof. vm_compute. repeat split. Qed.
Example fsx_exchange_met : nth_error (vars (start some_vars) (kind_of Scales)) 1 = Some [3]%Z /\ pointers_ok (start some_vars) (Swap Scales (Some 1)).
Proof. split; [reflexivity|cbn; lia]. Qed.
Example fsx_block_met : exists s, run (start some_vars) [ExtendBlock 0 4; ExtendBlock 1 5; SwapBlock (Some 0) 1 9] = Ok s /\ paired s /\ blocks s = Some [[7; 8; 9]; [7; 8; 9]]%Z /\ types s = Some [Some 4; Some 9]%Z /\ nth_error (vars s Bytes) 0 = Some [].
Proof. eexists. split; [reflexivity|]. split; [cbn; repeat split; [lia|repeat constructor; discriminate]|]. repeat split. Qed.
Example fsx_twice_met : exists s, run (start some_vars) [Swap Scales (Some 0); Swap Scales (Some 0)] = Ok s.
Proof. eexists. reflexivity. Qed.
