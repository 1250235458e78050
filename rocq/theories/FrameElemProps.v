(** C151: single elements of the channels of a frame. *)
From Coq Require Import List ZArith Lia Bool.
From Verif Require Import FrameSwapModel FrameElemModel.
Import ListNotations.
Local Open Scope Z_scope.

(** The values of a size_t; the number of cells of a channel is at most the greatest Eigen::Index. *)
Definition size_t (i : Z) : Prop := 0 <= i < 2 ^ 64.
Definition fits (data : value) : Prop := Z.of_nat (length data) < 2 ^ 63.

Lemma signed_le bits i : 0 < bits -> 0 <= i -> to_signed bits i <= i.
Proof.
  intros B I. unfold to_signed. pose proof (Z.pow_pos_nonneg 2 bits ltac:(lia) ltac:(lia)) as P. pose proof (Z.mod_le i _ I P). destruct (_ <? _); lia.
Qed.
Lemma signed_same bits i : 0 < bits -> 0 <= i < 2 ^ (bits - 1) -> to_signed bits i = i.
Proof.
  intros B I. unfold to_signed. assert (P : 2 ^ (bits - 1) < 2 ^ bits) by (apply Z.pow_lt_mono_r; lia). rewrite Z.mod_small by lia. now rewrite (proj2 (Z.ltb_lt _ _)) by lia.
Qed.
Lemma signed64 i : size_t i -> to_signed 64 i = if i <? 2 ^ 63 then i else i - 2 ^ 64.
Proof. intros I. unfold to_signed. now rewrite Z.mod_small. Qed.
(** Elements that exist are returned, for channels of any size. *)
Theorem fex_inside s c data i x : chan s c = Some data -> fits data -> nth_error data i = Some x -> get_element s c (Z.of_nat i) = Ok x.
Proof.
  intros C F E. assert (L : (i < length data)%nat) by (apply nth_error_Some; congruence). unfold get_element. rewrite C. unfold fits in F. pose proof (signed_le 32 (Z.of_nat i) ltac:(lia) ltac:(lia)). rewrite (proj2 (Z.ltb_lt _ _)) by lia. rewrite signed_same; [|lia|split; [lia|]; change (2 ^ (64 - 1)) with (2 ^ 63); lia].
  unfold cell_at. rewrite (proj2 (Z.ltb_ge _ _)) by lia. rewrite Nat2Z.id, E. reflexivity.
Qed.
(** Whatever is returned is the element with this index. *)
Theorem fex_value s c i x : size_t i -> get_element s c i = Ok x -> exists data, chan s c = Some data /\ (fits data -> nth_error data (Z.to_nat i) = Some x).
Proof.
  intros I E. unfold get_element in E. destruct (chan s c) as [data|]; [|discriminate]. exists data. split; [reflexivity|]. intros F. destruct (_ <? _); [|discriminate]. unfold cell_at in E. rewrite signed64 in E by exact I. unfold size_t in I.
  destruct (Z.ltb_spec i (2 ^ 63)); [|rewrite (proj2 (Z.ltb_lt (i - 2 ^ 64) 0)) in E by lia; discriminate]. rewrite (proj2 (Z.ltb_ge _ _)) in E by lia. destruct (nth_error data (Z.to_nat i)); [now injection E as ->|discriminate].
Qed.
(** Missing channels abort, and indices outside abort as long as they fit into an int. *)
Theorem fex_outside s c i : (chan s c = None -> get_element s c i = Abort) /\ forall data, chan s c = Some data -> Z.of_nat (length data) <= i < 2 ^ 31 -> get_element s c i = Abort.
Proof.
  split; [intros C; unfold get_element; now rewrite C|]. intros data C H. unfold get_element. rewrite C, (signed_same 32); [|lia|change (2 ^ (32 - 1)) with (2 ^ 31); lia]. now rewrite (proj2 (Z.ltb_ge _ _)) by lia.
Qed.
(** Greater ones: exactly those that are in range after the conversion to int, so also all that become negative, read outside of the data. *)
Theorem fex_wrapped s c data i : chan s c = Some data -> fits data -> size_t i -> Z.of_nat (length data) <= i -> get_element s c i = if to_signed 32 i <? Z.of_nat (length data) then Undef else Abort.
Proof.
  intros C F I L. unfold get_element. rewrite C. destruct (_ <? _); [|reflexivity]. unfold cell_at. rewrite signed64 by exact I. unfold size_t in I. destruct (Z.ltb_spec i (2 ^ 63)); [|now rewrite (proj2 (Z.ltb_lt (i - 2 ^ 64) 0)) by lia].
  rewrite (proj2 (Z.ltb_ge _ _)) by lia. now rewrite (proj2 (nth_error_None _ _)) by lia.
Qed.
(** In particular the index -1 (size_t) reads before the first element of every channel, and 2^32 passes for 0. *)
Theorem fex_minus_one s c data : chan s c = Some data -> fits data -> get_element s c (2 ^ 64 - 1) = Undef /\ (data <> [] -> Z.of_nat (length data) <= 2 ^ 32 -> get_element s c (2 ^ 32) = Undef).
Proof.
  intros C F. pose proof F as F'. unfold fits in F'. split.
  - rewrite (fex_wrapped s c data) by (try assumption; unfold size_t; lia). change (to_signed 32 (2 ^ 64 - 1)) with (-1). now rewrite (proj2 (Z.ltb_lt _ _)) by lia.
  - intros N L. rewrite (fex_wrapped s c data) by (try assumption; unfold size_t; lia). change (to_signed 32 (2 ^ 32)) with 0. destruct data; [contradiction|]. now rewrite (proj2 (Z.ltb_lt _ _)) by (cbn [length]; lia).
Qed.
Theorem fex_range_refuted : exists s c i, size_t i /\ (forall data, chan s c = Some data -> Z.of_nat (length data) <= i) /\ get_element s c i <> Abort.
Proof.
  exists (put_chan (start (fun _ => [])) Tracks [7; 8]), Tracks, (2 ^ 64 - 1). split; [unfold size_t; lia|]. split; [intros data E; cbn in E; injection E as <-; cbn; lia|]. intros E. vm_compute in E. discriminate.
Qed.
(** Blocks of descriptors are checked without conversion: no index reads outside. *)
Theorem fex_blocks s i : size_t i -> get_block s i = match blocks s with None => Abort | Some b => match nth_error b (Z.to_nat i) with Some v => Ok v | None => Abort end end.
Proof.
  intros I. unfold size_t in I. unfold get_block. destruct (blocks s) as [b|]; [|reflexivity]. destruct (Z.ltb_spec i (Z.of_nat (length b))) as [L|L].
  - destruct (nth_error b (Z.to_nat i)) eqn:E; [reflexivity|]. apply nth_error_None in E. lia.
  - now rewrite (proj2 (nth_error_None _ _)) by lia.
Qed.
Lemma channel_eqb_spec a b : channel_eqb a b = true <-> a = b.
Proof. split; [destruct a, b; try discriminate; reflexivity|intros ->; destruct b; reflexivity]. Qed.
Lemma replace_nth {A} (x : A) : forall l i j, (i < length l)%nat -> nth_error (replace i x l) j = if Nat.eqb i j then Some x else nth_error l j.
Proof. induction l as [|a l IH]; intros [|i] [|j] L; cbn in *; try lia; try reflexivity. apply IH. lia. Qed.
Lemma replace_length {A} (x : A) : forall l i, length (replace i x l) = length l.
Proof. induction l as [|a l IH]; intros [|i]; cbn; auto. Qed.
(** What is stored through a pointer is read by the getter of that element; all other elements and channels are as before. *)
Theorem fex_write s c p i x s' : get_mutable s c = Ok p -> write s p i x = Ok s' ->
  (forall data, chan s c = Some data -> fits data -> get_element s' c (Z.of_nat i) = Ok x) /\
  (forall d j, c <> d \/ Z.of_nat i <> j -> size_t j -> (forall data, chan s d = Some data -> fits data) -> get_element s' d j = get_element s d j) /\
  blocks s' = blocks s /\ types s' = types s.
Proof.
  intros G W. unfold get_mutable in G. destruct (chan s c) as [data|] eqn:C; [|discriminate]. injection G as <-. unfold write in W. rewrite C in W. destruct (Nat.ltb_spec i (length data)) as [L|]; [|discriminate]. injection W as <-.
  assert (CC : chan (put_chan s c (replace i x data)) c = Some (replace i x data)) by (cbn; now rewrite (proj2 (channel_eqb_spec c c) eq_refl)).
  split; [|split; [|split; reflexivity]].
  - intros data' E F. injection E as <-. apply fex_inside with (data := replace i x data); [exact CC|unfold fits in *; now rewrite replace_length|]. rewrite replace_nth by exact L. now rewrite Nat.eqb_refl.
  - intros d j N J F. unfold get_element. destruct (channel_eqb c d) eqn:E.
    + apply channel_eqb_spec in E. subst d. rewrite CC, C, replace_length. destruct N as [N|N]; [contradiction|]. destruct (_ <? _); [|reflexivity]. unfold cell_at. rewrite signed64 by exact J. unfold size_t in J. destruct (Z.ltb_spec j (2 ^ 63)); [|now rewrite (proj2 (Z.ltb_lt (j - 2 ^ 64) 0)) by lia]. rewrite (proj2 (Z.ltb_ge _ _)) by lia. rewrite replace_nth by exact L. destruct (Nat.eqb_spec i (Z.to_nat j)); [lia|reflexivity].
    + cbn [chan put_chan]. now rewrite E.
Qed.
(** The getters read what the setter of the same name stored. *)
Theorem fex_set s c n v s' i x : nth_error (vars s (kind_of c)) n = Some v -> fits v -> step s (Set_ c n) = Ok s' -> nth_error v i = Some x -> get_element s' c (Z.of_nat i) = Ok x.
Proof.
  intros V F E X. cbn [step] in E. unfold var in E. rewrite V in E. cbn [bind] in E. injection E as <-. apply fex_inside with (data := v); [|exact F|exact X]. cbn. now rewrite (proj2 (channel_eqb_spec c c) eq_refl).
Qed.
Print Assumptions fex_inside.
Print Assumptions fex_value.
Print Assumptions fex_outside.
Print Assumptions fex_wrapped.
Print Assumptions fex_minus_one.
Print Assumptions fex_range_refuted.
Print Assumptions fex_blocks.
Print Assumptions fex_write.
Print Assumptions fex_set.

(** ** Cases *)
Definition frame_ex : state := put_chan (put_chan (start (fun _ => [[4; 5]])) Tracks [7; 8]) Scores [1].
Example fex_inside_ex : get_element frame_ex Tracks 1 = Ok 8 /\ get_element frame_ex Tracks 2 = Abort /\ get_element frame_ex Scales 0 = Abort /\ get_element frame_ex Tracks (2 ^ 31) = Undef /\ get_element frame_ex Tracks (2 ^ 32 + 1) = Undef /\ get_element frame_ex Tracks (2 ^ 32 + 2) = Abort.
Proof. repeat split; vm_compute; reflexivity. Qed.
Example fex_write_ex : exists s', write frame_ex Tracks 0 9 = Ok s' /\ get_element s' Tracks 0 = Ok 9 /\ get_element s' Tracks 1 = Ok 8 /\ get_element s' Scores 0 = Ok 1.
Proof. eexists. split; [reflexivity|]. repeat split; vm_compute; reflexivity. Qed.
Example fex_blocks_ex : get_block (put_blocks frame_ex [[3]; [4]] [None; None]) 1 = Ok [4] /\ get_block (put_blocks frame_ex [[3]; [4]] [None; None]) (2 ^ 64 - 1) = Abort.
Proof. split; vm_compute; reflexivity. Qed.
Example fex_set_ex : exists s', step frame_ex (Set_ Tracks 0) = Ok s' /\ get_element s' Tracks 1 = Ok 5.
Proof. eexists. split; [reflexivity|]. vm_compute. reflexivity. Qed.
