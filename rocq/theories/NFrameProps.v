(** C137: multi-frames. *)
From Coq Require Import List Bool Arith ZArith Lia.
From Verif Require Import NFrameModel NFrameSpec.
Import ListNotations.

(** ** Lists *)
Lemma nth_update {A} n (x : A) l m : nth_error (update n x l) m = if m =? n then (if n <? length l then Some x else None) else nth_error l m.
Proof.
  revert n m. induction l as [|y l IH]; intros n m; cbn; [destruct m, (_ =? n); reflexivity|]. destruct n, m; try reflexivity. cbn [nth_error]. rewrite IH. cbn. destruct (m =? n); reflexivity.
Qed.
Lemma length_update {A} n (x : A) l : length (update n x l) = length l.
Proof. revert n. induction l as [|y l IH]; intros n; [reflexivity|]. destruct n; cbn; auto. Qed.
Lemma nth_lt {A} (l : list A) n x : nth_error l n = Some x -> n < length l.
Proof. intros H. apply nth_error_Some. congruence. Qed.
Lemma nth_repeat_none {A} k i (x : A) : nth_error (repeat None k) i <> Some (Some x).
Proof. revert i. induction k as [|k IH]; intros [|i]; cbn; try discriminate. apply IH. Qed.
Lemma nth_end {A} (l : list A) x : nth_error (l ++ [x]) (length l) = Some x.
Proof. rewrite nth_error_app2, Nat.sub_diag by lia. reflexivity. Qed.

(** ** Copies *)
Lemma copy_spec l : forall fs fs' l', copy_slots fs l = (fs', l') -> (forall i f, nth_error l i = Some (Some f) -> f < length fs) ->
  length fs <= length fs' /\ (forall f, f < length fs -> nth_error fs' f = nth_error fs f) /\ length l' = length l /\
  (forall i, nth_error l i = Some None -> nth_error l' i = Some None) /\
  (forall i f, nth_error l i = Some (Some f) -> exists g, nth_error l' i = Some (Some g) /\ length fs <= g < length fs' /\ nth_error fs' g = nth_error fs f) /\
  (forall i j g, nth_error l' i = Some (Some g) -> nth_error l' j = Some (Some g) -> i = j).
Proof.
  induction l as [|[f|] l IH]; intros fs fs' l' E B; cbn in E.
  - injection E as <- <-. repeat split; try lia; intros [|?]; discriminate.
  - assert (F : f < length fs) by (apply (B 0 f eq_refl)). destruct (nth_error fs f) as [x|] eqn:G; [|apply nth_error_None in G; lia].
    destruct (copy_slots (fs ++ [x]) l) as [fs1 l1] eqn:C. injection E as <- <-. destruct (IH _ _ _ C) as (A1 & A2 & A3 & A4 & A5 & A6).
    { intros i g H. rewrite app_length. cbn. specialize (B (S i) g H). lia. }
    rewrite app_length in *. cbn [length] in *. assert (OLD : forall g, g < length fs -> nth_error fs1 g = nth_error fs g) by (intros g H; rewrite A2, nth_error_app1 by lia; reflexivity).
    assert (NEW : nth_error fs1 (length fs) = Some x) by (rewrite A2, nth_end by lia; reflexivity).
    assert (FAR : forall i g, nth_error l1 i = Some (Some g) -> length fs < g).
    { intros i g H. destruct (nth_error l i) as [[h|]|] eqn:L.
      - destruct (A5 i h L) as (g' & H' & R & _). rewrite H in H'. injection H' as <-. lia.
      - rewrite (A4 i L) in H. discriminate.
      - apply nth_error_None in L. apply nth_lt in H. lia. }
    split; [lia|]. split; [exact OLD|]. split; [lia|]. split; [intros [|i]; [discriminate|apply A4]|]. split.
    + intros [|i] g H; cbn in H.
      * injection H as <-. exists (length fs). split; [reflexivity|]. split; [lia|]. rewrite NEW, G. reflexivity.
      * destruct (A5 i g H) as (g' & H' & R & Q). exists g'. split; [exact H'|]. split; [lia|]. rewrite Q. specialize (B (S i) g H). apply nth_error_app1. lia.
    + intros [|i] [|j] g H1 H2; cbn in *; [reflexivity| | |f_equal; apply (A6 i j g H1 H2)].
      * injection H1 as <-. specialize (FAR _ _ H2). lia.
      * injection H2 as <-. specialize (FAR _ _ H1). lia.
  - destruct (copy_slots fs l) as [fs1 l1] eqn:C. injection E as <- <-. destruct (IH _ _ _ C) as (A1 & A2 & A3 & A4 & A5 & A6); [intros i f H; apply (B (S i) f H)|].
    split; [exact A1|]. split; [exact A2|]. split; [cbn; lia|]. split; [intros [|i]; [reflexivity|apply A4]|]. split; [intros [|i] f H; [discriminate|apply (A5 i f H)]|].
    intros [|i] [|j] g H1 H2; cbn in *; try discriminate. f_equal. apply (A6 i j g H1 H2).
Qed.
Lemma copy_back l fs fs' l' : copy_slots fs l = (fs', l') -> (forall i f, nth_error l i = Some (Some f) -> f < length fs) -> forall i g, nth_error l' i = Some (Some g) ->
  length fs <= g < length fs' /\ exists f, nth_error l i = Some (Some f) /\ nth_error fs' g = nth_error fs f.
Proof.
  intros C B i g H. destruct (copy_spec l fs fs' l' C B) as (_ & _ & L & A4 & A5 & _). destruct (nth_error l i) as [[f|]|] eqn:E.
  - destruct (A5 i f E) as (g' & H' & R & Q). rewrite H in H'. injection H' as <-. eauto.
  - rewrite (A4 i E) in H. discriminate.
  - apply nth_error_None in E. apply nth_lt in H. lia.
Qed.

(** ** Loops over the frames *)
Lemma set_cameras_spec cams l : forall i fs fs', set_cameras cams i l fs = Some fs' ->
  length fs' = length fs /\ (forall f, (forall j, nth_error l j <> Some (Some f)) -> nth_error fs' f = nth_error fs f) /\
  (forall j f, nth_error l j = Some (Some f) -> (forall k, nth_error l k = Some (Some f) -> k = j) ->
     exists x c, nth_error fs f = Some x /\ nth_error cams (i + j) = Some c /\ nth_error fs' f = Some (Frame (Some c) (image x) (keypoints x) (rest x))).
Proof.
  induction l as [|[f|] l IH]; intros i fs fs' E; cbn in E.
  - injection E as <-. split; [reflexivity|]. split; [auto|]. intros [|?]; discriminate.
  - destruct (nth_error cams i) as [c|] eqn:C; [|discriminate]. destruct (nth_error fs f) as [x|] eqn:X; [|discriminate].
    destruct (IH _ _ _ E) as (A1 & A2 & A3). rewrite length_update in A1. split; [exact A1|]. split.
    + intros g N. rewrite A2 by (intros j H; apply (N (S j) H)). rewrite nth_update. destruct (Nat.eqb_spec g f) as [->|]; [|reflexivity]. exfalso. apply (N 0 eq_refl).
    + intros [|j] g H U; cbn in H.
      * injection H as <-. exists x, c. split; [exact X|]. split; [rewrite Nat.add_0_r; exact C|]. rewrite A2 by (intros k K; specialize (U (S k) K); discriminate).
        rewrite nth_update, Nat.eqb_refl. apply nth_lt in X. apply Nat.ltb_lt in X. rewrite X. reflexivity.
      * assert (N : g <> f) by (intros ->; specialize (U 0 eq_refl); discriminate). destruct (A3 j g H) as (y & d & Y & D & R); [intros k K; specialize (U (S k) K); lia|].
        exists y, d. rewrite nth_update in Y. destruct (Nat.eqb_spec g f); [contradiction|]. split; [exact Y|]. split; [rewrite <- D; f_equal; lia|exact R].
  - destruct (IH _ _ _ E) as (A1 & A2 & A3). split; [exact A1|]. split; [intros g N; apply A2; intros j H; apply (N (S j) H)|].
    intros [|j] g H U; cbn in H; [discriminate|]. destruct (A3 j g H) as (y & d & Y & D & R); [intros k K; specialize (U (S k) K); lia|]. exists y, d. split; [exact Y|]. split; [rewrite <- D; f_equal; lia|exact R].
Qed.
Lemma change_spec change (idem : forall x, change (change x) = change x) l : forall fs fs', change_all change l fs = Some fs' ->
  length fs' = length fs /\ (forall f, (forall j, nth_error l j <> Some (Some f)) -> nth_error fs' f = nth_error fs f) /\
  (forall j f, nth_error l j = Some (Some f) -> nth_error fs' f = option_map change (nth_error fs f)) /\ forall j, nth_error l j <> Some None.
Proof.
  induction l as [|[f|] l IH]; intros fs fs' E; cbn in E; [| |discriminate].
  - injection E as <-. split; [reflexivity|]. split; [auto|]. split; [intros [|?]; discriminate|intros [|?]; discriminate].
  - destruct (nth_error fs f) as [x|] eqn:X; [|discriminate]. destruct (IH _ _ E) as (A1 & A2 & A3 & A4). rewrite length_update in A1. split; [exact A1|].
    assert (UP : forall g, nth_error (update f (change x) fs) g = if g =? f then Some (change x) else nth_error fs g).
    { intros g. rewrite nth_update. pose proof (nth_lt _ _ _ X) as K. apply Nat.ltb_lt in K. rewrite K. reflexivity. }
    split; [|split].
    + intros g N. rewrite A2 by (intros j H; apply (N (S j) H)). rewrite UP. destruct (Nat.eqb_spec g f) as [->|]; [|reflexivity]. exfalso. apply (N 0 eq_refl).
    + intros j g H. assert (D : (exists k, nth_error l k = Some (Some g)) \/ forall k, nth_error l k <> Some (Some g)).
      { clear. induction l as [|o l IH]; [right; intros [|?]; discriminate|]. destruct IH as [[k K]|N]; [left; exists (S k); exact K|]. destruct o as [h|].
        - destruct (Nat.eq_dec h g) as [->|M]; [left; exists 0; reflexivity|]. right. intros [|k]; cbn; [congruence|apply N].
        - right. intros [|k]; cbn; [discriminate|apply N]. }
      destruct D as [[k K]|N].
      * rewrite (A3 k g K), UP. destruct (Nat.eqb_spec g f) as [->|]; [|reflexivity]. rewrite X. cbn. rewrite idem. reflexivity.
      * rewrite (A2 g N), UP. destruct j as [|j]; cbn in H; [|exfalso; apply (N j H)]. injection H as <-. rewrite Nat.eqb_refl, X. reflexivity.
    + intros [|j]; cbn; [discriminate|apply A4].
Qed.
Lemma release_idem x : release_image (release_image x) = release_image x. Proof. reflexivity. Qed.
Lemma clear_idem x : clear_keypoints (clear_keypoints x) = clear_keypoints x. Proof. reflexivity. Qed.
Lemma change_total change l : forall fs, (forall j, nth_error l j <> Some None) -> (forall j f, nth_error l j = Some (Some f) -> f < length fs) -> exists fs', change_all change l fs = Some fs'.
Proof.
  induction l as [|[f|] l IH]; intros fs N B; cbn; [eauto| |exfalso; apply (N 0 eq_refl)]. destruct (nth_error fs f) as [x|] eqn:X; [|apply nth_error_None in X; specialize (B 0 f eq_refl); lia].
  apply IH; [intros j; apply (N (S j))|]. intros j g H. rewrite length_update. apply (B (S j) g H).
Qed.

(** ** Pointers never dangle *)
Lemma slot_of s n x i : nth_error (nframes s) n = Some x -> slot s n i = nth_error (slots x) i.
Proof. intros H. unfold slot. rewrite H. reflexivity. Qed.
Lemma bound s n x : sound s -> nth_error (nframes s) n = Some x -> forall i f, nth_error (slots x) i = Some (Some f) -> f < length (frames s).
Proof. intros [S _] H i f K. apply (S n f). exists i. rewrite (slot_of s n x i H). exact K. Qed.
(** Slots and rigs of a state in which one multi-frame is new or replaced. *)
Lemma nth_snoc {A} (l : list A) x n : nth_error (l ++ [x]) n = if n =? length l then Some x else nth_error l n.
Proof.
  destruct (Nat.eqb_spec n (length l)) as [->|N]; [apply nth_end|]. destruct (Nat.lt_ge_cases n (length l)) as [L|L]; [apply nth_error_app1, L|].
  rewrite nth_error_app2 by lia. destruct (n - length l) as [|k] eqn:E; [lia|]. cbn. destruct k; cbn; symmetry; apply nth_error_None; lia.
Qed.
Lemma sound_intro s : (forall n x, nth_error (nframes s) n = Some x -> (forall i f, nth_error (slots x) i = Some (Some f) -> f < length (frames s)) /\ (forall r, rig x = Some r -> r < length (rigs s))) -> sound s.
Proof.
  intros H. split.
  - intros n f [i K]. unfold slot in K. destruct (nth_error (nframes s) n) as [x|] eqn:E; [|discriminate]. apply (proj1 (H n x E) i f K).
  - intros n r K. unfold rig_of in K. destruct (nth_error (nframes s) n) as [x|] eqn:E; [|discriminate]. apply (proj2 (H n x E) r K).
Qed.
Lemma sound_elim s n x : sound s -> nth_error (nframes s) n = Some x -> (forall i f, nth_error (slots x) i = Some (Some f) -> f < length (frames s)) /\ (forall r, rig x = Some r -> r < length (rigs s)).
Proof. intros S H. split; [apply (bound s n x S H)|]. intros r K. apply (proj2 S n r). unfold rig_of. rewrite H. exact K. Qed.
Lemma assign_spec s x self s' y : assign s x self = (s', y) -> (forall i f, nth_error (slots x) i = Some (Some f) -> f < length (frames s)) ->
  rigs s' = rigs s /\ nframes s' = nframes s /\ rig y = rig x /\ copy_slots (frames s) (if self then [] else slots x) = (frames s', slots y) /\ length (frames s) <= length (frames s') /\
  (forall f, f < length (frames s) -> nth_error (frames s') f = nth_error (frames s) f) /\ (forall i g, nth_error (slots y) i = Some (Some g) -> length (frames s) <= g < length (frames s')).
Proof.
  unfold assign. intros E B. set (l := if self then [] else slots x) in *. destruct (copy_slots (frames s) l) as [fs l'] eqn:C. injection E as <- <-.
  assert (B' : forall i f, nth_error l i = Some (Some f) -> f < length (frames s)) by (unfold l; destruct self; [intros [|?] ?; discriminate|exact B]).
  destruct (copy_spec _ _ _ _ C B') as (A1 & A2 & _). cbn. repeat split; try exact A1; try exact A2; apply (copy_back _ _ _ _ C B' _ _ H).
Qed.
Lemma step_sound s o s' : sound s -> step s o = Some s' -> sound s'.
Proof.
  intros S E. destruct o; cbn [step] in E.
  - injection E as <-. apply sound_intro. cbn. intros n x H. destruct (sound_elim s n x S H) as [A B]. split; [exact A|]. intros r R. rewrite app_length. specialize (B r R). lia.
  - injection E as <-. apply sound_intro. cbn. intros n y H. destruct (sound_elim s n y S H) as [A B]. split; [|exact B]. intros i f K. rewrite app_length. specialize (A i f K). lia.
  - injection E as <-. apply sound_intro. cbn. intros n y H. rewrite nth_snoc in H. destruct (n =? _); [|apply (sound_elim s n y S H)]. injection H as <-. cbn. split; [|discriminate]. intros i f K. exfalso. apply (nth_repeat_none _ _ _ K).
  - destruct r as [r|]; [|discriminate]. destruct (nth_error (rigs s) r) as [cams|] eqn:R; [|discriminate]. injection E as <-. apply sound_intro. cbn. intros n y H. rewrite nth_snoc in H. destruct (n =? _); [|apply (sound_elim s n y S H)].
    injection H as <-. cbn. split; [intros i f K; exfalso; apply (nth_repeat_none _ _ _ K)|]. intros q [= <-]. apply (nth_lt _ _ _ R).
  - destruct (nth_error (nframes s) n) as [x|] eqn:N; [|discriminate]. destruct (assign s x false) as [t y] eqn:A. injection E as <-. destruct (assign_spec _ _ _ _ _ A (bound s n x S N)) as (R & F & RY & _ & L & _ & G).
    apply sound_intro. cbn. intros k z H. rewrite F, nth_snoc in H. rewrite R. destruct (k =? _).
    + injection H as <-. split; [intros i f K; apply (G i f K)|]. rewrite RY. apply (sound_elim s n x S N).
    + destruct (sound_elim s k z S H) as [B1 B2]. split; [intros i f K; specialize (B1 i f K); lia|exact B2].
  - destruct (nth_error (nframes s) n) as [x0|] eqn:N0; [|discriminate]. destruct (nth_error (nframes s) m) as [x|] eqn:N; [|discriminate]. destruct (assign s x (n =? m)) as [t y] eqn:A. injection E as <-.
    destruct (assign_spec _ _ _ _ _ A (bound s m x S N)) as (R & F & RY & _ & L & _ & G).
    apply sound_intro. cbn. intros k z H. rewrite F, nth_update in H. rewrite R. destruct (k =? n).
    + destruct (n <? _); [|discriminate]. injection H as <-. split; [intros i f K; apply (G i f K)|]. rewrite RY. apply (sound_elim s m x S N).
    + destruct (sound_elim s k z S H) as [B1 B2]. split; [intros i f K; specialize (B1 i f K); lia|exact B2].
  - destruct r as [r|]; [|discriminate]. destruct (nth_error (nframes s) n) as [x|] eqn:N; [|discriminate]. destruct (nth_error (rigs s) r) as [cams|] eqn:R; [|discriminate]. destruct (_ =? _); [|discriminate].
    destruct (set_cameras cams 0 (slots x) (frames s)) as [fs|] eqn:C; [|discriminate]. injection E as <-. destruct (set_cameras_spec _ _ _ _ _ C) as (L & _). apply sound_intro. cbn. rewrite L. intros k z H. rewrite nth_update in H. destruct (k =? n).
    + destruct (n <? _); [|discriminate]. injection H as <-. cbn. split; [apply (sound_elim s n x S N)|]. intros q [= <-]. apply (nth_lt _ _ _ R).
    + apply (sound_elim s k z S H).
  - destruct f as [f|]; [|discriminate]. destruct (nth_error (nframes s) n) as [x|] eqn:N; [|discriminate]. destruct (nth_error (frames s) f) as [y|] eqn:Y; [|discriminate]. destruct (_ && _); [|discriminate]. injection E as <-.
    apply sound_intro. cbn. intros k z H. rewrite nth_update in H. destruct (k =? n); [|apply (sound_elim s k z S H)]. destruct (n <? _); [|discriminate]. injection H as <-. cbn. split; [|apply (sound_elim s n x S N)].
    intros j g K. rewrite nth_update in K. destruct (j =? i); [|apply (proj1 (sound_elim s n x S N) j g K)]. destruct (i <? _); [|discriminate]. injection K as <-. apply (nth_lt _ _ _ Y).
  - destruct (nth_error (nframes s) n) as [x|] eqn:N; [|discriminate]. destruct (i <? _); [|discriminate]. injection E as <-. apply sound_intro. cbn. intros k z H. rewrite nth_update in H. destruct (k =? n); [|apply (sound_elim s k z S H)].
    destruct (n <? _); [|discriminate]. injection H as <-. cbn. split; [|apply (sound_elim s n x S N)]. intros j g K. rewrite nth_update in K. destruct (j =? i); [|apply (proj1 (sound_elim s n x S N) j g K)]. destruct (i <? _); discriminate.
  - destruct (nth_error (nframes s) n) as [x|] eqn:N; [|discriminate]. destruct (change_all _ _ _) as [fs|] eqn:C; [|discriminate]. injection E as <-. destruct (change_spec _ release_idem _ _ _ C) as (L & _). apply sound_intro. cbn. rewrite L. intros k z H. apply (sound_elim s k z S H).
  - destruct (nth_error (nframes s) n) as [x|] eqn:N; [|discriminate]. destruct (change_all _ _ _) as [fs|] eqn:C; [|discriminate]. injection E as <-. destruct (change_spec _ clear_idem _ _ _ C) as (L & _). apply sound_intro. cbn. rewrite L. intros k z H. apply (sound_elim s k z S H).
  - destruct (f <? _); [|discriminate]. injection E as <-. apply sound_intro. cbn. rewrite length_update. intros k z H. apply (sound_elim s k z S H).
  - destruct (r <? _); [|discriminate]. injection E as <-. apply sound_intro. cbn. rewrite length_update. intros k z H. apply (sound_elim s k z S H).
Qed.
Lemma start_sound : sound start.
Proof. apply sound_intro. intros [|n] x; discriminate. Qed.
Lemma run_sound l : forall s t, sound s -> run s l = Some t -> sound t.
Proof. induction l as [|o l IH]; intros s t S E; cbn in E; [injection E as <-; exact S|]. destruct (step s o) as [u|] eqn:U; [|discriminate]. apply (IH u t (step_sound s o u S U) E). Qed.
(** Multi-frames never hold pointers to objects that do not exist. *)
Theorem nfx_sound l s : run start l = Some s -> sound s.
Proof. apply run_sound, start_sound. Qed.
Print Assumptions nfx_sound.

(** ** Frames and cameras *)
Definition ok (s : state) (x : nframe) : Prop := forall r, rig x = Some r -> exists cams, nth_error (rigs s) r = Some cams /\ length (slots x) = length cams /\
  forall i f, nth_error (slots x) i = Some (Some f) -> exists y c, nth_error (frames s) f = Some y /\ geometry y = Some c /\ nth_error cams i = Some c.
Definition all_ok (s : state) : Prop := forall n x, nth_error (nframes s) n = Some x -> ok s x.
Lemma ok_consistent s n : all_ok s -> consistent s n.
Proof.
  intros A r R. unfold rig_of in R. destruct (nth_error (nframes s) n) as [x|] eqn:N; [|discriminate]. destruct (A n x N r R) as (cams & C & L & F). exists cams. split; [exact C|]. unfold size. rewrite N. cbn. split; [congruence|].
  intros i f K. rewrite (slot_of s n x i N) in K. apply (F i f K).
Qed.
(** [ok] only looks at the camera geometries, and at rigs that are in use. *)
Lemma ok_frames s t x : ok s x -> (forall r cams, nth_error (rigs s) r = Some cams -> nth_error (rigs t) r = Some cams) ->
  (forall i f y, nth_error (slots x) i = Some (Some f) -> nth_error (frames s) f = Some y -> exists z, nth_error (frames t) f = Some z /\ geometry z = geometry y) -> ok t x.
Proof.
  intros O R F r K. destruct (O r K) as (cams & C & L & G). exists cams. split; [apply (R r cams C)|]. split; [exact L|]. intros i f H. destruct (G i f H) as (y & c & Y & GY & CI).
  destruct (F i f y H Y) as (z & Z & GZ). exists z, c. rewrite GZ. auto.
Qed.
Lemma in_or_not (l : list (option nat)) g : (exists k, nth_error l k = Some (Some g)) \/ forall k, nth_error l k <> Some (Some g).
Proof.
  induction l as [|o l IH]; [right; intros [|?]; discriminate|]. destruct IH as [[k K]|N]; [left; exists (S k); exact K|]. destruct o as [h|].
  - destruct (Nat.eq_dec h g) as [->|M]; [left; exists 0; reflexivity|]. right. intros [|k]; cbn; [congruence|apply N].
  - right. intros [|k]; cbn; [discriminate|apply N].
Qed.
Lemma change_keeps change (idem : forall x, change (change x) = change x) (geo : forall x, geometry (change x) = geometry x) l fs fs' f y : change_all change l fs = Some fs' -> nth_error fs f = Some y ->
  exists z, nth_error fs' f = Some z /\ geometry z = geometry y.
Proof.
  intros C Y. destruct (change_spec change idem l fs fs' C) as (_ & A2 & A3 & _). destruct (in_or_not l f) as [[k K]|N].
  - rewrite (A3 k f K), Y. cbn. eauto.
  - rewrite (A2 f N), Y. eauto.
Qed.
Lemma step_ok s o s' : sound s -> all_ok s -> careful s o -> step s o = Some s' -> all_ok s'.
Proof.
  intros SO A CA E. destruct o; cbn [step careful] in *.
  - injection E as <-. intros n x H. apply (ok_frames s _ x (A n x H)); cbn; [|eauto]. intros r c R. rewrite nth_error_app1; [exact R|apply (nth_lt _ _ _ R)].
  - injection E as <-. intros n y H. apply (ok_frames s _ y (A n y H)); cbn; [auto|]. intros i f z _ Z. exists z. rewrite nth_error_app1; [auto|apply (nth_lt _ _ _ Z)].
  - injection E as <-. intros n y H. cbn in H. rewrite nth_snoc in H. destruct (n =? _); [|exact (A n y H)]. injection H as <-. intros r R. discriminate R.
  - destruct r as [r|]; [|discriminate]. destruct (nth_error (rigs s) r) as [cams|] eqn:R; [|discriminate]. injection E as <-. intros n y H. cbn in H. rewrite nth_snoc in H. destruct (n =? _); [|exact (A n y H)].
    injection H as <-. intros q [= <-]. exists cams. split; [exact R|]. cbn. split; [apply repeat_length|]. intros i f K. exfalso. apply (nth_repeat_none _ _ _ K).
  - destruct (nth_error (nframes s) n) as [x|] eqn:N; [|discriminate]. destruct (assign s x false) as [t y] eqn:AS. injection E as <-. pose proof (bound s n x SO N) as B.
    destruct (assign_spec _ _ _ _ _ AS B) as (R & F & RY & CS & L & OLD & _). destruct (copy_spec _ _ _ _ CS B) as (_ & _ & LS & _).
    intros k z H. cbn in H. rewrite F, nth_snoc in H. destruct (k =? _).
    + injection H as <-. intros r Q. cbn. rewrite R. rewrite RY in Q. destruct (A n x N r Q) as (cams & C & LC & G). exists cams. split; [exact C|]. split; [congruence|]. intros i g K.
      destruct (copy_back _ _ _ _ CS B i g K) as (_ & f & FI & FG). rewrite FG. apply (G i f FI).
    + apply (ok_frames s _ z (A k z H)); cbn; [rewrite R; auto|]. intros i f w _ W. exists w. rewrite OLD; [auto|apply (nth_lt _ _ _ W)].
  - destruct (nth_error (nframes s) n) as [x0|] eqn:N0; [|discriminate]. destruct (nth_error (nframes s) m) as [x|] eqn:N; [|discriminate]. destruct (Nat.eqb_spec n m) as [|_]; [contradiction|].
    destruct (assign s x false) as [t y] eqn:AS. injection E as <-. pose proof (bound s m x SO N) as B.
    destruct (assign_spec _ _ _ _ _ AS B) as (R & F & RY & CS & L & OLD & _). destruct (copy_spec _ _ _ _ CS B) as (_ & _ & LS & _).
    intros k z H. cbn in H. rewrite F, nth_update in H. destruct (k =? n).
    + destruct (n <? _); [|discriminate]. injection H as <-. intros r Q. cbn. rewrite R. rewrite RY in Q. destruct (A m x N r Q) as (cams & C & LC & G). exists cams. split; [exact C|]. split; [congruence|]. intros i g K.
      destruct (copy_back _ _ _ _ CS B i g K) as (_ & f & FI & FG). rewrite FG. apply (G i f FI).
    + apply (ok_frames s _ z (A k z H)); cbn; [rewrite R; auto|]. intros i f w _ W. exists w. rewrite OLD; [auto|apply (nth_lt _ _ _ W)].
  - destruct r as [r|]; [|discriminate]. destruct (nth_error (nframes s) n) as [x|] eqn:N; [|discriminate]. destruct (nth_error (rigs s) r) as [cams|] eqn:R; [|discriminate]. destruct (Nat.eqb_spec (length (slots x)) (length cams)) as [LE|]; [|discriminate].
    destruct (set_cameras cams 0 (slots x) (frames s)) as [fs|] eqn:C; [|discriminate]. injection E as <-. destruct (set_cameras_spec _ _ _ _ _ C) as (L & OUT & IN). intros k z H. cbn in H. rewrite nth_update in H. destruct (Nat.eqb_spec k n) as [->|NE].
    + destruct (n <? _); [|discriminate]. injection H as <-. intros q [= <-]. exists cams. split; [exact R|]. split; [exact LE|]. cbn. intros i f K. destruct (IN i f K) as (y & c & Y & CI & FI).
      { intros j J. assert (SI : slot s n i = Some (Some f)) by (rewrite (slot_of s n x i N); exact K). assert (SJ : slot s n j = Some (Some f)) by (rewrite (slot_of s n x j N); exact J). apply (CA i n j f SI SJ). }
      exists (Frame (Some c) (image y) (keypoints y) (rest y)), c. auto.
    + apply (ok_frames s _ z (A k z H)); cbn; [auto|]. intros i f w K W. exists w. rewrite OUT; [auto|]. intros j J. apply NE.
      assert (SI : slot s n j = Some (Some f)) by (rewrite (slot_of s n x j N); exact J). assert (SJ : slot s k i = Some (Some f)) by (rewrite (slot_of s k z i H); exact K). apply (CA j k i f SI SJ).
  - destruct f as [f|]; [|discriminate]. destruct (nth_error (nframes s) n) as [x|] eqn:N; [|discriminate]. destruct (nth_error (frames s) f) as [y|] eqn:Y; [|discriminate]. destruct (_ && _) eqn:G; [|discriminate]. injection E as <-.
    apply andb_true_iff in G. destruct G as [LI G]. intros k z H. cbn in H. rewrite nth_update in H. destruct (k =? n); [|exact (A k z H)]. destruct (n <? _); [|discriminate]. injection H as <-. intros r Q. cbn in Q. rewrite Q in G.
    destruct (A n x N r Q) as (cams & C & L & O). exists cams. split; [exact C|]. cbn. rewrite length_update. split; [exact L|]. intros j g K. rewrite nth_update in K. destruct (Nat.eqb_spec j i) as [->|]; [|apply (O j g K)].
    rewrite LI in K. injection K as <-. exists y. unfold camera in G. rewrite C in G. destruct (nth_error cams i) as [c|]; [|discriminate]. destruct (geometry y) as [d|] eqn:GE; [|discriminate]. apply Nat.eqb_eq in G. subst d. exists c. auto.
  - destruct (nth_error (nframes s) n) as [x|] eqn:N; [|discriminate]. destruct (i <? _); [|discriminate]. injection E as <-. intros k z H. cbn in H. rewrite nth_update in H. destruct (k =? n); [|exact (A k z H)].
    destruct (n <? _); [|discriminate]. injection H as <-. intros r Q. destruct (A n x N r Q) as (cams & C & L & O). exists cams. split; [exact C|]. cbn. rewrite length_update. split; [exact L|]. intros j g K. rewrite nth_update in K.
    destruct (j =? i); [destruct (i <? _); discriminate|apply (O j g K)].
  - destruct (nth_error (nframes s) n) as [x|] eqn:N; [|discriminate]. destruct (change_all _ _ _) as [fs|] eqn:C; [|discriminate]. injection E as <-. intros k z H. apply (ok_frames s _ z (A k z H)); cbn; [auto|].
    intros i f y _ Y. apply (change_keeps _ release_idem (fun _ => eq_refl) _ _ _ _ _ C Y).
  - destruct (nth_error (nframes s) n) as [x|] eqn:N; [|discriminate]. destruct (change_all _ _ _) as [fs|] eqn:C; [|discriminate]. injection E as <-. intros k z H. apply (ok_frames s _ z (A k z H)); cbn; [auto|].
    intros i f y _ Y. apply (change_keeps _ clear_idem (fun _ => eq_refl) _ _ _ _ _ C Y).
  - destruct (f <? _) eqn:LF; [|discriminate]. injection E as <-. intros k z H. apply (ok_frames s _ z (A k z H)); cbn; [auto|]. intros i g y K Y. rewrite nth_update. destruct (Nat.eqb_spec g f) as [->|]; [|eauto].
    rewrite LF. exists x. split; [reflexivity|]. assert (G : option_map geometry (nth_error (frames s) f) = Some (geometry x)) by (apply CA; exists k, i; rewrite (slot_of s k z i H); exact K). rewrite Y in G. cbn in G. congruence.
  - destruct (r <? _); [|discriminate]. injection E as <-. intros k z H q Q. destruct (A k z H q Q) as (c & C & O). exists c. split; [|exact O]. cbn. rewrite nth_update. destruct (Nat.eqb_spec q r) as [->|]; [|exact C].
    exfalso. apply (CA k). unfold rig_of. cbn in H. rewrite H. exact Q.
Qed.
Lemma run_ok l : forall s t, sound s -> all_ok s -> careful_run s l -> run s l = Some t -> all_ok t.
Proof.
  induction l as [|o l IH]; intros s t S A C E; cbn in E; [injection E as <-; exact A|]. destruct (step s o) as [u|] eqn:U; [|discriminate]. destruct C as [C CR].
  apply (IH u t (step_sound s o u S U) (step_ok s o u S A C U) (CR u U) E).
Qed.
(** In a multi-frame with a rig every frame has the camera that the rig has for its slot, after every sequence of calls of users that are careful. *)
Theorem nfx_consistent l s n : careful_run start l -> run start l = Some s -> consistent s n.
Proof. intros C R. apply ok_consistent. apply (run_ok l start s start_sound); [intros [|?] ?; discriminate|exact C|exact R]. Qed.
Print Assumptions nfx_consistent.

(** ** Copies are independent *)
Lemma view_keep s n t m x y : nth_error (nframes s) n = Some x -> nth_error (nframes t) m = Some y -> rig y = rig x -> length (slots y) = length (slots x) ->
  (forall i, match nth_error (slots x) i with
             | Some (Some f) => exists g, nth_error (slots y) i = Some (Some g) /\ nth_error (frames t) g = nth_error (frames s) f
             | Some None => nth_error (slots y) i = Some None
             | None => True end) -> same_view s n t m.
Proof.
  intros X Y R L F. unfold same_view, size, rig_of, seen, slot. rewrite X, Y. cbn. split; [congruence|]. split; [congruence|]. intros i. specialize (F i). destruct (nth_error (slots x) i) as [[f|]|] eqn:K.
  - destruct F as (g & -> & ->). reflexivity.
  - rewrite F. reflexivity.
  - apply nth_error_None in K. destruct (nth_error (slots y) i) eqn:Z; [apply nth_lt in Z; lia|reflexivity].
Qed.
Lemma view_old s n t x : nth_error (nframes s) n = Some x -> nth_error (nframes t) n = Some x -> (forall f, has_frame s n f -> nth_error (frames t) f = nth_error (frames s) f) -> same_view s n t n.
Proof.
  intros X Y F. apply (view_keep s n t n x x X Y eq_refl eq_refl). intros i. destruct (nth_error (slots x) i) as [[f|]|] eqn:K; auto. exists f. split; [reflexivity|]. apply F. exists i. rewrite (slot_of s n x i X). exact K.
Qed.
Lemma copy_view s m n x t y : sound s -> nth_error (nframes s) m = Some x -> assign s x false = (t, y) -> forall u, frames u = frames t -> nth_error (nframes u) n = Some y ->
  (forall k z, k <> n -> nth_error (nframes u) k = Some z -> nth_error (nframes s) k = Some z) -> same_view s m u n /\ exclusive u n.
Proof.
  intros S N A u FU NU OU. pose proof (bound s m x S N) as B. destruct (assign_spec _ _ _ _ _ A B) as (R & F & RY & CS & L & OLD & NEW). destruct (copy_spec _ _ _ _ CS B) as (_ & _ & LS & A4 & A5 & A6). split.
  - apply (view_keep s m u n x y N NU RY LS). rewrite FU. intros i. destruct (nth_error (slots x) i) as [[f|]|] eqn:K; [|apply (A4 i K)|exact I]. destruct (A5 i f K) as (g & G & _ & Q). eauto.
  - intros i k j f SI SJ. rewrite (slot_of u n y i NU) in SI. destruct (Nat.eq_dec k n) as [->|NE].
    + rewrite (slot_of u n y j NU) in SJ. split; [reflexivity|apply (A6 j i f SJ SI)].
    + exfalso. unfold slot in SJ. destruct (nth_error (nframes u) k) as [z|] eqn:Z; [|discriminate]. apply (OU k z NE) in Z. pose proof (bound s k z S Z j f SJ) as LT. specialize (NEW i f SI). lia.
Qed.
(** A copy looks the same, has frames of its own, and leaves all other multi-frames alone. *)
Theorem nfx_copy l s n : run start l = Some s -> n < length (nframes s) -> exists s', step s (CopyOf n) = Some s' /\
  let m := length (nframes s) in length (nframes s') = S m /\ same_view s n s' m /\ exclusive s' m /\ forall k, k < m -> same_view s k s' k.
Proof.
  intros R LN. pose proof (nfx_sound l s R) as S. cbn [step]. destruct (nth_error (nframes s) n) as [x|] eqn:N; [|apply nth_error_None in N; lia]. destruct (assign s x false) as [t y] eqn:A. pose proof (bound s n x S N) as B.
  destruct (assign_spec _ _ _ _ _ A B) as (RI & F & RY & CS & L & OLD & _). eexists. split; [reflexivity|]. cbv zeta. cbn [nframes]. rewrite F. split; [rewrite app_length; cbn; lia|]. rewrite <- and_assoc. split.
  - apply (copy_view s n (length (nframes s)) x t y S N A); cbn [frames nframes]; [reflexivity|rewrite ?F; apply nth_end|]. intros k z NE K. rewrite ?F, nth_snoc in K. destruct (Nat.eqb_spec k (length (nframes s))); [contradiction|exact K].
  - intros k LK. destruct (nth_error (nframes s) k) as [z|] eqn:K; [|apply nth_error_None in K; lia]. apply (view_old s k _ z K); cbn [frames nframes]; [rewrite ?F, nth_error_app1 by lia; exact K|].
    intros f H. apply OLD. apply (proj1 S k f H).
Qed.
Print Assumptions nfx_copy.
Theorem nfx_assign l s n m : run start l = Some s -> n < length (nframes s) -> m < length (nframes s) -> n <> m -> exists s', step s (Assign n m) = Some s' /\
  same_view s m s' n /\ exclusive s' n /\ forall k, k < length (nframes s) -> k <> n -> same_view s k s' k.
Proof.
  intros R LN LM NE. pose proof (nfx_sound l s R) as S. cbn [step]. destruct (nth_error (nframes s) n) as [x0|] eqn:N0; [|apply nth_error_None in N0; lia].
  destruct (nth_error (nframes s) m) as [x|] eqn:N; [|apply nth_error_None in N; lia]. destruct (Nat.eqb_spec n m); [contradiction|]. destruct (assign s x false) as [t y] eqn:A. pose proof (bound s m x S N) as B.
  destruct (assign_spec _ _ _ _ _ A B) as (RI & F & RY & CS & L & OLD & _). eexists. split; [reflexivity|]. rewrite <- and_assoc. split.
  - apply (copy_view s m n x t y S N A); cbn [frames nframes set_nframe]; [reflexivity|rewrite F, nth_update, Nat.eqb_refl; apply Nat.ltb_lt in LN; rewrite LN; reflexivity|].
    intros k z K Z. rewrite F, nth_update in Z. destruct (Nat.eqb_spec k n); [contradiction|exact Z].
  - intros k LK K. destruct (nth_error (nframes s) k) as [z|] eqn:Z; [|apply nth_error_None in Z; lia]. apply (view_old s k _ z Z); cbn [frames nframes set_nframe].
    + rewrite F, nth_update. destruct (Nat.eqb_spec k n); [contradiction|exact Z].
    + intros f H. apply OLD. apply (proj1 S k f H).
Qed.
Print Assumptions nfx_assign.

Definition disjoint (s : state) (n m : nat) : Prop := n <> m /\ forall f, has_frame s n f -> ~ has_frame s m f.
(** What one call through [m] leaves to [n], and what it can add to [m]. *)
Lemma step_apart s n m x o s' : sound s -> nth_error (nframes s) n = Some x -> disjoint s n m -> through s m o -> apart s n o -> step s o = Some s' ->
  nth_error (nframes s') n = Some x /\ (forall f, has_frame s n f -> nth_error (frames s') f = nth_error (frames s) f) /\ disjoint s' n m.
Proof.
  intros S N [NE D] T AP E. assert (B : forall f, has_frame s n f -> f < length (frames s)) by (intros f H; apply (proj1 S n f H)).
  assert (KEEP : nth_error (nframes s') n = Some x -> (forall f, has_frame s' m f -> has_frame s m f \/ length (frames s) <= f \/ ~ has_frame s n f) -> disjoint s' n m).
  { intros N' M. split; [exact NE|]. intros f H K. assert (H0 : has_frame s n f) by (destruct H as [i H]; exists i; rewrite (slot_of s n x i N); rewrite (slot_of s' n x i N') in H; exact H).
    destruct (M f K) as [M'|[M'|M']]; [apply (D f H0 M')|specialize (B f H0); lia|apply (M' H0)]. }
  assert (OTHER : forall k y t, k <> n -> nframes t = update k y (nframes s) -> nth_error (nframes t) n = Some x).
  { intros k y t K Q. rewrite Q, nth_update. destruct (Nat.eqb_spec n k); [congruence|exact N]. }
  assert (SNOC : forall y, nth_error (nframes s ++ [y]) n = Some x) by (intros y; rewrite nth_error_app1; [exact N|apply (nth_lt _ _ _ N)]).
  assert (NEWM : forall y t f, has_frame t m f -> nframes t = nframes s ++ [y] -> has_frame s m f \/ exists i, nth_error (slots y) i = Some (Some f)).
  { intros y t f [i H] Q. unfold slot in H. rewrite Q, nth_snoc in H. destruct (m =? _); [eauto|]. left. exists i. exact H. }
  assert (UPD : forall k y t f, has_frame t m f -> nframes t = update k y (nframes s) -> has_frame s m f \/ exists i, nth_error (slots y) i = Some (Some f)).
  { intros k y t f [i H] Q. unfold slot in H. rewrite Q, nth_update in H. destruct (m =? k); [destruct (k <? _); [eauto|discriminate]|]. left. exists i. exact H. }
  destruct o; cbn [step through apart] in *.
  - injection E as <-. split; [exact N|]. split; [reflexivity|]. apply KEEP; [exact N|]. intros f H. left. exact H.
  - injection E as <-. split; [exact N|]. split; [intros f H; cbn; apply nth_error_app1, B, H|]. apply KEEP; [exact N|]. intros f H. left. exact H.
  - injection E as <-. split; [apply SNOC|]. split; [reflexivity|]. apply KEEP; [apply SNOC|]. intros f H. destruct (NEWM _ _ f H eq_refl) as [|[i K]]; [auto|]. exfalso. apply (nth_repeat_none _ _ _ K).
  - destruct r as [r|]; [|discriminate]. destruct (nth_error (rigs s) r) as [cams|]; [|discriminate]. injection E as <-. split; [apply SNOC|]. split; [reflexivity|]. apply KEEP; [apply SNOC|]. intros f H. destruct (NEWM _ _ f H eq_refl) as [|[i K]]; [auto|]. exfalso. apply (nth_repeat_none _ _ _ K).
  - destruct (nth_error (nframes s) n0) as [z|] eqn:Z; [|discriminate]. destruct (assign s z false) as [t y] eqn:A. injection E as <-. destruct (assign_spec _ _ _ _ _ A (bound s n0 z S Z)) as (_ & F & _ & _ & _ & OLD & NEW).
    assert (N' : nth_error (nframes t ++ [y]) n = Some x) by (rewrite F; apply SNOC). split; [exact N'|]. split; [intros f H; apply OLD, B, H|]. apply KEEP; [exact N'|]. intros f H. destruct (NEWM y _ f H (f_equal (fun l => l ++ [y]) F)) as [|[i K]]; [auto|]. right. left. apply (NEW i f K).
  - destruct (nth_error (nframes s) n0) as [z0|]; [|discriminate]. destruct (nth_error (nframes s) m0) as [z|] eqn:Z; [|discriminate]. destruct (assign s z (n0 =? m0)) as [t y] eqn:A. injection E as <-. destruct (assign_spec _ _ _ _ _ A (bound s m0 z S Z)) as (_ & F & _ & _ & _ & OLD & NEW).
    subst n0. assert (N' : nth_error (nframes (set_nframe t m y)) n = Some x) by (apply (OTHER m y); [congruence|cbn; rewrite F; reflexivity]). split; [exact N'|]. split; [intros f H; apply OLD, B, H|]. apply KEEP; [exact N'|].
    intros f H. destruct (UPD m y _ f H (f_equal (update m y) F)) as [|[i K]]; [auto|]. right. left. apply (NEW i f K).
  - subst n0. destruct r as [r|]; [|discriminate]. destruct (nth_error (nframes s) m) as [z|] eqn:Z; [|discriminate]. destruct (nth_error (rigs s) r) as [cams|]; [|discriminate]. destruct (_ =? _); [|discriminate].
    destruct (set_cameras cams 0 (slots z) (frames s)) as [fs|] eqn:C; [|discriminate]. injection E as <-. destruct (set_cameras_spec _ _ _ _ _ C) as (_ & OUT & _).
    assert (N' : nth_error (nframes (set_nframe (set_frames s fs) m (NFrame (Some r) (slots z)))) n = Some x) by (apply (OTHER m (NFrame (Some r) (slots z))); [congruence|reflexivity]). split; [exact N'|]. split.
    + intros f H. apply OUT. intros j J. apply (D f H). exists j. rewrite (slot_of s m z j Z). exact J.
    + apply KEEP; [exact N'|]. intros f H. destruct (UPD m _ _ f H eq_refl) as [|[i K]]; [auto|]. left. exists i. rewrite (slot_of s m z i Z). exact K.
  - subst n0. destruct f as [f|]; [|discriminate]. destruct (nth_error (nframes s) m) as [z|] eqn:Z; [|discriminate]. destruct (nth_error (frames s) f) as [y|]; [|discriminate]. destruct (_ && _); [|discriminate]. injection E as <-.
    assert (N' : nth_error (nframes (set_nframe s m (NFrame (rig z) (update i (Some f) (slots z))))) n = Some x) by (eapply OTHER; [|reflexivity]; congruence). split; [exact N'|]. split; [reflexivity|]. apply KEEP; [exact N'|].
    intros g H. destruct (UPD m _ _ g H eq_refl) as [|[j K]]; [auto|]. cbn in K. rewrite nth_update in K. destruct (j =? i); [|left; exists j; rewrite (slot_of s m z j Z); exact K]. destruct (i <? _); [|discriminate]. injection K as <-. auto.
  - subst n0. destruct (nth_error (nframes s) m) as [z|] eqn:Z; [|discriminate]. destruct (i <? _); [|discriminate]. injection E as <-.
    assert (N' : nth_error (nframes (set_nframe s m (NFrame (rig z) (update i None (slots z))))) n = Some x) by (eapply OTHER; [|reflexivity]; congruence). split; [exact N'|]. split; [reflexivity|]. apply KEEP; [exact N'|].
    intros g H. destruct (UPD m _ _ g H eq_refl) as [|[j K]]; [auto|]. cbn in K. rewrite nth_update in K. destruct (j =? i); [destruct (i <? _); discriminate|left; exists j; rewrite (slot_of s m z j Z); exact K].
  - subst n0. destruct (nth_error (nframes s) m) as [z|] eqn:Z; [|discriminate]. destruct (change_all _ _ _) as [fs|] eqn:C; [|discriminate]. injection E as <-. destruct (change_spec _ release_idem _ _ _ C) as (_ & OUT & _).
    split; [exact N|]. split; [intros f H; apply OUT; intros j J; apply (D f H); exists j; rewrite (slot_of s m z j Z); exact J|]. apply KEEP; [exact N|]. intros f H. left. exact H.
  - subst n0. destruct (nth_error (nframes s) m) as [z|] eqn:Z; [|discriminate]. destruct (change_all _ _ _) as [fs|] eqn:C; [|discriminate]. injection E as <-. destruct (change_spec _ clear_idem _ _ _ C) as (_ & OUT & _).
    split; [exact N|]. split; [intros f H; apply OUT; intros j J; apply (D f H); exists j; rewrite (slot_of s m z j Z); exact J|]. apply KEEP; [exact N|]. intros f H. left. exact H.
  - destruct (f <? _); [|discriminate]. injection E as <-. split; [exact N|]. split; [|apply KEEP; [exact N|intros g H; left; exact H]]. intros g H. cbn. rewrite nth_update. destruct (Nat.eqb_spec g f) as [->|]; [|reflexivity]. exfalso. apply (D f H T).
  - contradiction.
Qed.
Lemma run_apart l : forall s n m x t, sound s -> nth_error (nframes s) n = Some x -> disjoint s n m -> through_run s n m l -> run s l = Some t ->
  nth_error (nframes t) n = Some x /\ forall f, has_frame s n f -> nth_error (frames t) f = nth_error (frames s) f.
Proof.
  induction l as [|o l IH]; intros s n m x t S N D T E; cbn in E; [injection E as <-; auto|]. destruct (step s o) as [u|] eqn:U; [|discriminate]. destruct T as (T1 & T2 & T3).
  destruct (step_apart s n m x o u S N D T1 T2 U) as (N' & F & D'). destruct (IH u n m x t (step_sound s o u S U) N' D' (T3 u U) E) as (N'' & F'). split; [exact N''|]. intros f H. rewrite F'; [apply F, H|].
  destruct H as [i H]. exists i. rewrite (slot_of u n x i N'). rewrite (slot_of s n x i N) in H. exact H.
Qed.
(** Whatever is done through one multi-frame, another one that shares no frame with it stays as it was; a copy shares none. *)
Theorem nfx_independent l0 s n m l t : run start l0 = Some s -> n < length (nframes s) -> n <> m -> (forall f, has_frame s n f -> ~ has_frame s m f) ->
  through_run s n m l -> run s l = Some t -> same_view s n t n.
Proof.
  intros R LN NE D T E. destruct (nth_error (nframes s) n) as [x|] eqn:N; [|apply nth_error_None in N; lia].
  destruct (run_apart l s n m x t (nfx_sound l0 s R) N (conj NE D) T E) as [N' F]. apply (view_old s n t x N N' F).
Qed.
Print Assumptions nfx_independent.

(** ** Slots *)
(** setFrame accepts exactly the frames that have the camera of the slot, and changes this slot only. *)
Theorem nfx_set_frame l s n i f x : run start l = Some s -> nth_error (nframes s) n = Some x -> f < length (frames s) ->
  ((exists s', step s (SetFrame n i (Some f)) = Some s') <->
     i < length (slots x) /\ (rig x = None \/ exists c y, get_camera s n i = Some c /\ nth_error (frames s) f = Some y /\ geometry y = Some c)) /\
  forall s', step s (SetFrame n i (Some f)) = Some s' ->
    slot s' n i = Some (Some f) /\ is_frame_set s' n i = Some true /\ get_frame s' n i = nth_error (frames s) f /\ rig_of s' n = rig_of s n /\
    (forall k j, k <> n \/ j <> i -> slot s' k j = slot s k j) /\ frames s' = frames s /\ rigs s' = rigs s.
Proof.
  intros R N LF. cbn [step]. unfold get_camera. rewrite N. destruct (nth_error (frames s) f) as [y|] eqn:Y; [|apply nth_error_None in Y; lia]. pose proof (nth_lt _ _ _ N) as LN. apply Nat.ltb_lt in LN. split.
  - split.
    + intros [s' E]. destruct (_ && _) eqn:G; [|discriminate]. apply andb_true_iff in G. destruct G as [LI G]. apply Nat.ltb_lt in LI. split; [exact LI|]. destruct (rig x) as [r|]; [|auto]. right.
      destruct (camera s r i) as [c|]; [|discriminate]. destruct (geometry y) as [d|] eqn:GY; [|discriminate]. apply Nat.eqb_eq in G. subst d. exists c, y. auto.
    + intros [LI G]. apply Nat.ltb_lt in LI. rewrite LI. cbn [andb]. destruct (rig x) as [r|]; [|eauto]. destruct G as [|(c & z & G1 & G2 & G3)]; [discriminate|]. injection G2 as <-. rewrite G1, G3, Nat.eqb_refl. eauto.
  - intros s' E. destruct (_ && _) eqn:G; [|discriminate]. injection E as <-. apply andb_true_iff in G. destruct G as [LI _].
    assert (NN : nth_error (nframes (set_nframe s n (NFrame (rig x) (update i (Some f) (slots x))))) n = Some (NFrame (rig x) (update i (Some f) (slots x)))) by (cbn; rewrite nth_update, Nat.eqb_refl, LN; reflexivity).
    assert (SL : nth_error (update i (Some f) (slots x)) i = Some (Some f)) by (rewrite nth_update, Nat.eqb_refl, LI; reflexivity).
    split; [rewrite (slot_of _ _ _ _ NN); exact SL|]. unfold is_frame_set, get_frame, rig_of. rewrite NN. cbn [slots rig]. rewrite SL, N. split; [reflexivity|]. split; [exact Y|]. split; [reflexivity|]. split; [|split; reflexivity].
    intros k j D. unfold slot. cbn. rewrite nth_update. destruct (Nat.eqb_spec k n) as [->|]; [|reflexivity]. rewrite LN, N. cbn. rewrite nth_update. destruct (Nat.eqb_spec j i) as [->|]; [|reflexivity]. destruct D; contradiction.
Qed.
Print Assumptions nfx_set_frame.
Theorem nfx_unset_frame s n i x : nth_error (nframes s) n = Some x ->
  ((exists s', step s (UnSetFrame n i) = Some s') <-> i < length (slots x)) /\
  forall s', step s (UnSetFrame n i) = Some s' -> slot s' n i = Some None /\ is_frame_set s' n i = Some false /\ get_frame s' n i = None /\ rig_of s' n = rig_of s n /\
    (forall k j, k <> n \/ j <> i -> slot s' k j = slot s k j) /\ frames s' = frames s /\ rigs s' = rigs s.
Proof.
  intros N. cbn [step]. rewrite N. pose proof (nth_lt _ _ _ N) as LN. apply Nat.ltb_lt in LN. split.
  - rewrite <- Nat.ltb_lt. destruct (i <? length (slots x)); split; try discriminate; eauto. intros [s' E]. discriminate.
  - intros s' E. destruct (i <? _) eqn:LI; [|discriminate]. injection E as <-.
    assert (NN : nth_error (nframes (set_nframe s n (NFrame (rig x) (update i None (slots x))))) n = Some (NFrame (rig x) (update i None (slots x)))) by (cbn; rewrite nth_update, Nat.eqb_refl, LN; reflexivity).
    assert (SL : nth_error (update i None (slots x)) i = Some None) by (rewrite nth_update, Nat.eqb_refl, LI; reflexivity).
    split; [rewrite (slot_of _ _ _ _ NN); exact SL|]. unfold is_frame_set, get_frame, rig_of. rewrite NN. cbn [slots rig]. rewrite SL, N. split; [reflexivity|]. split; [reflexivity|]. split; [reflexivity|]. split; [|split; reflexivity].
    intros k j D. unfold slot. cbn. rewrite nth_update. destruct (Nat.eqb_spec k n) as [->|]; [|reflexivity]. rewrite LN, N. cbn. rewrite nth_update. destruct (Nat.eqb_spec j i) as [->|]; [|reflexivity]. destruct D; contradiction.
Qed.
Print Assumptions nfx_unset_frame.
(** areAllFramesSet. *)
Theorem nfx_all_set s n x : nth_error (nframes s) n = Some x -> exists b, are_all_frames_set s n = Some b /\ (b = true <-> forall i, i < length (slots x) -> is_frame_set s n i = Some true).
Proof.
  intros N. unfold are_all_frames_set, is_frame_set. rewrite N. eexists. split; [reflexivity|]. rewrite forallb_forall. split.
  - intros A i LI. destruct (nth_error (slots x) i) as [[f|]|] eqn:E; [reflexivity| |apply nth_error_None in E; lia]. apply nth_error_In in E. specialize (A _ E). discriminate.
  - intros A [f|] I; [reflexivity|]. apply In_nth_error in I. destruct I as [i I]. specialize (A i (nth_lt _ _ _ I)). rewrite I in A. discriminate.
Qed.
Print Assumptions nfx_all_set.
(** Only the indices of slots are answered. *)
Theorem nfx_index s n x i : nth_error (nframes s) n = Some x -> (is_frame_set s n i = None <-> length (slots x) <= i) /\ (get_frame s n i <> None -> is_frame_set s n i = Some true).
Proof.
  intros N. unfold is_frame_set, get_frame. rewrite N. destruct (nth_error (slots x) i) as [[f|]|] eqn:E.
  - apply nth_lt in E. split; [split; [discriminate|lia]|reflexivity].
  - apply nth_lt in E. split; [split; [discriminate|lia]|intros H; contradiction].
  - apply nth_error_None in E. split; [split; [intros _; exact E|reflexivity]|intros H; contradiction].
Qed.
Print Assumptions nfx_index.
(** A new multi-frame has an empty slot for every camera. *)
Theorem nfx_new s r cams : nth_error (rigs s) r = Some cams -> exists s', step s (NewOfRig (Some r)) = Some s' /\ let n := length (nframes s) in
  rig_of s' n = Some r /\ size s' n = Some (length cams) /\ (forall i, i < length cams -> is_frame_set s' n i = Some false /\ get_camera s' n i = nth_error cams i) /\
  forall k, k < n -> nth_error (nframes s') k = nth_error (nframes s) k.
Proof.
  intros R. cbn [step]. rewrite R. eexists. split; [reflexivity|]. cbv zeta. unfold rig_of, size, is_frame_set, get_camera, camera. cbn [nframes rigs]. rewrite nth_end. cbn [rig slots option_map]. rewrite repeat_length, R. split; [reflexivity|]. split; [reflexivity|]. split.
  - intros i LI. split; [|reflexivity]. assert (E : nth_error (repeat (@None nat) (length cams)) i = Some None) by (rewrite (nth_error_nth' _ None), nth_repeat by (rewrite repeat_length; exact LI); reflexivity). rewrite E. reflexivity.
  - intros k LK. apply nth_error_app1, LK.
Qed.
Print Assumptions nfx_new.

(** ** Another rig *)
Lemma set_cameras_total cams l : forall i fs, i + length l <= length cams -> (forall j f, nth_error l j = Some (Some f) -> f < length fs) -> exists fs', set_cameras cams i l fs = Some fs'.
Proof.
  induction l as [|[f|] l IH]; intros i fs L B; cbn in *; [eauto| |apply IH; [lia|intros j g H; apply (B (S j) g H)]].
  destruct (nth_error cams i) as [c|] eqn:C; [|apply nth_error_None in C; lia]. destruct (nth_error fs f) as [x|] eqn:X; [|apply nth_error_None in X; specialize (B 0 f eq_refl); lia].
  apply IH; [lia|]. intros j g H. rewrite length_update. apply (B (S j) g H).
Qed.
(** setNCameras accepts exactly the rigs of the right size, and gives every frame the new camera and nothing else. *)
Theorem nfx_set_ncameras l s n r x cams : run start l = Some s -> nth_error (nframes s) n = Some x -> nth_error (rigs s) r = Some cams -> exclusive s n ->
  ((exists s', step s (SetNCameras n (Some r)) = Some s') <-> length (slots x) = length cams) /\
  forall s', step s (SetNCameras n (Some r)) = Some s' -> rig_of s' n = Some r /\ (forall k i, slot s' k i = slot s k i) /\ (forall k, k <> n -> rig_of s' k = rig_of s k) /\
    (forall i f y, slot s n i = Some (Some f) -> nth_error (frames s) f = Some y -> exists c, nth_error cams i = Some c /\ nth_error (frames s') f = Some (Frame (Some c) (image y) (keypoints y) (rest y))) /\
    forall f, ~ has_frame s n f -> nth_error (frames s') f = nth_error (frames s) f.
Proof.
  intros R N RC EX. pose proof (nfx_sound l s R) as S. pose proof (bound s n x S N) as B. pose proof (nth_lt _ _ _ N) as LN. apply Nat.ltb_lt in LN. cbn [step]. rewrite N, RC. split.
  - rewrite <- Nat.eqb_eq. destruct (Nat.eqb_spec (length (slots x)) (length cams)) as [L|L]; split; try discriminate; [auto| |intros [s' E]; discriminate].
    intros _. destruct (set_cameras_total cams (slots x) 0 (frames s)) as [fs ->]; [lia|exact B|eauto].
  - intros s' E. destruct (_ =? _); [|discriminate]. destruct (set_cameras cams 0 (slots x) (frames s)) as [fs|] eqn:C; [|discriminate]. injection E as <-. destruct (set_cameras_spec _ _ _ _ _ C) as (_ & OUT & IN).
    unfold rig_of, slot. cbn. split; [rewrite nth_update, Nat.eqb_refl, LN; reflexivity|]. split; [|split; [|split]].
    + intros k i. rewrite nth_update. destruct (Nat.eqb_spec k n) as [->|]; [|reflexivity]. rewrite LN, N. reflexivity.
    + intros k K. rewrite nth_update. destruct (Nat.eqb_spec k n); [contradiction|reflexivity].
    + rewrite N. intros i f y K Y. destruct (IN i f K) as (z & c & Z & CI & F).
      * intros j J. assert (SI : slot s n i = Some (Some f)) by (rewrite (slot_of s n x i N); exact K). assert (SJ : slot s n j = Some (Some f)) by (rewrite (slot_of s n x j N); exact J). apply (EX i n j f SI SJ).
      * rewrite Y in Z. injection Z as <-. exists c. auto.
    + intros f NF. apply OUT. intros j J. apply NF. exists j. rewrite (slot_of s n x j N). exact J.
Qed.
Print Assumptions nfx_set_ncameras.

(** ** Images and keypoints of all frames *)
Lemma images_true fs l : images_loop fs l = Some true <-> forall i, i < length l -> exists f x, nth_error l i = Some (Some f) /\ nth_error fs f = Some x /\ image x = true.
Proof.
  induction l as [|[f|] l IH]; cbn.
  - split; [intros _ i L; lia|reflexivity].
  - destruct (nth_error fs f) as [x|] eqn:X; [destruct (image x) eqn:I|].
    + rewrite IH. split; intros A.
      * intros [|i] L; [exists f, x; auto|]. apply (A i). lia.
      * intros i L. apply (A (S i)). lia.
    + split; [discriminate|]. intros A. destruct (A 0) as (g & y & [= <-] & Y & J); [lia|]. congruence.
    + split; [discriminate|]. intros A. destruct (A 0) as (g & y & [= <-] & Y & J); [lia|]. congruence.
  - split; [discriminate|]. intros A. destruct (A 0) as (g & y & H & _); [lia|]. discriminate.
Qed.
(** hasRawImagesInAllFrames says yes exactly if every slot has a frame with an image. *)
Theorem nfx_images s n x : nth_error (nframes s) n = Some x -> has_raw_images s n = Some true <-> forall i, i < length (slots x) -> exists y, get_frame s n i = Some y /\ image y = true.
Proof.
  intros N. unfold has_raw_images, get_frame. rewrite N, images_true. split; intros A i L; destruct (A i L) as (f & H); [destruct H as (y & -> & Y & I); rewrite Y; eauto|].
  destruct H as [H I]. destruct (nth_error (slots x) i) as [[g|]|]; try discriminate. eauto.
Qed.
Print Assumptions nfx_images.
(** If all frames are set, the images or keypoints of exactly these frames are removed and nothing else. *)
Theorem nfx_release l s n x : run start l = Some s -> nth_error (nframes s) n = Some x -> (forall i, i < length (slots x) -> is_frame_set s n i = Some true) ->
  exists s' s'', step s (ReleaseImages n) = Some s' /\ step s (ClearKeypoints n) = Some s'' /\ nframes s' = nframes s /\ nframes s'' = nframes s /\ rigs s' = rigs s /\ rigs s'' = rigs s /\
    (forall f y, has_frame s n f -> nth_error (frames s) f = Some y ->
       nth_error (frames s') f = Some (Frame (geometry y) false (keypoints y) (rest y)) /\ nth_error (frames s'') f = Some (Frame (geometry y) (image y) [] (rest y))) /\
    (forall f, ~ has_frame s n f -> nth_error (frames s') f = nth_error (frames s) f /\ nth_error (frames s'') f = nth_error (frames s) f) /\
    (slots x <> [] -> has_raw_images s' n = Some false).
Proof.
  intros R N A. pose proof (bound s n x (nfx_sound l s R) N) as B. assert (NS : forall j, nth_error (slots x) j <> Some None).
  { intros j J. specialize (A j (nth_lt _ _ _ J)). unfold is_frame_set in A. rewrite N, J in A. discriminate. }
  cbn [step]. rewrite N. destruct (change_total release_image (slots x) (frames s) NS B) as [fs C]. destruct (change_total clear_keypoints (slots x) (frames s) NS B) as [fs2 C2]. rewrite C, C2.
  destruct (change_spec _ release_idem _ _ _ C) as (_ & OUT & IN & _). destruct (change_spec _ clear_idem _ _ _ C2) as (_ & OUT2 & IN2 & _).
  assert (FR : forall f, ~ has_frame s n f -> forall j, nth_error (slots x) j <> Some (Some f)) by (intros f F j J; apply F; exists j; rewrite (slot_of s n x j N); exact J).
  do 2 eexists. do 2 (split; [reflexivity|]). do 4 (split; [reflexivity|]). split; [|split].
  - intros f y [j H] Y. rewrite (slot_of s n x j N) in H. cbn. rewrite (IN j f H), (IN2 j f H), Y. auto.
  - intros f F. cbn. rewrite (OUT f (FR f F)), (OUT2 f (FR f F)). auto.
  - intros NE. unfold has_raw_images. cbn. rewrite N. destruct (slots x) as [|[f|] q]; [contradiction| |exfalso; apply (NS 0 eq_refl)]. cbn. rewrite (IN 0 f eq_refl).
    destruct (nth_error (frames s) f) as [y|] eqn:Y; [reflexivity|]. apply nth_error_None in Y. specialize (B 0 f eq_refl). lia.
Qed.
Print Assumptions nfx_release.

(** ** Examples *)
Definition demo : list op :=
  [NewRig [10; 11]; NewRig [12; 13]; NewFrame (Frame (Some 10) true [1; 2]%Z 5); NewFrame (Frame (Some 11) true [] 6); NewOfRig (Some 0);
   SetFrame 0 0 (Some 0); SetFrame 0 1 (Some 1); CopyOf 0; SetNCameras 1 (Some 1); ReleaseImages 1; UnSetFrame 1 0; Assign 1 0; EditFrame 5 (Frame (Some 11) false [7]%Z 6)].
Ltac excl := let i := fresh in let m := fresh in let j := fresh in intros i m j f; unfold slot; cbn; do 3 (try destruct i as [|i]); do 3 (try destruct m as [|m]); do 3 (try destruct j as [|j]); cbn; intros; try discriminate; try congruence; auto.
Example nfx_consistent_ex : careful_run start demo /\ exists s, run start demo = Some s /\ seen s 0 0 = Some (Some (Frame (Some 10) true [1; 2]%Z 5)) /\ seen s 1 1 = Some (Some (Frame (Some 11) false [7]%Z 6)) /\ seen s 0 1 = Some (Some (Frame (Some 11) true [] 6)).
Proof.
  split; [|eexists; split; [vm_compute; reflexivity|repeat split; reflexivity]].
  unfold demo. repeat (split; [first [exact I|discriminate|idtac]|intros ? E; vm_compute in E; injection E as <-]).
  - excl.
  - intros _. reflexivity.
  - exact I.
Qed.
Example nfx_independent_ex : exists s, run start (firstn 8 demo) = Some s /\ 0 < length (nframes s) /\ (forall f, has_frame s 0 f -> ~ has_frame s 1 f) /\ through_run s 0 1 [SetNCameras 1 (Some 1); ReleaseImages 1; UnSetFrame 1 0; CopyOf 1].
Proof.
  eexists. split; [vm_compute; reflexivity|]. split; [cbn; lia|]. split.
  - intros f [i H] [j K]. unfold slot in H, K. cbn in H, K. destruct i as [|[|[|i]]], j as [|[|[|j]]]; cbn in H, K; congruence.
  - repeat (split; [first [reflexivity|exact I]|split; [exact I|intros ? E; vm_compute in E; injection E as <-]]). exact I.
Qed.

(** ** What does not hold *)
(** Assigning a multi-frame to itself throws its frames and slots away. *)
Theorem nfx_self_assign_refuted s n x : nth_error (nframes s) n = Some x -> exists s', step s (Assign n n) = Some s' /\ size s' n = Some 0 /\ rig_of s' n = rig_of s n.
Proof.
  intros N. cbn [step]. rewrite N, Nat.eqb_refl. cbn. eexists. split; [reflexivity|]. unfold size, rig_of. cbn. pose proof (nth_lt _ _ _ N) as L. apply Nat.ltb_lt in L. rewrite nth_update, Nat.eqb_refl, L, N. split; reflexivity.
Qed.
Print Assumptions nfx_self_assign_refuted.
(** A frame that is in two slots gets the camera of the last one, without a complaint. *)
Theorem nfx_twice_refuted : exists l s, run start l = Some s /\ (forall o, In o l -> match o with EditFrame _ _ | EditRig _ _ | Assign _ _ => False | _ => True end) /\ ~ consistent s 0 /\ length (nframes s) = 1.
Proof.
  exists [NewRig [10; 11]; NewFrame (Frame None false [] 0); NewEmpty 2; SetFrame 0 0 (Some 0); SetFrame 0 1 (Some 0); SetNCameras 0 (Some 0)]. eexists. split; [vm_compute; reflexivity|]. split.
  - intros o H. repeat (destruct H as [<-|H]; [exact I|]). destruct H.
  - split; [|reflexivity]. intros C. destruct (C 0 eq_refl) as (cams & E & _ & F). cbn in E. injection E as <-. destruct (F 0 0 eq_refl) as (x & c & X & G & K). cbn in X, K. injection X as <-. cbn in G. congruence.
Qed.
Print Assumptions nfx_twice_refuted.
(** Giving one multi-frame another rig changes the frames of another one that shares them. *)
Theorem nfx_shared_refuted : exists l s s', run start l = Some s /\ consistent s 0 /\ consistent s 1 /\ step s (SetNCameras 1 (Some 1)) = Some s' /\ ~ consistent s' 0 /\ ~ same_view s 0 s' 0.
Proof.
  exists [NewRig [10]; NewRig [12]; NewFrame (Frame (Some 10) false [] 0); NewOfRig (Some 0); NewOfRig (Some 0); SetFrame 0 0 (Some 0); SetFrame 1 0 (Some 0)]. eexists. eexists. split; [vm_compute; reflexivity|].
  assert (C : forall n, n < 2 -> consistent (State [[10]; [12]] [Frame (Some 10) false [] 0] [NFrame (Some 0) [Some 0]; NFrame (Some 0) [Some 0]]) n).
  { intros n L r R. exists [10]. assert (r = 0) by (destruct n as [|[|n]]; [cbn in R; congruence|cbn in R; congruence|lia]). subst r. split; [reflexivity|]. split; [destruct n as [|[|n]]; [reflexivity|reflexivity|lia]|].
    intros i f H. exists (Frame (Some 10) false [] 0), 10. destruct n as [|[|n]]; [| |lia]; unfold slot in H; cbn in H; destruct i as [|i]; cbn in H; [injection H as <-; auto|destruct i; discriminate|injection H as <-; auto|destruct i; discriminate]. }
  split; [apply C; lia|]. split; [apply C; lia|]. split; [vm_compute; reflexivity|]. split.
  - intros D. destruct (D 0 eq_refl) as (cams & E & _ & F). cbn in E. injection E as <-. destruct (F 0 0 eq_refl) as (x & c & X & G & K). cbn in X, K. injection X as <-. cbn in G. congruence.
  - intros (_ & _ & V). specialize (V 0). discriminate V.
Qed.
Print Assumptions nfx_shared_refuted.
(** Asking for the images of a multi-frame aborts if a slot is empty, unless a frame before it has no image; without slots the answer is yes even after the images are released. *)
Theorem nfx_images_refuted : (exists s, run start [NewEmpty 1] = Some s /\ has_raw_images s 0 = None /\ step s (ReleaseImages 0) = None /\ step s (ClearKeypoints 0) = None) /\
  (exists s, run start [NewFrame (Frame None false [] 0); NewEmpty 2; SetFrame 0 0 (Some 0)] = Some s /\ has_raw_images s 0 = Some false /\ are_all_frames_set s 0 = Some false) /\
  exists s, run start [NewEmpty 0; ReleaseImages 0] = Some s /\ has_raw_images s 0 = Some true.
Proof. repeat split; eexists; repeat split. Qed.
Print Assumptions nfx_images_refuted.
(** Changing a camera of the rig leaves the frames with the old one. *)
Theorem nfx_edit_rig_refuted : exists l s s', run start l = Some s /\ consistent s 0 /\ step s (EditRig 0 [20]) = Some s' /\ ~ consistent s' 0.
Proof.
  exists [NewRig [10]; NewFrame (Frame (Some 10) false [] 0); NewOfRig (Some 0); SetFrame 0 0 (Some 0)]. eexists. eexists. split; [vm_compute; reflexivity|]. split; [|split; [vm_compute; reflexivity|]].
  - intros r [= <-]. exists [10]. split; [reflexivity|]. split; [reflexivity|]. intros i f H. exists (Frame (Some 10) false [] 0), 10. unfold slot in H. cbn in H. destruct i as [|i]; cbn in H; [injection H as <-; auto|destruct i; discriminate].
  - intros D. destruct (D 0 eq_refl) as (cams & E & _ & F). cbn in E. injection E as <-. destruct (F 0 0 eq_refl) as (x & c & X & G & K). cbn in X, K. injection X as <-. cbn in G. congruence.
Qed.
Print Assumptions nfx_edit_rig_refuted.
