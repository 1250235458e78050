(** C119: keypoint identifiers and feature tracks. *)
From Coq Require Import ZArith NArith List Bool Arith Lia.
From Verif Require Import KTrackModel KTrackSpec.
Import ListNotations.

(** ** Identifiers *)
(** An identifier is created exactly for a keypoint that exists. *)
Theorem kfx_create w p i k x : create w p i k = Ok x <-> exists a f m, p = Some a /\ keypoint_in w a i k f m /\ x = {| nframe_ := a; frame_index := i; keypoint_index := k |}.
Proof.
  unfold create. split.
  - destruct p as [a|]; [|discriminate]. destruct (Nat.ltb_spec i (length (frames (nframe_at w a)))); [|discriminate]. unfold is_frame_set, get_frame.
    destruct (nth_error (frames (nframe_at w a)) i) as [[q|]|] eqn:E; try discriminate. destruct (Nat.ltb_spec k (length (keypoints (frame_at w q)))) as [L|L]; [|discriminate].
    intros X. injection X as <-. destruct (nth_error (keypoints (frame_at w q)) k) as [m|] eqn:M; [|apply nth_error_None in M; lia].
    exists a, (frame_at w q), m. split; [reflexivity|]. split; [|reflexivity]. exists q. repeat split; assumption.
  - intros [a [f [m [-> [[q [E [-> M]]] ->]]]]]. assert (I : i < length (frames (nframe_at w a))) by (apply nth_error_Some; congruence). assert (K : k < length (keypoints (frame_at w q))) by (apply nth_error_Some; congruence).
    destruct (Nat.ltb_spec i (length (frames (nframe_at w a)))); [|lia]. unfold is_frame_set, get_frame. rewrite E. destruct (Nat.ltb_spec k (length (keypoints (frame_at w q)))); [reflexivity|lia].
Qed.
Print Assumptions kfx_create.
(** It never does anything undefined. *)
Theorem kfx_create_defined w p i k : create w p i k <> Undefined.
Proof. unfold create, is_frame_set, get_frame. destruct p; [|discriminate]. destruct (Nat.ltb _ _); [|discriminate]. destruct (nth_error _ _) as [[q|]|]; try discriminate. destruct (Nat.ltb _ _); discriminate. Qed.
Print Assumptions kfx_create_defined.

Definition gives (w : world) (k : kid) (a i : nat) (f : frame) (m : Z * Z) : Prop :=
  get_measurement w k = Ok m /\ get_frame_id w k = Ok (fid f) /\ get_nframe_id w k = nid (nframe_at w a) /\
  (forall d, nth_error (descriptors f) (keypoint_index k) = Some d -> get_descriptor w k = Ok d) /\
  (forall c cams, rig (nframe_at w a) = Some cams -> nth_error cams i = Some c -> get_mounted w k = Ok c).
Lemma keypoint_gives w a i k f m : keypoint_in w a i k f m -> gives w {| nframe_ := a; frame_index := i; keypoint_index := k |} a i f m.
Proof.
  intros [q [E [-> M]]]. unfold gives, get_measurement, get_frame_id, get_descriptor, get_mounted, get_nframe_id, kid_frame, get_frame. cbn. rewrite E, M. repeat split.
  - intros d D. rewrite D. reflexivity.
  - intros c cams R C. rewrite R, C. reflexivity.
Qed.
(** The data of the keypoint, its frame, its descriptor, its camera and pose. *)
Theorem kfx_access w a i k x f m : create w (Some a) i k = Ok x -> keypoint_in w a i k f m ->
  get_measurement w x = Ok m /\ get_frame_id w x = Ok (fid f) /\ get_nframe_id w x = nid (nframe_at w a) /\
  (forall d, nth_error (descriptors f) k = Some d -> get_descriptor w x = Ok d) /\
  (forall c cams, rig (nframe_at w a) = Some cams -> nth_error cams i = Some c -> get_mounted w x = Ok c).
Proof.
  intros C K. apply kfx_create in C. destruct C as [a' [f' [m' [E [_ ->]]]]]. injection E as <-. exact (keypoint_gives w a i k f m K).
Qed.
Print Assumptions kfx_access.

Lemma set_nth_other {A} (l : list A) i j v : i <> j -> nth_error (set_nth l i v) j = nth_error l j.
Proof. revert i j. induction l as [|x l IH]; intros [|i] [|j] N; cbn; try reflexivity; try congruence. apply IH. congruence. Qed.
Lemma set_nth_same {A} (l : list A) i v : i < length l -> nth_error (set_nth l i v) i = Some v.
Proof. revert i. induction l as [|x l IH]; intros [|i] N; cbn in *; try lia; [reflexivity|]. apply IH. lia. Qed.
Lemma step_keeps w a i k o f m : leaves w a i o -> keypoint_in w a i k f m -> exists f', keypoint_in (step w o) a i k f' m /\ fid f' = fid f /\ descriptors f' = descriptors f /\
  nid (nframe_at (step w o) a) = nid (nframe_at w a) /\ rig (nframe_at (step w o) a) = rig (nframe_at w a).
Proof.
  intros L [q [E [-> M]]]. destruct o as [g ks|g ks|n j g]; cbn [leaves] in L.
  - exists (frame_at w q). cbn [step nframe_at]. repeat split; try reflexivity. exists q. cbn [step nframe_at frame_at]. unfold upd. destruct (Nat.eqb_spec q g); [congruence|]. repeat split; assumption.
  - exists (frame_at (step w (ExtendKeypoints g ks)) q). cbn [step nframe_at frame_at]. unfold upd. destruct (Nat.eqb_spec q g) as [->|N]; cbn [fid descriptors].
    + repeat split; try reflexivity. exists g. cbn [step nframe_at frame_at]. unfold upd. rewrite Nat.eqb_refl. repeat split; [exact E|]. cbn [keypoints]. rewrite nth_error_app1; [exact M|]. apply nth_error_Some. congruence.
    + repeat split; try reflexivity. exists q. cbn [step nframe_at frame_at]. unfold upd. destruct (Nat.eqb_spec q g); [congruence|]. repeat split; assumption.
  - exists (frame_at w q). cbn [step nframe_at]. unfold upd. destruct (Nat.eqb_spec a n) as [->|N]; cbn [nid rig]; repeat split; try reflexivity; exists q; cbn [step nframe_at frame_at]; unfold upd; [rewrite Nat.eqb_refl|destruct (Nat.eqb_spec a n); [congruence|]]; cbn [frames].
    + destruct L as [L|L]; [congruence|]. rewrite set_nth_other by exact L. repeat split; assumption.
    + repeat split; assumption.
Qed.
(** The identifier keeps giving the same data as long as others only append keypoints, or work on other frames and other places. *)
Theorem kfx_stable w a i k x os f m : create w (Some a) i k = Ok x -> keypoint_in w a i k f m -> all_leave w a i os ->
  let w' := run w os in get_measurement w' x = Ok m /\ get_frame_id w' x = Ok (fid f) /\ get_nframe_id w' x = nid (nframe_at w a) /\
  (forall d, nth_error (descriptors f) k = Some d -> get_descriptor w' x = Ok d) /\
  (forall c cams, rig (nframe_at w a) = Some cams -> nth_error cams i = Some c -> get_mounted w' x = Ok c).
Proof.
  intros C K L. apply kfx_create in C. destruct C as [a' [f' [m' [E [_ ->]]]]]. injection E as <-. cbv zeta.
  assert (G : exists f', keypoint_in (run w os) a i k f' m /\ fid f' = fid f /\ descriptors f' = descriptors f /\ nid (nframe_at (run w os) a) = nid (nframe_at w a) /\ rig (nframe_at (run w os) a) = rig (nframe_at w a)).
  { clear f' m'. revert w f K L. induction os as [|o os IH]; intros w f K L; [exists f; repeat split; exact K|]. destruct L as [L1 L2]. destruct (step_keeps w a i k o f m L1 K) as [g [K' [F [D [N R]]]]].
    destruct (IH (step w o) g K' L2) as [h [K'' [F' [D' [N' R']]]]]. exists h. cbn [run fold_left] in *. unfold run in *. cbn [fold_left]. repeat split; congruence. }
  destruct G as [g [K' [F [D [N R]]]]]. destruct (keypoint_gives (run w os) a i k g m K') as [A [B [C [X Y]]]]. rewrite F in B. rewrite N in C. rewrite D in X. rewrite R in Y. cbn [keypoint_index] in X. repeat split; assumption.
Qed.
Print Assumptions kfx_stable.
(** The pointer to const does not protect the keypoint: another owner can replace the keypoints or the frame; then the identifier aborts, or
    silently gives another keypoint. *)
Theorem kfx_replaced_refuted w a i k x f m p other : create w (Some a) i k = Ok x -> keypoint_in w a i k f m -> nth_error (frames (nframe_at w a)) i = Some (Some p) ->
  get_measurement (step w (SetKeypoints p [])) x = Abort /\ get_measurement (step w (SetKeypoints p (repeat other (S k)))) x = Ok other /\ get_measurement (step w (SetFrame a i None)) x = Abort.
Proof.
  intros C K E. apply kfx_create in C. destruct C as [a' [f' [m' [Ea [_ ->]]]]]. injection Ea as <-. unfold get_measurement, kid_frame, get_frame. cbn [step nframe_at frame_at nframe_ frame_index keypoint_index]. rewrite E. unfold upd. rewrite !Nat.eqb_refl. cbn [keypoints frames]. repeat split.
  - destruct k; reflexivity.
  - assert (R : forall n j, j < n -> nth_error (repeat other n) j = Some other). { induction n as [|n IH]; intros [|j] J; cbn; try lia; [reflexivity|]. apply IH. lia. } rewrite R by lia. reflexivity.
  - rewrite set_nth_same; [reflexivity|]. apply nth_error_Some. congruence.
Qed.
Print Assumptions kfx_replaced_refuted.
(** A multi-frame without rig has identifiers, but their camera and pose cannot be asked for. *)
Theorem kfx_rig_refuted w a i k x : create w (Some a) i k = Ok x -> rig (nframe_at w a) = None -> get_mounted w x = Abort.
Proof. intros C R. apply kfx_create in C. destruct C as [a' [f' [m' [Ea [_ ->]]]]]. injection Ea as <-. unfold get_mounted. cbn. rewrite R. reflexivity. Qed.
Print Assumptions kfx_rig_refuted.

(** ** Tracks *)
Lemma last_app {A} (l : list A) x d : last (l ++ [x]) d = x.
Proof. induction l as [|y l IH]; [reflexivity|]. cbn [app last]. destruct (l ++ [x]) eqn:E; [destruct l; discriminate|exact IH]. Qed.
(** Adding appends one observation; removing takes it away again. *)
Theorem kfx_add w t p i k t' : add_back w t p i k = Ok t' -> exists x, create w p i k = Ok x /\ track_id t' = track_id t /\ observations t' = observations t ++ [x] /\
  track_length t' = S (track_length t) /\ has_observations t' = true /\ last_kid t' = Ok x /\ first_kid t' = (if has_observations t then first_kid t else Ok x) /\ pop_last t' = Ok t.
Proof.
  unfold add_back. destruct (create w p i k) as [x| |]; try discriminate. intros E. injection E as <-. exists x. destruct t as [id obs]. unfold track_length, has_observations, last_kid, first_kid, pop_last. cbn [track_id observations].
  repeat split; try reflexivity.
  - rewrite app_length. cbn. lia.
  - destruct obs; reflexivity.
  - destruct obs as [|y obs]; [reflexivity|]. cbn [app]. rewrite last_app. reflexivity.
  - destruct obs as [|y obs]; reflexivity.
  - destruct (obs ++ [x]) eqn:A; [destruct obs; discriminate|]. rewrite <- A. rewrite removelast_last. reflexivity.
Qed.
Print Assumptions kfx_add.
(** First and last observation exist exactly for non-empty tracks, otherwise the program stops in a defined way. *)
Theorem kfx_ends t : (track_length t = 0 /\ has_observations t = false /\ first_kid t = Abort /\ last_kid t = Abort) \/
  (has_observations t = true /\ 0 < track_length t /\ exists a b, first_kid t = Ok a /\ last_kid t = Ok b /\ nth_error (observations t) 0 = Some a /\ nth_error (observations t) (track_length t - 1) = Some b).
Proof.
  unfold track_length, has_observations, first_kid, last_kid. destruct (observations t) as [|k l]; [left; repeat split|right]. split; [reflexivity|]. split; [cbn; lia|]. exists k, (last l k). repeat split.
  cbn [length]. replace (S (length l) - 1) with (length l) by lia. revert k. induction l as [|y l IH]; intros k; [reflexivity|]. cbn [length]. change (nth_error (y :: l) (length l) = Some (last (y :: l) k)). rewrite (IH y). f_equal.
  clear. destruct l as [|z l]; [reflexivity|]. revert z. induction l as [|u l IH]; intros z; [reflexivity|]. cbn [last] in *. exact (IH u).
Qed.
Print Assumptions kfx_ends.
(** But removing from an empty track is undefined. *)
Theorem kfx_pop_refuted t : pop_last t = Undefined <-> has_observations t = false.
Proof. unfold pop_last, has_observations. destruct (observations t); split; intros; try reflexivity; discriminate. Qed.
Print Assumptions kfx_pop_refuted.
(** The order by length is a strict weak order, and > is < the other way round. *)
Theorem kfx_order : strict_weak track_lt /\ (forall a b, track_gt a b = track_lt b a) /\ forall a b, track_lt a b = true <-> length (observations a) < length (observations b).
Proof.
  unfold strict_weak, track_lt, track_gt, track_length. repeat split; intros.
  - apply Nat.ltb_irrefl.
  - apply Nat.ltb_lt in H, H0. apply Nat.ltb_lt. lia.
  - apply Nat.ltb_ge in H, H0, H1, H2. apply Nat.ltb_ge. lia.
  - apply Nat.ltb_ge in H, H0, H1, H2. apply Nat.ltb_ge. lia.
  - apply Nat.ltb_lt. assumption.
  - apply Nat.ltb_lt. assumption.
Qed.
Print Assumptions kfx_order.
(** It does not distinguish different tracks: a std::set of tracks has one track of each length. *)
Theorem kfx_same_length_refuted id1 id2 : id1 <> id2 -> exists a b, a <> b /\ track_id a = id1 /\ track_id b = id2 /\ track_lt a b = false /\ track_lt b a = false.
Proof. intros N. exists (new_track id1), (new_track id2). repeat split. intros E. apply N. injection E as E. exact E. Qed.
Print Assumptions kfx_same_length_refuted.

(** ** Continued tracks *)
Theorem kfx_continue t k : (track_id t < 2 ^ 31)%N -> exists c, continue_track t k = Ok c /\ ctrack_id c = Z.of_N (track_id t) /\ ckid c = k.
Proof.
  intros L. unfold continue_track, to_int. assert (B : (0 <= Z.of_N (track_id t) < 2 ^ 31)%Z) by (change (2 ^ 31)%Z with (Z.of_N (2 ^ 31)); lia). rewrite Z.mod_small by lia.
  destruct (Z.ltb_spec (Z.of_N (track_id t)) (2 ^ 31)); [|lia]. destruct (Z.ltb_spec (Z.of_N (track_id t)) 0); [lia|]. eexists. split; [reflexivity|]. split; reflexivity.
Qed.
Print Assumptions kfx_continue.
Theorem kfx_continued_order a b ka kb ca cb : (track_id a < 2 ^ 31)%N -> (track_id b < 2 ^ 31)%N -> continue_track a ka = Ok ca -> continue_track b kb = Ok cb -> (continued_lt ca cb = true <-> (track_id a < track_id b)%N).
Proof.
  intros A B CA CB. destruct (kfx_continue a ka A) as [x [X [IX _]]], (kfx_continue b kb B) as [y [Y [IY _]]]. rewrite CA in X. rewrite CB in Y. injection X as <-. injection Y as <-. unfold continued_lt. rewrite Z.ltb_lt, IX, IY. lia.
Qed.
Print Assumptions kfx_continued_order.
(** Ids from 2^31 to 2^32 - 1 abort, greater ones become ids of other tracks. *)
Theorem kfx_continue_refuted t k : ((2 ^ 31 <= track_id t < 2 ^ 32)%N -> continue_track t k = Abort) /\
  (forall n, track_id t = (2 ^ 32 + n)%N -> (n < 2 ^ 31)%N -> exists c, continue_track t k = Ok c /\ ctrack_id c = Z.of_N n).
Proof.
  unfold continue_track, to_int. split.
  - intros L. assert (B : (2 ^ 31 <= Z.of_N (track_id t) < 2 ^ 32)%Z) by (change (2 ^ 31)%Z with (Z.of_N (2 ^ 31)); change (2 ^ 32)%Z with (Z.of_N (2 ^ 32)); lia). rewrite Z.mod_small by lia.
    destruct (Z.ltb_spec (Z.of_N (track_id t)) (2 ^ 31)); [lia|]. destruct (Z.ltb_spec (Z.of_N (track_id t) - 2 ^ 32) 0); [reflexivity|lia].
  - intros n E L. assert (B : (0 <= Z.of_N n < 2 ^ 31)%Z) by (change (2 ^ 31)%Z with (Z.of_N (2 ^ 31)); lia).
    assert (M : (Z.of_N (track_id t) mod 2 ^ 32 = Z.of_N n)%Z). { rewrite E, N2Z.inj_add. change (Z.of_N (2 ^ 32)) with (1 * 2 ^ 32)%Z. rewrite Z.add_comm, Z_mod_plus_full. apply Z.mod_small. lia. }
    rewrite M. destruct (Z.ltb_spec (Z.of_N n) (2 ^ 31)); [|lia]. destruct (Z.ltb_spec (Z.of_N n) 0); [lia|]. eexists. split; reflexivity.
Qed.
Print Assumptions kfx_continue_refuted.

(** ** Printing *)
(** One row per track: id, camera of the first observation, length; in order. *)
Theorem kfx_print ts : (forall t, In t ts -> has_observations t = true) -> exists l, print_tracks ts = Ok l /\
  Forall2 (fun t r => exists k, nth_error (observations t) 0 = Some k /\ r = (track_id t, frame_index k, length (observations t))) ts l.
Proof.
  induction ts as [|t ts IH]; intros H; [exists []; split; [reflexivity|constructor]|]. destruct IH as [l [E F]]; [intros u U; apply H; right; exact U|]. cbn [print_tracks]. pose proof (H t (or_introl eq_refl)) as O.
  unfold has_observations, first_kid in *. destruct (observations t) as [|k ks] eqn:X; [discriminate|]. rewrite E. eexists. split; [reflexivity|]. constructor; [|exact F]. exists k. rewrite X. split; [reflexivity|]. unfold track_length. rewrite X. reflexivity.
Qed.
Print Assumptions kfx_print.
(** A list with an empty track cannot be printed, though the track alone can. *)
Theorem kfx_print_refuted ts t : In t ts -> has_observations t = false -> print_tracks ts = Abort /\ forall w, print_observations w (observations t) = Ok [].
Proof.
  intros I H. split.
  - induction ts as [|u ts IH]; [destruct I|]. cbn [print_tracks]. destruct I as [->|I].
    + unfold first_kid, has_observations in *. destruct (observations t); [reflexivity|discriminate].
    + rewrite (IH I). unfold first_kid. destruct (observations u); reflexivity.
  - intros w. unfold has_observations in H. destruct (observations t); [reflexivity|discriminate].
Qed.
Print Assumptions kfx_print_refuted.
(** A track whose keypoints exist prints all of them. *)
Theorem kfx_print_one w ks : (forall k, In k ks -> exists f m, keypoint_in w (nframe_ k) (frame_index k) (keypoint_index k) f m) -> exists l, print_observations w ks = Ok l /\
  Forall2 (fun k r => exists f m, keypoint_in w (nframe_ k) (frame_index k) (keypoint_index k) f m /\ r = (nid (nframe_at w (nframe_ k)), frame_index k, m)) ks l.
Proof.
  induction ks as [|k ks IH]; intros H; [exists []; split; [reflexivity|constructor]|]. destruct IH as [l [E F]]; [intros u U; apply H; right; exact U|]. cbn [print_observations].
  destruct (H k (or_introl eq_refl)) as [f [m K]]. destruct k as [a i j]. cbn [nframe_ frame_index keypoint_index] in *. destruct (keypoint_gives w a i j f m K) as [A _]. rewrite A, E. eexists. split; [reflexivity|]. constructor; [|exact F]. exists f, m. split; [exact K|reflexivity].
Qed.
Print Assumptions kfx_print_one.

(** ** A concrete case *)
Definition w0 : world := {| nframe_at := fun _ => {| nid := 7; rig := Some [{| camera := 1; T_C_B := 2 |}; {| camera := 3; T_C_B := 4 |}]; frames := [None; Some 5] |}; frame_at := fun p => {| fid := Z.of_nat p; keypoints := [(10, 20); (30, 40)]%Z; descriptors := [100; 101]%Z |} |}.
Example kfx_ex : keypoint_in w0 0 1 1 (frame_at w0 5) (30, 40)%Z /\ create w0 (Some 0) 1 1 = Ok {| nframe_ := 0; frame_index := 1; keypoint_index := 1 |} /\ create w0 (Some 0) 0 0 = Abort /\ create w0 (Some 0) 1 2 = Abort /\
  all_leave w0 0 1 [ExtendKeypoints 5 [(1, 1)]%Z; SetFrame 0 0 (Some 6); SetKeypoints 6 []].
Proof. split; [exists 5; repeat split|]. repeat split; try reflexivity; cbn; try (right; discriminate). intros E. discriminate E. Qed.
Example kfx_ex_track : exists t, add_back w0 (new_track 3) (Some 0) 1 0 = Ok t /\ print_tracks [t] = Ok [(3%N, 1, 1)].
Proof. eexists. split; reflexivity. Qed.
