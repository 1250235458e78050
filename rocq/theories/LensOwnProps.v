(** C134: cameras made by the factory, and their lenses. *)
From Coq Require Import Reals ZArith List Bool Arith Lia Lra Strings.Byte.
From Verif Require Import HashIdModel RandPtModel RandPtSpec RandPtProps LensOwnModel LensOwnSpec.
Import ListNotations.
Local Open Scope nat_scope.

(** ** Ownership *)
Lemma owner_eqb_spec a b : reflect (a = b) (owner_eqb a b).
Proof. destruct a as [i|i], b as [j|j]; cbn; try (constructor; discriminate); destruct (Nat.eqb_spec i j); constructor; congruence. Qed.
Lemma owner_eqb_refl a : owner_eqb a a = true.
Proof. destruct (owner_eqb_spec a a); congruence. Qed.
Lemma delete_spec a h b : delete a h b = match a with Some a' => if Nat.eqb b a' then None else h b | None => h b end.
Proof. destruct a; reflexivity. Qed.

(** The invariant: well owned, addresses to come are free, lenses are sound, and only cameras that exist have a lens; the local variable is null. *)
Record inv (s : state) : Prop := Inv {
  i_owned : well_owned s;
  i_fresh : forall a, next s <= a -> heap s a = None;
  i_sound : forall a d, heap s a = Some d -> lens_valid (l_type d) (coefficients d) = true;
  i_camera : forall k, cameras s k = None -> points s (OfCamera k) = None }.

Lemma owned_lt s o a : inv s -> points s o = Some a -> a < next s.
Proof. intros I P. destruct (le_lt_dec (next s) a) as [L|L]; [|exact L]. exfalso. apply (alive _ (i_owned _ I) o a P). apply (i_fresh _ I a L). Qed.

Lemma inv_reset_new o d s : inv s -> lens_valid (l_type d) (coefficients d) = true -> (forall k, o = OfCamera k -> cameras s k <> None) -> inv (reset_new o d s).
Proof.
  intros I V C. pose proof (i_owned _ I) as W. split; [split|..]; unfold reset_new; cbn [heap points next cameras].
  - intros o' a. unfold set_points, set_heap. rewrite delete_spec. destruct (owner_eqb_spec o' o) as [->|N].
    + intros [= <-]. rewrite Nat.eqb_refl. discriminate.
    + intros P. destruct (Nat.eqb_spec a (next s)); [discriminate|]. destruct (points s o) as [b|] eqn:E; [|apply (alive _ W _ _ P)].
      destruct (Nat.eqb_spec a b) as [->|_]; [|apply (alive _ W _ _ P)]. exfalso. apply N. apply (single _ W _ _ _ P E).
  - intros o1 o2 a. unfold set_points. destruct (owner_eqb_spec o1 o) as [->|N1], (owner_eqb_spec o2 o) as [->|N2].
    + reflexivity.
    + intros [= <-] P. apply (owned_lt _ _ _ I) in P. lia.
    + intros P [= <-]. apply (owned_lt _ _ _ I) in P. lia.
    + apply (single _ W).
  - intros a. unfold set_heap, set_points. rewrite delete_spec. destruct (Nat.eqb_spec a (next s)) as [->|N].
    + intros _. exists o. rewrite owner_eqb_refl. reflexivity.
    + destruct (points s o) as [b|] eqn:E.
      * destruct (Nat.eqb_spec a b) as [->|M]; [congruence|]. intros H. destruct (no_leak _ W a H) as [o' P]. exists o'. destruct (owner_eqb_spec o' o) as [->|_]; [congruence|exact P].
      * intros H. destruct (no_leak _ W a H) as [o' P]. exists o'. destruct (owner_eqb_spec o' o) as [->|_]; [congruence|exact P].
  - intros a L. unfold set_heap. rewrite delete_spec. destruct (Nat.eqb_spec a (next s)); [lia|]. destruct (points s o); [destruct (Nat.eqb a n0); [reflexivity|]|]; apply (i_fresh _ I); lia.
  - intros a e. unfold set_heap. rewrite delete_spec. destruct (Nat.eqb_spec a (next s)); [intros [= <-]; exact V|]. destruct (points s o); [destruct (Nat.eqb a n0); [discriminate|]|]; apply (i_sound _ I).
  - intros k H. unfold set_points. destruct (owner_eqb_spec (OfCamera k) o) as [<-|_]; [|apply (i_camera _ I k H)]. exfalso. apply (C k eq_refl H).
Qed.
Lemma inv_move q p s : inv s -> q <> p -> (forall k, p = OfCamera k -> cameras s k <> None) -> inv (move q p s).
Proof.
  intros I D C. pose proof (i_owned _ I) as W. split; [split|..]; unfold move; cbn [heap points next cameras].
  - intros o a. unfold set_points. rewrite delete_spec. destruct (owner_eqb_spec o q) as [->|N]; [discriminate|]. destruct (owner_eqb_spec o p) as [->|M]; intros P.
    + destruct (points s p) as [b|] eqn:E; [|apply (alive _ W _ _ P)]. destruct (Nat.eqb_spec a b) as [->|_]; [|apply (alive _ W _ _ P)]. exfalso. apply D. apply (single _ W _ _ _ P E).
    + destruct (points s p) as [b|] eqn:E; [|apply (alive _ W _ _ P)]. destruct (Nat.eqb_spec a b) as [->|_]; [|apply (alive _ W _ _ P)]. exfalso. apply M. apply (single _ W _ _ _ P E).
  - intros o1 o2 a. unfold set_points. destruct (owner_eqb_spec o1 q) as [->|N1]; [discriminate|]. destruct (owner_eqb_spec o2 q) as [->|N2]; [discriminate|].
    destruct (owner_eqb_spec o1 p) as [->|M1], (owner_eqb_spec o2 p) as [->|M2]; intros P Q; try reflexivity.
    + exfalso. apply N2. apply (single _ W _ _ _ Q P).
    + exfalso. apply N1. apply (single _ W _ _ _ P Q).
    + apply (single _ W _ _ _ P Q).
  - intros a. unfold set_points. rewrite delete_spec. intros H. assert (A : heap s a <> None /\ points s p <> Some a).
    { destruct (points s p) as [b|]; [|split; [exact H|discriminate]]. destruct (Nat.eqb_spec a b) as [->|M]; [congruence|]. split; [exact H|congruence]. }
    destruct A as [A B]. destruct (no_leak _ W a A) as [o P]. destruct (owner_eqb_spec o q) as [->|N].
    + exists p. destruct (owner_eqb_spec p q) as [E|_]; [congruence|]. rewrite owner_eqb_refl. exact P.
    + exists o. destruct (owner_eqb_spec o q) as [E|_]; [congruence|]. destruct (owner_eqb_spec o p) as [->|_]; [congruence|exact P].
  - intros a L. rewrite delete_spec. destruct (points s p); [destruct (Nat.eqb a n); [reflexivity|]|]; apply (i_fresh _ I a L).
  - intros a e. rewrite delete_spec. destruct (points s p); [destruct (Nat.eqb a n); [discriminate|]|]; apply (i_sound _ I).
  - intros k H. unfold set_points. destruct (owner_eqb_spec (OfCamera k) q); [reflexivity|]. destruct (owner_eqb_spec (OfCamera k) p) as [<-|_]; [exfalso; apply (C k eq_refl H)|apply (i_camera _ I k H)].
Qed.
Lemma inv_clear o s : inv s -> inv (clear o s).
Proof.
  intros I. pose proof (i_owned _ I) as W. split; [split|..]; unfold clear; cbn [heap points next cameras].
  - intros o' a. unfold set_points. rewrite delete_spec. destruct (owner_eqb_spec o' o) as [->|N]; [discriminate|]. intros P. destruct (points s o) as [b|] eqn:E; [|apply (alive _ W _ _ P)].
    destruct (Nat.eqb_spec a b) as [->|_]; [|apply (alive _ W _ _ P)]. exfalso. apply N. apply (single _ W _ _ _ P E).
  - intros o1 o2 a. unfold set_points. destruct (owner_eqb_spec o1 o); [discriminate|]. destruct (owner_eqb_spec o2 o); [discriminate|]. apply (single _ W).
  - intros a. unfold set_points. rewrite delete_spec. intros H. assert (A : heap s a <> None /\ points s o <> Some a).
    { destruct (points s o) as [b|]; [|split; [exact H|discriminate]]. destruct (Nat.eqb_spec a b) as [->|M]; [congruence|]. split; [exact H|congruence]. }
    destruct A as [A B]. destruct (no_leak _ W a A) as [o' P]. exists o'. destruct (owner_eqb_spec o' o) as [->|_]; [congruence|exact P].
  - intros a L. rewrite delete_spec. destruct (points s o); [destruct (Nat.eqb a n); [reflexivity|]|]; apply (i_fresh _ I a L).
  - intros a e. rewrite delete_spec. destruct (points s o); [destruct (Nat.eqb a n); [discriminate|]|]; apply (i_sound _ I).
  - intros k H. unfold set_points. destruct (owner_eqb_spec (OfCamera k) o); [reflexivity|apply (i_camera _ I k H)].
Qed.
Lemma inv_set_camera k b s : inv s -> (b = None -> points s (OfCamera k) = None) -> inv (set_camera k b s).
Proof.
  intros I B. destruct (i_owned _ I) as [A S L]. split; [split|..]; unfold set_camera; cbn [heap points next cameras]; [exact A|exact S|exact L|apply (i_fresh _ I)|apply (i_sound _ I)|].
  intros i. destruct (Nat.eqb_spec i k) as [->|_]; [exact B|apply (i_camera _ I)].
Qed.
Lemma inv_store k b o s : inv s -> (forall j, o <> OfCamera j) -> inv (store k b o s).
Proof.
  intros I N. unfold store.
  replace (set_camera k (Some b) (move o (OfCamera k) s)) with (move o (OfCamera k) (set_camera k (Some b) s)) by reflexivity.
  apply inv_move; [apply inv_set_camera; [exact I|discriminate]|apply N|]. intros j [= <-]. unfold set_camera. cbn [cameras]. rewrite Nat.eqb_refl. discriminate.
Qed.
Lemma new_lens_ok t l d : new_lens t l = Ok d -> d = given t l /\ lens_valid (l_type d) (coefficients d) = true /\ lens_valid t l = true.
Proof. unfold new_lens, given. destruct t; try (destruct (lens_valid _ l) eqn:E; [|discriminate]); intros [= <-]; repeat split; exact E. Qed.
Lemma deref_ok s o d : inv s -> deref s o = Ok d -> lens_valid (l_type d) (coefficients d) = true.
Proof. intros I. unfold deref. destruct (points s o) as [a|]; [|discriminate]. destruct (heap s a) eqn:E; [|discriminate]. intros [= <-]. apply (i_sound _ I _ _ E). Qed.
Lemma camera_ok s k b : get_camera s k = Ok b -> cameras s k = Some b.
Proof. unfold get_camera. destruct (cameras s k); [congruence|discriminate]. Qed.
Ltac vars := intros ? ?; discriminate.
Lemma inv_step s o s' : inv s -> step s o = Ok s' -> inv s'.
Proof.
  intros I. destruct o as [v t l|k i intr w h co t lt|k t i intr w h v|k t i intr w h|j k|k l|k n x|k l|k v|k|k i|k]; cbn [step].
  - destruct (new_lens t l) as [d| |] eqn:E; cbn [bind]; try discriminate. intros [= <-]. apply new_lens_ok in E as (_ & V & _). apply inv_reset_new; [exact I|exact V|vars].
  - destruct (is_valid i); [|discriminate]. destruct (new_lens lt co) as [d| |] eqn:E; cbn [bind]; try discriminate. apply new_lens_ok in E as (_ & V & ->).
    assert (J : forall b, inv (store k b local (reset_new local d s))) by (intros b; apply inv_store; [apply inv_reset_new; [exact I|exact V|vars]|discriminate]).
    destruct t; try discriminate; (destruct (parameters_valid _ intr); [|discriminate]); intros [= <-]; apply J.
  - assert (J : forall b, inv (store k b (var v) s)) by (intros b; apply inv_store; [exact I|discriminate]).
    destruct t; try discriminate; (destruct (points s (var v)); [|discriminate]); (destruct (parameters_valid _ intr); [|discriminate]); intros [= <-]; apply J.
  - destruct (parameters_valid t intr); [|discriminate]. intros [= <-]. apply inv_store; [apply inv_reset_new; [exact I|reflexivity|vars]|discriminate].
  - destruct (get_camera s j) as [b| |]; cbn [bind]; try discriminate. destruct (deref s (OfCamera j)) as [d| |] eqn:E; cbn [bind]; try discriminate. intros [= <-].
    apply inv_store; [apply inv_reset_new; [exact I|apply (deref_ok _ _ _ I E)|vars]|discriminate].
  - destruct (get_camera s k) as [b| |]; cbn [bind]; try discriminate. destruct (_ =? _); [|discriminate]. intros [= <-]. apply inv_set_camera; [exact I|discriminate].
  - destruct (get_camera s k) as [b| |]; cbn [bind]; try discriminate. destruct (_ <? _); [|discriminate]. intros [= <-]. apply inv_set_camera; [exact I|discriminate].
  - destruct (get_camera s k) as [b| |]; cbn [bind]; try discriminate. unfold deref. destruct (points s (OfCamera k)) as [a|] eqn:P; [|discriminate]. destruct (heap s a) as [d|] eqn:H; [|discriminate].
    cbn [bind]. destruct (lens_valid (l_type d) l) eqn:V; [|discriminate]. intros [= <-]. pose proof (i_owned _ I) as W. split; [split|..]; cbn [heap points next cameras].
    + intros o c Q. unfold set_heap. destruct (Nat.eqb_spec c a); [discriminate|apply (alive _ W _ _ Q)].
    + apply (single _ W).
    + intros c. unfold set_heap. destruct (Nat.eqb_spec c a) as [->|_]; [intros _; exists (OfCamera k); exact P|apply (no_leak _ W)].
    + intros c L. unfold set_heap. destruct (Nat.eqb_spec c a) as [->|_]; [apply (owned_lt _ _ _ I) in P; lia|apply (i_fresh _ I c L)].
    + intros c e. unfold set_heap. destruct (Nat.eqb_spec c a) as [->|_]; [intros [= <-]; exact V|apply (i_sound _ I)].
    + apply (i_camera _ I).
  - destruct (get_camera s k) as [b| |] eqn:E; cbn [bind]; try discriminate. intros [= <-]. apply inv_move; [exact I|discriminate|]. intros j [= <-]. apply camera_ok in E. congruence.
  - destruct (get_camera s k) as [b| |] eqn:E; cbn [bind]; try discriminate. intros [= <-]. apply inv_reset_new; [exact I|reflexivity|]. intros j [= <-]. apply camera_ok in E. congruence.
  - destruct (get_camera s k) as [b| |]; cbn [bind]; try discriminate. destruct (is_valid i); [|discriminate]. intros [= <-]. apply inv_set_camera; [exact I|discriminate].
  - intros [= <-]. apply inv_set_camera; [apply inv_clear, I|]. intros _. unfold clear. cbn [points]. unfold set_points. rewrite owner_eqb_refl. reflexivity.
Qed.
Lemma inv_initial : inv initial.
Proof. split; [split|..]; cbn; congruence. Qed.
Lemma run_inv l s s' : inv s -> run s l = Ok s' -> inv s'.
Proof.
  revert s. induction l as [|o l IH]; intros s I; cbn [run]; [intros [= <-]; exact I|]. destruct (step s o) as [t| |] eqn:E; cbn [bind]; try discriminate. apply IH. apply (inv_step _ _ _ I E).
Qed.
Lemma reachable_inv s : reachable s -> inv s.
Proof. intros [l H]. apply (run_inv _ _ _ inv_initial H). Qed.

(** Whatever a program does, no lens is shared, lost or used after its deletion. *)
Theorem lox_owned s : reachable s -> well_owned s.
Proof. intros R. apply i_owned, reachable_inv, R. Qed.
Print Assumptions lox_owned.
(** Operations are defined unless they are called on no camera, write behind the parameters, or do not exist. *)
Theorem lox_defined s o : reachable s ->
  step s o = Undef <-> (exists k, needs o k /\ cameras s k = None) \/ (exists k n x b, o = WriteParameter k n x /\ cameras s k = Some b /\ length (intrinsics b) <= n) \/ (exists k i intr w h v, o = Construct k LidarType i intr w h v).
Proof.
  intros R. apply reachable_inv in R as I. assert (D : forall q, deref s q <> Undef).
  { intros q. unfold deref. destruct (points s q) as [a|] eqn:P; [|discriminate]. destruct (heap s a) eqn:H; [discriminate|]. exfalso. apply (alive _ (i_owned _ I) _ _ P H). }
  destruct o as [v t l|k i intr w h co t lt|k t i intr w h v|k t i intr w h|j k|k l|k n x|k l|k v|k|k i|k]; cbn [step needs]; unfold get_camera.
  - split; [unfold new_lens; destruct t; try destruct (lens_valid _ l); discriminate|]. intros [(k & [] & _)|[(? & ? & ? & ? & [=] & _)|(? & ? & ? & ? & ? & ? & [=])]].
  - split; [|intros [(q & [] & _)|[(? & ? & ? & ? & [=] & _)|(? & ? & ? & ? & ? & ? & [=])]]]. destruct (is_valid i); [|discriminate]. unfold new_lens. destruct lt; destruct (lens_valid _ co); destruct t; try discriminate; destruct (parameters_valid _ intr); discriminate.
  - split.
    + destruct t; [| |intros _; right; right; eauto 8]; (destruct (points s (var v)); [|discriminate]); destruct (parameters_valid _ intr); discriminate.
    + intros [(q & [] & _)|[(? & ? & ? & ? & [=] & _)|(? & ? & ? & ? & ? & ? & [=])]]. subst. reflexivity.
  - split; [destruct (parameters_valid t intr); discriminate|]. intros [(q & [] & _)|[(? & ? & ? & ? & [=] & _)|(? & ? & ? & ? & ? & ? & [=])]].
  - destruct (cameras s j) eqn:C; cbn [bind].
    + split; [|intros [(q & -> & E)|[(? & ? & ? & ? & [=] & _)|(? & ? & ? & ? & ? & ? & [=])]]; congruence]. destruct (deref s (OfCamera j)) eqn:E; cbn [bind]; try discriminate. exfalso. apply (D _ E).
    + split; [|reflexivity]. intros _. left. eauto.
  - destruct (cameras s k) eqn:C; cbn [bind].
    + split; [|intros [(q & -> & E)|[(? & ? & ? & ? & [=] & _)|(? & ? & ? & ? & ? & ? & [=])]]; congruence]. destruct (_ =? _); discriminate.
    + split; [|reflexivity]. intros _. left. eauto.
  - destruct (cameras s k) eqn:C; cbn [bind].
    + destruct (Nat.ltb_spec n (length (intrinsics b))) as [L|L].
      * split; [discriminate|]. intros [(q & -> & E)|[(k' & n' & x' & b' & E & C' & M)|(? & ? & ? & ? & ? & ? & [=])]]; [congruence|]. injection E as <- <- <-. rewrite C in C'. injection C' as <-. lia.
      * split; [|reflexivity]. intros _. right. left. eauto 8.
    + split; [|reflexivity]. intros _. left. eauto.
  - destruct (cameras s k) eqn:C; cbn [bind].
    + split; [|intros [(q & -> & E)|[(? & ? & ? & ? & [=] & _)|(? & ? & ? & ? & ? & ? & [=])]]; congruence]. destruct (deref s (OfCamera k)) eqn:E; cbn [bind]; try discriminate; [|exfalso; apply (D _ E)].
      destruct (lens_valid _ l); [|discriminate]. destruct (points s (OfCamera k)); discriminate.
    + split; [|reflexivity]. intros _. left. eauto.
  - destruct (cameras s k) eqn:C; cbn [bind].
    + split; [discriminate|intros [(q & -> & E)|[(? & ? & ? & ? & [=] & _)|(? & ? & ? & ? & ? & ? & [=])]]; congruence].
    + split; [|reflexivity]. intros _. left. eauto.
  - destruct (cameras s k) eqn:C; cbn [bind].
    + split; [discriminate|intros [(q & -> & E)|[(? & ? & ? & ? & [=] & _)|(? & ? & ? & ? & ? & ? & [=])]]; congruence].
    + split; [|reflexivity]. intros _. left. eauto.
  - destruct (cameras s k) eqn:C; cbn [bind].
    + split; [|intros [(q & -> & E)|[(? & ? & ? & ? & [=] & _)|(? & ? & ? & ? & ? & ? & [=])]]; congruence]. destruct (is_valid i); discriminate.
    + split; [|reflexivity]. intros _. left. eauto.
  - split; [discriminate|]. intros [(q & [] & _)|[(? & ? & ? & ? & [=] & _)|(? & ? & ? & ? & ? & ? & [=])]].
Qed.
Print Assumptions lox_defined.
(** What the histories rule out: with a lens that was deleted under the camera, cloning the camera or reading the lens would not be defined. *)
Theorem lox_dangling s k b a i : cameras s k = Some b -> points s (OfCamera k) = Some a -> heap s a = None ->
  report s k = Undef /\ step s (Clone k i) = Undef.
Proof. intros C P H. unfold report. cbn [step]. unfold get_camera, deref. rewrite C, P, H. split; reflexivity. Qed.
Print Assumptions lox_dangling.

(** ** What cameras report *)
Lemma deref_reset_same o d s : deref (reset_new o d s) o = Ok d.
Proof. unfold deref, reset_new. cbn [points heap]. unfold set_points, set_heap. rewrite owner_eqb_refl, Nat.eqb_refl. reflexivity. Qed.
Lemma delete_other s o q a : inv s -> q <> o -> points s q = Some a -> delete (points s o) (heap s) a = heap s a.
Proof. intros I N P. rewrite delete_spec. destruct (points s o) as [b|] eqn:E; [|reflexivity]. destruct (Nat.eqb_spec a b) as [->|_]; [|reflexivity]. exfalso. apply N. apply (single _ (i_owned _ I) _ _ _ P E). Qed.
Lemma deref_reset_other o d s q : inv s -> q <> o -> deref (reset_new o d s) q = deref s q.
Proof.
  intros I N. unfold deref, reset_new. cbn [points heap]. unfold set_points, set_heap. destruct (owner_eqb_spec q o) as [E|_]; [congruence|]. destruct (points s q) as [a|] eqn:P; [|reflexivity].
  rewrite (delete_other s o q a I N P). destruct (Nat.eqb_spec a (next s)) as [E|_]; [|reflexivity]. apply (owned_lt _ _ _ I) in P. lia.
Qed.
Lemma deref_move_same q p s : inv s -> q <> p -> deref (move q p s) p = deref s q.
Proof.
  intros I N. unfold deref, move. cbn [points heap]. unfold set_points. destruct (owner_eqb_spec p q) as [E|_]; [congruence|]. rewrite owner_eqb_refl. destruct (points s q) as [a|] eqn:P; [|reflexivity].
  rewrite (delete_other s p q a I N P). reflexivity.
Qed.
Lemma deref_move_other q p s o : inv s -> o <> q -> o <> p -> deref (move q p s) o = deref s o.
Proof.
  intros I N M. unfold deref, move. cbn [points heap]. unfold set_points. destruct (owner_eqb_spec o q) as [E|_]; [congruence|]. destruct (owner_eqb_spec o p) as [E|_]; [congruence|]. destruct (points s o) as [a|] eqn:P; [|reflexivity].
  rewrite (delete_other s p o a I M P). reflexivity.
Qed.
Lemma deref_clear_other p s o : inv s -> o <> p -> deref (clear p s) o = deref s o.
Proof.
  intros I M. unfold deref, clear. cbn [points heap]. unfold set_points. destruct (owner_eqb_spec o p) as [E|_]; [congruence|]. destruct (points s o) as [a|] eqn:P; [|reflexivity].
  rewrite (delete_other s p o a I M P). reflexivity.
Qed.
Lemma deref_set_camera k b s o : deref (set_camera k b s) o = deref s o.
Proof. reflexivity. Qed.
Lemma get_set_same k b s : get_camera (set_camera k (Some b) s) k = Ok b.
Proof. unfold get_camera, set_camera. cbn. rewrite Nat.eqb_refl. reflexivity. Qed.
Lemma get_set_other k b s j : j <> k -> get_camera (set_camera k b s) j = get_camera s j.
Proof. intros N. unfold get_camera, set_camera. cbn. destruct (Nat.eqb_spec j k); [congruence|reflexivity]. Qed.

Lemma report_store k b o s : inv s -> (forall j, o <> OfCamera j) -> report (store k b o s) k = bind (deref s o) (fun d => Ok (b, d)).
Proof. intros I N. unfold report, store. rewrite get_set_same. cbn [bind]. rewrite deref_set_camera, deref_move_same by (try exact I; apply N). reflexivity. Qed.
Lemma report_store_other k b o s j : inv s -> (forall j, o <> OfCamera j) -> j <> k -> report (store k b o s) j = report s j.
Proof.
  intros I N J. unfold report, store. rewrite get_set_other by exact J. rewrite deref_set_camera, deref_move_other; [reflexivity|exact I|intros E; apply (N j); congruence|congruence].
Qed.
Lemma report_reset_other o d s j : inv s -> OfCamera j <> o -> report (reset_new o d s) j = report s j.
Proof. intros I N. unfold report. rewrite deref_reset_other by assumption. reflexivity. Qed.

(** The factory: the camera has exactly what it was made from, and everything else stops the program. *)
Theorem lox_create s k i intr w h co t lt : reachable s ->
  (is_valid i = true /\ t <> LidarType /\ meaningful t intr /\ sound_lens lt co ->
    exists s', step s (Create k i intr w h co t lt) = Ok s' /\ report s' k = Ok (Body t i intr w h, given lt co) /\ camera_valid (Body t i intr w h) = true) /\
  (~ (is_valid i = true /\ t <> LidarType /\ meaningful t intr /\ sound_lens lt co) -> step s (Create k i intr w h co t lt) = Abort).
Proof.
  intros R. apply reachable_inv in R as I. destruct (rpx_valid t intr) as [V _].
  assert (L : lens_valid lt co = true <-> sound_lens lt co).
  { pose proof (rpx_lens lt [] co co) as H. unfold set_lens in H. destruct (lens_valid lt co); [split; [intros _; apply H; reflexivity|reflexivity]|]. split; [discriminate|]. intros S. destruct H as [_ H]. discriminate H. split; [reflexivity|exact S]. }
  rewrite <- V, <- L. cbn [step]. split.
  - intros (A & B & C & D). rewrite A, D, C. assert (E : new_lens lt co = Ok (given lt co)) by (unfold new_lens, given; destruct lt; rewrite ?D; reflexivity).
    rewrite E. cbn [bind]. assert (VL : lens_valid (l_type (given lt co)) (coefficients (given lt co)) = true) by (apply new_lens_ok in E; apply E).
    exists (store k (Body t i intr w h) local (reset_new local (given lt co) s)). split; [destruct t; congruence|]. split.
    + rewrite report_store; [rewrite deref_reset_same; reflexivity|apply inv_reset_new; [exact I|exact VL|vars]|discriminate].
    + unfold camera_valid. cbn [b_id b_type intrinsics]. rewrite A, C. reflexivity.
  - intros N. destruct (is_valid i); [|reflexivity]. destruct (lens_valid lt co) eqn:D.
    + assert (E : exists d, new_lens lt co = Ok d) by (unfold new_lens; rewrite D; destruct lt; eauto). destruct E as [d ->]. cbn [bind].
      destruct t; try reflexivity; (destruct (parameters_valid _ intr); [|reflexivity]); exfalso; apply N; repeat split; try reflexivity; discriminate.
    + assert (E : new_lens lt co = Abort) by (unfold new_lens; destruct lt; try (rewrite D; reflexivity); discriminate D). rewrite E. reflexivity.
Qed.
Print Assumptions lox_create.
(** The constructors without a lens. *)
Theorem lox_plain s k t i intr w h : reachable s ->
  (meaningful t intr -> exists s', step s (ConstructPlain k t i intr w h) = Ok s' /\ report s' k = Ok (Body t i intr w h, Lens NoLens [])) /\
  (~ meaningful t intr -> step s (ConstructPlain k t i intr w h) = Abort).
Proof.
  intros R. apply reachable_inv in R as I. destruct (rpx_valid t intr) as [V _]. rewrite <- V. cbn [step]. split.
  - intros ->. eexists. split; [reflexivity|]. rewrite report_store; [rewrite deref_reset_same; reflexivity|apply inv_reset_new; [exact I|reflexivity|vars]|discriminate].
  - intros N. destruct (parameters_valid t intr); [congruence|reflexivity].
Qed.
Print Assumptions lox_plain.
(** A lens goes from the variable of the caller into the camera; the variable is null afterwards and cannot be used for a second camera. *)
Theorem lox_moved s v d k t i intr w h : reachable s -> deref s (var v) = Ok d -> t <> LidarType -> meaningful t intr ->
  exists s', step s (Construct k t i intr w h v) = Ok s' /\ report s' k = Ok (Body t i intr w h, d) /\ points s' (var v) = None /\
  forall k' t' i' intr' w' h', t' <> LidarType -> step s' (Construct k' t' i' intr' w' h' v) = Abort.
Proof.
  intros R D T M. apply reachable_inv in R as I. apply (proj1 (rpx_valid t intr)) in M. cbn [step]. destruct (points s (var v)) as [a|] eqn:P; [|unfold deref in D; rewrite P in D; discriminate].
  exists (store k (Body t i intr w h) (var v) s). split; [rewrite M; destruct t; congruence|]. split; [rewrite report_store by (try exact I; discriminate); rewrite D; reflexivity|].
  assert (N : points (store k (Body t i intr w h) (var v) s) (var v) = None). { unfold store, set_camera, move. cbn [points]. unfold set_points. rewrite owner_eqb_refl. reflexivity. }
  split; [exact N|]. intros k' t' i' intr' w' h' T'. rewrite N. destruct t'; congruence.
Qed.
Print Assumptions lox_moved.
(** A clone says the same as the original (also its id), which does not change. *)
Theorem lox_clone s j k r : reachable s -> report s j = Ok r ->
  exists s', step s (Clone j k) = Ok s' /\ report s' k = Ok r /\ report s' j = Ok r.
Proof.
  intros R H. apply reachable_inv in R as I. unfold report in H. cbn [step]. destruct (get_camera s j) as [b| |] eqn:G; cbn [bind] in *; try discriminate.
  destruct (deref s (OfCamera j)) as [d| |] eqn:D; cbn [bind] in *; try discriminate. injection H as <-. eexists. split; [reflexivity|].
  assert (J : inv (reset_new local d s)) by (apply inv_reset_new; [exact I|apply (deref_ok _ _ _ I D)|vars]).
  assert (K : report (store k b local (reset_new local d s)) k = Ok (b, d)) by (rewrite report_store by (try exact J; discriminate); rewrite deref_reset_same; reflexivity).
  split; [exact K|]. destruct (Nat.eq_dec j k) as [->|N]; [exact K|]. rewrite report_store_other by (try exact J; try exact N; discriminate). rewrite report_reset_other by (try exact I; discriminate).
  unfold report. rewrite G. cbn [bind]. rewrite D. reflexivity.
Qed.
Print Assumptions lox_clone.
(** An operation changes what is reported by the camera it is about, and by no other. *)
Theorem lox_independent s o s' k : reachable s -> step s o = Ok s' -> ~ about o k -> report s' k = report s k.
Proof.
  intros R H A. apply reachable_inv in R as I. revert H. destruct o as [v t l|q i intr w h co t lt|q t i intr w h v|q t i intr w h|j q|q l|q n x|q l|q v|q|q i|q]; cbn [about] in A; cbn [step].
  - destruct (new_lens t l) as [d| |]; cbn [bind]; try discriminate. intros [= <-]. apply report_reset_other; [exact I|discriminate].
  - destruct (is_valid i); [|discriminate]. destruct (new_lens lt co) as [d| |] eqn:E; cbn [bind]; try discriminate. apply new_lens_ok in E as (_ & V & ->).
    assert (J : forall b, report (store q b local (reset_new local d s)) k = report s k).
    { intros b. rewrite report_store_other; [apply report_reset_other; [exact I|discriminate]|apply inv_reset_new; [exact I|exact V|vars]|discriminate|exact A]. }
    destruct t; try discriminate; (destruct (parameters_valid _ intr); [|discriminate]); intros [= <-]; apply J.
  - destruct t; try discriminate; (destruct (points s (var v)); [|discriminate]); (destruct (parameters_valid _ intr); [|discriminate]); intros [= <-]; apply report_store_other; try exact I; try exact A; discriminate.
  - destruct (parameters_valid t intr); [|discriminate]. intros [= <-]. rewrite report_store_other; [apply report_reset_other; [exact I|discriminate]|apply inv_reset_new; [exact I|reflexivity|vars]|discriminate|exact A].
  - destruct (get_camera s j) as [b| |]; cbn [bind]; try discriminate. destruct (deref s (OfCamera j)) as [d| |] eqn:E; cbn [bind]; try discriminate. intros [= <-].
    rewrite report_store_other; [apply report_reset_other; [exact I|discriminate]|apply inv_reset_new; [exact I|apply (deref_ok _ _ _ I E)|vars]|discriminate|exact A].
  - destruct (get_camera s q) as [b| |]; cbn [bind]; try discriminate. destruct (_ =? _); [|discriminate]. intros [= <-]. unfold report. rewrite get_set_other by exact A. reflexivity.
  - destruct (get_camera s q) as [b| |]; cbn [bind]; try discriminate. destruct (_ <? _); [|discriminate]. intros [= <-]. unfold report. rewrite get_set_other by exact A. reflexivity.
  - destruct (get_camera s q) as [b| |]; cbn [bind]; try discriminate. destruct (deref s (OfCamera q)) as [d| |]; cbn [bind]; try discriminate. destruct (lens_valid (l_type d) l); [|discriminate].
    destruct (points s (OfCamera q)) as [a|] eqn:P; [|discriminate]. intros [= <-]. unfold report, get_camera, deref. cbn [cameras points heap]. destruct (cameras s k); [|reflexivity]. cbn [bind].
    destruct (points s (OfCamera k)) as [c|] eqn:Q; [|reflexivity]. unfold set_heap. destruct (Nat.eqb_spec c a) as [->|_]; [|reflexivity]. exfalso. apply A. pose proof (single _ (i_owned _ I) _ _ _ Q P). congruence.
  - destruct (get_camera s q) as [b| |]; cbn [bind]; try discriminate. intros [= <-]. unfold report. rewrite deref_move_other by (try exact I; try discriminate; congruence). reflexivity.
  - destruct (get_camera s q) as [b| |]; cbn [bind]; try discriminate. intros [= <-]. apply report_reset_other; [exact I|congruence].
  - destruct (get_camera s q) as [b| |]; cbn [bind]; try discriminate. destruct (is_valid i); [|discriminate]. intros [= <-]. unfold report. rewrite get_set_other by exact A. reflexivity.
  - intros [= <-]. unfold report. rewrite get_set_other by exact A. rewrite deref_set_camera, deref_clear_other by (try exact I; congruence). reflexivity.
Qed.
Print Assumptions lox_independent.
(** The setters do what they say: what is reported afterwards. *)
Theorem lox_setters s k b d : reachable s -> report s k = Ok (b, d) ->
  (forall l, length l = parameter_size (b_type b) -> exists s', step s (SetParameters k l) = Ok s' /\ report s' k = Ok (Body (b_type b) (b_id b) l (image_width b) (image_height b), d)) /\
  (forall l, length l <> parameter_size (b_type b) -> step s (SetParameters k l) = Abort) /\
  (forall l, sound_lens (l_type d) l -> exists s', step s (SetLensParameters k l) = Ok s' /\ report s' k = Ok (b, Lens (l_type d) l)) /\
  (forall l, ~ sound_lens (l_type d) l -> step s (SetLensParameters k l) = Abort) /\
  (forall v e, deref s (var v) = Ok e -> exists s', step s (SetDistortion k v) = Ok s' /\ report s' k = Ok (b, e) /\ points s' (var v) = None) /\
  (exists s', step s (RemoveDistortion k) = Ok s' /\ report s' k = Ok (b, Lens NoLens [])) /\
  (forall i, is_valid i = true -> exists s', step s (SetId k i) = Ok s' /\ report s' k = Ok (Body (b_type b) i (intrinsics b) (image_width b) (image_height b), d)) /\
  (forall i, is_valid i = false -> step s (SetId k i) = Abort) /\
  (exists s', step s (Drop k) = Ok s' /\ report s' k = Undef).
Proof.
  intros R H. apply reachable_inv in R as I. unfold report in H. destruct (get_camera s k) as [b'| |] eqn:G; cbn [bind] in H; try discriminate.
  destruct (deref s (OfCamera k)) as [d'| |] eqn:D; cbn [bind] in H; try discriminate. injection H as -> ->.
  assert (L : forall l, lens_valid (l_type d) l = true <-> sound_lens (l_type d) l).
  { intros l. pose proof (rpx_lens (l_type d) [] l l) as H. unfold set_lens in H. destruct (lens_valid (l_type d) l); [split; [intros _; apply H; reflexivity|reflexivity]|]. split; [discriminate|]. intros S. destruct H as [_ H]. discriminate H. split; [reflexivity|exact S]. }
  cbn [step]. rewrite G. cbn [bind]. repeat split.
  - intros l E. destruct (Nat.eqb_spec (parameter_size (b_type b)) (length l)) as [_|N]; [|congruence]. eexists. split; [reflexivity|]. unfold report. rewrite get_set_same. cbn [bind]. rewrite deref_set_camera, D. reflexivity.
  - intros l E. destruct (Nat.eqb_spec (parameter_size (b_type b)) (length l)); [congruence|reflexivity].
  - intros l S. rewrite D. cbn [bind]. apply L in S. rewrite S. unfold deref in D. destruct (points s (OfCamera k)) as [a|] eqn:P; [|discriminate]. eexists. split; [reflexivity|].
    unfold report, get_camera in *. cbn [cameras]. destruct (cameras s k); [|discriminate]. injection G as ->. cbn [bind]. unfold deref. cbn [points heap]. rewrite P. unfold set_heap. rewrite Nat.eqb_refl. reflexivity.
  - intros l S. rewrite D. cbn [bind]. rewrite <- L in S. destruct (lens_valid (l_type d) l); [congruence|reflexivity].
  - intros v e E. eexists. split; [reflexivity|]. split.
    + unfold report. rewrite deref_move_same by (try exact I; discriminate). change (get_camera (move (var v) (OfCamera k) s) k) with (get_camera s k). rewrite G, E. reflexivity.
    + unfold move. cbn [points]. unfold set_points. rewrite owner_eqb_refl. reflexivity.
  - eexists. split; [reflexivity|]. unfold report. rewrite deref_reset_same. change (get_camera (reset_new (OfCamera k) (Lens NoLens []) s) k) with (get_camera s k). rewrite G. reflexivity.
  - intros i V. rewrite V. eexists. split; [reflexivity|]. unfold report. rewrite get_set_same. cbn [bind]. rewrite deref_set_camera, D. reflexivity.
  - intros i V. rewrite V. reflexivity.
  - eexists. split; [reflexivity|]. unfold report, get_camera, set_camera. cbn [cameras]. rewrite Nat.eqb_refl. reflexivity.
Qed.
Print Assumptions lox_setters.

(** ** Valid parameters *)
(** Lenses stay sound. *)
Theorem lox_lens s k b d : reachable s -> report s k = Ok (b, d) -> sound_lens (l_type d) (coefficients d).
Proof.
  intros R H. apply reachable_inv in R as I. unfold report in H. destruct (get_camera s k); cbn [bind] in H; try discriminate. destruct (deref s (OfCamera k)) as [e| |] eqn:D; cbn [bind] in H; try discriminate. injection H as _ ->.
  apply (deref_ok _ _ _ I) in D. apply (rpx_lens (l_type d) [] (coefficients d) (coefficients d)). unfold set_lens. rewrite D. reflexivity.
Qed.
Print Assumptions lox_lens.
Lemma step_intrinsics s o s' : ~ unchecked o -> (forall k b, cameras s k = Some b -> parameters_valid (b_type b) (intrinsics b) = true) -> step s o = Ok s' ->
  forall k b, cameras s' k = Some b -> parameters_valid (b_type b) (intrinsics b) = true.
Proof.
  intros U V. assert (SC : forall j b0 q, (b0 = None \/ exists b1, b0 = Some b1 /\ parameters_valid (b_type b1) (intrinsics b1) = true) -> (forall k, cameras q k = cameras s k) -> forall k b, cameras (set_camera j b0 q) k = Some b -> parameters_valid (b_type b) (intrinsics b) = true).
  { intros j b0 q B Q k b. unfold set_camera. cbn [cameras]. destruct (k =? j).
    - destruct B as [->|(b1 & -> & B)]; [discriminate|]. intros [= <-]. exact B.
    - rewrite Q. apply V. }
  destruct o as [v t l|q i intr w h co t lt|q t i intr w h v|q t i intr w h|j q|q l|q n x|q l|q v|q|q i|q]; cbn [step]; cbn [unchecked] in U.
  - destruct (new_lens t l); cbn [bind]; try discriminate. intros [= <-]. exact V.
  - destruct (is_valid i); [|discriminate]. destruct (new_lens lt co); cbn [bind]; try discriminate. destruct (lens_valid lt co); [|discriminate].
    destruct t; try discriminate; (destruct (parameters_valid _ intr) eqn:P; [|discriminate]); intros [= <-]; apply SC; try reflexivity; right; eexists; (split; [reflexivity|exact P]).
  - destruct t; try discriminate; (destruct (points s (var v)); [|discriminate]); (destruct (parameters_valid _ intr) eqn:P; [|discriminate]); intros [= <-]; apply SC; try reflexivity; right; eexists; (split; [reflexivity|exact P]).
  - destruct (parameters_valid t intr) eqn:P; [|discriminate]. intros [= <-]. apply SC; [|reflexivity]. right. eexists. split; [reflexivity|exact P].
  - destruct (get_camera s j) as [b| |] eqn:G; cbn [bind]; try discriminate. destruct (deref s (OfCamera j)); cbn [bind]; try discriminate. intros [= <-]. apply SC; [|reflexivity]. right. eexists. split; [reflexivity|]. apply camera_ok in G. apply (V _ _ G).
  - tauto.
  - tauto.
  - destruct (get_camera s q); cbn [bind]; try discriminate. destruct (deref s (OfCamera q)) as [d| |]; cbn [bind]; try discriminate. destruct (lens_valid _ l); [|discriminate]. destruct (points s (OfCamera q)); [|discriminate]. intros [= <-]. exact V.
  - destruct (get_camera s q); cbn [bind]; try discriminate. intros [= <-]. exact V.
  - destruct (get_camera s q); cbn [bind]; try discriminate. intros [= <-]. exact V.
  - destruct (get_camera s q) as [b| |] eqn:G; cbn [bind]; try discriminate. destruct (is_valid i); [|discriminate]. intros [= <-]. apply SC; [|reflexivity]. right. eexists. split; [reflexivity|]. apply camera_ok in G. apply (V _ _ G).
  - intros [= <-]. apply SC; [left; reflexivity|reflexivity].
Qed.
(** So do intrinsics, unless they are set. *)
Theorem lox_valid_partial l s k b : run initial l = Ok s -> (forall o, In o l -> ~ unchecked o) -> cameras s k = Some b -> meaningful (b_type b) (intrinsics b).
Proof.
  assert (V : forall k b, cameras initial k = Some b -> parameters_valid (b_type b) (intrinsics b) = true) by (cbn; discriminate).
  revert V. generalize initial. induction l as [|o l IH]; intros q V; cbn [run].
  - intros [= <-] _ C. apply (proj1 (rpx_valid _ _)). apply (V _ _ C).
  - destruct (step q o) as [q'| |] eqn:E; cbn [bind]; try discriminate. intros H U C. apply (IH q'); [|exact H|intros p P; apply U; right; exact P|exact C]. apply (step_intrinsics q o q'); [apply U; left; reflexivity|exact V|exact E].
Qed.
Print Assumptions lox_valid_partial.

(** ** Examples and limits *)
Definition some_id : id := from_uint64 1 0.
Definition vga_intrinsics : list R := [400; 300; 320; 240]%R.
Lemma vga_meaningful : meaningful PinholeType vga_intrinsics.
Proof. split; [reflexivity|]. cbn. intros x [<-|[<-|[<-|[<-|[]]]]]; lra. Qed.
(** A camera with a fisheye lens, its clone, whose lens is removed, and a lens that moves from a variable. *)
Example lox_ex : exists s, run initial [Create 0 some_id vga_intrinsics 640 480 [1%R] PinholeType Fisheye; Clone 0 1; RemoveDistortion 1; MakeLens 7 RadTan [0; 0; 0; 0]%R; SetDistortion 1 7] = Ok s /\
  report s 0 = Ok (Body PinholeType some_id vga_intrinsics 640 480, Lens Fisheye [1%R]) /\ report s 1 = Ok (Body PinholeType some_id vga_intrinsics 640 480, Lens RadTan [0; 0; 0; 0]%R).
Proof.
  assert (A : lens_valid Fisheye [1%R] = true). { unfold lens_valid. destruct (Rlt_dec _ _); [reflexivity|]. destruct (Rle_dec _ _); [|exfalso; lra]. destruct (Rle_dec _ _); [reflexivity|exfalso; lra]. }
  assert (B : parameters_valid PinholeType vga_intrinsics = true) by (apply (proj1 (rpx_valid _ _)), vga_meaningful).
  unfold run. cbn [step]. replace (is_valid some_id) with true by reflexivity. unfold new_lens. rewrite A, B. cbn [bind]. eexists. split; [reflexivity|]. split; reflexivity.
Qed.
(** The factory makes no lidars, although they are a camera type and can be read from a document. *)
Theorem lox_lidar_refuted : meaningful LidarType [1; 1; 0; 0]%R /\ forall s k i intr w h co lt, step s (Create k i intr w h co LidarType lt) = Abort.
Proof.
  split; [split; [reflexivity|cbn; lra]|]. intros. cbn [step]. destruct (is_valid i); [|reflexivity]. unfold new_lens. destruct lt; destruct (lens_valid _ co); reflexivity.
Qed.
Print Assumptions lox_lidar_refuted.
(** setParameters looks only at the number of parameters: a valid camera becomes invalid. *)
Theorem lox_valid_refuted : exists s k b d, reachable s /\ report s k = Ok (b, d) /\ camera_valid b = false.
Proof.
  assert (B : parameters_valid PinholeType vga_intrinsics = true) by (apply (proj1 (rpx_valid _ _)), vga_meaningful).
  set (b := Body PinholeType some_id vga_intrinsics 640 480).
  assert (H : exists s, run initial [ConstructPlain 0 PinholeType some_id vga_intrinsics 640 480; SetParameters 0 [-400; 300; 320; 240]%R] = Ok s /\ report s 0 = Ok (Body PinholeType some_id [-400; 300; 320; 240]%R 640 480, Lens NoLens [])).
  { unfold run. cbn [step]. rewrite B. cbn [bind]. eexists. split; reflexivity. }
  destruct H as (s & H & G). exists s, 0, (Body PinholeType some_id [-400; 300; 320; 240]%R 640 480), (Lens NoLens []). split; [eexists; exact H|]. split; [exact G|].
  destruct (camera_valid _) eqn:E; [|reflexivity]. apply andb_prop in E as [_ E]. apply (proj1 (rpx_valid _ _)) in E. cbn in E. destruct E as [_ E]. specialize (E (-400)%R (or_introl eq_refl)). lra.
Qed.
Print Assumptions lox_valid_refuted.
(** setDistortion accepts null, for instance a variable that was moved from: afterwards the getters of the lens stop the program. *)
Theorem lox_null_refuted : exists l s, run initial l = Ok s /\ cameras s 0 <> None /\ report s 0 = Abort /\ step s (Clone 0 1) = Abort.
Proof.
  assert (B : parameters_valid PinholeType vga_intrinsics = true) by (apply (proj1 (rpx_valid _ _)), vga_meaningful).
  exists [MakeLens 7 RadTan [0; 0; 0; 0]%R; ConstructPlain 0 PinholeType some_id vga_intrinsics 640 480; SetDistortion 0 7; SetDistortion 0 7].
  unfold run. cbn [step]. rewrite B. cbn [bind]. eexists. split; [reflexivity|]. split; [discriminate|]. split; reflexivity.
Qed.
Print Assumptions lox_null_refuted.
(** The absent lens takes any coefficients, although it has none. *)
Theorem lox_no_lens_refuted : exists l s b, run initial l = Ok s /\ report s 0 = Ok (b, Lens NoLens [1; 2; 3]%R).
Proof.
  assert (B : parameters_valid PinholeType vga_intrinsics = true) by (apply (proj1 (rpx_valid _ _)), vga_meaningful).
  exists [ConstructPlain 0 PinholeType some_id vga_intrinsics 640 480; SetLensParameters 0 [1; 2; 3]%R].
  unfold run. cbn [step]. rewrite B. cbn [bind]. eexists. eexists. split; [reflexivity|]. reflexivity.
Qed.
Print Assumptions lox_no_lens_refuted.
