(** Lemmas about the documents of cameras and rigs. *)
From Coq Require Import ZArith List Bool String Lia.
From Verif Require Import HashIdModel HashIdSpec HashIdProofs HashIdProps YamlMatrixModel YamlMatrixSpec YamlMatrixProps SensorYamlModel SensorYamlSpec.
Import ListNotations.
Local Open Scope string_scope.

(** ** Nodes *)
Fixpoint view_embed (n : node string) : view (embed n) = n.
Proof.
  destruct n as [|t|l|r k d]; [reflexivity|reflexivity| |].
  - cbn [embed view]. f_equal. rewrite map_map. induction l as [|x l IH]; [reflexivity|]. cbn [map]. rewrite view_embed, IH. reflexivity.
  - destruct r as [r|], k as [k|], d as [d|]; cbn [embed app view]; cbn; rewrite ?view_embed; reflexivity.
Qed.
Lemma concat_singletons {A} (l : list A) : List.concat (map (fun x => [x]) l) = l.
Proof. induction l as [|x l IH]; [reflexivity|]. cbn. rewrite IH. reflexivity. Qed.

Section Proofs.
Context {S : Type} (c : texts S) (F : faithful c).

Lemma matrix_node_read m wr wc : in_range (m_rows m) (m_cols m) -> shaped (m_rows m) (m_cols m) (coeffs m) -> fits wr wc (m_rows m) (m_cols m) ->
  exists n, matrix_node c m = Done n /\ as_matrix c wr wc n = Done m.
Proof.
  intros R SH FI. destruct (ymx_round_trip (num c) (fun x => x) m wr wc (f_emit _ F) (f_put _ F) (f_index _ F) R SH FI) as (n & E & D).
  exists (embed n). unfold matrix_node, as_matrix. rewrite E, view_embed, D. split; [reflexivity|]. destruct m as [r k d]. cbn. f_equal. f_equal.
  rewrite <- (map_id d) at 2. apply map_ext. intros l. apply map_id.
Qed.
Lemma vector_node_read l : l <> [] -> (Z.of_nat (List.length l) < 2 ^ 31)%Z -> exists n, vector_node c l = Done n /\ as_vector c n = Done l.
Proof.
  intros L B. assert (0 < Z.of_nat (List.length l))%Z by (destruct l; [contradiction|cbn; lia]).
  destruct (matrix_node_read (Matrix (Z.of_nat (List.length l)) 1 (map (fun x => [x]) l)) None (Some 1%Z)) as (n & E & D); cbn [m_rows m_cols coeffs].
  - unfold in_range. lia.
  - split; [rewrite map_length; reflexivity|]. apply Forall_forall. intros r R. apply in_map_iff in R. destruct R as (x & <- & _). reflexivity.
  - split; [exact I|reflexivity].
  - exists n. split; [exact E|]. unfold as_vector. rewrite D. cbn [coeffs]. rewrite concat_singletons. reflexivity.
Qed.
Lemma good_intrinsics_valid k l : good_intrinsics c k l <-> intrinsics_valid c k l = true.
Proof.
  split.
  - destruct k; cbn.
    + intros (fu & fv & cu & cv & -> & P). apply Forall_cons_iff in P as [-> P]. apply Forall_cons_iff in P as [-> P]. apply Forall_cons_iff in P as [-> P]. apply Forall_cons_iff in P as [-> _]. reflexivity.
    + intros (xi & fu & fv & cu & cv & -> & -> & P). apply Forall_cons_iff in P as [-> P]. apply Forall_cons_iff in P as [-> P]. apply Forall_cons_iff in P as [-> P]. apply Forall_cons_iff in P as [-> _]. reflexivity.
    + intros (h & v & a & b & -> & -> & ->). reflexivity.
  - destruct k; cbn; intros H.
    + destruct l as [|fu [|fv [|cu [|cv [|? ?]]]]]; try discriminate. rewrite !andb_true_iff in H. destruct H as (((? & ?) & ?) & ?). exists fu, fv, cu, cv. auto 6.
    + destruct l as [|xi [|fu [|fv [|cu [|cv [|? ?]]]]]]; try discriminate. rewrite !andb_true_iff in H. destruct H as ((((? & ?) & ?) & ?) & ?). exists xi, fu, fv, cu, cv. auto 8.
    + destruct l as [|h [|v [|a [|b [|? ?]]]]]; try discriminate. rewrite !andb_true_iff in H. destruct H as (? & ?). exists h, v, a, b. auto.
Qed.
Lemma good_lens_valid k l : k <> NoLens -> good_lens c k l <-> lens_valid c k l = true.
Proof.
  intros K. destruct k; [contradiction| | |]; cbn.
  - destruct l as [|? [|? [|? [|? [|? ?]]]]]; split; intros; try discriminate; reflexivity.
  - split; [intros (w & -> & W); exact W|]. destruct l as [|w [|? ?]]; try discriminate. intros W. exists w. auto.
  - destruct l as [|? [|? [|? [|? [|? ?]]]]]; split; intros; try discriminate; reflexivity.
Qed.
Lemma lens_size k l : good_lens c k l -> k <> NoLens -> l <> [] /\ (Z.of_nat (List.length l) < 2 ^ 31)%Z.
Proof. intros G K. destruct k; [contradiction| | |]; cbn in G; [|destruct G as (w & -> & _); cbn; split; [discriminate|lia]|]; (destruct l; [discriminate|]; split; [discriminate|rewrite G; lia]). Qed.
Lemma intrinsics_size k l : good_intrinsics c k l -> l <> [] /\ (Z.of_nat (List.length l) < 2 ^ 31)%Z.
Proof.
  destruct k; cbn.
  - intros (fu & fv & cu & cv & -> & _). cbn. split; [discriminate|lia].
  - intros (xi & fu & fv & cu & cv & -> & _). cbn. split; [discriminate|lia].
  - intros (h & v & a & b & -> & _). cbn. split; [discriminate|lia].
Qed.
Lemma id_string_read h : good_header h -> (id_string (h_id h) =? "") = false /\ from_hex_string (list_byte_of_string (id_string (h_id h))) = Parsed (h_id h) /\ is_valid (h_id h) = true.
Proof.
  intros [I V]. unfold id_string. rewrite list_byte_of_string_of_list_byte. destruct (hx_roundtrip (h_id h) I) as (_ & L & P). split; [|split; [exact P|apply valid_spec; assumption]].
  destruct (String.eqb_spec (string_of_list_byte (hex_string (h_id h))) "") as [E|_]; [|reflexivity]. exfalso. apply (f_equal list_byte_of_string) in E. rewrite list_byte_of_string_of_list_byte in E. rewrite E in L. discriminate.
Qed.
End Proofs.

(** ** Fields of documents *)
Definition field (n : ynode) (key : string) : option ynode := match n with YMap kvs => lookup key kvs | _ => None end.
Lemma safe_get_done {A} (f : ynode -> outcome A) n key m a : field n key = Some m -> f m = Done a -> safe_get f n key = Done (Some a).
Proof. destruct n as [| | |kvs]; try discriminate. cbn [field]. intros E D. unfold safe_get. rewrite E, D. reflexivity. Qed.
Lemma safe_get_absent {A} (f : ynode -> outcome A) n key : field n key = None -> safe_get f n key = Done None.
Proof. destruct n as [| | |kvs]; try reflexivity. cbn [field]. intros E. unfold safe_get. rewrite E. reflexivity. Qed.
Lemma has_key_field n key : has_key n key = match field n key with Some _ => true | None => false end.
Proof. destruct n; reflexivity. Qed.
Definition is_map (n : ynode) : Prop := match n with YMap _ => True | _ => False end.
Lemma load_header_fields fresh n h h' : is_map n -> good_header h -> field n "id" = Some (YScalar (id_string (h_id h))) -> field n "topic" = Some (YScalar (h_topic h)) ->
  field n "description" = Some (YScalar (h_description h)) -> load_header fresh n h' = Ret true h.
Proof.
  intros M G I T D. destruct (id_string_read h G) as (E & P & V). destruct n as [| | |kvs]; try contradiction. unfold load_header.
  rewrite (safe_get_done as_string _ _ _ (id_string (h_id h)) I eq_refl). cbn [with_value]. rewrite E, P. cbn [ybind]. rewrite V.
  rewrite (safe_get_done as_string _ _ _ (h_topic h) T eq_refl). cbn [with_value]. rewrite (safe_get_done as_string _ _ _ (h_description h) D eq_refl). cbn [with_value].
  destruct h as [i t d]. reflexivity.
Qed.
Section Camera.
Context {S : Type} (c : texts S).
(** The fields of the document of a camera. *)
Record camera_document (x : camera S) (n : ynode) : Prop := CameraDocument {
  cd_map : is_map n;
  cd_id : field n "id" = Some (YScalar (id_string (h_id (hd x)))); cd_topic : field n "topic" = Some (YScalar (h_topic (hd x)));
  cd_description : field n "description" = Some (YScalar (h_description (hd x)));
  cd_compressed : field n "compressed" = Some (YScalar (put_bool c (compressed x)));
  cd_delay : field n "line-delay-nanoseconds" = Some (YScalar (put_uint c (line_delay x)));
  cd_height : field n "image_height" = Some (YScalar (put_uint c (height x))); cd_width : field n "image_width" = Some (YScalar (put_uint c (width x)));
  cd_type : field n "type" = Some (YScalar (class_string (ty x)));
  cd_intrinsics : exists m, field n "intrinsics" = Some m /\ as_vector c m = Done (intrinsics x);
  cd_lens : match lens_type x with
            | NoLens => field n "distortion" = None
            | k => exists m p, field n "distortion" = Some m /\ is_map m /\ field m "type" = Some (YScalar (lens_string k)) /\ field m "parameters" = Some p /\ as_vector c p = Done (lens_params x)
            end }.
Lemma serialize_document x : faithful c -> good_camera c x -> exists n, serialize_camera c x = Done n /\ camera_document x n.
Proof.
  intros F (GH & GI & GL). destruct (intrinsics_size c _ _ GI) as [I1 I2]. destruct (vector_node_read c F _ I1 I2) as (ni & Ei & Di).
  unfold serialize_camera, save_header. destruct (id_string_read _ GH) as (_ & _ & ->). cbn [obind]. unfold save_camera_fields. rewrite Ei. cbn [obind].
  destruct (lens_type x) eqn:L.
  1:{ eexists. split; [reflexivity|]. constructor; try reflexivity; [exists ni; split; [reflexivity|exact Di]|rewrite L; reflexivity]. }
  all: assert (L' : lens_type x <> NoLens) by congruence; rewrite <- L in GL; destruct (lens_size c _ _ GL L') as [L1 L2]; destruct (vector_node_read c F _ L1 L2) as (np & Ep & Dp); rewrite Ep; cbn [obind].
  all: eexists; split; [reflexivity|]; constructor; try reflexivity; [exists ni; split; [reflexivity|exact Di]|rewrite L; eexists _, np; split; [reflexivity|split; [exact I|split; [reflexivity|split; [reflexivity|exact Dp]]]]].
Qed.
Lemma load_lens_document x n : camera_document x n -> good_camera c x -> load_lens c n = Done (Some (lens_type x, lens_params x)).
Proof.
  intros [M _ _ _ _ _ _ _ _ _ CL] (_ & _ & GL). destruct n as [| | |kvs]; try contradiction. unfold load_lens. cbn [field] in CL. destruct (lens_type x) eqn:L.
  1:{ rewrite CL. cbn in GL. rewrite GL. reflexivity. }
  all: destruct CL as (m & p & E & MM & Et & Ep & Dp); rewrite E; destruct m as [| | |kvs']; try contradiction; rewrite (safe_get_done as_string _ _ _ _ Et eq_refl); cbn [obind];
    rewrite (safe_get_done (as_vector c) _ _ _ _ Ep Dp); cbn [obind]; rewrite <- L in GL; apply (good_lens_valid c) in GL; [|congruence]; rewrite L in GL; cbn [lens_string parse_lens String.eqb Ascii.eqb Bool.eqb];
    unfold parse_lens; cbn [String.eqb Ascii.eqb Bool.eqb]; rewrite GL; reflexivity.
Qed.
Lemma parse_class_string k : parse_class (class_string k) = Some k.
Proof. destruct k; reflexivity. Qed.
Lemma load_camera_document x n y : faithful c -> camera_document x n -> good_camera c x -> in_types x -> cl y = cl x -> hd y = hd x -> load_camera c n y = Ret true (with_mask (mask y) x).
Proof.
  intros F CD G (TY & W & H & D) C HD. destruct y as [cl0 hd0 ty0 lt0 lp0 w0 h0 in0 ld0 co0 mk0]. cbn [cl hd mask] in *. subst cl0 hd0. unfold load_camera. rewrite (load_lens_document x n CD G). destruct CD as [M _ _ _ CC CY CH CW CT (ni & NI & DI) _]. cbn [with_value].
  rewrite (safe_get_done (as_uint c 32) _ _ _ (width x) CW) by (cbn [as_uint]; rewrite (f_uint _ F 32 _ W); reflexivity). cbn [with_value].
  rewrite (safe_get_done (as_uint c 32) _ _ _ (height x) CH) by (cbn [as_uint]; rewrite (f_uint _ F 32 _ H); reflexivity). cbn [with_value].
  rewrite (safe_get_done as_string _ _ _ (class_string (ty x)) CT eq_refl). cbn [with_value]. rewrite parse_class_string. rewrite (safe_get_done (as_vector c) _ _ _ _ NI DI). cbn [with_value].
  cbn [set_intrinsics set_type set_height set_width set_lens fst snd cl]. rewrite (proj1 (good_intrinsics_valid c _ _) (proj1 (proj2 G))).
  rewrite (safe_get_done (as_uint c 64) _ _ _ (line_delay x) CY) by (cbn [as_uint]; rewrite (f_uint _ F 64 _ D); reflexivity). cbn [with_value]. rewrite has_key_field, CC.
  rewrite (safe_get_done (as_bool c) _ _ _ (compressed x) CC) by (cbn [as_bool]; rewrite (f_bool _ F); reflexivity). cbn [with_value].
  reflexivity.
Qed.
Lemma deserialize_document x n fresh y : faithful c -> camera_document x n -> good_camera c x -> in_types x -> cl y = cl x -> deserialize_camera c fresh n y = Ret true (with_mask (mask y) x).
Proof.
  intros F CD G T C. unfold deserialize_camera. rewrite (load_header_fields fresh n (hd x) (hd y) (cd_map _ _ CD) (proj1 G) (cd_id _ _ CD) (cd_topic _ _ CD) (cd_description _ _ CD)). cbn [ybind].
  destruct y as [cl0 hd0 ty0 lt0 lp0 w0 h0 in0 ld0 co0 mk0]. exact (load_camera_document x n (Camera cl0 (hd x) ty0 lt0 lp0 w0 h0 in0 ld0 co0 mk0) F CD G T C eq_refl).
Qed.
Lemma create_document x n fresh : faithful c -> camera_document x n -> good_camera c x -> in_types x -> create_camera c fresh (Some n) = Ret true (Some (with_mask None x)).
Proof.
  intros F CD G T. unfold create_camera. destruct n as [| | |kvs]; try (destruct (cd_map _ _ CD); fail). rewrite (safe_get_done as_string _ _ _ (class_string (ty x)) (cd_type _ _ CD) eq_refl). cbn [with_value].
  rewrite parse_class_string. rewrite (deserialize_document x _ fresh (default_camera (ty x) fresh) F CD G T) by (cbn [cl default_camera]; apply T). reflexivity.
Qed.
End Camera.
