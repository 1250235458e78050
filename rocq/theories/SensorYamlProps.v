(** C90 (documents of cameras), C91 (documents of rigs), C92 (reading arbitrary documents). *)
From Coq Require Import ZArith List Bool String Lia DecimalString DecimalZ.
From Verif Require Import HashIdModel HashIdSpec HashIdProofs YamlMatrixModel YamlMatrixSpec SensorYamlModel SensorYamlSpec SensorYamlProofs.
Import ListNotations.
Local Open Scope string_scope.

(** ** C90 *)
(** A valid camera is written, and reading the document into an object of the same class - whatever it was before - or with the factory gives the same camera. Only the mask is not stored. *)
Theorem sgx_camera_round_trip {S} (c : texts S) (x : camera S) : faithful c -> good_camera c x -> in_types x ->
  exists n, serialize_camera c x = Done n /\
    (forall fresh y, cl y = cl x -> deserialize_camera c fresh n y = Ret true (with_mask (mask y) x)) /\
    (forall fresh, create_camera c fresh (Some n) = Ret true (Some (with_mask None x))).
Proof.
  intros F G T. destruct (serialize_document c x F G) as (n & E & D). exists n. split; [exact E|]. split; intros fresh; [intros y C; apply deserialize_document; assumption|apply create_document; assumption].
Qed.
Print Assumptions sgx_camera_round_trip.
(** Texts for examples: decimal numbers, as integers. *)
Definition get_Z (t : string) : option Z := option_map Z.of_int (NilZero.int_of_string t).
Definition put_Z (z : Z) : string := NilZero.string_of_int (Z.to_int z).
Definition plain : texts Z := {|
  num := Codec string Z put_Z put_Z get_Z put_Z get_Z;
  put_bool := fun b => if b then "true" else "false"; get_bool := fun t => if t =? "true" then Some true else if t =? "false" then Some false else None;
  put_uint := put_Z; get_uint := fun bits t => match get_Z t with Some z => if ((0 <=? z) && (z <? 2 ^ bits))%Z then Some z else None | None => None end;
  positive := fun z => (0 <? z)%Z; non_negative := fun z => (0 <=? z)%Z; fisheye_w := fun z => (z =? 1)%Z |}.
Lemma get_put_Z z : get_Z (put_Z z) = Some z.
Proof.
  unfold get_Z, put_Z. rewrite NilZero.isi; [cbn [option_map]; rewrite DecimalZ.of_to; reflexivity| |].
  - destruct z as [|p|p]; cbn; [discriminate| |discriminate]. intros E. injection E as E. pose proof (DecimalPos.Unsigned.to_uint_nonnil p). contradiction.
  - destruct z as [|p|p]; cbn; [discriminate|discriminate|]. intros E. injection E as E. pose proof (DecimalPos.Unsigned.to_uint_nonnil p). contradiction.
Qed.
Lemma plain_faithful : faithful plain.
Proof.
  constructor; try exact get_put_Z; [intros []; reflexivity|]. intros bits z B. cbn [get_uint put_uint plain]. rewrite get_put_Z. destruct (Z.leb_spec 0 z); [|lia]. destruct (Z.ltb_spec z (2 ^ bits)); [reflexivity|lia].
Qed.
Definition id1 : id := from_uint64 1 2.
Definition id2 : id := from_uint64 3 4.
Definition cam1 : camera Z :=
  {| cl := Pinhole; hd := {| h_id := id1; h_topic := "/cam0"; h_description := "left" |}; ty := Pinhole; lens_type := RadTan; lens_params := [0; 1; -1; 0]%Z; width := 640; height := 480;
     intrinsics := [400; 300; 320; 240]%Z; line_delay := 12; compressed := true; mask := Some (640, 480)%Z |}.
Lemma cam1_good : good_camera plain cam1 /\ in_types cam1.
Proof.
  split; [split; [|split]|].
  - split; [reflexivity|discriminate].
  - cbn. exists 400%Z, 300%Z, 320%Z, 240%Z. split; [reflexivity|repeat constructor].
  - reflexivity.
  - unfold in_types. cbn [width height line_delay cam1]. repeat split; lia.
Qed.
Example sgx_camera_round_trip_ex : faithful plain /\ good_camera plain cam1 /\ in_types cam1.
Proof. split; [exact plain_faithful|exact cam1_good]. Qed.
(** Reading into a camera that has a mask keeps the mask, although the size of the image changes: lookups in the mask then go outside of it (camera.h isMasked). *)
Theorem sgx_mask_refuted : exists (x y : camera Z) n x', good_camera plain x /\ good_camera plain y /\ mask y = Some (width y, height y) /\
  serialize_camera plain x = Done n /\ deserialize_camera plain id2 n y = Ret true x' /\ mask x' <> None /\ mask x' <> Some (width x', height x').
Proof.
  set (y := set_width 100 (with_mask (Some (100, 480)%Z) cam1)).
  destruct (sgx_camera_round_trip plain cam1 plain_faithful (proj1 cam1_good) (proj2 cam1_good)) as (n & E & D & _).
  exists cam1, y, n, (with_mask (mask y) cam1). split; [apply cam1_good|]. split; [exact (proj1 cam1_good)|]. split; [reflexivity|]. split; [exact E|]. split; [apply D; reflexivity|]. split; discriminate.
Qed.
Print Assumptions sgx_mask_refuted.

(** ** C92: what is read from an arbitrary document *)
Lemma safe_get_inv {A} (f : ynode -> outcome A) n key o : safe_get f n key = Done o ->
  match o with Some a => exists m, entry n key = Some m /\ f m = Done a | None => forall m, entry n key = Some m -> f m = Refused \/ f m = YamlMatrixModel.Thrown end.
Proof.
  unfold safe_get, entry. destruct n as [| | |kvs]; try (intros E; injection E as <-; discriminate). destruct (lookup key kvs) as [m|]; [|intros E; injection E as <-; discriminate].
  destruct (f m) eqn:E; intros H; try discriminate; injection H as <-; [exists m; auto| |]; intros ? [= <-]; auto.
Qed.
Lemma as_string_text n key o : safe_get as_string n key = Done o -> forall t, text_or (entry n key) t = match o with Some u => u | None => t end.
Proof.
  intros E t. apply safe_get_inv in E. destruct o as [u|].
  - destruct E as (m & -> & E). destruct m; try discriminate. injection E as ->. reflexivity.
  - destruct (entry n key) as [m|]; [|reflexivity]. destruct (E m eq_refl) as [X|X]; destruct m; try discriminate; reflexivity.
Qed.
Lemma parse_class_inv t k : parse_class t = Some k -> t = class_string k.
Proof.
  unfold parse_class. destruct (String.eqb_spec t "pinhole"); [intros [= <-]; assumption|]. destruct (String.eqb_spec t "unified-projection"); [intros [= <-]; assumption|].
  destruct (String.eqb_spec t "camera-3d-lidar"); [intros [= <-]; assumption|discriminate].
Qed.
Lemma parse_lens_inv t k : parse_lens t = Some k -> t = lens_string k.
Proof.
  unfold parse_lens. destruct (String.eqb_spec t "none"); [intros [= <-]; assumption|]. destruct (String.eqb_spec t "equidistant"); [intros [= <-]; assumption|].
  destruct (String.eqb_spec t "fisheye"); [intros [= <-]; assumption|]. destruct (String.eqb_spec t "radial-tangential"); [intros [= <-]; assumption|discriminate].
Qed.
Lemma with_value_ret {A B} (e : outcome A) (f : A -> yresult B) b y : with_value e f = Ret b y -> exists a, e = Done a /\ f a = Ret b y.
Proof. destruct e as [a| | | |]; try discriminate. intros H. exists a. auto. Qed.
Lemma ybind_ret {A B} (e : yresult A) (f : bool -> A -> yresult B) b y : ybind e f = Ret b y -> exists b' a, e = Ret b' a /\ f b' a = Ret b y.
Proof. destruct e as [b' a| | |]; try discriminate. intros H. exists b', a. auto. Qed.
Lemma obind_done {A B} (e : outcome A) (f : A -> outcome B) y : obind e f = Done y -> exists a, e = Done a /\ f a = Done y.
Proof. destruct e as [a| | | |]; try discriminate. intros H. exists a. auto. Qed.
Lemma load_header_sound fresh n h0 h : is_id fresh -> load_header fresh n h0 = Ret true h ->
  good_header h /\ match entry n "id" with Some (YScalar t) => from_hex_string (list_byte_of_string t) = Parsed (h_id h) | _ => h_id h = fresh end /\
  h_topic h = text_or (entry n "topic") (h_topic h0) /\ h_description h = text_or (entry n "description") (h_description h0).
Proof.
  intros FR H. destruct n as [| | |kvs]; try discriminate. unfold load_header in H. remember (YMap kvs) as n eqn:En. clear En. apply with_value_ret in H as (o & Eo & H). apply ybind_ret in H as (b & i & Ei & H).
  destruct (is_valid i) eqn:V; [|discriminate]. apply with_value_ret in H as (t & Et & H). apply with_value_ret in H as (d & Ed & H). injection H as <-. cbn [h_id h_topic h_description].
  rewrite (as_string_text _ _ _ Et), (as_string_text _ _ _ Ed). split; [|split; [|split; reflexivity]].
  - assert (is_id i) as I. { destruct o as [u|]; [|injection Ei as _ <-; exact FR]. destruct (u =? ""); [discriminate|]. destruct (from_hex_string (list_byte_of_string u)) as [j| |] eqn:E; try discriminate. injection Ei as _ <-. apply from_hex_is_id in E. apply E. }
    split; [exact I|]. apply valid_spec; assumption.
  - apply safe_get_inv in Eo. destruct o as [u|].
    + destruct Eo as (m & -> & Em). destruct m; try discriminate. injection Em as ->. destruct (u =? ""); [discriminate|]. destruct (from_hex_string (list_byte_of_string u)) as [j| |]; try discriminate. injection Ei as _ ->. reflexivity.
    + injection Ei as _ <-. destruct (entry n "id") as [[| | |]|]; try reflexivity. destruct (Eo _ eq_refl) as [X|X]; discriminate.
Qed.
(** If reading succeeds, the camera is valid, has the class and mask it had, and is what the document says. *)
Theorem sgx_camera_sound {S} (c : texts S) fresh n (y x : camera S) : is_id fresh -> deserialize_camera c fresh n y = Ret true x ->
  good_camera c x /\ says c fresh n y x /\ cl x = cl y /\ mask x = mask y.
Proof.
  intros FR H. unfold deserialize_camera in H. apply ybind_ret in H as (b & h & Eh & H). destruct b; [|discriminate]. destruct (load_header_sound fresh n (hd y) h FR Eh) as (GH & HI & HT & HD).
  destruct y as [cl0 hd0 ty0 lt0 lp0 w0 h0 in0 ld0 co0 mk0]. cbn [set_header hd] in *. unfold load_camera in H.
  apply with_value_ret in H as (ol & El & H). destruct ol as [[k p]|]; [|discriminate]. cbn [fst snd set_lens] in H.
  apply with_value_ret in H as (ow & Ew & H). destruct ow as [w|]; [|discriminate]. cbn [set_width] in H.
  apply with_value_ret in H as (oh & Ehh & H). destruct oh as [hh|]; [|discriminate]. cbn [set_height] in H.
  apply with_value_ret in H as (ot & Et & H). destruct ot as [t|]; [|discriminate]. destruct (parse_class t) as [kc|] eqn:Ek; [|discriminate]. cbn [set_type] in H.
  apply with_value_ret in H as (oi & Ei & H). destruct oi as [i|]; [|discriminate]. cbn [set_intrinsics cl] in H. destruct (intrinsics_valid c cl0 i) eqn:IV; [|discriminate].
  apply with_value_ret in H as (od & Ed & H). cbn [set_delay] in H.
  assert (exists co, x = Camera cl0 h kc k p w hh i (match od with Some d => d | None => 0%Z end) co mk0 /\
    co = match entry n "compressed" with Some (YScalar t) => match get_bool c t with Some b => b | None => false end | Some _ => false | None => co0 end) as (co & -> & Eco).
  { rewrite has_key_field in H. change (field n "compressed") with (entry n "compressed") in H. destruct (entry n "compressed") as [m|] eqn:Ec; [|injection H as <-; eexists; split; reflexivity].
    apply with_value_ret in H as (ob & Eb & H). injection H as <-. eexists. split; [reflexivity|]. apply safe_get_inv in Eb. rewrite Ec in Eb. destruct ob as [bb|].
    - destruct Eb as (m' & [= <-] & Eb). destruct m; try discriminate. cbn [as_bool] in Eb. destruct (get_bool c t0) as [?|]; [|discriminate]. injection Eb as ->. reflexivity.
    - destruct (Eb _ eq_refl) as [X|X]; destruct m; try discriminate; cbn [as_bool] in X; try reflexivity; destruct (get_bool c t0); try discriminate; reflexivity. }
  assert (good_lens c k p /\ match entry n "distortion" with
           | None | Some YNull => k = NoLens /\ p = []
           | Some m => entry m "type" = Some (YScalar (lens_string k)) /\ exists p' q, entry m "parameters" = Some p' /\ as_vector c p' = Done q /\ p = match k with NoLens => [] | _ => q end
           end) as [GL SL].
  { unfold load_lens in El. destruct n as [| | |kvs]; try discriminate. cbn [entry]. destruct (lookup "distortion" kvs) as [m|]; [|injection El as <- <-; split; [reflexivity|split; reflexivity]].
    destruct m as [| | |kvs']; try discriminate; [injection El as <- <-; split; [reflexivity|split; reflexivity]|]. remember (YMap kvs') as m eqn:Em.
    apply obind_done in El as (ot' & Et' & El). destruct ot' as [t'|]; [|discriminate]. apply obind_done in El as (op & Ep & El). destruct op as [p'|]; [|discriminate]. destruct (parse_lens t') as [k'|] eqn:Ek'; [|discriminate].
    apply safe_get_inv in Et'. destruct Et' as (mt & Emt & Et'). destruct mt; try discriminate. injection Et' as ->. apply parse_lens_inv in Ek'. subst t'. apply safe_get_inv in Ep. destruct Ep as (mp & Emp & Ep).
    destruct k'; [injection El as <- <-; split; [reflexivity|split; [exact Emt|eexists _, _; split; [exact Emp|split; [exact Ep|reflexivity]]]]| | |];
      (destruct (lens_valid c _ p') eqn:LV; [|discriminate]; injection El as <- <-; split; [apply good_lens_valid; [discriminate|exact LV]|split; [exact Emt|eexists _, _; split; [exact Emp|split; [exact Ep|reflexivity]]]]). }
  apply safe_get_inv in Ew. destruct Ew as (mw & Emw & Ew). destruct mw; try discriminate. cbn [as_uint] in Ew. destruct (get_uint c 32 t0) as [w'|] eqn:Gw; [|discriminate]. injection Ew as ->.
  apply safe_get_inv in Ehh. destruct Ehh as (mh & Emh & Ehh). destruct mh; try discriminate. cbn [as_uint] in Ehh. destruct (get_uint c 32 t1) as [h'|] eqn:Gh; [|discriminate]. injection Ehh as ->.
  apply safe_get_inv in Et. destruct Et as (mt & Emt & Et). destruct mt; try discriminate. injection Et as ->. apply parse_class_inv in Ek. subst t.
  apply safe_get_inv in Ei. destruct Ei as (mi & Emi & Ei).
  split; [|split; [|split; reflexivity]].
  - split; [exact GH|]. split; [apply good_intrinsics_valid; exact IV|exact GL].
  - constructor; cbn [cl hd ty lens_type lens_params width height intrinsics line_delay compressed]; try assumption.
    + exists t0. auto.
    + exists t1. auto.
    + exists mi. auto.
    + apply safe_get_inv in Ed. destruct od as [d|].
      * destruct Ed as (m & -> & Ed). destruct m; try discriminate. cbn [as_uint] in Ed. destruct (get_uint c 64 t) as [?|]; [|discriminate]. injection Ed as ->. reflexivity.
      * destruct (entry n "line-delay-nanoseconds") as [m|]; [|reflexivity]. destruct (Ed _ eq_refl) as [X|X]; destruct m; try discriminate; cbn [as_uint] in X; try reflexivity; destruct (get_uint c 64 t); try discriminate; reflexivity.
Qed.
Print Assumptions sgx_camera_sound.
Lemma class_string_inj a b : class_string a = class_string b -> a = b.
Proof. destruct a, b; try discriminate; reflexivity. Qed.
(** The factory: the same, and the class is the one that the document names. *)
Theorem sgx_create_sound {S} (c : texts S) fresh o b (x : camera S) : is_id fresh -> create_camera c fresh o = Ret b (Some x) ->
  b = true /\ good_camera c x /\ ty x = cl x /\ mask x = None /\ exists n, o = Some n /\ says c fresh n (default_camera (cl x) fresh) x.
Proof.
  intros FR H. unfold create_camera in H. destruct o as [n|]; [|discriminate]. destruct n as [| | |kvs]; try discriminate. remember (YMap kvs) as n eqn:En. clear En.
  apply with_value_ret in H as (ot & Et & H). destruct ot as [t|]; [|discriminate]. destruct (parse_class t) as [k|] eqn:Ek; [|discriminate].
  apply ybind_ret in H as (b' & x' & Ex & H). destruct b'; [|discriminate]. injection H as <- <-. destruct (sgx_camera_sound c fresh n _ _ FR Ex) as (G & SA & CL & MK).
  cbn [cl mask default_camera] in CL, MK. apply parse_class_inv in Ek. apply safe_get_inv in Et. destruct Et as (m & Em & Et). destruct m; try discriminate. injection Et as ->.
  assert (ty x' = k) as TY. { pose proof (s_type _ _ _ _ _ SA) as E. rewrite Em in E. injection E as E. rewrite Ek in E. symmetry. apply class_string_inj, E. }
  split; [reflexivity|]. split; [exact G|]. split; [congruence|]. split; [exact MK|]. exists n. split; [reflexivity|]. rewrite CL. exact SA.
Qed.
Print Assumptions sgx_create_sound.
Definition doc1 : ynode := match serialize_camera plain cam1 with Done n => n | _ => YNull end.
Example sgx_camera_sound_ex : is_id id2 /\ exists y x, deserialize_camera plain id2 doc1 y = Ret true x.
Proof. split; [vm_compute; intuition discriminate|]. exists (default_camera Pinhole id2). eexists. vm_compute. reflexivity. Qed.
Example sgx_create_sound_ex : exists x, create_camera plain id2 (Some doc1) = Ret true (Some x).
Proof. eexists. vm_compute. reflexivity. Qed.

(** With an id that is in order and vectors that can be converted or are refused, reading returns true or false. *)
Lemma safe_get_total {A} (f : ynode -> outcome A) n key : readable f n key -> exists o, safe_get f n key = Done o.
Proof.
  unfold readable, safe_get, entry. intros R. destruct n as [| | |kvs]; try (eexists; reflexivity). destruct (lookup key kvs) as [m|]; [|eexists; reflexivity].
  destruct (R m eq_refl) as [N U]. destruct (f m); try contradiction; eexists; reflexivity.
Qed.
Lemma as_string_readable n key : readable as_string n key.
Proof. intros m _. destruct m; split; discriminate. Qed.
Lemma as_uint_readable {S} (c : texts S) bits n key : readable (as_uint c bits) n key.
Proof. intros m _. destruct m as [|t| |]; try (split; discriminate). cbn. destruct (get_uint c bits t); split; discriminate. Qed.
Lemma as_bool_readable {S} (c : texts S) n key : readable (as_bool c) n key.
Proof. intros m _. destruct m as [|t| |]; try (split; discriminate). cbn. destruct (get_bool c t); split; discriminate. Qed.
Lemma load_header_total fresh n h : is_id fresh -> fresh <> invalid_id -> id_in_order n -> exists b h', load_header fresh n h = Ret b h'.
Proof.
  intros FR FV I. unfold load_header. destruct n as [| | |kvs]; try (eexists _, _; reflexivity). remember (YMap kvs) as n eqn:En. clear En.
  destruct (safe_get_total as_string n "id" (as_string_readable _ _)) as (o & Eo). rewrite Eo. cbn [with_value].
  match goal with |- context [ybind ?e _] => assert (exists i, e = Ret true i /\ is_valid i = true) as (i & -> & V) end.
  { destruct o as [t|]; [|exists fresh; split; [reflexivity|apply valid_spec; assumption]]. apply safe_get_inv in Eo. destruct Eo as (m & Em & E). destruct m; try discriminate. injection E as ->. destruct (I t Em) as (i & Ei & Vi). exists i. rewrite Ei.
    split; [|apply valid_spec; [apply (from_hex_is_id _ _ Ei)|exact Vi]]. destruct (String.eqb_spec t ""); [|reflexivity]. subst t. discriminate. }
  cbn [ybind]. rewrite V. destruct (safe_get_total as_string n "topic" (as_string_readable _ _)) as (t & ->). destruct (safe_get_total as_string n "description" (as_string_readable _ _)) as (d & ->). eexists _, _. reflexivity.
Qed.
Theorem sgx_camera_returns {S} (c : texts S) fresh n (y : camera S) : is_id fresh -> fresh <> invalid_id -> id_in_order n ->
  readable (as_vector c) n "intrinsics" -> (forall m, entry n "distortion" = Some m -> readable (as_vector c) m "parameters") ->
  exists b x, deserialize_camera c fresh n y = Ret b x.
Proof.
  intros FR FV I RI RD. unfold deserialize_camera. destruct (load_header_total fresh n (hd y) FR FV I) as (b & h & ->). cbn [ybind]. destruct b; [|eexists _, _; reflexivity].
  generalize (set_header h y). clear y. intros y. unfold load_camera.
  assert (exists o, load_lens c n = Done o) as (o & ->).
  { unfold load_lens. destruct n as [| | |kvs]; try (eexists; reflexivity). cbn [entry] in RD. destruct (lookup "distortion" kvs) as [m|]; [|eexists; reflexivity]. specialize (RD m eq_refl). destruct m as [| | |kvs']; try (eexists; reflexivity).
    destruct (safe_get_total as_string (YMap kvs') "type" (as_string_readable _ _)) as (t & ->). cbn [obind]. destruct t as [t|]; [|eexists; reflexivity]. destruct (safe_get_total (as_vector c) (YMap kvs') "parameters" RD) as (p & ->). cbn [obind].
    destruct p as [p|]; [|eexists; reflexivity]. destruct (parse_lens t) as [k|]; [|eexists; reflexivity]. destruct k; try (eexists; reflexivity); destruct (lens_valid c _ p); eexists; reflexivity. }
  cbn [with_value]. destruct o as [[k p]|]; [|eexists _, _; reflexivity].
  destruct (safe_get_total (as_uint c 32) n "image_width" (as_uint_readable _ _ _ _)) as (w & ->). cbn [with_value]. destruct w; [|eexists _, _; reflexivity].
  destruct (safe_get_total (as_uint c 32) n "image_height" (as_uint_readable _ _ _ _)) as (hh & ->). cbn [with_value]. destruct hh; [|eexists _, _; reflexivity].
  destruct (safe_get_total as_string n "type" (as_string_readable _ _)) as (t & ->). cbn [with_value]. destruct t as [t|]; [|eexists _, _; reflexivity]. destruct (parse_class t); [|eexists _, _; reflexivity].
  destruct (safe_get_total (as_vector c) n "intrinsics" RI) as (i & ->). cbn [with_value]. destruct i as [i|]; [|eexists _, _; reflexivity]. cbv zeta. destruct (intrinsics_valid c _ i); [|eexists _, _; reflexivity].
  destruct (safe_get_total (as_uint c 64) n "line-delay-nanoseconds" (as_uint_readable _ _ _ _)) as (d & ->). cbn [with_value]. destruct (has_key n "compressed"); [|eexists _, _; reflexivity].
  destruct (safe_get_total (as_bool c) n "compressed" (as_bool_readable _ _ _)) as (bb & ->). eexists _, _. reflexivity.
Qed.
Print Assumptions sgx_camera_returns.
(** Documents that break the rest of the claim. [edit k n d]: the document with the field replaced. *)
Definition edit (key : string) (n d : ynode) : ynode := match d with YMap kvs => YMap (set_key key n kvs) | _ => d end.
Example sgx_camera_returns_ex : id_in_order (edit "intrinsics" (YScalar "x") doc1) /\ readable (as_vector plain) (edit "intrinsics" (YScalar "x") doc1) "intrinsics" /\
  deserialize_camera plain id2 (edit "intrinsics" (YScalar "x") doc1) cam1 = Ret false cam1.
Proof.
  split; [|split; [|vm_compute; reflexivity]].
  - intros t E. exists id1. split; [|discriminate]. vm_compute in E. injection E as <-. vm_compute. reflexivity.
  - intros m E. vm_compute in E. injection E as <-. vm_compute. split; discriminate.
Qed.
(** An id that is not 32 hexadecimal digits, or zero, ends the program; one of 32 other characters is an exception. *)
Theorem sgx_bad_id_refuted :
  deserialize_camera plain id2 (edit "id" (YScalar "7") doc1) cam1 = Abort /\ deserialize_camera plain id2 (edit "id" (YScalar "00000000000000000000000000000000") doc1) cam1 = Abort /\
  deserialize_camera plain id2 (edit "id" (YScalar "zzzzzzzzzzzzzzzzzzzzzzzzzzzzzzzz") doc1) cam1 = Threw.
Proof. vm_compute. repeat split. Qed.
Print Assumptions sgx_bad_id_refuted.
(** A pinhole camera reads the document of a lidar and then says that it is a lidar. *)
Theorem sgx_class_refuted : exists x, deserialize_camera plain id2 (edit "type" (YScalar "camera-3d-lidar") doc1) cam1 = Ret true x /\ cl x = Pinhole /\ ty x = Lidar.
Proof. eexists. vm_compute. repeat split. Qed.
Print Assumptions sgx_class_refuted.
(** A refused document leaves a valid camera invalid. *)
Theorem sgx_refusal_changes_refuted : exists n y', good_camera plain cam1 /\ deserialize_camera plain id2 n cam1 = Ret false y' /\ ~ good_camera plain y'.
Proof.
  set (bad := {| cl := Pinhole; hd := hd cam1; ty := Pinhole; lens_type := RadTan; lens_params := [0; 1; -1; 0]%Z; width := 640; height := 480; intrinsics := [-5; 300; 320; 240]%Z; line_delay := 12; compressed := true; mask := Some (640, 480)%Z |}).
  exists (match serialize_camera plain bad with Done n => n | _ => YNull end), bad. split; [apply cam1_good|]. split; [vm_compute; reflexivity|].
  intros (_ & GI & _). cbn in GI. destruct GI as (a & b & d & e & [= <- <- <- <-] & P). apply Forall_inv in P. discriminate.
Qed.
Print Assumptions sgx_refusal_changes_refuted.
(** A distortion of type none is refused unless it has parameters. *)
Theorem sgx_none_refuted : deserialize_camera plain id2 (edit "distortion" (YMap [("type", YScalar "none")]) doc1) cam1 = Ret false cam1.
Proof. vm_compute. reflexivity. Qed.
Print Assumptions sgx_none_refuted.

(** ** C91: rigs *)
Section Rigs.
Context {S T : Type} (c : texts S) (g : motions S T).
Lemma camera_index_cons (j i : id) k m : camera_index ((j, k) :: m) i = if id_eq j i then Some k else camera_index m i.
Proof. reflexivity. Qed.
Lemma index_loop_spec (l : list (camera S)) : forall i m m', Forall (fun x => is_id (h_id (SensorYamlModel.hd x))) l -> index_loop i l m = Some m' ->
  (forall a k, is_id a -> camera_index m' a = Some k -> (exists x, (i <= k)%nat /\ nth_error l (k - i) = Some x /\ h_id (SensorYamlModel.hd x) = a) \/ camera_index m a = Some k) /\
  (forall a, camera_index m a <> None -> camera_index m' a <> None) /\
  (forall k x, nth_error l k = Some x -> camera_index m' (h_id (SensorYamlModel.hd x)) <> None).
Proof.
  induction l as [|x l IH]; cbn [index_loop]; intros i m m' I H; [injection H as <-; split; [auto|split; [auto|intros [|?] ? [=]]]|].
  apply Forall_cons_iff in I as [Ix I]. destruct (is_valid (h_id (SensorYamlModel.hd x))); [|discriminate]. destruct (IH _ _ _ I H) as (A & B & C). split; [|split].
  - intros a k Ia E. destruct (A a k Ia E) as [(y & L & N & Y)|M].
    + left. exists y. split; [lia|]. split; [|exact Y]. replace (k - i)%nat with (Datatypes.S (k - (1 + i)))%nat by lia. exact N.
    + rewrite camera_index_cons in M. destruct (id_eq (h_id (SensorYamlModel.hd x)) a) eqn:Q; [|right; exact M]. injection M as <-. left. exists x. split; [lia|]. rewrite Nat.sub_diag. split; [reflexivity|]. apply (id_eq_spec _ _ Ix Ia), Q.
  - intros a E. apply B. rewrite camera_index_cons. destruct (id_eq _ a); [discriminate|exact E].
  - intros [|k] y N; [injection N as <-|exact (C k y N)]. apply B. rewrite camera_index_cons. replace (id_eq (h_id (SensorYamlModel.hd x)) (h_id (SensorYamlModel.hd x))) with true; [discriminate|]. symmetry. apply (id_eq_spec _ _ Ix Ix). reflexivity.
Qed.
Lemma init_internal_right (r r' : rig S T) : Forall (fun x => is_id (h_id (SensorYamlModel.hd x))) (cams r) -> init_internal r = Some r' ->
  r_hd r' = r_hd r /\ cams r' = cams r /\ T_C_B r' = T_C_B r /\ cov r' = cov r /\ List.length (cams r) = List.length (T_C_B r) /\ index_right r'.
Proof.
  intros I H. unfold init_internal in H. destruct (Nat.eqb_spec (List.length (cams r)) (List.length (T_C_B r))) as [L|]; [|discriminate]. destruct (index_loop 0 (cams r) []) as [m|] eqn:E; [|discriminate]. injection H as <-.
  destruct (index_loop_spec _ _ _ _ I E) as (A & _ & C). cbn. repeat split; try assumption.
  - cbn. intros a k Ia Q. destruct (A a k Ia Q) as [(x & _ & N & X)|]; [|discriminate]. rewrite Nat.sub_0_r in N. exists x. auto.
  - cbn. intros k x N. pose proof (C k x N) as Q. destruct (camera_index m (h_id (SensorYamlModel.hd x))) as [k'|]; [exists k'; reflexivity|contradiction].
Qed.
Lemma index_loop_total (l : list (camera S)) : forall i m, Forall (good_camera c) l -> exists m', index_loop i l m = Some m'.
Proof.
  induction l as [|x l IH]; intros i m G; cbn [index_loop]; [eexists; reflexivity|]. apply Forall_cons_iff in G as [[[I V] _] G]. replace (is_valid (h_id (SensorYamlModel.hd x))) with true by (symmetry; apply valid_spec; assumption). apply IH, G.
Qed.
Definition shown (n : ynode) (x : camera S) (t : T) : Prop :=
  is_map n /\ (exists d, entry n "camera" = Some d /\ forall fresh, create_camera c fresh (Some d) = Ret true (Some (with_mask None x))) /\
  exists m u, entry n "T_B_C" = Some m /\ exists k, as_matrix c (Some 4%Z) (Some 4%Z) m = Done k /\ of_matrix g k = Some u /\ inverse g u = t.
Lemma camera_entry_shown x t : faithful c -> good_camera c x -> in_types x -> exact_motion g t -> exists n, camera_entry c g x t = Done n /\ shown n x t.
Proof.
  intros F G I ((R & K & SH) & u & Eu & Iu). destruct (sgx_camera_round_trip c x F G I) as (d & Ed & _ & Cd).
  destruct (matrix_node_read c F (to_matrix g (inverse g t)) (Some 4%Z) (Some 4%Z)) as (m & Em & Dm); [unfold in_range; lia|rewrite R, K; exact SH|unfold fits; rewrite R, K; cbn; auto|].
  unfold camera_entry. rewrite Ed. cbn [obind]. rewrite Em. cbn [obind]. eexists. split; [reflexivity|]. split; [exact Logic.I|]. split.
  - exists d. split; [reflexivity|exact Cd].
  - exists m, u. split; [reflexivity|]. eexists. split; [exact Dm|]. split; [exact Eu|exact Iu].
Qed.
Lemma camera_entries_shown : forall l ts, faithful c -> List.length l = List.length ts -> Forall (good_camera c) l -> Forall in_types l -> Forall (exact_motion g) ts ->
  exists ns, camera_entries c g l ts = Done ns /\ List.length ns = List.length l /\
    forall fresh i (r : rig S T), load_cameras c g fresh i ns r = Ret true (Rig (r_hd r) (cams r ++ map (with_mask None) l)%list (T_C_B r ++ ts)%list (index r) (cov r)).
Proof.
  induction l as [|x l IH]; intros [|t ts] F L G I X; try discriminate.
  - exists []. split; [reflexivity|]. split; [reflexivity|]. intros fresh i r. cbn. rewrite !app_nil_r. destruct r; reflexivity.
  - apply Forall_cons_iff in G as [Gx G]. apply Forall_cons_iff in I as [Ix I]. apply Forall_cons_iff in X as [Xt X]. injection L as L. destruct (camera_entry_shown x t F Gx Ix Xt) as (n & En & M & (d & Ed & Cd) & m & u & Em & k & Dk & Ok & Iu).
    destruct (IH ts F L G I X) as (ns & Ens & Lns & R). exists (n :: ns). cbn [camera_entries]. rewrite En. cbn [obind]. rewrite Ens. cbn [obind]. split; [reflexivity|]. split; [cbn; congruence|].
    intros fresh i r. destruct n as [| | |kvs]; try contradiction. cbn [load_cameras]. cbn [entry] in Ed. rewrite Ed, (Cd (fresh i)). cbn [ybind]. unfold load_T_B_C. rewrite has_key_field. change (field (YMap kvs) "T_B_C") with (entry (YMap kvs) "T_B_C"). rewrite Em.
    rewrite (safe_get_done (as_matrix c (Some 4%Z) (Some 4%Z)) (YMap kvs) "T_B_C" m k Em Dk). cbn [obind]. rewrite Ok. cbn [with_value]. rewrite R. cbn [r_hd cams T_C_B index cov]. rewrite Iu, <- !app_assoc. reflexivity.
Qed.
(** A rig with valid cameras is written, and reading the document into a new rig gives the same cameras - but for the masks - the same transformations and the same covariance,
    and the index finds the cameras. *)
Theorem sgx_rig_round_trip (r : rig S T) : faithful c -> good_header (r_hd r) -> cams r <> [] -> List.length (cams r) = List.length (T_C_B r) -> Forall (good_camera c) (cams r) -> Forall in_types (cams r) ->
  Forall (exact_motion g) (T_C_B r) -> (forall m, cov r = Some m -> sized 6 m) ->
  exists n, serialize_rig c g r = Done n /\ forall fresh_rig fresh i, exists r', deserialize_rig c g fresh_rig fresh n (default_rig i) = Ret true r' /\
    r_hd r' = r_hd r /\ cams r' = map (with_mask None) (cams r) /\ T_C_B r' = T_C_B r /\ cov r' = cov r /\ index_right r'.
Proof.
  intros F GH NE L G I X CV. destruct (camera_entries_shown (cams r) (T_C_B r) F L G I X) as (ns & Ens & Lns & R).
  assert (exists n, serialize_rig c g r = Done n /\ is_map n /\ entry n "id" = Some (YScalar (id_string (h_id (r_hd r)))) /\ entry n "topic" = Some (YScalar (h_topic (r_hd r))) /\ entry n "description" = Some (YScalar (h_description (r_hd r))) /\
    entry n "cameras" = Some (YSeq ns) /\ match cov r with Some k => exists m, entry n "T_G_B_fixed_covariance" = Some m /\ as_matrix c (Some 6%Z) (Some 6%Z) m = Done k | None => entry n "T_G_B_fixed_covariance" = None end) as (n & En & M & Fi & Ft & Fd & Fc & Fv).
  { unfold serialize_rig, save_header. destruct (id_string_read (r_hd r) GH) as (_ & _ & ->). cbn [obind]. unfold save_rig_fields. destruct (cov r) as [k|] eqn:EC.
    - destruct (CV k eq_refl) as (R1 & R2 & SH). destruct (matrix_node_read c F k (Some 6%Z) (Some 6%Z)) as (m & Em & Dm); [unfold in_range; lia|rewrite R1, R2; exact SH|unfold fits; rewrite R1, R2; cbn; auto|].
      rewrite Em. cbn [obind]. rewrite Ens. cbn [obind]. destruct ns as [|n0 ns0]; [destruct (cams r); [contradiction|discriminate]|].
      eexists. split; [reflexivity|]. split; [exact Logic.I|]. split; [reflexivity|]. split; [reflexivity|]. split; [reflexivity|]. split; [reflexivity|]. exists m. split; [reflexivity|exact Dm].
    - cbn [obind]. rewrite Ens. cbn [obind]. destruct ns as [|n0 ns0]; [destruct (cams r); [contradiction|discriminate]|].
      eexists. split; [reflexivity|]. split; [exact Logic.I|]. repeat split; reflexivity. }
  exists n. split; [exact En|]. intros fresh_rig fresh i. unfold deserialize_rig. rewrite (load_header_fields fresh_rig n (r_hd r) _ M GH Fi Ft Fd). cbn [ybind].
  unfold load_rig. destruct n as [| | |kvs]; try contradiction. rewrite has_key_field. change (field (YMap kvs) "T_G_B_fixed_covariance") with (entry (YMap kvs) "T_G_B_fixed_covariance").
  set (r0 := Rig (r_hd r) (@nil (camera S)) (@nil T) [] (cov r)).
  assert (forall (Q : yresult (rig S T)), (match lookup "cameras" kvs with Some (YSeq []) => Ret false r0 | Some (YSeq l) => ybind (load_cameras c g fresh 0 l r0) (fun b r => if b then match init_internal r with Some r => Ret true r | None => Abort end else Ret false r) | _ => Ret false r0 end) = Q ->
    exists r', Q = Ret true r' /\ r_hd r' = r_hd r /\ cams r' = map (with_mask None) (cams r) /\ T_C_B r' = T_C_B r /\ cov r' = cov r /\ index_right r') as END.
  { intros Q <-. cbn [entry] in Fc. rewrite Fc. destruct ns as [|n0 ns0]; [destruct (cams r); [contradiction|discriminate]|]. rewrite (R fresh 0%nat r0). cbn [ybind r_hd cams T_C_B index cov r0 app].
    set (r1 := Rig (r_hd r) (map (with_mask None) (cams r)) (T_C_B r) [] (cov r)). assert (Forall (good_camera c) (cams r1)) as G1. { cbn [cams r1]. rewrite Forall_map. eapply Forall_impl; [|exact G]. intros x Gx. exact Gx. }
    destruct (index_loop_total (cams r1) 0%nat [] G1) as (m & Em).
    assert (init_internal r1 = Some (Rig (r_hd r) (map (with_mask None) (cams r)) (T_C_B r) m (cov r))) as Ei. { unfold init_internal. rewrite Em. cbn [cams T_C_B r1]. rewrite map_length, L, Nat.eqb_refl. reflexivity. }
    fold r1. rewrite Ei. eexists. split; [reflexivity|]. split; [reflexivity|]. split; [reflexivity|]. split; [reflexivity|]. split; [reflexivity|]. eapply init_internal_right; [|exact Ei]. eapply Forall_impl; [|exact G1]. intros x ((Ix & _) & _). exact Ix. }
  destruct (cov r) as [k|] eqn:EC.
  - destruct Fv as (m & Em & Dm). rewrite Em. rewrite (safe_get_done (as_matrix c (Some 6%Z) (Some 6%Z)) (YMap kvs) _ m k Em Dm). cbn [obind with_value]. apply END. reflexivity.
  - rewrite Fv. cbn [with_value]. apply END. reflexivity.
Qed.
End Rigs.
Print Assumptions sgx_rig_round_trip.
(** Transformations for examples: translations. *)
Definition shift : motions Z (Z * Z * Z) := {|
  inverse := fun t => let '(x, y, z) := t in (- x, - y, - z)%Z;
  to_matrix := fun t => let '(x, y, z) := t in Matrix 4 4 [[1; 0; 0; x]; [0; 1; 0; y]; [0; 0; 1; z]; [0; 0; 0; 1]]%Z;
  of_matrix := fun m => match coeffs m with [[1; 0; 0; x]; [0; 1; 0; y]; [0; 0; 1; z]; [0; 0; 0; 1]]%Z => Some (x, y, z) | _ => None end |}.
Lemma shift_exact t : exact_motion shift t.
Proof.
  destruct t as [[x y] z]. split; [split; [reflexivity|split; [reflexivity|split; [reflexivity|repeat constructor]]]|]. eexists. split; [reflexivity|]. cbn. rewrite !Z.opp_involutive. reflexivity.
Qed.
Definition cam2 : camera Z :=
  {| cl := Unified; hd := {| h_id := id2; h_topic := "/cam1"; h_description := "" |}; ty := Unified; lens_type := NoLens; lens_params := []; width := 640; height := 480;
     intrinsics := [0; 400; 300; 320; 240]%Z; line_delay := 0; compressed := false; mask := None |}.
Lemma cam2_good : good_camera plain cam2 /\ in_types cam2.
Proof.
  split; [split; [|split]|].
  - split; [vm_compute; intuition discriminate|discriminate].
  - cbn. exists 0%Z, 400%Z, 300%Z, 320%Z, 240%Z. split; [reflexivity|]. split; [reflexivity|repeat constructor].
  - reflexivity.
  - unfold in_types. cbn [width height line_delay cam2]. repeat split; lia.
Qed.
Definition rig_id : id := from_uint64 5 6.
Definition rig1 : rig Z (Z * Z * Z) :=
  {| r_hd := {| h_id := rig_id; h_topic := ""; h_description := "stereo" |}; cams := [cam1; cam2]; T_C_B := [(1, 2, 3); (4, 5, 6)]%Z; index := [(id2, 1%nat); (id1, 0%nat)];
     cov := Some (Matrix 6 6 (repeat (repeat 2%Z 6) 6)) |}.
Lemma rig1_good : good_header (r_hd rig1) /\ Forall (good_camera plain) (cams rig1) /\ Forall in_types (cams rig1) /\ Forall (exact_motion shift) (T_C_B rig1) /\ (forall m, cov rig1 = Some m -> sized 6 m).
Proof.
  split; [split; [vm_compute; intuition discriminate|discriminate]|]. split; [repeat constructor; apply cam1_good || apply cam2_good|]. split; [repeat constructor; apply cam1_good || apply cam2_good|].
  split; [repeat constructor; apply shift_exact|]. intros m [= <-]. split; [reflexivity|split; [reflexivity|split; [reflexivity|repeat constructor]]].
Qed.
Example sgx_rig_round_trip_ex : faithful plain /\ good_header (r_hd rig1) /\ cams rig1 <> [] /\ List.length (cams rig1) = List.length (T_C_B rig1) /\ Forall (good_camera plain) (cams rig1) /\ Forall in_types (cams rig1) /\
  Forall (exact_motion shift) (T_C_B rig1) /\ (forall m, cov rig1 = Some m -> sized 6 m).
Proof. split; [exact plain_faithful|]. split; [apply rig1_good|]. split; [discriminate|]. split; [reflexivity|]. apply rig1_good. Qed.
Definition rig_doc1 : ynode := match serialize_rig plain shift rig1 with Done n => n | _ => YNull end.
Definition fresh_ids (k : nat) : id := from_uint64 7 (Z.of_nat k + 1).
(** Reading a document into a rig that has cameras adds the cameras of the document: a rig that reads its own document has every camera twice. *)
Theorem sgx_rig_again_refuted : exists r', deserialize_rig plain shift rig_id fresh_ids rig_doc1 rig1 = Ret true r' /\ List.length (cams r') = 4%nat /\ camera_index (index r') id1 = Some 2%nat.
Proof. eexists. split; [vm_compute; reflexivity|]. split; vm_compute; reflexivity. Qed.
Print Assumptions sgx_rig_again_refuted.
(** A rig without cameras can be written but not read. *)
Theorem sgx_rig_empty_refuted : exists n r', serialize_rig plain shift (default_rig rig_id) = Done n /\ deserialize_rig plain shift rig_id fresh_ids n (default_rig rig_id) = Ret false r'.
Proof. eexists _, _. split; [vm_compute; reflexivity|vm_compute; reflexivity]. Qed.
Print Assumptions sgx_rig_empty_refuted.

(** ** C92 for rigs *)
Section RigSound.
Context {S T : Type} (c : texts S) (g : motions S T).
Lemma load_cameras_sound : forall l fresh i (r r' : rig S T), (forall k, is_id (fresh k)) -> load_cameras c g fresh i l r = Ret true r' ->
  exists xs ts, r' = Rig (r_hd r) (cams r ++ xs)%list (T_C_B r ++ ts)%list (index r) (cov r) /\ List.length xs = List.length l /\ List.length ts = List.length l /\
    Forall (good_camera c) xs /\ Forall (fun x => ty x = cl x /\ mask x = None) xs /\
    forall k n x t, nth_error l k = Some n -> nth_error xs k = Some x -> nth_error ts k = Some t -> entry_says c g (fresh (i + k)%nat) n x t.
Proof.
  induction l as [|n l IH]; intros fresh i r r' FR H; cbn [load_cameras] in H.
  - injection H as <-. exists [], []. rewrite !app_nil_r. split; [destruct r; reflexivity|]. split; [reflexivity|]. split; [reflexivity|]. split; [constructor|]. split; [constructor|]. intros [|k] ? ? ? [=].
  - destruct n as [| | |kvs]; try discriminate. apply ybind_ret in H as (b & o & Ec & H). destruct o as [x|]; [|discriminate]. apply with_value_ret in H as (ot & Et & H). destruct ot as [t|]; [|discriminate].
    destruct (sgx_create_sound c (fresh i) _ b x (FR i) Ec) as (-> & G & TY & MK & d & Ed & SA).
    destruct (IH _ _ _ _ FR H) as (xs & ts & -> & L1 & L2 & GX & TX & E). cbn [r_hd cams T_C_B index cov]. exists (x :: xs), (inverse g t :: ts). rewrite <- !app_assoc. split; [reflexivity|]. split; [cbn; congruence|]. split; [cbn; congruence|].
    split; [constructor; assumption|]. split; [constructor; auto|]. intros [|k] n' x' t' N1 N2 N3; cbn [nth_error] in N1, N2, N3.
    + injection N1 as <-. injection N2 as <-. injection N3 as <-. rewrite Nat.add_0_r. split; [exists d; split; [exact Ed|exact SA]|]. unfold load_T_B_C in Et. rewrite !has_key_field in Et. unfold field in Et. unfold entry.
      destruct (lookup "T_B_C" kvs) as [a|] eqn:EA.
      * apply obind_done in Et as (om & Em & Et). destruct om as [m|]; [|discriminate]. destruct (of_matrix g m) as [u|] eqn:Eu; [|discriminate]. injection Et as ->. apply safe_get_inv in Em. destruct Em as (a' & Ea & Em). cbn [entry] in Ea. rewrite EA in Ea. injection Ea as <-. exists m, t. auto.
      * destruct (lookup "T_C_B" kvs) as [a|] eqn:EB; [|discriminate]. apply obind_done in Et as (om & Em & Et). destruct om as [m|]; [|discriminate]. destruct (of_matrix g m) as [u|] eqn:Eu; [|discriminate]. injection Et as <-. apply safe_get_inv in Em. destruct Em as (a' & Ea & Em). cbn [entry] in Ea. rewrite EB in Ea. injection Ea as <-. exists m, u. auto.
    + replace (i + Datatypes.S k)%nat with (1 + i + k)%nat by lia. exact (E k n' x' t' N1 N2 N3).
Qed.
(** If reading succeeds, the rig has a valid id; every entry of the document has become a valid camera of the class and with the transformation that it tells, in order, behind the cameras that the rig had;
    every camera has a transformation; the index finds the cameras. *)
Theorem sgx_rig_sound fresh_rig fresh n (r r' : rig S T) : is_id fresh_rig -> (forall k, is_id (fresh k)) -> Forall (fun x => is_id (h_id (hd x))) (cams r) -> deserialize_rig c g fresh_rig fresh n r = Ret true r' ->
  good_header (r_hd r') /\ List.length (cams r') = List.length (T_C_B r') /\ index_right r' /\
  match entry n "T_G_B_fixed_covariance" with Some m => exists k, as_matrix c (Some 6%Z) (Some 6%Z) m = Done k /\ cov r' = Some k | None => cov r' = cov r end /\
  exists l xs ts, entry n "cameras" = Some (YSeq l) /\ l <> [] /\ cams r' = (cams r ++ xs)%list /\ T_C_B r' = (T_C_B r ++ ts)%list /\ List.length xs = List.length l /\ List.length ts = List.length l /\
    Forall (good_camera c) xs /\ Forall (fun x => ty x = cl x /\ mask x = None) xs /\
    forall k d x t, nth_error l k = Some d -> nth_error xs k = Some x -> nth_error ts k = Some t -> entry_says c g (fresh k) d x t.
Proof.
  intros FR FC OLD H. unfold deserialize_rig in H. apply ybind_ret in H as (b & h & Eh & H). destruct b; [|discriminate]. destruct (load_header_sound fresh_rig n (r_hd r) h FR Eh) as (GH & _). unfold load_rig in H. destruct n as [| | |kvs]; try discriminate.
  apply with_value_ret in H as (om & Em & H). cbv zeta in H.
  assert (forall r0 : rig S T, r_hd r0 = h -> cams r0 = cams r -> T_C_B r0 = T_C_B r ->
    match lookup "cameras" kvs with Some (YSeq []) => Ret false r0 | Some (YSeq l) => ybind (load_cameras c g fresh 0 l r0) (fun b r => if b then match init_internal r with Some r => Ret true r | None => Abort end else Ret false r) | _ => Ret false r0 end = Ret true r' ->
    cov r' = cov r0 /\ good_header (r_hd r') /\ List.length (cams r') = List.length (T_C_B r') /\ index_right r' /\
    exists l xs ts, lookup "cameras" kvs = Some (YSeq l) /\ l <> [] /\ cams r' = (cams r ++ xs)%list /\ T_C_B r' = (T_C_B r ++ ts)%list /\ List.length xs = List.length l /\ List.length ts = List.length l /\
    Forall (good_camera c) xs /\ Forall (fun x => ty x = cl x /\ mask x = None) xs /\
    forall k d x t, nth_error l k = Some d -> nth_error xs k = Some x -> nth_error ts k = Some t -> entry_says c g (fresh k) d x t) as END.
  { clear H Em. intros r0 H1 H2 H3 H. destruct (lookup "cameras" kvs) as [[| |l|]|]; try discriminate. destruct l as [|n0 l0]; [discriminate|]. remember (n0 :: l0) as l eqn:El. apply ybind_ret in H as (b & r1 & E1 & H). destruct b; [|discriminate].
    destruct (init_internal r1) as [r2|] eqn:E2; [|discriminate]. injection H as <-. destruct (load_cameras_sound l fresh 0 r0 r1 FC E1) as (xs & ts & -> & L1 & L2 & G & TY & E).
    assert (Forall (fun x => is_id (h_id (hd x))) (cams r0 ++ xs)%list) as AI. { apply Forall_app. split; [rewrite H2; exact OLD|]. eapply Forall_impl; [|exact G]. intros x ((I & _) & _). exact I. }
    destruct (init_internal_right (Rig (r_hd r0) (cams r0 ++ xs)%list (T_C_B r0 ++ ts)%list (index r0) (cov r0)) r2 AI E2) as (A & B & C & D & L & R). cbn [r_hd cams T_C_B cov] in *. split; [exact D|]. split; [rewrite A, H1; exact GH|]. split; [rewrite B, C; exact L|]. split; [exact R|].
    exists l, xs, ts. split; [reflexivity|]. split; [subst l; discriminate|]. split; [rewrite B, H2; reflexivity|]. split; [rewrite C, H3; reflexivity|]. repeat (split; [assumption|]). exact E. }
  rewrite has_key_field in Em. unfold field in Em. cbn [entry]. destruct (lookup "T_G_B_fixed_covariance" kvs) as [m|] eqn:EM.
  - apply obind_done in Em as (ok & Ek & Em). destruct ok as [k|]; [|discriminate]. injection Em as <-. apply safe_get_inv in Ek. destruct Ek as (m' & Em & Ek). cbn [entry] in Em. rewrite EM in Em. injection Em as <-.
    destruct (END (set_cov k (set_rig_header h r)) eq_refl eq_refl eq_refl H) as (CV & A & B & C & D). split; [exact A|]. split; [exact B|]. split; [exact C|]. split; [|exact D]. exists k. split; [exact Ek|rewrite CV; reflexivity].
  - injection Em as <-. destruct (END (set_rig_header h r) eq_refl eq_refl eq_refl H) as (CV & A & B & C & D). split; [exact A|]. split; [exact B|]. split; [exact C|]. split; [rewrite CV; reflexivity|exact D].
Qed.
End RigSound.
Print Assumptions sgx_rig_sound.
Example sgx_rig_sound_ex : is_id rig_id /\ (forall k : nat, is_id ((fun _ => id2) k)) /\ exists r', deserialize_rig plain shift rig_id (fun _ => id2) rig_doc1 (default_rig rig_id) = Ret true r'.
Proof. split; [vm_compute; intuition discriminate|]. split; [intros _; vm_compute; intuition discriminate|]. eexists. vm_compute. reflexivity. Qed.
(** A document with a second camera that cannot be read is refused, but the first camera stays in the rig and is not in the index. *)
Definition half_doc : ynode := edit "cameras" (match entry rig_doc1 "cameras" with Some (YSeq (n :: _)) => YSeq [n; YNull] | _ => YNull end) rig_doc1.
Theorem sgx_rig_refusal_refuted : exists r', deserialize_rig plain shift rig_id fresh_ids half_doc (default_rig rig_id) = Ret false r' /\ List.length (cams r') = 1%nat /\ ~ index_right r'.
Proof.
  eexists. split; [vm_compute; reflexivity|]. split; [reflexivity|]. intros [_ R]. destruct (R 0%nat _ eq_refl) as (k & E). discriminate.
Qed.
Print Assumptions sgx_rig_refusal_refuted.
(** Two cameras with the same id are accepted; the id then finds the second. *)
Definition twin_doc : ynode := edit "cameras" (match entry rig_doc1 "cameras" with Some (YSeq (n :: _)) => YSeq [n; n] | _ => YNull end) rig_doc1.
Theorem sgx_twins_refuted : exists r' x y, deserialize_rig plain shift rig_id fresh_ids twin_doc (default_rig rig_id) = Ret true r' /\ cams r' = [x; y] /\ h_id (hd x) = id1 /\ h_id (hd y) = id1 /\ camera_index (index r') id1 = Some 1%nat.
Proof. eexists _, _, _. split; [vm_compute; reflexivity|]. split; [reflexivity|]. split; [reflexivity|]. split; [reflexivity|]. vm_compute. reflexivity. Qed.
Print Assumptions sgx_twins_refuted.
(** A transformation or covariance that cannot be read ends the program. *)
Definition bent_doc : ynode := edit "cameras" (match entry rig_doc1 "cameras" with Some (YSeq (n :: _)) => YSeq [edit "T_B_C" (YScalar "?") n] | _ => YNull end) rig_doc1.
Theorem sgx_rig_abort_refuted : deserialize_rig plain shift rig_id fresh_ids bent_doc (default_rig rig_id) = Abort /\ deserialize_rig plain shift rig_id fresh_ids (edit "T_G_B_fixed_covariance" YNull rig_doc1) (default_rig rig_id) = Abort.
Proof. split; vm_compute; reflexivity. Qed.
Print Assumptions sgx_rig_abort_refuted.
