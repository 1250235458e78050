(** Specification of the documents of cameras and rigs. *)
From Coq Require Import ZArith List Bool String.
From Verif Require Import HashIdModel HashIdSpec YamlMatrixModel YamlMatrixSpec SensorYamlModel.
Import ListNotations.

(** Every number that is written is read back unchanged (enough digits). *)
Record faithful {S} (c : texts S) : Prop := Faithful {
  f_emit : forall x, get (num c) (emit (num c) x) = Some x;
  f_put : forall x, get (num c) (put (num c) x) = Some x;
  f_index : forall k, get_index (num c) (put_index (num c) k) = Some k;
  f_bool : forall b, get_bool c (put_bool c b) = Some b;
  f_uint : forall bits z, (0 <= z < 2 ^ bits)%Z -> get_uint c bits (put_uint c z) = Some z }.
(** Valid parameters. *)
Definition good_intrinsics {S} (c : texts S) (k : camera_class) (l : list S) : Prop :=
  match k with
  | Pinhole => exists fu fv cu cv, l = [fu; fv; cu; cv] /\ Forall (fun x => positive c x = true) l
  | Unified => exists xi fu fv cu cv, l = [xi; fu; fv; cu; cv] /\ non_negative c xi = true /\ Forall (fun x => positive c x = true) [fu; fv; cu; cv]
  | Lidar => exists h v a b, l = [h; v; a; b] /\ positive c h = true /\ positive c v = true
  end.
Definition good_lens {S} (c : texts S) (k : lens) (l : list S) : Prop :=
  match k with
  | NoLens => l = []
  | Fisheye => exists w, l = [w] /\ fisheye_w c w = true
  | Equidistant | RadTan => List.length l = 4%nat
  end.
Definition good_header (h : header) : Prop := is_id (h_id h) /\ h_id h <> invalid_id.
(** What isValid and the class invariants demand of a camera. *)
Definition good_camera {S} (c : texts S) (x : camera S) : Prop :=
  good_header (hd x) /\ good_intrinsics c (cl x) (intrinsics x) /\ good_lens c (lens_type x) (lens_params x).
(** Sizes within their types, and the type field tells the class. *)
Definition in_types {S} (x : camera S) : Prop := ty x = cl x /\ (0 <= width x < 2 ^ 32)%Z /\ (0 <= height x < 2 ^ 32)%Z /\ (0 <= line_delay x < 2 ^ 64)%Z.
(** The camera with another mask. *)
Definition with_mask {S} (m : option (Z * Z)) (x : camera S) : camera S :=
  {| cl := cl x; hd := hd x; ty := ty x; lens_type := lens_type x; lens_params := lens_params x; width := width x; height := height x; intrinsics := intrinsics x;
     line_delay := line_delay x; compressed := compressed x; mask := m |}.
(** A matrix of fixed size. *)
Definition sized {S} (n : Z) (m : matrix S) : Prop := m_rows m = n /\ m_cols m = n /\ shaped n n (coeffs m).
(** Conversion of the inverse to a matrix and back, and inversion, are exact for this transformation. *)
Definition exact_motion {S T} (g : motions S T) (t : T) : Prop :=
  sized 4 (to_matrix g (inverse g t)) /\ exists u, of_matrix g (to_matrix g (inverse g t)) = Some u /\ inverse g u = t.
(** The index of a rig: the answer for an id is the position of a camera with that id, and there is one if any camera has it. *)
Definition index_right {S T} (r : rig S T) : Prop :=
  (forall i k, is_id i -> camera_index (index r) i = Some k -> exists x, nth_error (cams r) k = Some x /\ h_id (hd x) = i) /\
  (forall k x, nth_error (cams r) k = Some x -> exists k', camera_index (index r) (h_id (hd x)) = Some k').
(** What a document says about a camera. Optional fields that are missing or cannot be read have defaults, or keep what the object had before ([old]). *)
Definition entry (n : ynode) (key : string) : option ynode := match n with YMap kvs => lookup key kvs | _ => None end.
Definition text_or (o : option ynode) (t : string) : string := match o with Some (YScalar u) => u | _ => t end.
Record says {S} (c : texts S) (fresh : id) (n : ynode) (old x : camera S) : Prop := Says {
  s_id : match entry n "id" with Some (YScalar t) => from_hex_string (list_byte_of_string t) = Parsed (h_id (hd x)) | _ => h_id (hd x) = fresh end;
  s_topic : h_topic (hd x) = text_or (entry n "topic") (h_topic (hd old)); s_description : h_description (hd x) = text_or (entry n "description") (h_description (hd old));
  s_type : entry n "type" = Some (YScalar (class_string (ty x)));
  s_width : exists t, entry n "image_width" = Some (YScalar t) /\ get_uint c 32 t = Some (width x);
  s_height : exists t, entry n "image_height" = Some (YScalar t) /\ get_uint c 32 t = Some (height x);
  s_intrinsics : exists m, entry n "intrinsics" = Some m /\ as_vector c m = Done (intrinsics x);
  s_lens : match entry n "distortion" with
           | None | Some YNull => lens_type x = NoLens /\ lens_params x = []
           | Some m => entry m "type" = Some (YScalar (lens_string (lens_type x))) /\
                       exists p q, entry m "parameters" = Some p /\ as_vector c p = Done q /\ lens_params x = match lens_type x with NoLens => [] | _ => q end
           end;
  s_delay : line_delay x = match entry n "line-delay-nanoseconds" with Some (YScalar t) => match get_uint c 64 t with Some d => d | None => 0%Z end | _ => 0%Z end;
  s_compressed : compressed x = match entry n "compressed" with Some (YScalar t) => match get_bool c t with Some b => b | None => false end | Some _ => false | None => compressed old end }.
(** What an entry of the list of cameras says about a camera and its transformation. *)
Definition entry_says {S T} (c : texts S) (g : motions S T) (fresh : id) (n : ynode) (x : camera S) (t : T) : Prop :=
  (exists m, entry n "camera" = Some m /\ says c fresh m (default_camera (cl x) fresh) x) /\
  match entry n "T_B_C", entry n "T_C_B" with
  | Some a, _ => exists m u, as_matrix c (Some 4%Z) (Some 4%Z) a = Done m /\ of_matrix g m = Some u /\ t = inverse g u
  | None, Some a => exists m u, as_matrix c (Some 4%Z) (Some 4%Z) a = Done m /\ of_matrix g m = Some u /\ t = inverse g (inverse g u)
  | None, None => False
  end.
(** A field that is missing, or whose conversion ends with a value or an exception of yaml-cpp. *)
Definition readable {A} (f : ynode -> outcome A) (n : ynode) (key : string) : Prop := forall m, entry n key = Some m -> f m <> Aborted /\ f m <> Undefined.
(** The id of a document is missing, not a text, or a valid id. *)
Definition id_in_order (n : ynode) : Prop := forall t, entry n "id" = Some (YScalar t) -> exists i, from_hex_string (list_byte_of_string t) = Parsed i /\ i <> invalid_id.
