(** Model of the YAML documents of cameras and camera rigs.

    Source: aslam_cv_common/src/sensor.cc ("se") 38-88, aslam_cv_common/include/aslam/common/yaml-serialization.h ("ys") 26-56,
            aslam_cv_cameras/src/camera.cc ("ca") 106-298, aslam_cv_cameras/src/camera-factory.cc ("cf") 66-105, aslam_cv_cameras/src/ncamera.cc ("nc") 45-47, 94-219, 319-328,
            areParametersValid of the camera and distortion classes.

    A document is a tree of nodes; the texts of numbers and the functions of yaml-cpp that write and read them are parameters. An exception of yaml-cpp is caught in safeGet; another
    exception leaves the functions ([Threw]). A failed CHECK is [Abort], behaviour that is not defined [Undef]. [Ret b x]: the function returned [b] and the object is now [x].
    Doubles are of an arbitrary type with the comparisons of areParametersValid. Transformations are of an arbitrary type with inverse and the conversions to and from
    matrices ([None]: a CHECK of minkindr fails). What generateId returns is a parameter. The unordered_map of a rig is an association list, the newest entry
    first. The image mask is represented by its size. Logging is left out. *)
From Coq Require Import ZArith List Bool String.
From Verif Require Import HashIdModel YamlMatrixModel.
Import ListNotations.
Local Open Scope string_scope.

(** ** YAML documents *)
Inductive ynode := YNull | YScalar (t : string) | YSeq (l : list ynode) | YMap (kvs : list (string * ynode)).
(** node[key] of a const node; None: not defined. *)
Fixpoint lookup (key : string) (kvs : list (string * ynode)) : option ynode :=
  match kvs with [] => None | (k, n) :: r => if k =? key then Some n else lookup key r end.
(** node[key] = n. *)
Fixpoint set_key (key : string) (n : ynode) (kvs : list (string * ynode)) : list (string * ynode) :=
  match kvs with [] => [(key, n)] | (k, m) :: r => if k =? key then (k, n) :: r else (k, m) :: set_key key n r end.
(** What the conversion of Eigen matrices (YamlMatrixModel) sees of a node, and the node that it makes. *)
Fixpoint view (n : ynode) : node string :=
  match n with
  | YNull => Null
  | YScalar t => Scalar t
  | YSeq l => Sequence (map view l)
  | YMap kvs =>
      let get := fix get (key : string) (kvs : list (string * ynode)) : option (node string) :=
        match kvs with [] => None | (k, m) :: r => if k =? key then Some (view m) else get key r end in
      Table (get "rows" kvs) (get "cols" kvs) (get "data" kvs)
  end.
Fixpoint embed (n : node string) : ynode :=
  match n with
  | Null => YNull
  | Scalar t => YScalar t
  | Sequence l => YSeq (map embed l)
  | Table r k d =>
      let entry (key : string) (o : option (node string)) := match o with Some m => [(key, embed m)] | None => [] end in
      YMap (entry "rows" r ++ entry "cols" k ++ entry "data" d)%list
  end.

Inductive yresult (A : Type) := Ret (b : bool) (x : A) | Abort | Threw | Undef.
Arguments Ret {A}. Arguments Abort {A}. Arguments Threw {A}. Arguments Undef {A}.
Definition ybind {A B} (x : yresult A) (f : bool -> A -> yresult B) : yresult B :=
  match x with Ret b a => f b a | Abort => Abort | Threw => Threw | Undef => Undef end.
(** Using the value of an expression in a function that returns bool. *)
Definition with_value {A B} (x : outcome A) (f : A -> yresult B) : yresult B :=
  match x with Done a => f a | Aborted => Abort | Refused | Thrown => Threw | Undefined => Undef end.
Notation "'need' x <- e ; f" := (with_value e (fun x => f)) (at level 200, x name, e at level 100, f at level 200).

(** safeGet, ys 26-47: [None] is the return value false. *)
Definition safe_get {A} (as_a : ynode -> outcome A) (n : ynode) (key : string) : outcome (option A) :=
  match n with
  | YMap kvs => match lookup key kvs with
                | Some m => match as_a m with Done a => Done (Some a) | Refused | Thrown => Done None | Aborted => Aborted | Undefined => Undefined end
                | None => Done None
                end
  | _ => Done None
  end.
(** hasKey, ys 49-56. *)
Definition has_key (n : ynode) (key : string) : bool := match n with YMap kvs => match lookup key kvs with Some _ => true | None => false end | _ => false end.
(** as<std::string>; of a null node it is an exception here (versions of yaml-cpp from 0.7 on give a text). *)
Definition as_string (n : ynode) : outcome string := match n with YScalar t => Done t | _ => Thrown end.

(** ** Cameras *)
Inductive camera_class := Pinhole | Unified | Lidar.
Inductive lens := NoLens | Equidistant | Fisheye | RadTan.
Record header := Header { h_id : id; h_topic : string; h_description : string }.
Section Model.
Variable S : Type.
(** Texts of numbers; comparisons of doubles. *)
Record texts := Texts {
  num : codec string S;
  put_bool : bool -> string; get_bool : string -> option bool;
  put_uint : Z -> string; get_uint : Z -> string -> option Z;  (* the first argument is the number of bits *)
  positive : S -> bool; non_negative : S -> bool; fisheye_w : S -> bool }.
Variable c : texts.
Record camera := Camera {
  cl : camera_class;            (* the class of the object *)
  hd : header;
  ty : camera_class;            (* camera_type_ *)
  lens_type : lens; lens_params : list S;
  width : Z; height : Z; intrinsics : list S; line_delay : Z; compressed : bool;
  mask : option (Z * Z) }.

(** areParametersValid: camera-pinhole.cc 212-218, camera-unified-projection.cc 294-301, camera-3d-lidar.cc 122-126. *)
Definition intrinsics_valid (k : camera_class) (l : list S) : bool :=
  match k, l with
  | Pinhole, [fu; fv; cu; cv] => positive c fu && positive c fv && positive c cu && positive c cv
  | Unified, [xi; fu; fv; cu; cv] => non_negative c xi && positive c fu && positive c fv && positive c cu && positive c cv
  | Lidar, [h; v; _; _] => positive c h && positive c v
  | _, _ => false
  end.
(** areParametersValid: distortion-null.h 143-146, distortion-equidistant.cc 175-181, distortion-fisheye.cc 145-156, distortion-radtan.cc 120-126. *)
Definition lens_valid (k : lens) (l : list S) : bool :=
  match k, l with
  | NoLens, _ => true
  | Equidistant, [_; _; _; _] => true
  | Fisheye, [w] => fisheye_w c w
  | RadTan, [_; _; _; _] => true
  | _, _ => false
  end.
Definition id_string (i : id) : string := string_of_list_byte (hex_string i).

(** as<bool>, as<uint32_t>, as<uint64_t>, as<Eigen::VectorXd>. *)
Definition as_bool (n : ynode) : outcome bool := match n with YScalar t => match get_bool c t with Some b => Done b | None => Thrown end | _ => Thrown end.
Definition as_uint (bits : Z) (n : ynode) : outcome Z := match n with YScalar t => match get_uint c bits t with Some z => Done z | None => Thrown end | _ => Thrown end.
Definition as_matrix (rows cols : option Z) (n : ynode) : outcome (matrix S) := decode (num c) rows cols (view n).
Definition as_vector (n : ynode) : outcome (list S) :=
  match as_matrix None (Some 1%Z) n with
  | Done m => Done (List.concat (coeffs m)) | Refused => Refused | Aborted => Aborted | Thrown => Thrown | Undefined => Undefined
  end.
(** Conversion of a matrix and of a vector to a node. *)
Definition matrix_node (m : matrix S) : outcome ynode := do n <- encode (num c) m; Done (embed n).
Definition vector_node (l : list S) : outcome ynode := matrix_node (Matrix (Z.of_nat (List.length l)) 1 (map (fun x => [x]) l)).

(** *** Writing *)
Definition class_string (k : camera_class) : string := match k with Pinhole => "pinhole" | Unified => "unified-projection" | Lidar => "camera-3d-lidar" end.
Definition lens_string (k : lens) : string := match k with NoLens => "none" | Equidistant => "equidistant" | Fisheye => "fisheye" | RadTan => "radial-tangential" end.
(** Sensor::serialize up to saveToYamlNodeImpl, se 76-88. *)
Definition save_header (sensor_type : string) (h : header) : outcome (list (string * ynode)) :=
  if is_valid (h_id h) then
    Done (set_key "description" (YScalar (h_description h)) (set_key "topic" (YScalar (h_topic h)) (set_key "sensor_type" (YScalar sensor_type) (set_key "id" (YScalar (id_string (h_id h))) []))))
  else Aborted.
(** Camera::saveToYamlNodeImpl, ca 250-298. *)
Definition save_camera_fields (x : camera) (kvs : list (string * ynode)) : outcome (list (string * ynode)) :=
  do i <- vector_node (intrinsics x);
  let kvs := set_key "intrinsics" i (set_key "type" (YScalar (class_string (ty x))) (set_key "image_width" (YScalar (put_uint c (width x)))
    (set_key "image_height" (YScalar (put_uint c (height x))) (set_key "line-delay-nanoseconds" (YScalar (put_uint c (line_delay x)))
    (set_key "compressed" (YScalar (put_bool c (compressed x))) kvs))))) in
  match lens_type x with
  | NoLens => Done kvs
  | k => do p <- vector_node (lens_params x);
         Done (set_key "distortion" (YMap (set_key "parameters" p (set_key "type" (YScalar (lens_string k)) []))) kvs)
  end.
Definition serialize_camera (x : camera) : outcome ynode :=
  do kvs <- save_header "CAMERA" (hd x);
  do kvs' <- save_camera_fields x kvs;
  Done (YMap kvs').

(** *** Reading *)
(** Sensor::deserialize up to loadFromYamlNodeImpl, se 38-74; [fresh] is what generateId makes. *)
Definition load_header (fresh : id) (n : ynode) (h : header) : yresult header :=
  match n with
  | YMap _ =>
      need o <- safe_get as_string n "id";
      ybind (match o with
             | Some t => if t =? "" then Abort
                         else match from_hex_string (list_byte_of_string t) with Parsed i => Ret true i | Rejected => Abort | HashIdModel.Thrown => Threw end
             | None => Ret true fresh
             end) (fun _ i =>
      if is_valid i then
        need t <- safe_get as_string n "topic";
        need d <- safe_get as_string n "description";
        Ret true {| h_id := i; h_topic := match t with Some t => t | None => h_topic h end; h_description := match d with Some d => d | None => h_description h end |}
      else Abort)
  | _ => Ret false h
  end.
Definition parse_class (t : string) : option camera_class :=
  if t =? "pinhole" then Some Pinhole else if t =? "unified-projection" then Some Unified else if t =? "camera-3d-lidar" then Some Lidar else None.
Definition parse_lens (t : string) : option lens :=
  if t =? "none" then Some NoLens else if t =? "equidistant" then Some Equidistant else if t =? "fisheye" then Some Fisheye
  else if t =? "radial-tangential" then Some RadTan else None.
(** The distortion, ca 112-191: [None] for return false. A NullDistortion has no coefficients. *)
Definition load_lens (n : ynode) : outcome (option (lens * list S)) :=
  match n with
  | YMap kvs =>
      match lookup "distortion" kvs with
      | None | Some YNull => Done (Some (NoLens, []))
      | Some (YMap _ as m) =>
          do t <- safe_get as_string m "type";
          match t with
          | None => Done None
          | Some t =>
              do p <- safe_get as_vector m "parameters";
              match p with
              | None => Done None
              | Some p => match parse_lens t with
                          | None => Done None
                          | Some NoLens => Done (Some (NoLens, []))
                          | Some k => if lens_valid k p then Done (Some (k, p)) else Done None
                          end
              end
          end
      | Some _ => Done None
      end
  | _ => Done None
  end.
(** Assignments to the members. *)
Definition set_header (h : header) (x : camera) : camera := let 'Camera cl0 hd0 ty0 lt0 lp0 w0 h0 in0 ld0 co0 mk0 := x in Camera cl0 h ty0 lt0 lp0 w0 h0 in0 ld0 co0 mk0.
Definition set_lens (k : lens) (p : list S) (x : camera) : camera := let 'Camera cl0 hd0 ty0 lt0 lp0 w0 h0 in0 ld0 co0 mk0 := x in Camera cl0 hd0 ty0 k p w0 h0 in0 ld0 co0 mk0.
Definition set_width (w : Z) (x : camera) : camera := let 'Camera cl0 hd0 ty0 lt0 lp0 w0 h0 in0 ld0 co0 mk0 := x in Camera cl0 hd0 ty0 lt0 lp0 w h0 in0 ld0 co0 mk0.
Definition set_height (h : Z) (x : camera) : camera := let 'Camera cl0 hd0 ty0 lt0 lp0 w0 h0 in0 ld0 co0 mk0 := x in Camera cl0 hd0 ty0 lt0 lp0 w0 h in0 ld0 co0 mk0.
Definition set_type (k : camera_class) (x : camera) : camera := let 'Camera cl0 hd0 ty0 lt0 lp0 w0 h0 in0 ld0 co0 mk0 := x in Camera cl0 hd0 k lt0 lp0 w0 h0 in0 ld0 co0 mk0.
Definition set_intrinsics (l : list S) (x : camera) : camera := let 'Camera cl0 hd0 ty0 lt0 lp0 w0 h0 in0 ld0 co0 mk0 := x in Camera cl0 hd0 ty0 lt0 lp0 w0 h0 l ld0 co0 mk0.
Definition set_delay (d : Z) (x : camera) : camera := let 'Camera cl0 hd0 ty0 lt0 lp0 w0 h0 in0 ld0 co0 mk0 := x in Camera cl0 hd0 ty0 lt0 lp0 w0 h0 in0 d co0 mk0.
Definition set_compressed (b : bool) (x : camera) : camera := let 'Camera cl0 hd0 ty0 lt0 lp0 w0 h0 in0 ld0 co0 mk0 := x in Camera cl0 hd0 ty0 lt0 lp0 w0 h0 in0 ld0 b mk0.
(** Camera::loadFromYamlNodeImpl, ca 106-248. *)
Definition load_camera (n : ynode) (x : camera) : yresult camera :=
  need l <- load_lens n;
  match l with
  | None => Ret false x
  | Some l =>
    let x := set_lens (fst l) (snd l) x in
    need w <- safe_get (as_uint 32) n "image_width";
    match w with
    | None => Ret false x
    | Some w =>
      let x := set_width w x in
      need h <- safe_get (as_uint 32) n "image_height";
      match h with
      | None => Ret false x
      | Some h =>
        let x := set_height h x in
        need t <- safe_get as_string n "type";
        match t with
        | None => Ret false x
        | Some t =>
          match parse_class t with
          | None => Ret false x
          | Some k =>
            let x := set_type k x in
            need i <- safe_get as_vector n "intrinsics";
            match i with
            | None => Ret false x
            | Some i =>
              let x := set_intrinsics i x in
              if intrinsics_valid (cl x) i then
                need d <- safe_get (as_uint 64) n "line-delay-nanoseconds";
                let x := set_delay (match d with Some d => d | None => 0%Z end) x in
                if has_key n "compressed" then
                  need b <- safe_get as_bool n "compressed";
                  Ret true (set_compressed (match b with Some b => b | None => false end) x)
                else Ret true x
              else Ret false x
            end
          end
        end
      end
    end
  end.
(** Sensor::deserialize of a camera. *)
Definition deserialize_camera (fresh : id) (n : ynode) (x : camera) : yresult camera :=
  ybind (load_header fresh n (hd x)) (fun b h => if b then load_camera n (set_header h x) else Ret false (set_header h x)).
(** The default constructors: camera-pinhole.cc 17-18, camera-unified-projection.cc 20-21, camera-3d-lidar.cc 17-18, se 5-7; the parameters are zeros and not modelled. *)
Definition default_camera (k : camera_class) (i : id) : camera :=
  {| cl := k; hd := {| h_id := i; h_topic := ""; h_description := "" |}; ty := k; lens_type := NoLens; lens_params := []; width := 0; height := 0; intrinsics := [];
     line_delay := 0; compressed := false; mask := None |}.
(** createCamera, cf 66-105. A null pointer is [Ret false None]. *)
Definition create_camera (fresh : id) (o : option ynode) : yresult (option camera) :=
  match o with
  | Some (YMap _ as n) =>
      need t <- safe_get as_string n "type";
      match t with
      | None => Ret false None
      | Some t => match parse_class t with
                  | None => Ret false None
                  | Some k => ybind (deserialize_camera fresh n (default_camera k fresh)) (fun b x => if b then Ret true (Some x) else Ret false None)
                  end
      end
  | _ => Ret false None
  end.

(** ** Rigs *)
Variable T : Type.
Record motions := Motions { inverse : T -> T; to_matrix : T -> matrix S; of_matrix : matrix S -> option T }.
Variable g : motions.
Record rig := Rig { r_hd : header; cams : list camera; T_C_B : list T; index : list (id * nat); cov : option (matrix S) }.
(** initInternal, nc 202-210: None for a failed CHECK. *)
Fixpoint index_loop (i : nat) (l : list camera) (m : list (id * nat)) : option (list (id * nat)) :=
  match l with
  | [] => Some m
  | x :: l' => if is_valid (h_id (hd x)) then index_loop (1 + i) l' ((h_id (hd x), i) :: m) else None
  end.
Definition init_internal (r : rig) : option rig :=
  if (List.length (cams r) =? List.length (T_C_B r))%nat then
    match index_loop 0 (cams r) [] with Some m => Some {| r_hd := r_hd r; cams := cams r; T_C_B := T_C_B r; index := m; cov := cov r |} | None => None end
  else None.
(** The transformation of one entry, nc 152-164. *)
Definition load_T_B_C (n : ynode) : outcome (option T) :=
  if has_key n "T_B_C" then
    do m <- safe_get (as_matrix (Some 4%Z) (Some 4%Z)) n "T_B_C";
    match m with None => Aborted | Some m => match of_matrix g m with None => Aborted | Some t => Done (Some t) end end
  else if has_key n "T_C_B" then
    do m <- safe_get (as_matrix (Some 4%Z) (Some 4%Z)) n "T_C_B";
    match m with None => Aborted | Some m => match of_matrix g m with None => Aborted | Some t => Done (Some (inverse g t)) end end
  else Done None.
(** The loop over the cameras, nc 128-170. [fresh i] is the id made for camera i. *)
Fixpoint load_cameras (fresh : nat -> id) (i : nat) (l : list ynode) (r : rig) : yresult rig :=
  match l with
  | [] => Ret true r
  | n :: l' =>
      match n with
      | YMap kvs =>
          ybind (create_camera (fresh i) (lookup "camera" kvs)) (fun _ o =>
          match o with
          | None => Ret false r
          | Some x =>
              need t <- load_T_B_C n;
              match t with
              | None => Ret false r
              | Some t => load_cameras fresh (1 + i) l' {| r_hd := r_hd r; cams := cams r ++ [x]; T_C_B := T_C_B r ++ [inverse g t]; index := index r; cov := cov r |}
              end
          end)
      | _ => Ret false r
      end
  end.
Definition set_rig_header (h : header) (r : rig) : rig := {| r_hd := h; cams := cams r; T_C_B := T_C_B r; index := index r; cov := cov r |}.
Definition set_cov (m : matrix S) (r : rig) : rig := {| r_hd := r_hd r; cams := cams r; T_C_B := T_C_B r; index := index r; cov := Some m |}.
(** NCamera::loadFromYamlNodeImpl, nc 94-175. *)
Definition load_rig (fresh : nat -> id) (n : ynode) (r : rig) : yresult rig :=
  match n with
  | YMap kvs =>
      need m <- (if has_key n "T_G_B_fixed_covariance" then
                  do m <- safe_get (as_matrix (Some 6%Z) (Some 6%Z)) n "T_G_B_fixed_covariance"; match m with None => Aborted | Some m => Done (Some m) end
                else Done None);
      let r := match m with Some m => set_cov m r | None => r end in
      match lookup "cameras" kvs with
      | Some (YSeq []) => Ret false r
      | Some (YSeq l) =>
          ybind (load_cameras fresh 0 l r) (fun b r => if b then match init_internal r with Some r => Ret true r | None => Abort end else Ret false r)
      | _ => Ret false r
      end
  | _ => Ret false r
  end.
Definition deserialize_rig (fresh_rig : id) (fresh : nat -> id) (n : ynode) (r : rig) : yresult rig :=
  ybind (load_header fresh_rig n (r_hd r)) (fun b h => if b then load_rig fresh n (set_rig_header h r) else Ret false (set_rig_header h r)).
(** NCamera(), nc 45-47. *)
Definition default_rig (i : id) : rig := {| r_hd := {| h_id := i; h_topic := ""; h_description := "" |}; cams := []; T_C_B := []; index := []; cov := None |}.
(** One entry of the cameras, nc 188-196. *)
Definition camera_entry (x : camera) (t : T) : outcome ynode :=
  do n <- serialize_camera x;
  do m <- matrix_node (to_matrix g (inverse g t));
  Done (YMap (set_key "T_B_C" m (set_key "camera" n []))).
(** get_T_C_B(i) is an access to T_C_B_, whose size is not checked here (nc 216-219). *)
Fixpoint camera_entries (l : list camera) (ts : list T) : outcome (list ynode) :=
  match l, ts with
  | [], _ => Done []
  | x :: l', t :: ts' => do n <- camera_entry x t; do ns <- camera_entries l' ts'; Done (n :: ns)
  | _ :: _, [] => Undefined
  end.
(** NCamera::saveToYamlNodeImpl, nc 177-200. A YAML::Node to which nothing was pushed is null. *)
Definition save_rig_fields (r : rig) (kvs : list (string * ynode)) : outcome (list (string * ynode)) :=
  do kvs <- match cov r with Some m => do n <- matrix_node m; Done (set_key "T_G_B_fixed_covariance" n kvs) | None => Done kvs end;
  do l <- camera_entries (cams r) (T_C_B r);
  Done (set_key "cameras" (match l with [] => YNull | _ => YSeq l end) kvs).
Definition serialize_rig (r : rig) : outcome ynode :=
  do kvs <- save_header "NCAMERA" (r_hd r);
  do kvs' <- save_rig_fields r kvs;
  Done (YMap kvs').
(** getCameraIndex, nc 319-328, for a valid id. *)
Fixpoint camera_index (m : list (id * nat)) (i : id) : option nat :=
  match m with [] => None | (j, k) :: r => if id_eq j i then Some k else camera_index r i end.
End Model.

Arguments num {S}. Arguments put_bool {S}. Arguments get_bool {S}. Arguments put_uint {S}. Arguments get_uint {S}. Arguments positive {S}. Arguments non_negative {S}. Arguments fisheye_w {S}.
Arguments Camera {S}. Arguments cl {S}. Arguments hd {S}. Arguments ty {S}. Arguments lens_type {S}. Arguments lens_params {S}. Arguments width {S}. Arguments height {S}.
Arguments intrinsics {S}. Arguments line_delay {S}. Arguments compressed {S}. Arguments mask {S}.
Arguments intrinsics_valid {S}. Arguments lens_valid {S}. Arguments as_bool {S}. Arguments as_uint {S}. Arguments as_matrix {S}. Arguments as_vector {S}. Arguments matrix_node {S}. Arguments vector_node {S}.
Arguments save_camera_fields {S}. Arguments serialize_camera {S}. Arguments load_lens {S}. Arguments load_camera {S}. Arguments deserialize_camera {S}. Arguments create_camera {S}.
Arguments set_header {S}. Arguments set_lens {S}. Arguments set_width {S}. Arguments set_height {S}. Arguments set_type {S}. Arguments set_intrinsics {S}. Arguments set_delay {S}. Arguments set_compressed {S}.
Arguments default_camera {S}. Arguments inverse {S T}. Arguments to_matrix {S T}. Arguments of_matrix {S T}. Arguments Rig {S T}. Arguments r_hd {S T}. Arguments cams {S T}. Arguments T_C_B {S T}.
Arguments index {S T}. Arguments cov {S T}. Arguments index_loop {S}. Arguments init_internal {S T}. Arguments load_T_B_C {S} c {T}. Arguments load_cameras {S} c {T}. Arguments load_rig {S} c {T}.
Arguments set_rig_header {S T}. Arguments set_cov {S T}. Arguments deserialize_rig {S} c {T}. Arguments default_rig {S T}. Arguments camera_entry {S} c {T}. Arguments camera_entries {S} c {T}.
Arguments save_rig_fields {S} c {T}. Arguments serialize_rig {S} c {T}.
