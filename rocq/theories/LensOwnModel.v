(** Model of the camera factory and of the ownership of lenses.

    Source: aslam_cv_cameras/src/camera-factory.cc ("cf") 17-64, aslam_cv_cameras/src/camera.cc ("cc") 41-65, camera-{pinhole,unified-projection,3d-lidar}.cc (constructors),
            aslam_cv_cameras/include/aslam/cameras/camera.h ("cam") 187-200 and 549-598, distortion-*.{h,cc} (constructors), distortion.cc ("di") 65-68, aslam_cv_common/include/aslam/common/sensor.h ("se") 48-55.

    A lens is an object on a heap; a unique_ptr is an address or null, and belongs to a camera (distortion_) or to a variable of the caller. Overwriting or destroying a
    unique_ptr deletes its object, moving from it leaves null. Addresses are not used again. Every camera has one shared_ptr, in a variable of the caller; cameras are
    named by their variable. Doubles are real numbers; masks (MaskModel.v), line delays, topics and descriptions are left out. Reading a deleted lens, using a camera
    variable that holds none, and writing behind the last parameter are [Undef]; failed CHECKs and LOG(FATAL) are [Abort]. *)
From Coq Require Import Reals ZArith List Bool Arith.
From Verif Require Import HashIdModel RandPtModel.
Import ListNotations.

Inductive result (A : Type) := Ok (a : A) | Abort | Undef.
Arguments Ok {A}. Arguments Abort {A}. Arguments Undef {A}.
Definition bind {A B} (x : result A) (f : A -> result B) : result B := match x with Ok a => f a | Abort => Abort | Undef => Undef end.

(** distortion_type_ and distortion_coefficients_. *)
Record lens := Lens { l_type : lens_type; coefficients : list R }.
(** The fields of a camera other than distortion_. *)
Record body := Body { b_type : model_type; b_id : id; intrinsics : list R; image_width : Z; image_height : Z }.
Inductive owner := OfCamera (k : nat) | OfVariable (v : nat).
Definition owner_eqb (a b : owner) : bool := match a, b with OfCamera i, OfCamera j | OfVariable i, OfVariable j => Nat.eqb i j | _, _ => false end.
Record state := State { heap : nat -> option lens; next : nat; points : owner -> option nat; cameras : nat -> option body }.
Definition initial : state := State (fun _ => None) 0 (fun _ => None) (fun _ => None).

Definition set_heap (h : nat -> option lens) (a : nat) (l : option lens) : nat -> option lens := fun b => if Nat.eqb b a then l else h b.
Definition set_points (p : owner -> option nat) (o : owner) (a : option nat) : owner -> option nat := fun q => if owner_eqb q o then a else p q.
Definition set_camera (k : nat) (b : option body) (s : state) : state := State (heap s) (next s) (points s) (fun i => if Nat.eqb i k then b else cameras s i).
(** Destruction of the object of a unique_ptr. *)
Definition delete (a : option nat) (h : nat -> option lens) : nat -> option lens := match a with Some a => set_heap h a None | None => h end.
(** p.reset(new T(...)). *)
Definition reset_new (o : owner) (l : lens) (s : state) : state :=
  State (set_heap (delete (points s o) (heap s)) (next s) (Some l)) (S (next s)) (set_points (points s) o (Some (next s))) (cameras s).
(** p = std::move(q), for different pointers. *)
Definition move (q p : owner) (s : state) : state :=
  State (delete (points s p) (heap s)) (next s) (set_points (set_points (points s) p (points s q)) q None) (cameras s).
(** The destructor of p. *)
Definition clear (o : owner) (s : state) : state := State (delete (points s o) (heap s)) (next s) (set_points (points s) o None) (cameras s).

(** new RadTanDistortion(l), ..., new NullDistortion(): the constructors check the coefficients (distortion-radtan.cc 9-12, distortion-equidistant.cc 11-14, distortion-fisheye.cc 9-12); that of
    distortion-null.h 26 has none. *)
Definition new_lens (t : lens_type) (l : list R) : result lens :=
  match t with NoLens => Ok (Lens NoLens []) | _ => if lens_valid t l then Ok (Lens t l) else Abort end.
(** *p of a lens that is to be read. *)
Definition deref (s : state) (o : owner) : result lens :=
  match points s o with None => Abort | Some a => match heap s a with Some l => Ok l | None => Undef end end.
Definition get_camera (s : state) (k : nat) : result body := match cameras s k with Some b => Ok b | None => Undef end.

Inductive op :=
| MakeLens (v : nat) (t : lens_type) (l : list R)                               (* v.reset(new T(l)) *)
| Create (k : nat) (i : id) (intr : list R) (w h : Z) (coeffs : list R) (t : model_type) (lt : lens_type)  (* createCamera, cf 17-64 *)
| Construct (k : nat) (t : model_type) (i : id) (intr : list R) (w h : Z) (v : nat)   (* new T(intr, w, h, v), with the generated id i *)
| ConstructPlain (k : nat) (t : model_type) (i : id) (intr : list R) (w h : Z)        (* new T(intr, w, h) *)
| Clone (j k : nat)                                                              (* k.reset(j->clone()) *)
| SetParameters (k : nat) (l : list R)
| WriteParameter (k : nat) (n : nat) (x : R)                                     (* k->getParametersMutable()[n] = x *)
| SetLensParameters (k : nat) (l : list R)                                       (* k->getDistortionMutable()->setParameters(l) *)
| SetDistortion (k v : nat)                                                      (* k->setDistortion(v) *)
| RemoveDistortion (k : nat)
| SetId (k : nat) (i : id)
| Drop (k : nat).                                                                (* k.reset() *)

Definition replace (n : nat) (x : R) (l : list R) : list R := firstn n l ++ [x] ++ skipn (S n) l.
(** Storing a new camera in a variable destroys the one that was there; the new camera gets its lens from [o]. *)
Definition store (k : nat) (b : body) (o : owner) (s : state) : state := set_camera k (Some b) (move o (OfCamera k) s).
(** A variable of createCamera and of the copy constructor; the caller has no access to it. *)
Definition local : owner := OfVariable 0.
Definition var (v : nat) : owner := OfVariable (S v).

Definition step (s : state) (o : op) : result state :=
  match o with
  | MakeLens v t l => bind (new_lens t l) (fun d => Ok (reset_new (var v) d s))
  | Create k i intr w h coeffs t lt =>
      if is_valid i then                                                          (* cf 22 *)
        bind (new_lens lt coeffs) (fun d =>                                       (* cf 25-42 *)
        if lens_valid lt coeffs then                                              (* cf 43-45 *)
          match t with
          | LidarType => Abort                                                    (* cf 57-59 *)
          | _ => if parameters_valid t intr then Ok (store k (Body t i intr w h) local (reset_new local d s)) else Abort
          end
        else Abort)
      else Abort
  | Construct k t i intr w h v =>
      match t, points s (var v) with
      | LidarType, _ => Undef                                                     (* there is no such constructor *)
      | _, None => Abort                                                          (* cc 52 *)
      | _, Some _ => if parameters_valid t intr then Ok (store k (Body t i intr w h) (var v) s) else Abort
      end
  | ConstructPlain k t i intr w h =>                                              (* cc 57-65 *)
      if parameters_valid t intr then Ok (store k (Body t i intr w h) local (reset_new local (Lens NoLens []) s)) else Abort
  | Clone j k =>                                                                  (* cam 188-200 *)
      bind (get_camera s j) (fun b => bind (deref s (OfCamera j)) (fun d => Ok (store k b local (reset_new local d s))))
  | SetParameters k l =>                                                          (* cam 595-598 *)
      bind (get_camera s k) (fun b => if Nat.eqb (parameter_size (b_type b)) (length l) then Ok (set_camera k (Some (Body (b_type b) (b_id b) l (image_width b) (image_height b))) s) else Abort)
  | WriteParameter k n x =>                                                       (* cam 589-591 *)
      bind (get_camera s k) (fun b => if Nat.ltb n (length (intrinsics b)) then Ok (set_camera k (Some (Body (b_type b) (b_id b) (replace n x (intrinsics b)) (image_width b) (image_height b))) s) else Undef)
  | SetLensParameters k l =>                                                      (* cam 553-555, di 65-68 *)
      bind (get_camera s k) (fun _ => bind (deref s (OfCamera k)) (fun d =>
      if lens_valid (l_type d) l then
        match points s (OfCamera k) with Some a => Ok (State (set_heap (heap s) a (Some (Lens (l_type d) l))) (next s) (points s) (cameras s)) | None => Abort end
      else Abort))
  | SetDistortion k v => bind (get_camera s k) (fun _ => Ok (move (var v) (OfCamera k) s))     (* cam 563-565 *)
  | RemoveDistortion k => bind (get_camera s k) (fun _ => Ok (reset_new (OfCamera k) (Lens NoLens []) s))  (* cam 574-576 *)
  | SetId k i => bind (get_camera s k) (fun b => if is_valid i then Ok (set_camera k (Some (Body (b_type b) i (intrinsics b) (image_width b) (image_height b))) s) else Abort)  (* se 49-52 *)
  | Drop k => Ok (set_camera k None (clear (OfCamera k) s))
  end.
Fixpoint run (s : state) (l : list op) : result state := match l with [] => Ok s | o :: l => bind (step s o) (fun s => run s l) end.

(** What the getters of a camera say: getType, getId, getParameters, imageWidth, imageHeight and, through getDistortion (cam 558-560), getType and getParameters of the lens. *)
Definition report (s : state) (k : nat) : result (body * lens) := bind (get_camera s k) (fun b => bind (deref s (OfCamera k)) (fun d => Ok (b, d))).
(** isValid, sensor.cc 25-31 and isValidImpl. *)
Definition camera_valid (b : body) : bool := is_valid (b_id b) && parameters_valid (b_type b) (intrinsics b).
