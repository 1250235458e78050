(** Model of exchanging the data of a visual frame with variables of the caller.

    Source: aslam_cv_frames/src/visual-frame.cc ("vf") 81-113, 243-304, 306-342, 353-439, 734-750, 833-838; visual-frame.h 261-306.

    A matrix or a vector is the list of its columns, a column is an integer; each type of C++ has variables of its own, so that only calls that compile can be written. A pointer is null or the place of a variable; a place without a variable is a dangling pointer, undefined as soon as it is passed. A cell of the types of the descriptors is [None] when its memory has not been initialised. The frame shares its channels with no other frame. Allocation does not fail. *)
From Coq Require Import ZArith List Bool.
Import ListNotations.

Inductive result (A : Type) : Type := Ok (a : A) | Abort | Undef.
Arguments Ok {A} a. Arguments Abort {A}. Arguments Undef {A}.
Definition bind {A B} (r : result A) (f : A -> result B) : result B := match r with Ok a => f a | Abort => Abort | Undef => Undef end.

Inductive channel : Set := Measurements | Uncertainties | Orientations | Scores | Scales | Positions | Offsets | Tracks.
(** Matrix2Xd, VectorXd, Matrix3Xd, VectorXi, DescriptorsT. *)
Inductive kind : Set := Matrix2 | Doubles | Matrix3 | Integers | Bytes.
(** The types of the channels, visual-frame.h 261-291. *)
Definition kind_of (c : channel) : kind :=
  match c with Measurements => Matrix2 | Uncertainties | Orientations | Scores | Scales => Doubles | Positions => Matrix3 | Offsets | Tracks => Integers end.
Definition channel_eqb (a b : channel) : bool :=
  match a, b with
  | Measurements, Measurements | Uncertainties, Uncertainties | Orientations, Orientations | Scores, Scores | Scales, Scales | Positions, Positions | Offsets, Offsets | Tracks, Tracks => true
  | _, _ => false
  end.
Definition kind_eqb (a b : kind) : bool :=
  match a, b with Matrix2, Matrix2 | Doubles, Doubles | Matrix3, Matrix3 | Integers, Integers | Bytes, Bytes => true | _, _ => false end.

Definition value : Type := list Z.
(** The channels of the frame, its blocks of descriptors and their types (absent channels are [None]), the variables of the caller, and the integers that the calls returned, the last in front. *)
Record state : Type := State { chan : channel -> option value; blocks : option (list value); types : option (list (option Z)); vars : kind -> list value; returned : list (option Z) }.

Definition put_chan (s : state) (c : channel) (v : value) : state := State (fun d => if channel_eqb c d then Some v else chan s d) (blocks s) (types s) (vars s) (returned s).
Fixpoint replace {A} (n : nat) (x : A) (l : list A) : list A :=
  match l, n with [] , _ => [] | _ :: l, O => x :: l | y :: l, S n => y :: replace n x l end.
Definition put_var (s : state) (k : kind) (n : nat) (v : value) : state := State (chan s) (blocks s) (types s) (fun j => if kind_eqb k j then replace n v (vars s j) else vars s j) (returned s).
Definition put_blocks (s : state) (b : list value) (t : list (option Z)) : state := State (chan s) (Some b) (Some t) (vars s) (returned s).
Definition return_int (s : state) (i : option Z) : state := State (chan s) (blocks s) (types s) (vars s) (i :: returned s).
(** Reading a variable; a dangling pointer is undefined. *)
Definition var (s : state) (k : kind) (n : nat) : result value := match nth_error (vars s k) n with Some v => Ok v | None => Undef end.

Inductive op : Type :=
| Get (c : channel) (n : nat)
| Set_ (c : channel) (n : nat)
| Swap (c : channel) (p : option nat)
| GetBlock (index n : nat)
| GetType (index : nat)
| SetBlock (n index : nat) (type : Z)
| ExtendBlock (n : nat) (type : Z)
| SwapBlock (p : option nat) (index : nat) (type : Z).

(** The first lines of set-, extend- and swapDescriptors, vf 309-318, 412-422, 736-745: the channels, made if the first is missing; the types must exist and have the same length. *)
Definition descriptor_channels (s : state) : result (list value * list (option Z)) :=
  match blocks s, types s with
  | None, _ => Ok ([], [])
  | Some b, Some t => if Nat.eqb (length b) (length t) then Ok (b, t) else Abort
  | Some _, None => Abort
  end.
Definition step (s : state) (o : op) : result state :=
  match o with
  | Get c n =>                                                                     (* vf 81-100, 108-110 *)
      match chan s c with Some v => bind (var s (kind_of c) n) (fun _ => Ok (put_var s (kind_of c) n v)) | None => Abort end
  | Set_ c n => bind (var s (kind_of c) n) (fun v => Ok (put_chan s c v))          (* vf 243-304, 335-342 *)
  | Swap c p =>                                                                    (* vf 353-408, 432-439 *)
      match p with
      | None => match c with Tracks => Abort | _ => Undef end
      | Some n => bind (var s (kind_of c) n) (fun v => Ok (put_var (put_chan s c v) (kind_of c) n (match chan s c with Some w => w | None => [] end)))
      end
  | GetBlock index n =>                                                            (* vf 102-106 *)
      match blocks s with
      | Some b => match nth_error b index with Some v => bind (var s Bytes n) (fun _ => Ok (put_var s Bytes n v)) | None => Abort end
      | None => Abort
      end
  | GetType index =>                                                               (* vf 833-838 *)
      match types s with
      | Some t => match nth_error t index with Some i => Ok (return_int s i) | None => Abort end
      | None => Abort
      end
  | SetBlock n index type =>                                                       (* vf 306-328 *)
      bind (var s Bytes n) (fun v => bind (descriptor_channels s) (fun bt =>
      let '(b, t) := bt in
      if Nat.eqb (length b) 0 then Ok (put_blocks s [v] [Some type])
      else if Nat.ltb index (length b) then Ok (put_blocks s (replace index v b) (replace index (Some type) t)) else Abort))
  | ExtendBlock n type =>                                                          (* vf 733-750 *)
      bind (var s Bytes n) (fun v => bind (descriptor_channels s) (fun bt => let '(b, t) := bt in Ok (put_blocks s (b ++ [v]) (t ++ [Some type]))))
  | SwapBlock p index type =>                                                      (* vf 409-430 *)
      match p with
      | None => Abort
      | Some n =>
        bind (var s Bytes n) (fun v => bind (descriptor_channels s) (fun bt =>
        let '(b, t) := if Nat.eqb (length (fst bt)) 0 then ([[] : value], [None]) else bt in
        match nth_error b index, nth_error t index with
        | Some w, Some i => Ok (return_int (put_var (put_blocks s (replace index v b) (replace index (Some type) t)) Bytes n w) i)
        | _, _ => Abort
        end))
      end
  end.
Fixpoint run (s : state) (l : list op) : result state := match l with [] => Ok s | o :: l => bind (step s o) (fun s => run s l) end.
(** A frame without channels, with the caller's variables. *)
Definition start (v : kind -> list value) : state := State (fun _ => None) None None v [].
