(** Model of the erasure of columns or rows of matrices, and of the adapters that pass a matrix as a container with one dimension.

    Sources: aslam_cv_common/include/aslam/common/stl-helpers-inl.h ("inl") 10-153; aslam_cv_common/include/aslam/common/stl-helpers.h ("sh") 218-242; used by aslam_cv_frames/src/visual-frame.cc 572-618.

    Sizes are below 2^31, so that the ints are exact. An entry is None if it is uninitialised: resize of an Eigen matrix of another size does not initialise. A block outside of a matrix is undefined (Eigen checks it in debug mode only). *)
From Coq Require Import List Arith Bool.
Import ListNotations.

Inductive outcome (A : Type) := Done (a : A) | Abort | Undefined.
Arguments Done {A}. Arguments Abort {A}. Arguments Undefined {A}.
Definition bind {A B} (o : outcome A) (f : A -> outcome B) : outcome B := match o with Done a => f a | Abort => Abort | Undefined => Undefined end.

Section Matrix.
Variable A : Type.
(** The dimension that is dynamic for the function: columns of Matrix<Rows, Dynamic> and of OneDimensionAdapter<kColumns>, rows otherwise. *)
Inductive dim := Columns | Rows.
Record mat := Mat { nrows : nat; ncols : nat; entry : nat -> nat -> option A }.
(** dynamicSize, inl 90-109. *)
Definition dynamic_size (d : dim) (m : mat) : nat := match d with Columns => ncols m | Rows => nrows m end.
(** resizeDynamicDimensionLike, inl 54-87, of a matrix without elements. *)
Definition resize_like (d : dim) (n : nat) (reference : mat) : mat :=
  match d with Columns => Mat (nrows reference) n (fun _ _ => None) | Rows => Mat n (ncols reference) (fun _ _ => None) end.
(** copyMiddle, inl 12-52. *)
Definition copy_middle (d : dim) (source_start destination_start size : nat) (source destination : mat) : outcome mat :=
  if (source_start + size <=? dynamic_size d source) && (destination_start + size <=? dynamic_size d destination) then
    let inside k := (destination_start <=? k) && (k <? destination_start + size) in
    Done (Mat (nrows destination) (ncols destination) (fun r c =>
      match d with
      | Columns => if inside c then entry source r (source_start + (c - destination_start)) else entry destination r c
      | Rows => if inside r then entry source (source_start + (r - destination_start)) c else entry destination r c
      end))
  else Undefined.
(** The loop, inl 136-150, with result_fill_index and container_block_start. *)
Fixpoint erase_loop (d : dim) (expected : nat) (container : mat) (fill start : nat) (indices : list nat) (result : mat) : outcome mat :=
  match indices with
  | [] => copy_middle d start fill (expected - start) container result
  | i :: rest =>
      if negb (start <=? i) then Abort
      else bind (copy_middle d start fill (i - start) container result) (fun result =>
        erase_loop d expected container (fill + (i - start)) (i + 1) rest result)
  end.
(** eraseIndicesFromContainer for matrices, inl 113-153: the matrix swapped into the container. *)
Definition erase (d : dim) (indices : list nat) (expected : nat) (container : mat) : outcome mat :=
  if negb (dynamic_size d container =? expected) then Abort
  else match rev indices with
       | [] => Undefined     (* back() of an empty vector, inl 120 *)
       | back :: _ =>
           if negb (back <? expected) then Abort
           else if negb (length indices <=? expected) then Abort
           else erase_loop d expected container 0 0 indices (resize_like d (expected - length indices) container)
       end.

(** ** Adapters, sh 223-242 *)
Record adapter := Adapter { a_dim : dim; a_ptr : nat; a_self : bool }.
(** Matrices on the heap by address, None when freed; the addresses of the caller's matrices; the adapters of the program, None when destroyed. *)
Record state := State { heap : list (option mat); users : list nat; vars : list (option adapter) }.
Inductive command :=
  | User (m : mat)                          (** a matrix of the caller, which stays *)
  | Wrap (d : dim) (u : nat)                (** OneDimensionAdapter(matrix), sh 230-231 *)
  | Default (d : dim)                       (** OneDimensionAdapter(), sh 232 *)
  | Copy (v : nat)                          (** the implicit copy constructor *)
  | Swap (v w : nat)                        (** sh 239-241 *)
  | Erase (v : nat) (indices : list nat) (expected : nat)
  | Destroy (v : nat).                      (** sh 233-237 *)
Fixpoint put {B} (l : list B) (n : nat) (b : B) : list B :=
  match l, n with [], _ => [] | _ :: l, O => b :: l | c :: l, S n => c :: put l n b end.
Definition empty_mat : mat := Mat 0 0 (fun _ _ => None).
(** The adapter of a variable and its matrix; a variable that is not there is not a program, and a freed matrix is undefined. *)
Definition var (s : state) (v : nat) : outcome adapter := match nth_error (vars s) v with Some (Some a) => Done a | _ => Abort end.
Definition load (h : list (option mat)) (p : nat) : outcome mat := match nth_error h p with Some (Some m) => Done m | _ => Undefined end.
Definition release (h : list (option mat)) (p : nat) : outcome (list (option mat)) := match nth_error h p with Some (Some _) => Done (put h p None) | _ => Undefined end.
Definition swap (h : list (option mat)) (p q : nat) : outcome (list (option mat)) := bind (load h p) (fun m => bind (load h q) (fun k => Done (put (put h p (Some k)) q (Some m)))).
Definition step (s : state) (c : command) : outcome state :=
  match c with
  | User m => Done (State (heap s ++ [Some m]) (users s ++ [length (heap s)]) (vars s))
  | Wrap d u => match nth_error (users s) u with Some p => Done (State (heap s) (users s) (vars s ++ [Some (Adapter d p false)])) | None => Abort end
  | Default d => Done (State (heap s ++ [Some empty_mat]) (users s) (vars s ++ [Some (Adapter d (length (heap s)) true)]))
  | Copy v => bind (var s v) (fun a => Done (State (heap s) (users s) (vars s ++ [Some a])))
  | Swap v w => bind (var s v) (fun a => bind (var s w) (fun b => bind (swap (heap s) (a_ptr a) (a_ptr b)) (fun h => Done (State h (users s) (vars s)))))
  | Erase v indices expected =>
      bind (var s v) (fun a => bind (load (heap s) (a_ptr a)) (fun m => bind (erase (a_dim a) indices expected m) (fun r =>
        let temporary := length (heap s) in     (* result, inl 133 *)
        bind (swap (heap s ++ [Some r]) (a_ptr a) temporary) (fun h => bind (release h temporary) (fun h => Done (State h (users s) (vars s)))))))
  | Destroy v =>
      bind (var s v) (fun a =>
        let vs := put (vars s) v None in
        if a_self a then bind (release (heap s) (a_ptr a)) (fun h => Done (State h (users s) vs)) else Done (State (heap s) (users s) vs))
  end.
Fixpoint run (s : state) (l : list command) : outcome state := match l with [] => Done s | c :: l => bind (step s c) (fun s => run s l) end.
Definition init : state := State [] [] [].
End Matrix.
Arguments Mat {A}. Arguments nrows {A}. Arguments ncols {A}. Arguments entry {A}. Arguments dynamic_size {A}. Arguments resize_like {A}. Arguments copy_middle {A}. Arguments erase_loop {A}. Arguments erase {A}. Arguments State {A}. Arguments heap {A}. Arguments users {A}. Arguments vars {A}. Arguments User {A}. Arguments Wrap {A}. Arguments Default {A}. Arguments Copy {A}. Arguments Swap {A}. Arguments Erase {A}. Arguments Destroy {A}. Arguments empty_mat {A}. Arguments var {A}. Arguments load {A}. Arguments release {A}. Arguments swap {A}. Arguments step {A}. Arguments run {A}. Arguments init {A}.
