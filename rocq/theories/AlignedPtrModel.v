(** Model of the owners of aligned memory.

    Source: aslam_cv_common/include/aslam/common/memory.h ("me") 40-82, aslam_cv_common/include/aslam/common/macros.h 12-15 (UniquePtr is AlignedUniquePtr, Ptr is std::shared_ptr).

    Memory is a heap of blocks; a block comes from Eigen's allocator or from the plain operator new, and holds an object of a class. operator new of a class is Eigen's if the class has
    EIGEN_MAKE_ALIGNED_OPERATOR_NEW ([aligned_new]). A pointer has a static class and may point behind the start of its block (a base class that is not at the start of the object). The
    destructor that is called is the right one if the static class is that of the object or has a virtual destructor. Giving memory to the wrong deallocation function, a pointer that is not the
    start of a block, a wrong destructor, or a block that is not there is undefined. Constructors either succeed or throw; if the constructor in a new expression throws, the language gives the
    memory back. Destructors do not own other pointers here, and threads are not modelled. *)
From Coq Require Import List Bool Arith.
Import ListNotations.

Record class := Class { aligned_new : bool; virtual_destructor : bool; base : option (nat * bool) }.  (* the base class, and whether it is at the start of the object *)
(** [p_aligned]: the deleter is aligned_delete; false for a shared_ptr that was made of a plain pointer, which deletes with the class of the object. *)
Record pointer := Pointer { p_block : nat; p_class : nat; p_start : bool; p_shared : bool; p_aligned : bool }.
Record block := Block { from_eigen : bool; of_class : nat }.
Record state := State { heap : list (nat * block); next : nat; vars : list (nat * pointer) }.
Inductive result := Ok (s : state) | Thrown (s : state) | Undef.

Fixpoint get {A} (k : nat) (l : list (nat * A)) : option A := match l with [] => None | (i, x) :: l => if i =? k then Some x else get k l end.
Definition remove {A} (k : nat) (l : list (nat * A)) : list (nat * A) := filter (fun e => negb (fst e =? k)) l.

Section Aligned.
Context (classes : nat -> class).

(** The deleter of a pointer: aligned_delete::operator(), me 57-63, or the delete expression of shared_ptr. *)
Definition free (p : pointer) (h : list (nat * block)) : option (list (nat * block)) :=
  match get (p_block p) h with
  | None => None
  | Some b =>
      if p_aligned p then
        if ((p_class p =? of_class b) || virtual_destructor (classes (p_class p))) && p_start p && from_eigen b then Some (remove (p_block p) h) else None
      else Some (remove (p_block p) h)
  end.
(** The end of an owner: a shared object lives on while it has another owner. *)
Definition release (p : pointer) (s : state) : result :=
  if p_shared p && existsb (fun e => p_block (snd e) =? p_block p) (vars s) then Ok s
  else match free p (heap s) with Some h => Ok (State h (next s) (vars s)) | None => Undef end.
(** v = p: the old object of the variable is let go when the new one is in place. *)
Definition assign (v : nat) (p : pointer) (s : state) : result :=
  let s' := State (heap s) (next s) ((v, p) :: remove v (vars s)) in
  match get v (vars s) with Some old => release old s' | None => Ok s' end.
(** v.reset(), or the end of the scope of v. A variable that is not listed holds no object. *)
Definition drop (v : nat) (s : state) : result :=
  match get v (vars s) with Some p => release p (State (heap s) (next s) (remove v (vars s))) | None => Ok s end.
Definition allocate (eigen : bool) (c : nat) (s : state) : state := State ((next s, Block eigen c) :: heap s) (S (next s)) (vars s).

(** Moving from or copying an empty pointer empties the target. What does not compile (a shared pointer moved into a unique one, a class without base) is [Undef]. *)
Inductive op :=
| Make (v c : nat) (throws : bool)          (* v = aligned_unique<C>(...) *)
| MakeShared (v c : nat) (throws : bool)    (* v = aligned_shared<C>(...) *)
| Adopt (v c : nat) (throws : bool)         (* v = C::UniquePtr(new C(...)) *)
| AdoptShared (v c : nat) (throws : bool)   (* v.reset(new C(...)), for a shared_ptr *)
| Move (v w : nat)                          (* w = std::move(v), same class *)
| ToBase (v w : nat)                        (* w = std::move(v), w a unique pointer to the base class; me 53-55 *)
| Share (v w : nat)                         (* w = std::move(v), v a unique and w a shared pointer *)
| Copy (v w : nat)                          (* w = v, shared pointers *)
| Drop (v : nat).

Definition step (s : state) (o : op) : result :=
  match o with
  (* aligned_unique, me 75-82: nothing gives the memory back if the constructor throws *)
  | Make v c throws => let s' := allocate true c s in if throws then Thrown s' else assign v (Pointer (next s) c true false true) s'
  (* aligned_shared, me 44-49: std::allocate_shared does *)
  | MakeShared v c throws => if throws then Thrown s else assign v (Pointer (next s) c true true true) (allocate true c s)
  | Adopt v c throws => if throws then Thrown s else assign v (Pointer (next s) c true false true) (allocate (aligned_new (classes c)) c s)
  | AdoptShared v c throws => if throws then Thrown s else assign v (Pointer (next s) c true true false) (allocate (aligned_new (classes c)) c s)
  | Move v w => if v =? w then Ok s else
      match get v (vars s) with Some p => assign w p (State (heap s) (next s) (remove v (vars s))) | None => drop w s end
  | ToBase v w =>
      match get v (vars s) with
      | Some p => match base (classes (p_class p)) with
                  | Some (b, start) => if p_shared p || (v =? w) then Undef
                                       else assign w (Pointer (p_block p) b (p_start p && start) false true) (State (heap s) (next s) (remove v (vars s)))
                  | None => Undef
                  end
      | None => drop w s
      end
  | Share v w =>
      match get v (vars s) with
      | Some p => if p_shared p || (v =? w) then Undef
                  else assign w (Pointer (p_block p) (p_class p) (p_start p) true (p_aligned p)) (State (heap s) (next s) (remove v (vars s)))
      | None => drop w s
      end
  | Copy v w => if v =? w then Ok s else
      match get v (vars s) with Some p => if p_shared p then assign w p s else Undef | None => drop w s end
  | Drop v => drop v s
  end.
(** A program that catches the exceptions. *)
Fixpoint run (s : state) (l : list op) : option state :=
  match l with
  | [] => Some s
  | o :: l => match step s o with Ok s' | Thrown s' => run s' l | Undef => None end
  end.
End Aligned.
Definition start : state := State [] 0 [].
