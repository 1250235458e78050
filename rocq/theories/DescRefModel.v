(** Model of the owning descriptor reference FeatureDescriptorRef and of FlipNRandomBits.

    Source: aslam_cv_common/include/aslam/common/feature-descriptor-ref.h ("fd"),
            aslam_cv_common/include/aslam/common/feature-descriptor-ref-inl.h ("fdi").

    Memory is a set of blocks; a block is a list of bytes, [None] being a byte never written, and comes from new[] ([heap] true) or from
    elsewhere. A pointer is null or the start of a block. Reading or writing outside of a live block, delete[] of something that is not a
    live heap block, and memcpy between overlapping memory are [Ub], a failed CHECK is [Abort]. Objects are numbered. Simplifications: no
    pointers into the middle of a block; new[] does not fail; sizes are unbounded (uint32_t); memcpy, memset and memcmp of zero bytes do
    nothing even with a null pointer; ids of objects are not reused while the object lives (see [legal] in the specification). *)
From Coq Require Import NArith Bool.
From stdpp Require Import gmap list.
From Verif Require Import StlHelpersModel GyroTrackerModel DescriptorModel.

Record block := Block { heap : bool; bytes : list (option N) }.
(** The members, fd 53-54 and 97. [owned] is [None] while the member has not been initialised. *)
Record ref := Ref { data : option nat; size : nat; owned : option bool }.
Record state := State { objects : gmap nat ref; memory : gmap nat block }.
Definition with_object (s : state) (i : nat) (r : ref) : state := State (<[i := r]> (objects s)) (memory s).
Definition get_object (s : state) (i : nat) : result ref := match objects s !! i with Some r => Ok r | None => Ub end.
Definition read_owned (r : ref) : result bool := match owned r with Some b => Ok b | None => Ub end.
(** delete[] *)
Definition delete (m : gmap nat block) (p : option nat) : result (gmap nat block) :=
  match p with
  | None => Ok m
  | Some a => match m !! a with Some (Block true _) => Ok (base.delete a m) | _ => Ub end
  end.
(** The first [n] bytes behind a pointer. *)
Definition load (m : gmap nat block) (p : option nat) (n : nat) : result (list (option N)) :=
  if (n =? 0)%nat then Ok []
  else match p with
       | None => Ub
       | Some a => match m !! a with Some b => if (n <=? length (bytes b))%nat then Ok (take n (bytes b)) else Ub | None => Ub end
       end.
(** Writing bytes behind a pointer. *)
Definition store (m : gmap nat block) (p : option nat) (bs : list (option N)) : result (gmap nat block) :=
  match bs with
  | [] => Ok m
  | _ => match p with
         | None => Ub
         | Some a => match m !! a with
                     | Some b => if (length bs <=? length (bytes b))%nat then Ok (<[a := Block (heap b) (bs ++ drop (length bs) (bytes b))]> m) else Ub
                     | None => Ub
                     end
         end
  end.
(** memcpy *)
Definition memcpy (m : gmap nat block) (dst src : option nat) (n : nat) : result (gmap nat block) :=
  if (n =? 0)%nat then Ok m
  else if decide (dst = src) then Ub
  else let! bs := load m src n in store m dst bs.

(** Release, fdi 80-86. *)
Definition release (m : gmap nat block) (r : ref) : result (gmap nat block * ref) :=
  let! o := read_owned r in
  if o then let! m' := delete m (data r) in Ok (m', Ref None (size r) (Some false)) else Ok (m, r).
(** Allocate, fdi 88-98. *)
Definition allocate (m : gmap nat block) (r : ref) (n : nat) : result (gmap nat block * ref) :=
  let! keep := (if (n =? size r)%nat then read_owned r else Ok false) in
  if keep then Ok (m, r)
  else
    let! x := release m r in
    let '(m', _) := x in
    let a := fresh (dom m' : gset nat) in
    Ok (<[a := Block true (replicate n None)]> m', Ref (Some a) n (Some true)).
(** Copying the contents: fdi 110-112 and 126-128. *)
Definition copy_contents (m : gmap nat block) (r : ref) (lhs : ref) : result (gmap nat block * ref) :=
  let! x := allocate m r (size lhs) in
  let '(m', r') := x in
  if (size lhs =? size r')%nat then let! m'' := memcpy m' (data r') (data lhs) (size r') in Ok (m'', r') else Abort.

(** Operations on the objects. *)
Inductive op :=
  | Default (i : nat)                                   (* fdi 63-66 *)
  | View (i a n : nat) (own : bool)                     (* fdi 68-71: constructor from a pointer *)
  | Heap (i n : nat)                                    (* fdi 76-78 *)
  | Copy (i j : nat)                                    (* fdi 121-134 *)
  | Assign (i j : nat)                                  (* fdi 100-119 *)
  | Allocate (i n : nat)
  | Release (i : nat)
  | Destroy (i : nat)                                   (* fdi 142-145 *)
  | SetRandom (i : nat) (gen : nat -> N)                (* fdi 154-166, [gen] is the sequence of the random generator *)
  | SetZero (i : nat)                                   (* fdi 147-152 *)
  | Write (i k : nat) (x : N)                           (* operator[] on the left of an assignment, fdi 179-183 *)
  | SetData (i a : nat) (own : bool)                    (* fdi 173-177 *)
  | External (a : nat) (bs : list N).                   (* memory provided by somebody else, not freed by the descriptors *)
(** [garbage] is the content of the uninitialised member owned_ in the copy constructor. *)
Definition apply_op (garbage : option bool) (s : state) (o : op) : result state :=
  match o with
  | Default i => Ok (with_object s i (Ref None 0 (Some false)))
  | View i a n own => Ok (with_object s i (Ref (Some a) n (Some own)))
  | Heap i n =>
      let a := fresh (dom (memory s) : gset nat) in
      Ok (State (<[i := Ref (Some a) n (Some true)]> (objects s)) (<[a := Block true (replicate n None)]> (memory s)))
  | Copy i j =>
      let! lhs := get_object s j in
      let! o := read_owned lhs in
      if o then let! x := copy_contents (memory s) (Ref None 0 garbage) lhs in Ok (State (<[i := snd x]> (objects s)) (fst x))
      else Ok (with_object s i (Ref (data lhs) (size lhs) (owned lhs)))
  | Assign i j =>
      if (i =? j)%nat then Ok s
      else
        let! r := get_object s i in
        let! lhs := get_object s j in
        let! o1 := read_owned r in
        let! o2 := (if o1 then Ok true else read_owned lhs) in
        if o2 then let! x := copy_contents (memory s) r lhs in Ok (State (<[i := snd x]> (objects s)) (fst x))
        else Ok (with_object s i (Ref (data lhs) (size lhs) (owned lhs)))
  | Allocate i n => let! r := get_object s i in let! x := allocate (memory s) r n in Ok (State (<[i := snd x]> (objects s)) (fst x))
  | Release i => let! r := get_object s i in let! x := release (memory s) r in Ok (State (<[i := snd x]> (objects s)) (fst x))
  | Destroy i => let! r := get_object s i in let! x := release (memory s) r in Ok (State (base.delete i (objects s)) (fst x))
  | SetRandom i gen =>
      let! r := get_object s i in
      match data r with
      | None => Ok s
      | Some _ => let! m := store (memory s) (data r) (Some ∘ gen <$> seq 0 (size r)) in Ok (State (objects s) m)
      end
  | SetZero i =>
      let! r := get_object s i in
      match data r with
      | None => Ok s
      | Some _ => let! m := store (memory s) (data r) (replicate (size r) (Some 0%N)) in Ok (State (objects s) m)
      end
  | Write i k x =>
      let! r := get_object s i in
      if (k <? size r)%nat then
        match data r with
        | None => Ub
        | Some a =>
            match memory s !! a with
            | Some b => if (k <? length (bytes b))%nat then Ok (State (objects s) (<[a := Block (heap b) (<[k := Some x]> (bytes b))]> (memory s))) else Ub
            | None => Ub
            end
        end
      else Abort
  | SetData i a own => let! r := get_object s i in Ok (with_object s i (Ref (Some a) (size r) (Some own)))
  | External a bs => match memory s !! a with Some _ => Ub | None => Ok (State (objects s) (<[a := Block false (Some <$> bs)]> (memory s))) end
  end.
Fixpoint run (garbage : option bool) (s : state) (ops : list op) : result state :=
  match ops with [] => Ok s | o :: ops' => let! s' := apply_op garbage s o in run garbage s' ops' end.
Definition start : state := State ∅ ∅.

(** The bytes of an object (data() and size()). *)
Definition contents (s : state) (i : nat) : result (list (option N)) := let! r := get_object s i in load (memory s) (data r) (size r).
(** operator==, fdi 50-61; memcmp of bytes never written is [Ub]. *)
Definition equal (s : state) (i j : nat) : result bool :=
  let! r := get_object s i in
  let! t := get_object s j in
  if negb (Bool.eqb (bool_decide (data r = None)) (bool_decide (data t = None))) || negb (size r =? size t)%nat then Ok false
  else if bool_decide (data r = None) || bool_decide (data t = None) then Ok true
  else let! x := load (memory s) (data r) (size r) in let! y := load (memory s) (data t) (size t) in
       if forallb (fun b => bool_decide (is_Some b)) (x ++ y) then Ok (bool_decide (x = y)) else Ub.

(** FlipNRandomBits, fd 128-142; [shuffled] is the list of bit positions after random_shuffle. *)
Fixpoint flip_bits (ps : list nat) (d : list N) : option (list N) :=
  match ps with [] => Some d | p :: ps' => match flip_bit p d with Some d' => flip_bits ps' d' | None => None end end.
Definition flip_random (n : nat) (shuffled : list nat) (d : list N) : result (list N) :=
  if (n <? length d * 8)%nat then match flip_bits (take n shuffled) d with Some d' => Ok d' | None => Abort end else Abort.
