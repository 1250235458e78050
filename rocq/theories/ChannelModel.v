(** Model of channel groups: typed named values behind shared pointers, and the mutexes taken by
    concurrent operations.

    Source: aslam_cv_common/include/aslam/common/channel.h ("c.h"),
            aslam_cv_common/src/channel.cc ("c"),
            aslam_cv_common/include/aslam/common/channel-declaration.h ("cd"). *)
From Coq Require Import ZArith Bool.
From stdpp Require Import list gmap strings.

(** ** Values, heap and groups.

    Simplifications: the value of a channel is an integer tagged with its type [k] (every type that is
    copied by value), or an image (cv::Mat): a header that points to a pixel buffer, whose contents are
    one integer. Channels are never freed (shared_ptr keeps them as long as anything refers to them).
    The unordered_map iteration order is an oracle of the comparison. *)
Inductive ty := TData (k : nat) | TImage.
Global Instance ty_eq_dec : EqDecision ty.
Proof. solve_decision. Defined.
Inductive value := VData (k : nat) (z : Z) | VImage (buf : nat).
Definition type_of (v : value) : ty := match v with VData k _ => TData k | VImage _ => TImage end.

Record state := State {
  heap : list value;                 (* the Channel objects *)
  bufs : list Z;                     (* pixel buffers *)
  groups : list (gmap string nat) }. (* channels_: name -> Channel object *)
Definition init : state := State [] [] [].

(** What a caller passes to, or reads from, a channel. *)
Inductive data := DData (k : nat) (z : Z) | DImage (z : Z).
Definition data_type (d : data) : ty := match d with DData k _ => TData k | DImage _ => TImage end.

Inductive act :=
| ANew                                          (* ChannelGroup() *)
| AAdd (g : nat) (name : string) (t : ty)
| AGet (g : nat) (name : string) (t : ty)
| AWrite (g : nat) (name : string) (d : data)   (* get...() = d *)
| AHas (g : nat) (name : string)
| ARemove (g : nat) (name : string)
| AClone (g : nat)
| AAssign (g g' : nat)                          (* g = g' *)
| AEqual (g g' : nat) (order : list string)     (* order: iteration order over the names of g *)
| APixels (g : nat) (name : string) (z : Z).    (* write into the pixels of the image in g *)
Inductive out := OUnit | OData (d : data) | OBool (b : bool).

(** Reading a value through its header. *)
Definition read_value (bs : list Z) (v : value) : option data :=
  match v with
  | VData k z => Some (DData k z)
  | VImage b => DImage <$> bs !! b
  end.
(** A default-constructed value: zero, or an image with a buffer of its own. *)
Definition default_data (t : ty) : data := match t with TData k => DData k 0 | TImage => DImage 0 end.
(** Storing [d]: an image is stored as a header of a new buffer. *)
Definition store (bs : list Z) (d : data) : list Z * value :=
  match d with
  | DData k z => (bs, VData k z)
  | DImage z => (bs ++ [z], VImage (length bs))
  end.

(** get_NAME_Data / getChannelData, cd 26-38, 103-116: the Channel object, after both CHECKs. *)
Definition find_channel (s : state) (g : nat) (name : string) (t : ty) : option nat :=
  m ← groups s !! g;
  l ← m !! name;
  v ← heap s !! l;
  if decide (type_of v = t) then Some l else None.

Definition set_group (s : state) (g : nat) (m : gmap string nat) : state :=
  State (heap s) (bufs s) (<[g := m]> (groups s)).

(** add_NAME_Channel / addChannel, cd 68-79, 125-137. *)
Definition add_channel (s : state) (g : nat) (name : string) (t : ty) : option state :=
  m ← groups s !! g;
  match m !! name with
  | Some _ => None                                          (* CHECK(it == end) *)
  | None =>
    let '(bs, v) := store (bufs s) (default_data t) in
    Some (State (heap s ++ [v]) bs (<[g := <[name := length (heap s)]> m]> (groups s)))
  end.
(** remove_NAME_Channel, cd 88-94. *)
Definition remove_channel (s : state) (g : nat) (name : string) : option state :=
  m ← groups s !! g;
  match m !! name with
  | None => None                                            (* CHECK_EQ(erase, 1) *)
  | Some _ => Some (set_group s g (delete name m))
  end.
(** Channel copy constructor, c.h 80-82, with ChannelValueCloner, c.h 33-50: values are copied, image
    headers too (the pixels are shared). *)
Definition clone_value (v : value) : value := v.
(** cloneChannelGroup, c 15-24: the channels in the order of [names]. *)
Fixpoint clone_channels (h : list value) (m : gmap string nat) (names : list (string * nat))
  : option (list value * gmap string nat) :=
  match names with
  | [] => Some (h, ∅)
  | (n, l) :: names' =>
    match h !! l with
    | None => None                                          (* CHECK(channel.second) *)
    | Some v =>
      match clone_channels (h ++ [clone_value v]) m names' with
      | None => None
      | Some (h', m') => Some (h', <[n := length h]> m')
      end
    end
  end.
Definition clone_group (s : state) (g : nat) : option state :=
  m ← groups s !! g;
  '(h, m') ← clone_channels (heap s) m (map_to_list m);
  Some (State h (bufs s) (groups s ++ [m'])).
(** compare, c.h 84-86, 102-104, and c 10-13 for images: [None] if the types differ (CHECK_NOTNULL). *)
Definition compare_values (bs : list Z) (l r : value) : option bool :=
  if decide (type_of l = type_of r) then
    match read_value bs l, read_value bs r with
    | Some (DData _ x), Some (DData _ y) => Some (x =? y)%Z
    | Some (DImage x), Some (DImage y) => Some (x =? y)%Z
    | _, _ => None
    end
  else None.
(** isChannelGroupEqual, c 26-47. *)
Fixpoint equal_loop (s : state) (order : list string) (l r : gmap string nat) : option bool :=
  match order with
  | [] => Some true
  | n :: order' =>
    match l !! n with
    | None => None                                          (* cannot happen: n is a name of l *)
    | Some ll =>
      match r !! n with
      | None => Some false
      | Some rl =>
        match heap s !! ll, heap s !! rl with
        | Some lv, Some rv =>
          match compare_values (bufs s) lv rv with
          | None => None
          | Some false => Some false
          | Some true => equal_loop s order' l r
          end
        | _, _ => None
        end
      end
    end
  end.
Definition is_order (order : list string) (names : list string) : bool :=
  bool_decide (NoDup order) && bool_decide (length order = length names) && forallb (fun n => bool_decide (n ∈ names)) order.
Definition equal_groups (s : state) (g g' : nat) (order : list string) : option bool :=
  if (g =? g')%nat then Some true
  else
    l ← groups s !! g;
    r ← groups s !! g';
    if negb (size l =? size r)%nat then Some false
    else if is_order order (map_to_list l).*1 then equal_loop s order l r else None.

(** One operation; [None] is an abort (or an impossible argument, such as a group that does not exist). *)
Definition step (s : state) (a : act) : option (state * out) :=
  match a with
  | ANew => Some (State (heap s) (bufs s) (groups s ++ [∅]), OUnit)
  | AAdd g n t => s' ← add_channel s g n t; Some (s', OUnit)
  | AGet g n t =>
    l ← find_channel s g n t; v ← heap s !! l; d ← read_value (bufs s) v; Some (s, OData d)
  | AWrite g n d =>
    l ← find_channel s g n (data_type d);
    let '(bs, v) := store (bufs s) d in
    Some (State (<[l := v]> (heap s)) bs (groups s), OUnit)
  | AHas g n => m ← groups s !! g; Some (s, OBool (bool_decide (is_Some (m !! n))))
  | ARemove g n => s' ← remove_channel s g n; Some (s', OUnit)
  | AClone g => s' ← clone_group s g; Some (s', OUnit)
  | AAssign g g' =>                                     (* operator=, c.h 128-131: shared pointers are copied *)
    _ ← groups s !! g; m' ← groups s !! g'; Some (set_group s g m', OUnit)
  | AEqual g g' order => b ← equal_groups s g g' order; Some (s, OBool b)
  | APixels g n z =>
    l ← find_channel s g n TImage;
    v ← heap s !! l;
    match v with
    | VImage b => Some (State (heap s) (<[b := z]> (bufs s)) (groups s), OUnit)
    | VData _ _ => None
    end
  end.
Fixpoint run (s : state) (acts : list act) : option (state * list out) :=
  match acts with
  | [] => Some (s, [])
  | a :: acts' =>
    '(s', o) ← step s a;
    '(s'', os) ← run s' acts';
    Some (s'', o :: os)
  end.

(** ** Locking. *)
(** A thread performs a list of calls; between calls it holds no mutex. *)
Inductive call :=
| Compare (l r : nat)       (* isChannelGroupEqual, c 26-47 *)
| Single (g : nat).         (* everything else: one lock_guard on one group *)
Inductive phase :=
| Idle
| HoldLeft (l r : nat)      (* after lock_left (c 31), before lock_right (c 32) *)
| HoldBoth (l r : nat)
| HoldLast (g : nat).       (* one mutex held, no further one needed *)
Record thread := Thread { ph : phase; todo : list call }.

Definition holds (t : thread) (m : nat) : bool :=
  match ph t with
  | Idle => false
  | HoldLeft l _ => (l =? m)%nat
  | HoldBoth l r => (l =? m)%nat || (r =? m)%nat
  | HoldLast g => (g =? m)%nat
  end.
Definition is_free (ts : list thread) (m : nat) : bool := forallb (fun t => negb (holds t m)) ts.

(** One step of a thread; [None]: it is blocked or has finished. *)
Definition thread_step (ts : list thread) (t : thread) : option thread :=
  match ph t, todo t with
  | Idle, Compare l r :: cs =>
    if (l =? r)%nat then Some (Thread Idle cs)                   (* early exit, c 28-30 *)
    else if is_free ts l then Some (Thread (HoldLeft l r) cs) else None
  | Idle, Single g :: cs => if is_free ts g then Some (Thread (HoldLast g) cs) else None
  | Idle, [] => None
  | HoldLeft l r, cs => if is_free ts r then Some (Thread (HoldBoth l r) cs) else None
  | HoldBoth l r, cs => Some (Thread (HoldLast l) cs)            (* guards are released in reverse order *)
  | HoldLast _, cs => Some (Thread Idle cs)
  end.
Definition lock_step (i : nat) (ts : list thread) : option (list thread) :=
  t ← ts !! i; t' ← thread_step ts t; Some (<[i := t']> ts).
Fixpoint lock_run (ts : list thread) (sched : list nat) : option (list thread) :=
  match sched with
  | [] => Some ts
  | i :: sched' => ts' ← lock_step i ts; lock_run ts' sched'
  end.
Definition start (programs : list (list call)) : list thread := Thread Idle <$> programs.
Definition finished (t : thread) : bool :=
  match ph t, todo t with Idle, [] => true | _, _ => false end.
