(** Model of GyroTwoFrameMatcher.

    Source: aslam_cv_matcher/src/gyro-two-frame-matcher.cc ("gm"),
            aslam_cv_matcher/include/aslam/matcher/gyro-two-frame-matcher.h ("gm.h").

    Simplifications: coordinates are rationals (every finite double is one), sums of coordinates and
    window sizes are exact. Descriptors enter through their bit distances. The validity and time checks
    of the two frames (gm 36-47) and the statistics samples are left out.
    For descriptors of at most 512 bits (checked, gm 48) the floating point comparisons are comparisons
    of integers: int(bits * 0.8f) = floor(4 bits / 5), a / float(b) < 0.8f iff 5 a < 4 b for a, b <= 513, the
    scores n / bits are ordered like n, and n / bits > 0.85f iff 20 n > 17 bits. So scores are the numbers
    of equal bits. *)
From Coq Require Import ZArith QArith Qround Bool.
From stdpp Require Import list gmap.
From Verif Require Import StlHelpersModel GyroTrackerModel.
Local Open Scope nat_scope.

Notation pt := (Q * Q)%type.
(** KeypointData, gm.h 66-72. *)
Record kp := Kp { kx : Q; ky : Q; ci : nat }.
Record minput := MInput {
  bytes : nat;                       (* kDescriptorSizeBytes *)
  kps : list pt;                     (* keypoints of frame k+1 *)
  num_k : nat;                       (* number of keypoints of frame k *)
  dist : nat -> nat -> Z;            (* GetNumBitsDifferent: keypoint of frame k, keypoint of frame k+1 *)
  preds : list pt;                   (* predicted_keypoint_positions_kp1_ *)
  success : list bool;               (* prediction_success_ *)
  img_height : nat;
  small : Z; large : Z;              (* search distances *)
  std_sort : list kp -> list kp }.   (* std::sort by y *)

(** Conversion of a double to an integer type truncates; out of range it is undefined. *)
Definition trunc (q : Q) : Z := Z.quot (Qnum q) (Zpos (Qden q)).
Definition to_int (q : Q) : result Z :=
  if (- 2 ^ 31 <=? trunc q)%Z && (trunc q <? 2 ^ 31)%Z then Ok (trunc q) else Ub.
Definition to_size (q : Q) : result Z :=
  if (0 <=? trunc q)%Z && (trunc q <? 2 ^ 64)%Z then Ok (trunc q) else Ub.
Definition Qltb (a b : Q) : bool := negb (Qle_bool b a).

(** ** Look-up table *)
(** gm 89-91. *)
Definition indexed (l : list pt) : list kp := imap (fun i p => Kp p.1 p.2 i) l.
(** Inner loop, gm 103-106; [l] is the sorted list from position [v] on. *)
Fixpoint advance (y : Z) (v : nat) (l : list kp) : result nat :=
  match l with
  | [] => Ok v
  | k :: l' => let! r := to_size (ky k) in if (r <? y)%Z then advance y (S v) l' else Ok v
  end.
(** Outer loop, gm 101-108; [n] rows left. *)
Fixpoint lut_loop (s : list kp) (n : nat) (y : Z) (v : nat) : result (list nat) :=
  match n with
  | 0 => Ok []
  | S n' => let! v' := advance y v (drop v s) in
            let! r := lut_loop s n' (y + 1) v' in Ok (v' :: r)
  end.
(** clamp, gm.h 225-228. *)
Definition clamp (lower upper x : Z) : Z := Z.min (Z.max x lower) upper.
(** getKeypointIteratorsInWindow, gm.h 200-223: the keypoints between the two iterators. *)
Definition window (s : list kp) (lut : list nat) (h : nat) (p : pt) (w : Z) : result (list kp) :=
  if (w <=? 0)%Z then Abort
  else
    let! t := to_int (p.2 + (1 # 2) - inject_Z w)%Q in
    let! b := to_int (p.2 + (1 # 2) + inject_Z w)%Q in
    let top := clamp 0 (Z.of_nat h - 1) t in
    let bot := clamp 0 (Z.of_nat h - 1) b in
    let! i := at_ub lut (Z.to_nat top) in
    let! j := at_ub lut (Z.to_nat bot) in
    if (top <=? bot)%Z then Ok (take (j - i) (drop i s)) else Abort.

(** ** Search for one keypoint *)
(** Local variables of matchKeypoint, gm 139-162. [hit] is it_best if found. *)
Record scan := Scan {
  best : Z; d1 : Z; d2 : Z; hit : option nat;
  cands : list (nat * Z) }.        (* current_match_data *)
Definition scan0 (D : Z) : scan := Scan (4 * D / 5) (D + 1) (D + 1) None [].
(** One candidate, gm 175-192 and 218-235; [d] its distance. The subtraction is unsigned and converted
    to int: exact for D, d below 2^31. *)
Definition visit (D d : Z) (c : nat) (s : scan) : result scan :=
  let sc := (D - d)%Z in
  let s' := if (best s <? sc)%Z then Scan sc d (d1 s) (Some c) (cands s)
            else if (d <? d2 s)%Z then Scan (best s) (d1 s) d (hit s) (cands s)
            else s in
  if (0 <? sc)%Z && (sc <=? D)%Z && (0 <? D)%Z                   (* gm.h 82-83; 0/0 is not positive *)
  then Ok (Scan (best s') (d1 s') (d2 s') (hit s') (cands s' ++ [(c, sc)])) else Abort.
(** The loops gm 165-193 and gm 206-236; [skip] are the processed keypoints. *)
Fixpoint scan_loop (D : Z) (n1 : nat) (dk : nat -> Z) (skip : list nat) (lo hi : Z) (l : list kp) (s : scan) : result scan :=
  match l with
  | [] => Ok s
  | k :: l' =>
    if bool_decide (ci k ∈ skip) || Qltb (kx k) (inject_Z lo) || Qltb (inject_Z hi) (kx k)
    then scan_loop D n1 dk skip lo hi l' s
    else if n1 <=? ci k then Abort                                (* gm 171, 214 *)
    else let! s' := visit D (dk (ci k)) (ci k) s in scan_loop D n1 dk skip lo hi l' s'
  end.
(** Window and loop for one search distance. *)
Definition scan_window (x : minput) (D : Z) (s : list kp) (lut : list nat) (k : nat) (p : pt) (w : Z)
    (skip : list nat) (st : scan) : result scan :=
  let! l := window s lut (img_height x) p w in
  let! lo := to_int (p.1 - inject_Z w)%Q in
  let! hi := to_int (p.1 + inject_Z w)%Q in
  scan_loop D (length (kps x)) (dist x k) skip lo hi l st.
(** ratioTest, gm.h 235-252. *)
Definition ratio_test (D a b : Z) : result bool :=
  if (b <? a)%Z then Abort
  else if (D <? b)%Z then Ok true
  else if (b =? 0)%Z then Ok true
  else Ok (5 * a <? 4 * b)%Z.
(** gm 130-245: what the search for keypoint [k] of frame k finds: best keypoint of frame k+1, its score,
    all candidates. *)
Definition search (x : minput) (D : Z) (s : list kp) (lut : list nat) (k : nat)
  : result (option (nat * Z * list (nat * Z))) :=
  let! ok := at_ub (success x) k in
  if negb ok then Ok None
  else
    let! p := at_ub (preds x) k in
    let! s1 := scan_window x D s lut k p (small x) [] (scan0 D) in
    let! s2 := (match hit s1 with
                | Some _ => Ok s1
                | None => scan_window x D s lut k p (large x) (cands s1).*1 s1
                end) in
    match hit s2 with
    | None => Ok None
    | Some a => let! b := ratio_test D (d1 s2) (d2 s2) in
                Ok (if b : bool then Some (a, best s2, cands s2) else None)
    end.

(** ** Assignment *)
Record mstate := MState {
  flags : list bool;                 (* is_keypoint_kp1_matched_ *)
  out : list (nat * nat);            (* *matches_kp1_k_ : (k+1, k) *)
  pos : gmap nat nat;                (* kp1_idx_to_matches_iterator_map_ : position in [out] *)
  score : gmap nat Z;                (* kp1_idx_to_matches_score_map_ *)
  tried : gmap nat (list (nat * Z)); (* idx_k_to_attempted_match_data_map_ *)
  inferior : list nat }.             (* inferior_match_keypoint_idx_k_ *)
(** emplace_back and the two map insertions (gm 274-279, 347-354). The vector has room for [cap] matches
    (gm 62); growing it further would invalidate the iterators in the map and counts as undefined. *)
Definition add_match (cap a b : nat) (sc : Z) (st : mstate) : result mstate :=
  if cap <=? length (out st) then Ub
  else match pos st !! a, score st !! a with
       | None, None => Ok (MState (flags st) (out st ++ [(a, b)]) (<[a := length (out st)]> (pos st))
                             (<[a := sc]> (score st)) (tried st) (inferior st))
       | _, _ => Abort
       end.
(** The keypoint of frame k matched to [a] (gm 256-258, 328-330) and the replacement of the match (gm
    261-266, 338-343). Missing entries, for which operator[] would insert a default, count as undefined. *)
Definition holder (a : nat) (st : mstate) : result (nat * Z) :=
  match pos st !! a ≫= (fun p => out st !! p), score st !! a with
  | Some m, Some sc => Ok (m.2, sc)
  | _, _ => Ub
  end.
Definition replace_match (a b : nat) (sc : Z) (st : mstate) : result mstate :=
  match pos st !! a with
  | Some p => Ok (MState (flags st) (<[p := (a, b)]> (out st)) (pos st) (<[a := sc]> (score st)) (tried st) (inferior st))
  | None => Ub
  end.
Definition push_inferior (k : nat) (st : mstate) : mstate :=
  MState (flags st) (out st) (pos st) (score st) (tried st) (inferior st ++ [k]).
Definition set_flag (a : nat) (st : mstate) : mstate :=
  MState (<[a := true]> (flags st)) (out st) (pos st) (score st) (tried st) (inferior st).
(** gm 245-280: a keypoint that passed the ratio test. *)
Definition record_match (x : minput) (k : nat) (r : nat * Z * list (nat * Z)) (st : mstate) : result mstate :=
  let '(a, sc, cs) := r in
  match tried st !! k with
  | Some _ => Abort                                               (* gm 245 *)
  | None =>
    let st := MState (flags st) (out st) (pos st) (score st) (<[k := cs]> (tried st)) (inferior st) in
    let! f := at_ub (flags st) a in
    if f : bool then
      let! h := holder a st in
      if (h.2 <? sc)%Z then replace_match a k sc (push_inferior h.1 st)
      else Ok (push_inferior k st)
    else add_match (num_k x) a k sc (set_flag a st)
  end.
(** matchKeypoint, gm 130-289. *)
Definition match_keypoint (x : minput) (D : Z) (s : list kp) (lut : list nat) (k : nat) (st : mstate) : result mstate :=
  let! r := search x D s lut k in
  match r with None => Ok st | Some r => record_match x k r st end.
Fixpoint match_loop (x : minput) (D : Z) (s : list kp) (lut : list nat) (ks : list nat) (st : mstate) : result mstate :=
  match ks with
  | [] => Ok st
  | k :: ks' => let! st' := match_keypoint x D s lut k st in match_loop x D s lut ks' st'
  end.

(** ** Inferior matches *)
(** gm 302-317: the best candidate above the strict threshold that is not matched yet. *)
Fixpoint best_left (D : Z) (fl : list bool) (cs : list (nat * Z)) (acc : option (nat * Z)) : result (option (nat * Z)) :=
  match cs with
  | [] => Ok acc
  | c :: cs' =>
    let! f := at_ub fl c.1 in
    if f : bool then best_left D fl cs' acc
    else best_left D fl cs'
           (if (match acc with None => 17 * D <? 20 * c.2 | Some m => m.2 <? c.2 end)%Z then Some c else acc)
  end.
(** Variables of one call: is_inferior_keypoint_kp1_matched, erase_inferior_match_keypoint_idx_k,
    found_inferior_match. *)
Record istate := IState { fl2 : list bool; erased : gset nat; any : bool; ms : mstate }.
(** Body of the loop gm 299-357. *)
Definition match_inferior (x : minput) (D : Z) (k : nat) (t : istate) : result istate :=
  let! o := best_left D (flags (ms t)) (default [] (tried (ms t) !! k)) None in
  match o with
  | None => Ok t
  | Some (a, sc) =>
    let! f := at_ub (fl2 t) a in
    if f : bool then
      let! h := holder a (ms t) in
      if (h.2 <? sc)%Z then
        let! st := replace_match a k sc (ms t) in
        Ok (IState (fl2 t) (({[k]} ∪ erased t) ∖ {[h.1]}) true st)
      else Ok (IState (fl2 t) (erased t) true (ms t))
    else
      let! st := add_match (num_k x) a k sc (ms t) in
      Ok (IState (<[a := true]> (fl2 t)) ({[k]} ∪ erased t) true st)
  end.
Fixpoint inferior_loop (x : minput) (D : Z) (ks : list nat) (t : istate) : result istate :=
  match ks with
  | [] => Ok t
  | k :: ks' => let! t' := match_inferior x D k t in inferior_loop x D ks' t'
  end.
(** matchInferiorMatches, gm 291-376: new flags, state, and whether something was found. *)
Definition match_inferiors (x : minput) (D : Z) (f : list bool) (st : mstate) : result (list bool * mstate * bool) :=
  if negb (length f =? length (flags st)) then Abort               (* gm 294 *)
  else
    let! t := inferior_loop x D (inferior st) (IState f ∅ false st) in
    let st' := ms t in
    Ok (fl2 t, MState (fl2 t) (out st') (pos st') (score st') (tried st')
                 (filter (fun k => k ∉ erased t) (inferior st')), any t).
(** gm 125-127; [n] iterations left. *)
Fixpoint inferior_rounds (x : minput) (D : Z) (n : nat) (f : list bool) (st : mstate) : result mstate :=
  match n with
  | 0 => Ok st
  | S n' => let! r := match_inferiors x D f st in
            if r.2 : bool then inferior_rounds x D n' r.1.1 r.1.2 else Ok r.1.2
  end.

(** ** match *)
Definition mstate0 (n1 : nat) : mstate := MState (replicate n1 false) [] ∅ ∅ ∅ [].
(** The descriptor size in bits is a static variable (gm 143) that keeps the value of the first search in
    the process: [stat] is its value before the call. *)
Definition used_bits (stat : option Z) (x : minput) : Z := default (8 * Z.of_nat (bytes x))%Z stat.
Definition stat_after (stat : option Z) (x : minput) : option Z :=
  if negb (num_k x =? 0) && negb (length (kps x) =? 0) && bool_decide (true ∈ take (num_k x) (success x))
  then Some (used_bits stat x) else stat.
(** Constructor checks (gm 48-57), initialize (gm 66-110) and match (gm 112-128). *)
Definition match_frames (stat : option Z) (x : minput) : result (list (nat * nat)) :=
  if (512 <? 8 * bytes x) || (img_height x =? 0) || negb (length (success x) =? length (preds x))
     || (small x <=? 0)%Z || (large x <=? 0)%Z || (large x <? small x)%Z then Abort
  else
    let s := std_sort x (indexed (kps x)) in
    let! lut := lut_loop s (img_height x) 0 0 in
    if (num_k x =? 0) || (length (kps x) =? 0) then Ok []
    else
      let D := used_bits stat x in
      let! st := match_loop x D s lut (seq 0 (num_k x)) (mstate0 (length (kps x))) in
      let! st := inferior_rounds x D 3 (flags st) st in
      Ok (out st).
(** What the first search for keypoint [k] finds: best keypoint of frame k+1, its score, all candidates. *)
Definition attempt (stat : option Z) (x : minput) (k : nat) : result (option (nat * Z * list (nat * Z))) :=
  let s := std_sort x (indexed (kps x)) in
  let! lut := lut_loop s (img_height x) 0 0 in search x (used_bits stat x) s lut k.
