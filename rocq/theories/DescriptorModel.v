(** Model of the binary descriptor distance and of the descriptor mean and median.

    Source: aslam_cv_common/include/aslam/common/hamming.h ("h"),
            aslam_cv_common/include/aslam/common/hamming-inl.h ("hi"),
            aslam_cv_common/include/aslam/common/feature-descriptor-ref.h ("fd"),
            aslam_cv_common/include/aslam/common/descriptor-utils.h ("du").

    A byte is an [N] (below 256), a descriptor a list of bytes, a 128-bit register a list of 16 bytes,
    least significant first.  [None] is a read outside of the descriptor or a failed CHECK.
    Not modelled: the 16-byte alignment that the SSE loads require; overflow of the int sums of du. *)
From Coq Require Import NArith ZArith Bool.
From stdpp Require Import list.
Open Scope N_scope.

(** POPCOUNT_4bit, hi 55-56. *)
Definition popcount_4bit : list N := [0; 1; 1; 2; 1; 2; 2; 3; 1; 2; 2; 3; 2; 3; 3; 4].

(** The SSE instructions used. *)
Definition xor_si128 (a b : list N) : list N := zip_with N.lxor a b.
Definition and_mask (a : list N) : list N := (fun x => N.land x 15) <$> a.   (* with MASK_4bit *)
(** _mm_srl_epi16 by 4: on pairs of bytes. *)
Fixpoint srl_epi16_4 (a : list N) : list N :=
  match a with
  | lo :: hi :: a' =>
    let x := N.shiftr (lo + 256 * hi) 4 in
    x mod 256 :: x / 256 :: srl_epi16_4 a'
  | _ => []
  end.
(** _mm_shuffle_epi8: table look-up, 0 if the top bit of the index is set. *)
Definition shuffle_epi8 (table idx : list N) : list N :=
  (fun i => if N.testbit i 7 then 0 else nth (N.to_nat (N.land i 15)) table 0) <$> idx.
Definition add_epi8 (a b : list N) : list N := zip_with (fun x y => (x + y) mod 256) a b.
(** _mm_sad_epu8 against zero: the byte sums of the two halves, as 32-bit lanes. *)
Definition sad_epu8 (a : list N) : list N :=
  [foldr N.add 0 (take 8 a); 0; foldr N.add 0 (drop 8 a); 0].

(** Loop body, hi 113-123. *)
Definition sse_body (acc a b : list N) : list N :=
  let x0 := xor_si128 a b in
  let lo := and_mask x0 in
  let hi := and_mask (srl_epi16_4 x0) in
  add_epi8 (add_epi8 acc (shuffle_epi8 popcount_4bit lo)) (shuffle_epi8 popcount_4bit hi).

(** The do-while loop, hi 112-124, over the words of the two signatures. *)
Fixpoint sse_loop (n : Z) (w1 w2 : list (list N)) (acc : list N) : option (list N) :=
  match w1, w2 with
  | a :: w1', b :: w2' =>
    let acc' := sse_body acc a b in
    if (1 <? n)%Z then sse_loop (n - 1) w1' w2' acc' else Some acc'
  | _, _ => None
  end.

(** The complete 16-byte words of a descriptor. *)
Fixpoint words_fuel (fuel : nat) (l : list N) : list (list N) :=
  match fuel with
  | O => []
  | S f => if (length l <? 16)%nat then [] else take 16 l :: words_fuel f (drop 16 l)
  end.
Definition words (l : list N) : list (list N) := words_fuel (length l) l.

(** SSSE3PopcntofXORed, hi 88-137.  The final horizontal addition goes through floats:
    [ps] is the round trip _mm_cvtps_epi32 o _mm_cvtepi32_ps on one lane. *)
Definition ssse3_popcnt_of_xored (ps : N -> N) (a b : list N) (n : Z) : option N :=
  match sse_loop n (words a) (words b) (replicate 16 0) with
  | None => None
  | Some acc =>
    let x5 := sad_epu8 acc in
    Some (ps (nth 2 x5 0) + nth 0 x5 0)          (* movehl puts lane 2 of x5 into lane 0 *)
  end.

(** NEONPopcntofXORed, hi 67-84; [popcnt8] is vcntq_u8 on one byte. *)
Definition popcnt8 (x : N) : N :=
  nth (N.to_nat (N.land x 15)) popcount_4bit 0 + nth (N.to_nat (N.shiftr x 4)) popcount_4bit 0.
Fixpoint neon_loop (n : nat) (w1 w2 : list (list N)) (r : N) : option N :=
  match n with
  | O => Some r
  | S n' =>
    match w1, w2 with
    | a :: w1', b :: w2' =>
      neon_loop n' w1' w2' ((r + foldr N.add 0 (popcnt8 <$> zip_with N.lxor a b)) mod 2 ^ 32)
    | _, _ => None
    end
  end.

(** evaluate / operator(), h 99-118: x86 and ARM versions; size is the length in bytes. *)
Definition evaluate_sse (ps : N -> N) (a b : list N) (size : Z) : option N :=
  ssse3_popcnt_of_xored ps a b (Z.quot size 16).
Definition evaluate_neon (a b : list N) (size : Z) : option N :=
  neon_loop (Z.to_nat (Z.quot size 16)) (words a) (words b) 0.

(** GetNumBitsDifferent, fd 144-153 (x86). *)
Definition num_bits_different (ps : N -> N) (a b : list N) : option N :=
  if (length a =? length b)%nat then evaluate_sse ps a b (Z.of_nat (length a)) else None.

(** getBit, du 22-29 (also GetBit, fd 113-118). *)
Definition get_bit (bit : nat) (d : list N) : option bool :=
  match d !! (bit / 8)%nat with
  | None => None                                            (* CHECK_LT *)
  | Some x => Some (negb (N.land x (N.shiftl 1 (N.of_nat (bit mod 8))) =? 0))
  end.
(** setBit, du 31-39 (also SetBit, fd 105-111). *)
Definition set_bit (bit : nat) (d : list N) : option (list N) :=
  match d !! (bit / 8)%nat with
  | None => None
  | Some x => Some (<[(bit / 8)%nat := N.lor x (N.shiftl 1 (N.of_nat (bit mod 8)))]> d)
  end.
(** flipBit: FlipBit, fd 120-126. *)
Definition flip_bit (bit : nat) (d : list N) : option (list N) :=
  match d !! (bit / 8)%nat with
  | None => None
  | Some x => Some (<[(bit / 8)%nat := N.lxor x (N.shiftl 1 (N.of_nat (bit mod 8)))]> d)
  end.

(** Inner counting loop of descriptorMeanRoundedToBinaryValue, du 50-56, for one descriptor. *)
Definition count_bits (d : list N) (sums : list nat) : option (list nat) :=
  foldl (fun acc bit =>
    match acc with
    | None => None
    | Some sums =>
      match get_bit bit d with
      | None => None
      | Some true => Some (alter S bit sums)
      | Some false => Some sums
      end
    end) (Some sums) (seq 0 (length sums)).
(** descriptorMeanRoundedToBinaryValue, du 41-63; DescriptorMean, fdi 191-216, is the same for a
    non-empty list. The descriptors are the columns; [rows] their number of bytes. *)
Definition descriptor_mean (rows : nat) (ds : list (list N)) : option (list N) :=
  if (rows =? 0)%nat then None else
  match foldl (fun acc d => match acc with None => None | Some s => count_bits d s end)
              (Some (replicate (rows * 8) 0%nat)) ds with
  | None => None
  | Some sums =>
    let half := (length ds / 2)%nat in
    foldl (fun acc bit =>
      match acc with
      | None => None
      | Some m => if (half <? default 0%nat (sums !! bit))%nat then set_bit bit m else Some m
      end) (Some (replicate rows 0)) (seq 0 (length sums))
  end.

(** minCoeff(&index): the first position of the smallest coefficient. *)
Fixpoint min_index_from (i : nat) (best_i : nat) (best : N) (l : list N) : nat :=
  match l with
  | [] => best_i
  | x :: l' => if x <? best then min_index_from (S i) i x l' else min_index_from (S i) best_i best l'
  end.
Definition min_index (l : list N) : option nat :=
  match l with [] => None | x :: l' => Some (min_index_from 1 0 x l') end.

(** Entry (i, j) of the distance matrix, du 85-106: filled for i < j and mirrored. *)
Definition matrix_entry (dist : list N -> list N -> option N) (ds : list (list N)) (i j : nat) : option N :=
  if (i =? j)%nat then Some 0
  else match ds !! Nat.min i j, ds !! Nat.max i j with
       | Some a, Some b => dist a b
       | _, _ => None
       end.
Fixpoint sum_opt (l : list (option N)) : option N :=
  match l with
  | [] => Some 0
  | Some x :: l' => match sum_opt l' with Some s => Some (x + s) | None => None end
  | None :: _ => None
  end.
Fixpoint all_opt {A} (l : list (option A)) : option (list A) :=
  match l with
  | [] => Some []
  | Some x :: l' => match all_opt l' with Some s => Some (x :: s) | None => None end
  | None :: _ => None
  end.
(** getIndexOfDescriptorClosestToMedian, du 68-113. *)
Definition closest_to_median (dist : list N -> list N -> option N) (ds : list (list N)) : option nat :=
  match all_opt ((fun j => sum_opt ((fun i => matrix_entry dist ds i j) <$> seq 0 (length ds)))
                   <$> seq 0 (length ds)) with
  | None => None
  | Some sums => min_index sums
  end.
