(** Model of the spread of a set of binary descriptors: mean, deviations, distances of pairs.

    Source: aslam_cv_common/include/aslam/common/descriptor-utils.h ("du").

    The descriptors are the columns of a matrix with [rows] bytes each, as in [DescriptorModel]. Floating-point numbers are real numbers. [None] is a failed CHECK, a read outside of a descriptor,
    or an overflow of int. *)
From Coq Require Import NArith ZArith Bool Reals.
From stdpp Require Import list.
From Verif Require Import DescriptorModel.
Local Open Scope R_scope.

Fixpoint sum_real (l : list (option R)) : option R :=
  match l with
  | [] => Some 0
  | Some x :: l => match sum_real l with Some s => Some (x + s) | None => None end
  | None :: _ => None
  end.
(** descriptorMeanAbsoluteDeviation, du 115-132; the distance is that of the x86 version. *)
Definition absolute_deviation (ps : N -> N) (rows : nat) (ds : list (list N)) : option R :=
  if (length ds <? 2)%nat then Some 0
  else match descriptor_mean rows ds with
       | None => None
       | Some mean =>
         match sum_opt ((fun d => evaluate_sse ps d mean (Z.of_nat rows)) <$> ds) with
         | None => None
         | Some s => Some (INR (N.to_nat s) / INR (length ds))
         end
       end.
(** floatDescriptorMean, du 134-156. *)
Definition float_mean (rows : nat) (ds : list (list N)) : option (list R) :=
  if (rows =? 0)%nat || (length ds =? 0)%nat then None
  else match foldl (fun acc d => match acc with None => None | Some s => count_bits d s end) (Some (replicate (rows * 8) 0%nat)) ds with
       | None => None
       | Some sums => Some ((fun s => INR s / INR (length ds)) <$> sums)
       end.
(** differenceToMeanSquaredNorm, du 158-176. *)
Definition squared_difference (d : list N) (mean : list R) : option R :=
  if (length mean =? length d * 8)%nat then
    sum_real ((fun bit => match get_bit bit d with Some b => Some (Rsqr ((if b then 1 else 0) - default 0 (mean !! bit))) | None => None end) <$> seq 0 (length d * 8))
  else None.
(** descriptorMeanStandardDeviation, du 178-194. *)
Definition standard_deviation (rows : nat) (ds : list (list N)) : option R :=
  if (length ds <? 2)%nat then Some 0
  else match float_mean rows ds with
       | None => None
       | Some mean =>
         match sum_real ((fun d => squared_difference d mean) <$> ds) with
         | None => None
         | Some s => Some (R_sqrt.sqrt (s / INR (length ds)))
         end
       end.
(** (descriptors.col(j) - descriptors.col(i)).norm(), du 207-208: Eigen computes differences, squares, their sum and the root (towards zero) as unsigned char. *)
Definition byte_difference (a b : N) : N := ((a + 256 - b) mod 256)%N.
Definition byte_norm (a b : list N) : N :=
  N.sqrt (foldr (fun x s => (((x * x) mod 256 + s) mod 256)%N) 0%N (zip_with byte_difference a b)).
(** pairwiseEuclidianDistances, du 198-213: the number of pairs is computed with int. *)
Definition pairwise_distances (ds : list (list N)) : option (list N) :=
  let n := Z.of_nat (length ds) in
  if (2 ^ 31 <=? n * (n - 1))%Z then None
  else Some (concat ((fun i => (fun j => byte_norm (default [] (ds !! j)) (default [] (ds !! i))) <$> seq (S i) (length ds - S i)) <$> seq 0 (length ds))).
