(** C141: random sensors. *)
From Coq Require Import Reals ZArith List Bool String FinFun Lia Lra.
From Flocq Require Import Core.Raux Core.Generic_fmt Core.FLT Core.FLX Core.Round_NE.
From Verif Require Import TestRigModel TestRigSpec TestRigProps RandomSensorModel RandomSensorSpec.
Import ListNotations.
Local Open Scope R_scope.

Lemma positive_iff x : positive x = true <-> 0 < x.
Proof. unfold positive. destruct (Rlt_dec 0 x); split; intros; try assumption; try reflexivity; [discriminate|contradiction]. Qed.
Lemma not_negative_iff x : not_negative x = true <-> 0 <= x.
Proof. unfold not_negative. destruct (Rle_dec 0 x); split; intros; try assumption; try reflexivity; [discriminate|contradiction]. Qed.
Lemma valid_id_iff i : valid_id i = true <-> i <> 0%Z.
Proof. unfold valid_id. rewrite negb_true_iff, Z.eqb_neq. reflexivity. Qed.
(** isValid is true exactly of the usable cameras. *)
Theorem rgx_valid c : camera_valid c = true <-> usable c.
Proof.
  unfold camera_valid, usable. rewrite andb_true_iff, valid_id_iff. apply and_iff_compat_l. unfold intrinsics_valid. destruct (class c); destruct (intrinsics c) as [|? [|? [|? [|? [|? [|? ?]]]]]]; rewrite ?andb_true_iff, ?positive_iff, ?not_negative_iff; try (split; [discriminate|contradiction]); tauto.
Qed.
Lemma test_valid m : intrinsics_valid m (fst (fst (test_parameters m))) = true.
Proof.
  destruct m; unfold intrinsics_valid, test_parameters; cbn [fst]; rewrite ?andb_true_iff, ?positive_iff, ?not_negative_iff; repeat split; try lra.
  apply Rdiv_lt_0_compat; [|lra]. pose proof PI_RGT_0. lra.
Qed.

Section Gen.
Variable gen : nat -> Z.

Lemma random_run c k : valid_id (gen (S (S k))) = true -> random_camera gen c k = Some (Camera (class c) (gen k) (c_topic c) (c_description c) 0 (snd (fst (test_parameters (class c)))) (snd (test_parameters (class c))) None (compressed c) (fst (fst (test_parameters (class c)))) (class c) (Some (NoLens, [])), (3 + k)%nat).
Proof.
  intros V. pose proof (test_valid (class c)) as T. unfold random_camera, bind, generate, create_test. destruct (test_parameters (class c)) as [[l w] h]. cbn [fst snd] in *. unfold construct, bind, generate, ret, check, set_id, check, bind. rewrite T. rewrite V. reflexivity.
Qed.
Lemma random_inv c k c' k' : random_camera gen c k = Some (c', k') -> valid_id (gen (S (S k))) = true.
Proof.
  pose proof (test_valid (class c)) as T. unfold random_camera, bind, generate, create_test. destruct (test_parameters (class c)) as [[l w] h]. cbn [fst snd] in *. unfold construct, bind, generate, ret, check, set_id, check, bind. rewrite T. destruct (valid_id (gen (S (S k)))); [reflexivity|discriminate].
Qed.

(** setRandom makes any camera, whatever state it is in, a usable test camera of its class with a fresh id; topic, description and compression are kept. *)
Theorem rgx_camera c k : valid_ids gen -> exists c' k', random_camera gen c k = Some (c', k') /\ (k < k')%nat /\ c_id c' = gen k /\ class c' = class c /\ usable c' /\ plain c' /\ test_values c' /\
  c_topic c' = c_topic c /\ c_description c' = c_description c /\ compressed c' = compressed c.
Proof.
  intros V. eexists _, _. split; [apply random_run, valid_id_iff, V|]. cbn. split; [lia|]. do 2 (split; [reflexivity|]). split.
  { apply rgx_valid. unfold camera_valid. cbn. rewrite test_valid, andb_true_r. apply valid_id_iff, V. }
  split; [repeat split|]. split; [unfold test_values; cbn; destruct (class c); repeat split|]. repeat split.
Qed.
(** Apart from the id nothing of a random camera is random: cameras of one class agree in everything else that setRandom sets. *)
Theorem rgx_not_random c d j k c' d' j' k' : class c = class d -> random_camera gen c j = Some (c', j') -> random_camera gen d k = Some (d', k') ->
  class c' = class d' /\ intrinsics c' = intrinsics d' /\ width c' = width d' /\ height c' = height d' /\ line_delay c' = line_delay d' /\ mask c' = mask d' /\ camera_type c' = camera_type d' /\ distortion c' = distortion d'.
Proof.
  intros E C D. pose proof (random_inv _ _ _ _ C) as VC. pose proof (random_inv _ _ _ _ D) as VD. rewrite random_run in C by exact VC. rewrite random_run in D by exact VD. injection C as <- _. injection D as <- _. cbn. rewrite E. repeat split.
Qed.
End Gen.
Print Assumptions rgx_valid.
Print Assumptions rgx_camera.
Print Assumptions rgx_not_random.

(** The flag for compressed images is the one member of a camera that setRandom leaves as it was: two random cameras of one class with the same topic and description can still differ in it. *)
Theorem rgx_compressed_refuted : exists gen c d c' d' k, valid_ids gen /\ class c = class d /\ c_topic c = c_topic d /\ c_description c = c_description d /\
  option_map fst (random_camera gen c k) = Some c' /\ option_map fst (random_camera gen d k) = Some d' /\ c_id c' = c_id d' /\ compressed c' <> compressed d'.
Proof.
  set (c := fun b => Camera Pinhole 1 "" "" 0 640 480 None b [400; 300; 320; 240] Pinhole (Some (NoLens, []))).
  destruct (rgx_camera (fun _ => 1%Z) (c true) 0) as (c' & ? & C & _ & Ic & _ & _ & _ & _ & _ & _ & Fc); [intros ?; lia|]. destruct (rgx_camera (fun _ => 1%Z) (c false) 0) as (d' & ? & D & _ & Id & _ & _ & _ & _ & _ & _ & Fd); [intros ?; lia|].
  exists (fun _ => 1%Z), (c true), (c false), c', d', 0%nat. rewrite C, D. repeat split; try reflexivity; [intros ?; lia|congruence|rewrite Fc, Fd; discriminate].
Qed.
Print Assumptions rgx_compressed_refuted.

(** ** The number of cameras *)
Lemma trunc_between x n m : IZR n <= x -> x <= IZR m -> (0 <= n)%Z -> (n <= Ztrunc x <= m)%Z.
Proof. intros L U P. rewrite <- (Ztrunc_IZR n), <- (Ztrunc_IZR m). split; apply Ztrunc_le; assumption. Qed.
(** With float arithmetic, or any other rounding, there are 1 to 15 cameras: the checks never fail. *)
Theorem rgx_count rnd a : rounding rnd -> -1 <= a <= 1 -> (1 <= number_of_cameras rnd a <= 15)%Z.
Proof.
  intros [M I] [L U]. unfold number_of_cameras. assert (0 <= rnd (a + 1) <= 2) as [A1 A2]. { split; [rewrite <- (I 0%Z) by lia|rewrite <- (I 2%Z) by lia]; apply M; lra. }
  assert (0 <= rnd (rnd (a + 1) * 7) <= 14) as [B1 B2]. { split; [rewrite <- (I 0%Z) by lia|rewrite <- (I 14%Z) by lia]; apply M; lra. }
  apply trunc_between; [|apply Rle_trans with (rnd (IZR 15)); [apply M; lra|rewrite I by lia; apply Rle_refl]|lia]. apply Rle_trans with (rnd (IZR 1)); [rewrite I by lia; apply Rle_refl|apply M; lra].
Qed.
(** The rounding to single precision is such a rounding. *)
Definition to_float : R -> R := round Zaux.radix2 (FLT_exp (-149) 24) ZnearestE.
Theorem rgx_float : rounding to_float.
Proof.
  split.
  - intros x y. apply round_le; [apply FLT_exp_valid; reflexivity|apply valid_rnd_N].
  - intros n Hn. unfold to_float. apply round_generic; [apply valid_rnd_N|]. apply generic_format_FLT. exists (Defs.Float Zaux.radix2 n 0); cbn; [unfold Defs.F2R; cbn; ring|lia|lia].
Qed.
(** Without rounding, the numbers 1 to 14 have equal shares of the interval and 15 is only its end. *)
Theorem rgx_share a k : -1 <= a <= 1 -> (1 <= k <= 14)%Z -> (number_of_cameras (fun x => x) a = k <-> IZR (k - 1) / 7 - 1 <= a < IZR k / 7 - 1).
Proof.
  intros R K. unfold number_of_cameras. rewrite Ztrunc_floor by lra. rewrite minus_IZR. split.
  - intros <-. pose proof (Zfloor_lb ((a + 1) * 7 + 1)). pose proof (Zfloor_ub ((a + 1) * 7 + 1)). split; lra.
  - intros [L U]. apply Zfloor_imp. rewrite plus_IZR. split; lra.
Qed.
Theorem rgx_fifteen a : -1 <= a <= 1 -> (number_of_cameras (fun x => x) a = 15%Z <-> a = 1).
Proof.
  intros R. unfold number_of_cameras. rewrite Ztrunc_floor by lra. split.
  - intros E. pose proof (Zfloor_lb ((a + 1) * 7 + 1)) as L. rewrite E in L. lra.
  - intros ->. replace ((1 + 1) * 7 + 1) with (IZR 15) by lra. apply Zfloor_IZR.
Qed.
Print Assumptions rgx_count.
Print Assumptions rgx_float.
Print Assumptions rgx_share.
Print Assumptions rgx_fifteen.

(** ** Rigs *)
Definition pose (i : nat) : transformation := (of_quaternion (1 / 2) (1 / 2) (- (1 / 2)) (1 / 2), (1 / 10 * (INR i + 1), 0, 0)).
Definition class_of (b : R) : model := if Rlt_dec 0 b then Pinhole else Unified.
Definition made (gen : nat -> Z) (m : model) (j : nat) : camera := Camera m (gen j) "" "" 0 (snd (fst (test_parameters m))) (snd (test_parameters m)) None false (fst (fst (test_parameters m))) m (Some (NoLens, [])).
Lemma turn_run gen b i cs ts ids k : valid_ids gen -> turn gen b i (cs, ts, ids) k = Some ((cs ++ [made gen (class_of b) (S k)%nat], ts ++ [pose i], (gen (S k), i) :: ids)%list, (4 + k)%nat).
Proof.
  intros V. unfold turn, default_camera, construct, bind at 1 2, generate, ret at 1. unfold bind at 1. rewrite random_run by apply valid_id_iff, V. unfold bind, check. cbn [c_id]. rewrite (proj2 (valid_id_iff _) (V (S k))). reflexivity.
Qed.
Lemma turns_run gen b : valid_ids gen -> forall l i cs ts ids k, l = seq i (List.length l) ->
  turns gen b l (cs, ts, ids) k = Some ((cs ++ map (fun j => made gen (class_of b) (S k + 4 * (j - i))%nat) l, ts ++ map pose l, rev (map (fun j => (gen (S k + 4 * (j - i))%nat, j)) l) ++ ids)%list, (4 * List.length l + k)%nat).
Proof.
  intros V. induction l as [|j l IH]; intros i cs ts ids k E.
  - cbn. rewrite !app_nil_r. reflexivity.
  - cbn [List.length seq] in E. injection E as Ej El. subst j. cbn [turns]. unfold bind. rewrite turn_run by exact V. rewrite (IH (S i)) by exact El. cbn [map rev List.length]. rewrite <- !app_assoc. cbn [app]. rewrite Nat.sub_diag, Nat.mul_0_r, Nat.add_0_r.
    assert (forall (A : Type) (f : nat -> nat -> A), map (fun j => f (S (4 + k) + 4 * (j - S i))%nat j) l = map (fun j => f (S k + 4 * (j - i))%nat j) l) as M.
    { intros A f. apply map_ext_in. intros j Hj. rewrite El in Hj. apply in_seq in Hj. f_equal. lia. }
    rewrite (M _ (fun n _ => made gen (class_of b) n)), (M _ (fun n j => (gen n, j))). do 2 f_equal. lia.
Qed.
Definition result_rig (gen : nat -> Z) (b : R) (n k : nat) (r : rig) : rig :=
  Rig (gen k) (r_topic r) (r_description r) (map pose (seq 0 n)) (map (fun j => made gen (class_of b) (S (S k) + 4 * j)%nat) (seq 0 n)) (rev (map (fun j => (gen (S (S k) + 4 * j)%nat, j)) (seq 0 n))) (covariance r) (has_covariance r).
Lemma rig_run gen rnd a b r k : rounding rnd -> valid_ids gen -> -1 <= a <= 1 ->
  random_rig gen rnd a b r k = Some (result_rig gen b (Z.to_nat (number_of_cameras rnd a)) k r, (4 * Z.to_nat (number_of_cameras rnd a) + S k)%nat).
Proof.
  intros D V A. pose proof (rgx_count rnd a D A) as [L U]. unfold random_rig, bind at 1, generate, bind at 1, check. rewrite (proj2 (Z.leb_le _ _) U). unfold bind at 1. rewrite (proj2 (Z.leb_le _ _) L). unfold bind. rewrite (turns_run gen b V _ 0) by (rewrite seq_length; reflexivity). rewrite seq_length, app_nil_r. cbn [app].
  assert (forall (B : Type) (f : nat -> nat -> B) l, map (fun j => f (S (S k) + 4 * (j - 0))%nat j) l = map (fun j => f (S (S k) + 4 * j)%nat j) l) as M by (intros; apply map_ext; intros; rewrite Nat.sub_0_r; reflexivity).
  rewrite (M _ (fun n _ => made gen (class_of b) n)), (M _ (fun n j => (gen n, j))). reflexivity.
Qed.
Lemma nth_map_seq {A} (f : nat -> A) n i : (i < n)%nat -> nth_error (map f (seq 0 n)) i = Some (f i).
Proof. intros L. rewrite nth_error_map, (nth_error_nth' _ 0%nat) by (rewrite seq_length; exact L). rewrite seq_nth by exact L. reflexivity. Qed.

(** setRandom makes any rig a valid rig of 1 to 15 usable plain test cameras, all of one class; the id of the rig is fresh, topic, description and the covariance are kept. *)
Theorem rgx_rig gen rnd a b r k : rounding rnd -> valid_ids gen -> -1 <= a <= 1 -> exists r' k', random_rig gen rnd a b r k = Some (r', k') /\ rig_valid r' = true /\ r_id r' = gen k /\
  Z.of_nat (List.length (cameras r')) = number_of_cameras rnd a /\ (1 <= List.length (cameras r') <= 15)%nat /\ List.length (T_C_B r') = List.length (cameras r') /\
  r_topic r' = r_topic r /\ r_description r' = r_description r /\ covariance r' = covariance r /\ has_covariance r' = has_covariance r /\
  forall c, In c (cameras r') -> usable c /\ plain c /\ test_values c /\ compressed c = false /\ c_topic c = ""%string /\ c_description c = ""%string /\ (class c = Pinhole <-> 0 < b) /\ (class c = Unified <-> b <= 0).
Proof.
  intros D V A. pose proof (rgx_count rnd a D A) as [L U]. eexists _, _. split; [apply rig_run; assumption|]. unfold result_rig. cbn [r_id cameras T_C_B r_topic r_description covariance has_covariance].
  assert (forall j, usable (made gen (class_of b) j)) as Us. { intros j. apply rgx_valid. unfold camera_valid, made. cbn. rewrite test_valid, andb_true_r. apply valid_id_iff, V. }
  split. { unfold rig_valid. cbn [r_id cameras]. rewrite (proj2 (valid_id_iff _) (V k)). apply forallb_forall. intros c Hc. apply in_map_iff in Hc as (j & <- & _). apply rgx_valid, Us. }
  rewrite !map_length, seq_length. split; [reflexivity|]. split; [apply Z2Nat.id; lia|]. split; [lia|]. do 5 (split; [reflexivity|]). intros c Hc. apply in_map_iff in Hc as (j & <- & _). split; [apply Us|]. split; [repeat split|]. split; [unfold test_values, made, class_of; cbn; destruct (Rlt_dec 0 b); repeat split|]. do 3 (split; [reflexivity|]).
  unfold made, class_of. cbn. destruct (Rlt_dec 0 b); (split; split; intros H; try discriminate; try reflexivity; try assumption; lra).
Qed.
(** Each camera looks forward along the x axis of the body, upright; the cameras are in a row along the y axis of the body, a tenth of a metre apart. *)
Theorem rgx_poses gen rnd a b r k r' k' i : rounding rnd -> valid_ids gen -> -1 <= a <= 1 -> random_rig gen rnd a b r k = Some (r', k') -> (i < List.length (cameras r'))%nat ->
  exists T, nth_error (T_C_B r') i = Some T /\ rotation (fst T) /\ looks T (1, 0, 0) /\ downwards T (0, 0, -1) /\ forall p, centre T p <-> p = (0, 1 / 10 * (INR i + 1), 0).
Proof.
  intros D V A E L. rewrite rig_run in E by assumption. injection E as <- _. unfold result_rig in *. cbn [cameras T_C_B] in *. rewrite map_length, seq_length in L. destruct (trx_test _ i L) as (_ & T & N & Rest). exists T. split; [|exact Rest]. rewrite nth_map_seq by exact L. rewrite test_nth in N by exact L. exact N.
Qed.
(** No camera is displaced in the x direction of the body. *)
Theorem rgx_offset_refuted gen rnd a b r k r' k' T x y z : rounding rnd -> valid_ids gen -> -1 <= a <= 1 -> random_rig gen rnd a b r k = Some (r', k') -> In T (T_C_B r') -> centre T (x, y, z) -> x = 0.
Proof.
  intros D V A E I C. apply In_nth_error in I as (i & N). assert (i < List.length (cameras r'))%nat as L.
  { assert (i < List.length (T_C_B r'))%nat by (apply nth_error_Some; congruence). rewrite rig_run in E by assumption. injection E as <- _. unfold result_rig in *. cbn [cameras T_C_B] in *. rewrite map_length in *. assumption. }
  destruct (rgx_poses _ _ _ _ _ _ _ _ _ D V A E L) as (T' & N' & _ & _ & _ & M). rewrite N in N'. injection N' as <-. apply M in C. congruence.
Qed.
Print Assumptions rgx_rig.
Print Assumptions rgx_poses.
Print Assumptions rgx_offset_refuted.

Lemma find_index_in l i n : find_index l i = Some n -> In (i, n) l.
Proof.
  unfold find_index. destruct (find _ l) as [[j m]|] eqn:F; [|discriminate]. cbn. intros [= <-]. apply find_some in F as [F E]. cbn in E. apply Z.eqb_eq in E as ->. exact F.
Qed.
Lemma find_index_none l i : find_index l i = None -> forall n, ~ In (i, n) l.
Proof.
  unfold find_index. destruct (find _ l) as [[j m]|] eqn:F; [discriminate|]. intros _ n I. apply (find_none _ _ F) in I. cbn in I. rewrite Z.eqb_refl in I. discriminate.
Qed.
(** The index finds exactly the cameras of the rig, under their ids, wherever the rig had others before. *)
Theorem rgx_index gen rnd a b r k r' k' i : rounding rnd -> valid_ids gen -> -1 <= a <= 1 -> random_rig gen rnd a b r k = Some (r', k') -> i <> 0%Z ->
  match camera_index r' i with
  | Some (-1)%Z => forall c, In c (cameras r') -> c_id c <> i
  | Some n => (0 <= n)%Z /\ exists c, nth_error (cameras r') (Z.to_nat n) = Some c /\ c_id c = i
  | None => False
  end.
Proof.
  intros D V A E N0. rewrite rig_run in E by assumption. injection E as <- _. unfold camera_index. rewrite (proj2 (valid_id_iff i) N0). unfold result_rig. cbn [id_to_index cameras]. destruct (find_index _ i) as [n|] eqn:F.
  - apply find_index_in in F. apply in_rev in F. apply in_map_iff in F as (j & [= G ->] & J). apply in_seq in J. destruct (Z.of_nat n) as [|p|p] eqn:Zn; [|split; [lia|]|lia].
    + split; [lia|]. assert (n = 0)%nat as -> by lia. eexists. split; [apply nth_map_seq; lia|exact G].
    + assert (Z.to_nat (Z.pos p) = n) as -> by lia. eexists. split; [apply nth_map_seq; lia|exact G].
  - intros c Hc. apply in_map_iff in Hc as (j & <- & J). intros G. apply (find_index_none _ _ F j). rewrite <- in_rev. apply in_map_iff. exists j. split; [|exact J]. unfold made in G. cbn in G. rewrite <- G. reflexivity.
Qed.
(** If the ids do not repeat, the cameras and the rig have different ids and each camera is found at its own place. *)
Theorem rgx_ids gen rnd a b r k r' k' : rounding rnd -> valid_ids gen -> no_repeats gen -> -1 <= a <= 1 -> random_rig gen rnd a b r k = Some (r', k') ->
  NoDup (r_id r' :: map c_id (cameras r')) /\ (forall i c, nth_error (cameras r') i = Some c -> camera_index r' (c_id c) = Some (Z.of_nat i)) /\
  forall j, (j < k)%nat -> ~ In (gen j) (r_id r' :: map c_id (cameras r')).
Proof.
  intros D V NR A E. pose proof E as E0. rewrite rig_run in E by assumption. injection E as <- _. unfold result_rig in *. cbn [cameras r_id] in *. rewrite map_map. change (fun x => c_id (made gen (class_of b) (S (S k) + 4 * x)%nat)) with (fun x => gen (S (S k) + 4 * x)%nat).
  assert (NoDup (gen k :: map (fun x => gen (S (S k) + 4 * x)%nat) (seq 0 (Z.to_nat (number_of_cameras rnd a))))) as ND.
  { constructor.
    - intros I. apply in_map_iff in I as (j & G & _). apply NR in G. lia.
    - apply Injective_map_NoDup; [|apply seq_NoDup]. intros x y G. apply NR in G. lia. }
  split; [exact ND|]. split.
  - intros i c N. assert (i < Z.to_nat (number_of_cameras rnd a))%nat as L. { assert (nth_error (map (fun j => made gen (class_of b) (S (S k) + 4 * j)%nat) (seq 0 (Z.to_nat (number_of_cameras rnd a)))) i <> None) as NN by congruence. apply nth_error_Some in NN. rewrite map_length, seq_length in NN. exact NN. }
    rewrite nth_map_seq in N by exact L. injection N as <-. 
    pose proof (rgx_index _ _ _ _ _ _ _ _ (gen (S (S k) + 4 * i)%nat) D V A E0 (V _)) as X. cbn [cameras] in X. unfold camera_index in *. match goal with |- context [valid_id ?z] => change z with (gen (S (S k) + 4 * i)%nat) end. rewrite (proj2 (valid_id_iff _) (V (S (S k) + 4 * i)%nat)) in X. rewrite (proj2 (valid_id_iff _) (V (S (S k) + 4 * i)%nat)). cbn [id_to_index] in *. destruct (find_index _ _) as [n|].
    + assert (n = i) as ->; [|reflexivity]. revert X. destruct (Z.of_nat n) as [|p|p] eqn:Zn; intros X; [| |lia].
      * destruct X as (_ & c & N & G). rewrite nth_error_map in N. destruct (nth_error (seq _ _) (Z.to_nat 0)) as [j|] eqn:J; [|discriminate]. assert (j = Z.to_nat 0) as ->. { apply nth_error_nth with (d := 0%nat) in J as J'. assert (Z.to_nat 0 < List.length (seq 0 (Z.to_nat (number_of_cameras rnd a))))%nat as Q by (apply nth_error_Some; congruence). rewrite seq_length in Q. rewrite seq_nth in J' by exact Q. lia. } injection N as <-. cbn in G. apply NR in G. lia.
      * destruct X as (_ & c & N & G). rewrite nth_error_map in N. destruct (nth_error (seq _ _) (Z.to_nat (Z.pos p))) as [j|] eqn:J; [|discriminate]. assert (j = Z.to_nat (Z.pos p)) as ->. { apply nth_error_nth with (d := 0%nat) in J as J'. assert (Z.to_nat (Z.pos p) < List.length (seq 0 (Z.to_nat (number_of_cameras rnd a))))%nat as Q by (apply nth_error_Some; congruence). rewrite seq_length in Q. rewrite seq_nth in J' by exact Q. lia. } injection N as <-. cbn in G. apply NR in G. lia.
    + exfalso. apply (X (made gen (class_of b) (S (S k) + 4 * i)%nat)); [|reflexivity]. apply in_map_iff. exists i. split; [reflexivity|apply in_seq; lia].
  - intros j Hj [G|I]; [apply NR in G; lia|]. apply in_map_iff in I as (x & G & _). apply NR in G. lia.
Qed.
(** The covariance of the localisation of the old rig stays with the new, random one: setRandom is not a fresh start. *)
Theorem rgx_covariance_refuted : exists gen r r', valid_ids gen /\ option_map fst (random_rig gen to_float 0 1 r 0%nat) = Some r' /\ has_covariance r' = true.
Proof.
  destruct (rgx_rig (fun _ => 1%Z) to_float 0 1 (Rig 1 "" "" [] [] [] [1] true) 0%nat rgx_float) as (r' & k' & E & _ & _ & _ & _ & _ & _ & _ & _ & H & _); [intros ?; lia|lra|]. eexists _, _, r'. split; [|split; [rewrite E; reflexivity|exact H]]. intros ?. lia.
Qed.
Print Assumptions rgx_index.
Print Assumptions rgx_ids.
Print Assumptions rgx_covariance_refuted.

(** The hypotheses can be met: counting ids; the result has 8 cameras for the number 0. *)
Example rgx_valid_met : usable (Camera Pinhole 1 "" "" 0 640 480 None false [400; 300; 320; 240] Pinhole None).
Proof. split; [discriminate|cbn; lra]. Qed.
Example rgx_gen_met : valid_ids (fun k => Z.of_nat (S k)) /\ no_repeats (fun k => Z.of_nat (S k)).
Proof. split; [intros k; lia|intros j k; lia]. Qed.
Example rgx_camera_met : random_camera (fun k => Z.of_nat (S k)) (Camera Unified 77 "t" "d" 5 0 0 (Some []) true [] Unified None) 0%nat =
  Some (Camera Unified 1 "t" "d" 0 640 480 None true [9 / 10; 400; 300; 320; 240] Unified (Some (NoLens, [])), 3%nat).
Proof. apply random_run. reflexivity. Qed.
Example rgx_rounding_met : rounding (fun x => x).
Proof. split; [intros; assumption|reflexivity]. Qed.
Example rgx_count_met : number_of_cameras (fun x => x) 0 = 8%Z /\ number_of_cameras (fun x => x) (-1) = 1%Z /\ number_of_cameras (fun x => x) 1 = 15%Z.
Proof. split; [apply rgx_share; [lra|lia|rewrite minus_IZR; split; lra]|]. split; [apply rgx_share; [lra|lia|rewrite minus_IZR; split; lra]|]. apply rgx_fifteen; lra. Qed.
Example rgx_rig_met : exists r', random_rig (fun k => Z.of_nat (S k)) (fun x => x) 0 1 (Rig 77 "" "" [] [] [(77%Z, 3%nat)] [] false) 0%nat = Some (r', 33%nat) /\ List.length (cameras r') = 8%nat /\ camera_index r' 3 = Some 0%Z /\ camera_index r' 77 = Some (-1)%Z.
Proof.
  exists (result_rig (fun k => Z.of_nat (S k)) 1 8 0 (Rig 77 "" "" [] [] [(77%Z, 3%nat)] [] false)). split; [rewrite rig_run; [|apply rgx_rounding_met|apply rgx_gen_met|lra]; rewrite (proj1 rgx_count_met); reflexivity|]. split; [reflexivity|]. split; reflexivity.
Qed.
