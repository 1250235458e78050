(** C150: empty frames and multi-frames. *)
From Coq Require Import List ZArith Lia Bool Arith FinFun.
From Verif Require FrameSwapModel.
From Verif Require Import NFrameModel EmptyFrameModel.
Import ListNotations.

Lemma update_mid {A} (p : list A) x y q : update (length p) x (p ++ y :: q) = p ++ x :: q.
Proof. induction p as [|a p IH]; cbn; [reflexivity|]. now rewrite IH. Qed.
Lemma nth_last {A} (l : list A) x : nth_error (l ++ [x]) (length l) = Some x.
Proof. rewrite nth_error_app2, Nat.sub_diag by lia. reflexivity. Qed.
Section Make.
Variable other : Z -> Z -> Z.
Notation empty_frame := (empty_frame other).
Notation fill := (fill other).
Notation create := (create other).
Fixpoint frames_of (ids : nat -> Z) (time : Z) (i : nat) (cams : list nat) : list frame :=
  match cams with [] => [] | c :: cams => empty_frame c (ids i) time :: frames_of ids time (S i) cams end.
Lemma frames_of_length ids time cams : forall i, length (frames_of ids time i cams) = length cams.
Proof. induction cams as [|c cams IH]; intros i; cbn; [reflexivity|]. now rewrite IH. Qed.
Lemma frames_of_nth ids time cams : forall i j c, nth_error cams j = Some c -> nth_error (frames_of ids time i cams) j = Some (empty_frame c (ids (i + j)) time).
Proof.
  induction cams as [|d cams IH]; intros i [|j] c E; try discriminate; cbn in *.
  - injection E as ->. now rewrite Nat.add_0_r.
  - rewrite (IH (S i) j c E). do 3 f_equal. lia.
Qed.
Lemma fill_spec R r ids time N : forall l pre F f0, nth_error R r = Some (pre ++ l) -> length F = f0 + length pre ->
  fill (State R F (N ++ [NFrame (Some r) (map Some (seq f0 (length pre)) ++ repeat None (length l))])) r (length N) ids time (length pre) (length l)
  = Some (State R (F ++ frames_of ids time (length pre) l) (N ++ [NFrame (Some r) (map Some (seq f0 (length pre + length l)))])).
Proof.
  induction l as [|c l IH]; intros pre F f0 HR HF.
  - cbn [length EmptyFrameModel.fill frames_of repeat]. now rewrite !app_nil_r, Nat.add_0_r.
  - cbn [length EmptyFrameModel.fill]. unfold camera at 1. cbn [rigs]. rewrite HR. assert (HC : nth_error (pre ++ c :: l) (length pre) = Some c) by (rewrite nth_error_app2, Nat.sub_diag by lia; reflexivity). rewrite HC.
    cbn [step]. unfold set_frames at 1. cbn [rigs frames nframes]. rewrite nth_last. cbn [frames]. unfold set_frames. cbn [frames nframes rigs]. rewrite nth_last. cbn [rig slots geometry EmptyFrameModel.empty_frame]. unfold camera. cbn [rigs]. rewrite HR, HC, Nat.eqb_refl.
    rewrite app_length, map_length, seq_length, repeat_length. rewrite (proj2 (Nat.ltb_lt (length pre) (length pre + S (length l)))) by lia. cbn [andb]. unfold set_nframe. cbn [rigs frames nframes]. rewrite update_mid.
    assert (U : update (length pre) (Some (length F)) (map Some (seq f0 (length pre)) ++ repeat None (S (length l))) = map Some (seq f0 (length (pre ++ [c]))) ++ repeat None (length l)).
    { rewrite app_length. cbn [length repeat]. rewrite Nat.add_1_r, seq_S, map_app, <- app_assoc. cbn [map app]. rewrite <- HF. rewrite <- (seq_length (length pre) f0) at 1. rewrite <- (map_length (@Some nat)). apply update_mid. }
    rewrite U. specialize (IH (pre ++ [c]) (F ++ [empty_frame c (ids (length pre)) time]) f0). replace (S (length pre)) with (length (pre ++ [c])) at 1 by (rewrite app_length; cbn; lia). rewrite IH; [|rewrite <- app_assoc; exact HR|rewrite !app_length; cbn; lia].
    rewrite <- app_assoc. cbn [app]. rewrite app_length. cbn [length]. rewrite Nat.add_1_r. cbn [frames_of]. rewrite Nat.add_succ_comm. reflexivity.
Qed.
(** For every rig the multi-frame is made; each slot holds a new frame of the camera of that slot, without image and keypoints, with its own id and the given time; nothing that existed is changed. *)
Theorem efx_created s r cams ids time : nth_error (rigs s) r = Some cams -> exists s', create s (Some r) ids time = Some s' /\
  rigs s' = rigs s /\ (exists x, nframes s' = nframes s ++ [x] /\ rig x = Some r /\ length (slots x) = length cams /\ NoDup (slots x)) /\ length (frames s') = length (frames s) + length cams /\
  (forall f, f < length (frames s) -> nth_error (frames s') f = nth_error (frames s) f) /\
  forall i c, nth_error cams i = Some c -> (exists f, length (frames s) <= f /\ option_map (fun x => nth_error (slots x) i) (nth_error (nframes s') (length (nframes s))) = Some (Some (Some f))) /\
    get_frame s' (length (nframes s)) i = Some (Frame (Some c) false [] (other (ids i) time)) /\ get_camera s' (length (nframes s)) i = Some c.
Proof.
  intros HR. unfold EmptyFrameModel.create. rewrite HR. cbn [step]. rewrite HR. pose proof (fill_spec (rigs s) r ids time (nframes s) cams [] (frames s) (length (frames s)) HR) as H. cbn [length seq map app Nat.add] in H. rewrite H by lia. clear H.
  eexists. split; [reflexivity|]. cbn [rigs frames nframes]. split; [reflexivity|]. split; [eexists; split; [reflexivity|]; cbn [rig slots]; split; [reflexivity|]; split; [now rewrite map_length, seq_length|apply FinFun.Injective_map_NoDup; [intros a b E; now injection E|apply seq_NoDup]]|].
  split; [now rewrite app_length, frames_of_length|]. split; [intros f L; now rewrite nth_error_app1|].
  intros i c HC. assert (L : i < length cams) by (apply nth_error_Some; congruence).
  assert (S' : nth_error (map Some (seq (length (frames s)) (length cams))) i = Some (Some (length (frames s) + i))).
  { apply map_nth_error. rewrite nth_error_nth' with (d := 0) by (rewrite seq_length; exact L). now rewrite seq_nth. }
  split; [exists (length (frames s) + i); split; [lia|]; rewrite nth_last; cbn [option_map slots]; now rewrite S'|]. split.
  - unfold get_frame. cbn [nframes]. rewrite nth_last. cbn [slots]. rewrite S'. cbn [frames]. rewrite nth_error_app2 by lia. replace (length (frames s) + i - length (frames s)) with i by lia. rewrite (frames_of_nth _ _ _ _ _ _ HC). reflexivity.
  - unfold get_camera, camera. cbn [nframes rigs]. rewrite nth_last. cbn [rig]. now rewrite HR.
Qed.
(** It is complete: all frames are set; the operations on all frames succeed. No frame has an image, so there are images in all frames only if there are no frames. *)
Theorem efx_complete s r cams ids time s' : nth_error (rigs s) r = Some cams -> create s (Some r) ids time = Some s' -> let n := length (nframes s) in
  are_all_frames_set s' n = Some true /\ has_raw_images s' n = Some (match cams with [] => true | _ => false end) /\ forall i, i < length cams -> is_frame_set s' n i = Some true.
Proof.
  intros HR E n. unfold EmptyFrameModel.create in E. rewrite HR in E. cbn [step] in E. rewrite HR in E. pose proof (fill_spec (rigs s) r ids time (nframes s) cams [] (frames s) (length (frames s)) HR) as H. cbn [length seq map app Nat.add] in H. rewrite H in E by lia. injection E as <-. clear H. unfold n. split; [|split].
  - unfold are_all_frames_set. cbn [nframes]. rewrite nth_last. cbn [slots]. f_equal. apply forallb_forall. intros x I. apply in_map_iff in I. destruct I as (y & <- & _). reflexivity.
  - unfold has_raw_images. cbn [nframes]. rewrite nth_last. cbn [slots frames]. destruct cams as [|c cams]; [reflexivity|]. cbn [length seq map images_loop frames_of]. now rewrite nth_error_app2, Nat.sub_diag by lia.
  - intros i L. unfold is_frame_set. cbn [nframes]. rewrite nth_last. cbn [slots]. rewrite (map_nth_error Some i (seq (length (frames s)) (length cams)) (d := length (frames s) + i)); [reflexivity|]. rewrite nth_error_nth' with (d := 0) by (rewrite seq_length; exact L). now rewrite seq_nth.
Qed.
(** Without a rig nothing is made. *)
Theorem efx_none s ids time : create s None ids time = None /\ forall r, nth_error (rigs s) r = None -> create s (Some r) ids time = None.
Proof. split; [reflexivity|]. intros r E. unfold EmptyFrameModel.create. now rewrite E. Qed.
(** Two multi-frames made one after the other, also of the same rig, share no frame. *)
Theorem efx_apart s r r' cams cams' ids ids' time time' s1 s2 : nth_error (rigs s) r = Some cams -> nth_error (rigs s) r' = Some cams' -> create s (Some r) ids time = Some s1 -> create s1 (Some r') ids' time' = Some s2 ->
  exists x y, nframes s2 = nframes s ++ [x; y] /\ rig x = Some r /\ rig y = Some r' /\ forall f, In (Some f) (slots x) -> ~ In (Some f) (slots y).
Proof.
  intros HR HR' E1 E2. unfold EmptyFrameModel.create in E1, E2. rewrite HR in E1. cbn [step] in E1. rewrite HR in E1. pose proof (fill_spec (rigs s) r ids time (nframes s) cams [] (frames s) (length (frames s)) HR) as H. cbn [length seq map app Nat.add] in H. rewrite H in E1 by lia. injection E1 as <-. clear H.
  cbn [rigs frames nframes step] in E2. rewrite HR' in E2. set (x := NFrame (Some r) _) in E2. set (F := frames s ++ _) in E2. pose proof (fill_spec (rigs s) r' ids' time' (nframes s ++ [x]) cams' [] F (length F) HR') as H. cbn [length seq map app Nat.add] in H. rewrite H in E2 by lia. injection E2 as <-. cbn [nframes].
  exists x. eexists. split; [rewrite <- app_assoc; reflexivity|]. split; [reflexivity|]. split; [reflexivity|]. cbn [slots]. intros f I J. unfold x in I. cbn [slots] in I. apply in_map_iff in I. destruct I as (a & Ea & I). apply in_map_iff in J. destruct J as (b & Eb & J). injection Ea as ->. injection Eb as ->. apply in_seq in I. apply in_seq in J. unfold F in J. rewrite app_length, frames_of_length in J. lia.
Qed.
End Make.
(** The channels of an empty frame: keypoints, uncertainties and one block of descriptors of type 0 exist and are empty, the others do not exist. So exactly these can be read. *)
Theorem efx_channels : exists s, empty_channels = FrameSwapModel.Ok s /\ (forall c, FrameSwapModel.chan s c = match c with FrameSwapModel.Measurements | FrameSwapModel.Uncertainties => Some [] | _ => None end) /\
  FrameSwapModel.blocks s = Some [[]] /\ FrameSwapModel.types s = Some [Some 0%Z] /\
  forall c, (exists s', FrameSwapModel.step s (FrameSwapModel.Get c 0) = FrameSwapModel.Ok s') <-> c = FrameSwapModel.Measurements \/ c = FrameSwapModel.Uncertainties.
Proof.
  eexists. split; [reflexivity|]. split; [intros []; reflexivity|]. split; [reflexivity|]. split; [reflexivity|].
  intros c. split; [intros (s' & E); destruct c; cbn in E; try discriminate; tauto|]. intros [-> | ->]; eexists; reflexivity.
Qed.
Print Assumptions efx_created.
Print Assumptions efx_complete.
Print Assumptions efx_none.
Print Assumptions efx_apart.
Print Assumptions efx_channels.

(** ** Cases *)
Definition start_ex : state := State [[4; 9]; []] [Frame None true [1%Z] 0%Z] [].
Example efx_created_ex : create (fun id time => id * 1000 + time)%Z start_ex (Some 0) (fun i => Z.of_nat i + 1)%Z 17 =
  Some (State [[4; 9]; []] [Frame None true [1%Z] 0%Z; Frame (Some 4) false [] 1017; Frame (Some 9) false [] 2017] [NFrame (Some 0) [Some 1; Some 2]]).
Proof. reflexivity. Qed.
Example efx_empty_rig_ex : create (fun id time => id)%Z start_ex (Some 1) (fun i => 5)%Z 17 = Some (State (rigs start_ex) (frames start_ex) [NFrame (Some 1) []]) /\ create (fun id time => id)%Z start_ex None (fun i => 5)%Z 17 = None.
Proof. split; reflexivity. Qed.
Example efx_apart_ex : exists s1 s2, create (fun id time => id)%Z start_ex (Some 0) (fun i => 5)%Z 17 = Some s1 /\ create (fun id time => id)%Z s1 (Some 0) (fun i => 5)%Z 17 = Some s2.
Proof. eexists _, _. split; reflexivity. Qed.
