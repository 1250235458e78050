(** C113: visual pipelines. *)
From Coq Require Import Reals ZArith List Bool Arith Lia.
From Verif Require Import VPipeModel VPipeSpec.
Import ListNotations.

Section props.
Context {P : Type}.
Variable detect : P -> list keypoint.
Variable compute : P -> list keypoint -> list keypoint * mat.
Hypothesis contract : forall v kps, kps <> [] -> proper_result (compute v kps).
Notation process_image := (process_image detect compute).
Notation run := (run detect compute).
Implicit Types (s : @state P) (p : @pipeline P).

Definition working p s : Prop := alive s (detector p) = true /\ alive s (extractor p) = true /\ detector p <> extractor p.
Definition fitting p (raw : image) : Prop := im_width raw = cam_width (input p) /\ im_height raw = cam_height (input p).
(** The picture in which keypoints are detected, and what is found in it. *)
Definition seen p s (raw : image) : P := match preprocessing p with Some f => f (pictures s (im_buffer raw)) | None => pictures s (im_buffer raw) end.
Definition found (v : P) : list keypoint * mat := match detect v with [] => ([], Mat 0 0 0 true []) | kps => compute v kps end.
Lemma found_proper v : proper_result (found v).
Proof. unfold found. destruct (detect v) eqn:D; [repeat split|]. apply contract. discriminate. Qed.
Definition after p s : state := if copy_images p then State (alive s) (next_object s) (pictures s) (S (next_buffer s)) (S (next_id s)) else State (alive s) (next_object s) (pictures s) (next_buffer s) (S (next_id s)).

Lemma process_spec p raw time s : working p s -> fitting p raw -> (im_buffer raw < next_buffer s) ->
  exists f s', process_image p raw time s = Fine (f, s') /\ f_id f = next_id s /\ f_time f = time /\ f_raw_camera f = input p /\ f_camera f = output p /\
    (let '(kps, m) := found (seen p s raw) in f_descriptors f = Matrix (m_cols m) (m_rows m) (m_bytes m) /\ f_keypoints f = map (fun k => (kx k, ky k)) kps /\ f_scores f = map response kps /\ f_orientations f = map angle kps /\ f_scales f = map size kps /\ f_uncertainties f = map (fun _ => (8 / 10)%R) kps) /\
    f_raw_image f = (if copy_images p then Image (im_width raw) (im_height raw) (next_buffer s) else raw) /\
    alive s' = alive s /\ next_object s' = next_object s /\ next_id s' = S (next_id s) /\ next_buffer s' = (if copy_images p then S (next_buffer s) else next_buffer s) /\
    (forall b, b < next_buffer s -> pictures s' b = pictures s b) /\ pictures s' (im_buffer (f_raw_image f)) = pictures s (im_buffer raw).
Proof.
  intros (AD & AE & N) [FW FH] B. unfold VPipeModel.process_image. rewrite FW, FH, !Z.eqb_refl. cbn [andb].
  assert (forall s1, alive s1 = alive s -> forall v, extract detect compute p s1 v = Fine (found v)) as EX. { intros s1 E v. unfold extract, found. rewrite E, AD. destruct (detect v); [reflexivity|]. rewrite AE. reflexivity. }
  destruct (copy_images p) eqn:C; cbn [pictures next_buffer].
  - replace (im_buffer raw =? next_buffer s) with false by (symmetry; apply Nat.eqb_neq; lia). rewrite EX by reflexivity. fold (seen p s raw). pose proof (found_proper (seen p s raw)) as FP. destruct (found (seen p s raw)) as [kps m]. destruct FP as (T & CO & _ & _). cbn [fst snd] in *. rewrite T, CO. cbn [Z.eqb CV_8UC1 andb]. do 2 eexists. split; [reflexivity|]. cbn. rewrite ?Nat.eqb_refl. repeat (split; [reflexivity|]). split; [repeat split|]. repeat (split; [congruence|]). split; [intros b L; replace (b =? next_buffer s) with false by (symmetry; apply Nat.eqb_neq; lia); reflexivity|reflexivity].
  - rewrite EX by reflexivity. fold (seen p s raw). pose proof (found_proper (seen p s raw)) as FP. destruct (found (seen p s raw)) as [kps m]. destruct FP as (T & CO & _ & _). cbn [fst snd] in *. rewrite T, CO. cbn [Z.eqb CV_8UC1 andb]. do 2 eexists. split; [reflexivity|]. cbn. repeat (split; [reflexivity|]). split; [repeat split|]. repeat (split; [reflexivity|]). reflexivity.
Qed.

(** The frame has the data of every keypoint that remained after the extraction, at the same place in each channel, from the picture after the preprocessing. *)
Theorem vpx_channels p raw time s : working p s -> fitting p raw -> im_buffer raw < next_buffer s ->
  exists f s', process_image p raw time s = Fine (f, s') /\ f_time f = time /\ f_raw_camera f = input p /\ f_camera f = output p /\
    let kps := fst (found (seen p s raw)) in let m := snd (found (seen p s raw)) in
    length (f_keypoints f) = length kps /\ length (f_scores f) = length kps /\ length (f_orientations f) = length kps /\ length (f_scales f) = length kps /\ length (f_uncertainties f) = length kps /\ e_cols (f_descriptors f) = length kps /\
    forall i k, nth_error kps i = Some k -> nth_error (f_keypoints f) i = Some (kx k, ky k) /\ nth_error (f_scores f) i = Some (response k) /\ nth_error (f_orientations f) i = Some (angle k) /\ nth_error (f_scales f) i = Some (size k) /\ nth_error (f_uncertainties f) i = Some (8 / 10)%R /\
      e_rows (f_descriptors f) = m_cols m /\ forall j, j < m_cols m -> coefficient (f_descriptors f) j i = byte m i j.
Proof.
  intros W F B. destruct (process_spec p raw time s W F B) as (f & s' & E & _ & T & RC & C & D & _). exists f, s'. split; [exact E|]. split; [exact T|]. split; [exact RC|]. split; [exact C|]. pose proof (found_proper (seen p s raw)) as (_ & _ & R & L). destruct (found (seen p s raw)) as [kps m]. cbn [fst snd] in *. destruct D as (-> & -> & -> & -> & -> & ->). cbn zeta. rewrite !map_length. repeat (split; [reflexivity|]). split; [exact R|]. intros i k K. rewrite !nth_error_map, K. cbn [option_map]. repeat (split; [reflexivity|]). intros j J. reflexivity.
Qed.
(** If images are copied, the image of the frame stays as it was, whatever the caller does with their own buffers and processes afterwards. *)
Lemma run_keeps p l s s' fs b : run p l s = Fine (fs, s') -> working p s -> b < next_buffer s -> Forall (fun o => match o with Write q _ => q <> b | Process raw _ => fitting p raw /\ im_buffer raw < next_buffer s end) l -> pictures s' b = pictures s b.
Proof.
  revert s fs. induction l as [|o l IH]; intros s fs R W B A; [injection R as <- <-; reflexivity|]. inversion A as [|? ? AO AL]; subst. destruct o as [q v|raw time]; cbn [VPipeModel.run] in R.
  - erewrite IH; [|exact R|exact W|exact B|exact AL]. cbn. destruct (Nat.eqb_spec b q); [congruence|reflexivity].
  - destruct AO as [AF AB]. destruct (process_spec p raw time s W AF AB) as (f & s1 & E & _ & _ & _ & _ & _ & _ & AV & _ & _ & NB & K & _). rewrite E in R. destruct (run p l s1) as [[fs1 s2]| |] eqn:R1; try discriminate. injection R as <- <-. assert (next_buffer s <= next_buffer s1) by (rewrite NB; destruct (copy_images p); lia). erewrite IH; [apply K, B|exact R1|unfold working in *; rewrite AV; exact W|lia|]. eapply Forall_impl; [|exact AL]. intros [? ?|? ?]; [auto|]. intros [? ?]. split; [assumption|lia].
Qed.
Theorem vpx_copy p raw time s f s1 l fs s2 : copy_images p = true -> working p s -> fitting p raw -> im_buffer raw < next_buffer s -> process_image p raw time s = Fine (f, s1) ->
  Forall (fun o => match o with Write q _ => q < next_buffer s | Process raw _ => fitting p raw /\ im_buffer raw < next_buffer s end) l -> run p l s1 = Fine (fs, s2) -> pictures s2 (im_buffer (f_raw_image f)) = pictures s (im_buffer raw).
Proof.
  intros C W F B E A R. destruct (process_spec p raw time s W F B) as (f' & s' & E' & _ & _ & _ & _ & _ & RI & AV & _ & _ & NB & _ & K). rewrite E in E'. injection E' as <- <-. rewrite C in *. rewrite <- K. eapply run_keeps; [exact R|unfold working in *; rewrite AV; exact W|rewrite RI, NB; cbn; lia|]. eapply Forall_impl; [|exact A]. intros [q v|r t]; cbn beta; [rewrite RI; cbn; lia|]. intros [? ?]. split; [assumption|lia].
Qed.
(** Otherwise the frame has the image of the caller. *)
Theorem vpx_shared p raw time s : copy_images p = false -> working p s -> fitting p raw -> im_buffer raw < next_buffer s -> exists f s', process_image p raw time s = Fine (f, s') /\ f_raw_image f = raw.
Proof. intros C W F B. destruct (process_spec p raw time s W F B) as (f & s' & E & _ & _ & _ & _ & _ & RI & _). rewrite C in RI. eauto. Qed.
(** A pipeline that was constructed as the one of BRISK processes all images of the right size and is destroyed without errors; the frames have different ids. *)
Definition sized p s (o : @op P) : Prop := match o with Write q _ => True | Process raw _ => fitting p raw /\ im_buffer raw < next_buffer s end.
Lemma run_fine p l s : working p s -> Forall (sized p s) l -> exists fs s', run p l s = Fine (fs, s') /\ alive s' = alive s /\ Forall (fun f => next_id s <= f_id f < next_id s') fs /\ NoDup (map f_id fs) /\ next_id s <= next_id s'.
Proof.
  revert s. induction l as [|o l IH]; intros s W A; [exists [], s; repeat split; [constructor|constructor|lia]|]. inversion A as [|? ? AO AL]; subst. destruct o as [q v|raw time]; cbn [VPipeModel.run sized] in *.
  - destruct (IH (State (alive s) (next_object s) (fun b => if Nat.eqb b q then v else pictures s b) (next_buffer s) (next_id s)) W AL) as (fs & s' & R & AV & I & ND & L). eauto 10.
  - destruct AO as [AF AB]. destruct (process_spec p raw time s W AF AB) as (f & s1 & E & ID & _ & _ & _ & _ & _ & AV & _ & NI & NB & _ & _). rewrite E. destruct (IH s1) as (fs & s' & R & AV' & I & ND & L).
    + unfold working in *. rewrite AV. exact W.
    + eapply Forall_impl; [|exact AL]. intros [? ?|? ?]; cbn; [auto|]. intros [? ?]. split; [assumption|]. rewrite NB. destruct (copy_images p); lia.
    + rewrite R. exists (f :: fs), s'. split; [reflexivity|]. split; [congruence|]. split; [|split; [|lia]].
      * constructor; [lia|]. eapply Forall_impl; [|exact I]. cbn. lia.
      * cbn [map]. constructor; [|exact ND]. rewrite in_map_iff. intros (g & G1 & G2). rewrite Forall_forall in I. specialize (I g G2). lia.
Qed.
Lemma destroy_working p s : working p s -> exists s2, destroy p s = Fine s2 /\ alive s2 (detector p) = false /\ alive s2 (extractor p) = false.
Proof.
  intros (AD & AE & N). unfold destroy, free. rewrite AE. cbn [alive]. rewrite (proj2 (Nat.eqb_neq _ _) N), AD. eexists. split; [reflexivity|]. cbn. rewrite !Nat.eqb_refl. split; [reflexivity|]. destruct (extractor p =? detector p); reflexivity.
Qed.
Theorem vpx_brisk i o c pre s l : exists p s0, construct_brisk i o c pre s = Fine (p, s0) /\ input p = i /\ output p = o /\ copy_images p = c /\
  (Forall (sized p s0) l -> exists fs s1 s2, run p l s0 = Fine (fs, s1) /\ NoDup (map f_id fs) /\ destroy p s1 = Fine s2 /\ alive s2 (detector p) = false /\ alive s2 (extractor p) = false).
Proof.
  unfold construct_brisk, allocate. cbn. do 2 eexists. split; [reflexivity|]. cbn. split; [reflexivity|]. split; [reflexivity|]. split; [reflexivity|]. intros A. match goal with |- context [VPipeModel.run _ _ ?p l ?s0] => destruct (run_fine p l s0) as (fs & s1 & R & AV & _ & ND & _) end; [|exact A|].
  - unfold working. cbn. rewrite !Nat.eqb_refl. destruct (next_object s =? S (next_object s)); repeat split; lia.
  - match goal with |- context [VPipeModel.run _ _ ?p l _] => destruct (destroy_working p s1) as (s2 & D) end; [|exists fs, s1, s2; split; [exact R|split; [exact ND|exact D]]]. unfold working. rewrite AV. cbn. rewrite !Nat.eqb_refl. destruct (next_object s =? S (next_object s)); repeat split; lia.
Qed.
(** The pipeline of FREAK uses objects that were freed when it was constructed: every call is undefined, and so is the destruction. *)
Theorem vpx_freak_refuted i o c pre s : exists p s0, construct_freak i o c pre s = Fine (p, s0) /\ input p = i /\
  (forall raw time, fitting p raw -> process_image p raw time s0 = Undefined) /\ destroy p s0 = Undefined.
Proof.
  unfold construct_freak, allocate, free. cbn. rewrite Nat.eqb_refl. cbn. rewrite Nat.eqb_refl. do 2 eexists. split; [reflexivity|]. split; [reflexivity|]. split.
  - intros raw time [FW FH]. cbn in FW, FH. unfold VPipeModel.process_image. cbn. rewrite FW, FH, !Z.eqb_refl. cbn. destruct c; unfold extract; cbn; rewrite ?Nat.eqb_refl; destruct (Nat.eqb_spec (next_object s) (S (next_object s))) as [X|X]; try lia; reflexivity.
  - unfold destroy, free. cbn. rewrite Nat.eqb_refl. reflexivity.
Qed.
(** Images of other sizes are refused. *)
Theorem vpx_size p raw time s : ~ fitting p raw -> process_image p raw time s = Fatal.
Proof. intros N. unfold VPipeModel.process_image. destruct (_ && _)%bool eqn:E; [|reflexivity]. exfalso. apply N. apply andb_true_iff in E. rewrite !Z.eqb_eq in E. unfold fitting. intuition congruence. Qed.
End props.
Print Assumptions vpx_channels.
Print Assumptions vpx_copy.
Print Assumptions vpx_shared.
Print Assumptions vpx_brisk.
Print Assumptions vpx_freak_refuted.
Print Assumptions vpx_size.

(** An extractor that removes the keypoints with response zero and keeps the contract, and a pipeline that works. *)
Definition ex_compute (v : Z) (kps : list keypoint) : list keypoint * mat := let kept := filter (fun k => if Req_EM_T (response k) 0 then false else true) kps in (kept, Mat (length kept) 2 0 true (repeat v (length kept * 2))).
Example vpx_ex : (forall v kps, kps <> [] -> proper_result (ex_compute v kps)) /\
  let c := Camera 0 640 480 in let s := State (fun o => o <? 2) 2 (fun _ => 7%Z) 3 0 in let p := Pipeline c c true (Some (fun v => v + 1)%Z) 0 1 in
  working p s /\ fitting p (Image 640 480 1) /\ (im_buffer (Image 640 480 1) < next_buffer s).
Proof. split; [intros v kps _; unfold proper_result, ex_compute; cbn; repeat split; apply repeat_length|]. cbn zeta. split; [split; [reflexivity|split; [reflexivity|discriminate]]|]. split; [split; reflexivity|]. cbn. lia. Qed.
