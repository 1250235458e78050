(** C125: the nonlinear scale space. *)
From Coq Require Import Reals List Bool Arith ZArith Permutation Lia Lra.
From Verif Require Import DiffusionModel DiffusionSpec DiffusionProps FedTimeModel AosModel AosProps ContrastModel ContrastSpec ContrastProps.
From Verif Require Import ScaleSpaceModel ScaleSpaceSpec ScaleSpaceProofs.
Import ListNotations.
Local Open Scope R_scope.

(** Filters for the examples: no blur, differences to the next pixel (the last one has none). *)
Definition plain (rows cols : nat) : filters := {|
  blur := fun _ A => A;
  ddx := fun A y x => if (x + 1 <? cols)%nat then A y (x + 1)%nat - A y x else 0;
  ddy := fun A y x => if (y + 1 <? rows)%nat then A (y + 1)%nat x - A y x else 0 |}.

Lemma plain_good o : good_filters (plain (rows o) (cols o)) o.
Proof.
  split; [|split]; cbn [blur ddx ddy plain]; intros; constructor; cbv beta.
  - intros A B H. exact H.
  - intros A s b y x _ _. reflexivity.
  - intros A B H y x Y X. destruct (Nat.ltb_spec (x + 1) (cols o)); [|reflexivity]. rewrite (H y x), (H y (x + 1)%nat) by lia. reflexivity.
  - intros A s b y x Y X. unfold relit. destruct (x + 1 <? cols o)%nat; ring.
  - intros A B H y x Y X. destruct (Nat.ltb_spec (y + 1) (rows o)); [|reflexivity]. rewrite (H y x), (H (y + 1)%nat x) by lia. reflexivity.
  - intros A s b y x Y X. unfold relit. destruct (y + 1 <? rows o)%nat; ring.
Qed.

(** Three levels of an image of 4 x 4 pixels, both schemes. *)
Definition ex_fed : options := {| rows := 4; cols := 4; soffset := 16 / 10; sderivatives := 1; percentile := 7 / 10; nbins := 300;
  diffusivity := 1; solver := ExplicitFED [[/ 4]; [/ 8; / 4]] [2; 1]%nat |}.
Definition ex_aos : options := {| rows := 4; cols := 4; soffset := 16 / 10; sderivatives := 1; percentile := 7 / 10; nbins := 300;
  diffusivity := 2; solver := ImplicitAOS [1; 2; 4] (fun _ => (fun _ _ => 0, fun _ _ => 7)) |}.
Lemma ex_fed_usable : usable ex_fed 3.
Proof. split; [cbn; lia|]. split; [cbn; lia|]. cbn. split; [lia|apply perm_swap]. Qed.
Lemma ex_aos_usable : usable ex_aos 3.
Proof.
  split; [cbn; lia|]. split; [cbn; lia|]. cbn [ex_aos solver rows cols]. split; [reflexivity|]. intros i I.
  assert (i = 1 \/ i = 2)%nat as [-> | ->] by lia; cbn; lra.
Qed.

(** Without levels the call fails and changes nothing. *)
Theorem ssx_empty : forall f o img, create f o [] img = Fine ((-1)%Z, []).
Proof. reflexivity. Qed.
Print Assumptions ssx_empty.

(** If enough pixels are on edges, there is a result, of as many levels as were allocated. *)
Theorem ssx_defined : forall f o old img, usable o (length old) -> (diffusivity o < 4)%nat -> old <> [] ->
  (0 < nbins o)%nat -> 0 <= percentile o <= 1 -> ((rows o - 2) * (cols o - 2) <= limit)%nat ->
  (0 < floor_nat (INR (length (edges (moduli f o img))) * percentile o))%nat ->
  exists l, create f o old img = Fine (0%Z, l) /\ length l = length old.
Proof.
  intros f o old img U D O NB PC L T. unfold create. destruct old as [|l0 rest]; [now elim O|].
  destruct (kpx_percentile (nbins o) (moduli f o img) NB (moduli_nonneg f o img) (percentile o)) as (k & E & _ & _ & _ & K).
  { now rewrite moduli_length. } { exact PC. }
  rewrite E. specialize (K T).
  assert (G : forall rest' i prev flow, (1 <= i)%nat -> (i + length rest' <= length (l0 :: rest))%nat -> within (rows o) (cols o) 0 1 flow ->
            exists l, evolve f o k i rest' prev flow = Fine l /\ length l = length rest').
  { induction rest' as [|v rest' IH]; intros i prev flow I N W; cbn [evolve]; [exists []; auto|]. cbn [length] in N.
    destruct (next_flow o k _ _ flow) as [c|] eqn:F.
    2:{ exfalso. unfold next_flow in F. destruct (Nat.ltb_spec (diffusivity o) 4); [|lia].
        destruct (forallb _ _) eqn:A; [discriminate|]. assert (B := A). apply not_true_iff_false in B. apply B. apply forallb_forall.
        intros p _. unfold conductivity. destruct (Req_EM_T k 0); [lra|reflexivity]. }
    pose proof (next_flow_range _ _ _ _ _ _ F W) as W'.
    destruct (diffuse_relit o 1 0 (length (l0 :: rest)) i prev prev c c U) as (M & _ & DM & _).
    { cbn [length] in *. lia. } { assumption. } { intros y x _ _. unfold relit. ring. } { intros y x _ _. reflexivity. }
    rewrite DM. destruct (IH (S i) M c) as (l & El & Nl); [lia|cbn [length]; lia|exact W'|]. rewrite El.
    eexists. split; [reflexivity|]. cbn [length]. now rewrite Nl. }
  destruct (G rest 1%nat (blur f (soffset o) img) (fun _ _ => 0)) as (l & El & Nl); [lia|cbn; lia|intros y x _ _; lra|].
  rewrite El. eexists. split; [reflexivity|]. cbn [length]. now rewrite Nl.
Qed.

(** The magnitudes of a ramp are all 1. *)
Lemma ex_moduli : moduli (plain 4 4) ex_fed (fun _ x => INR x) = [1; 1; 1; 1].
Proof.
  unfold moduli. cbn -[sqrt INR]. cbn [INR].
  replace (sqrt _) with 1; [replace (sqrt _) with 1; [reflexivity|]|]; symmetry.
  - replace (_ + _) with 1 by ring. apply sqrt_1.
  - replace (_ + _) with 1 by ring. apply sqrt_1.
Qed.
Example ssx_defined_ex : usable ex_fed 3 /\ (diffusivity ex_fed < 4)%nat /\ (0 < nbins ex_fed)%nat /\
  (0 < floor_nat (INR (length (edges (moduli (plain 4 4) ex_fed (fun _ x => INR x)))) * percentile ex_fed))%nat.
Proof.
  split; [exact ex_fed_usable|]. split; [cbn; lia|]. split; [cbn; lia|]. rewrite ex_moduli. cbn [percentile ex_fed].
  assert (E : edges [1; 1; 1; 1] = [1; 1; 1; 1]) by (unfold edges; cbn; destruct (Req_EM_T 1 0); [lra|reflexivity]).
  rewrite E. cbn [length]. destruct (floor_nat_spec (INR 4 * (7 / 10))) as [_ B]; [cbn; lra|].
  assert (0 < INR (floor_nat (INR 4 * (7 / 10)))) as P by (cbn [INR] in *; lra). apply (INR_lt 0). exact P.
Qed.
Print Assumptions ssx_defined.

(** All levels have the brightness of the first. *)
Theorem ssx_conserves : forall f o old img r v l, usable o (length old) -> create f o old img = Fine (r, v :: l) ->
  Forall (fun w => total (rows o) (cols o) (Lt w) = total (rows o) (cols o) (blur f (soffset o) img)) (v :: l).
Proof.
  intros f o old img r v l U E. unfold create in E. destruct old as [|l0 rest]; [discriminate|].
  destruct (k_percentile _ _ _) as [k|]; [|discriminate].
  destruct (evolve _ _ _ _ _ _ _) as [l'| | |] eqn:G; try discriminate. injection E as <- <- <-.
  constructor; [reflexivity|].
  apply (evolve_invariant f o (length (l0 :: rest)) (fun A => total (rows o) (cols o) A = total (rows o) (cols o) (blur f (soffset o) img)))
    with (rest := rest) (k := k) (i := 1%nat) (prev := blur f (soffset o) img) (flow := fun _ _ => 0).
  - intros i L c M I W D H. rewrite <- H. apply (diffuse_conserves o (length (l0 :: rest)) i L c M U I W D).
  - lia.
  - cbn; lia.
  - intros y x _ _; lra.
  - exact G.
  - reflexivity.
Qed.
Example ssx_conserves_ex : usable ex_aos 3 /\ usable ex_fed 3.
Proof. split; [exact ex_aos_usable|exact ex_fed_usable]. Qed.
Print Assumptions ssx_conserves.

(** With the implicit scheme, and with explicit steps of at most a quarter, no level leaves the range of the first. *)
Theorem ssx_range : forall f o old img r v l lo hi, usable o (length old) ->
  (forall tsteps order, solver o = ExplicitFED tsteps order -> forall taus t, In taus tsteps -> In t taus -> 0 <= t <= / 4) ->
  create f o old img = Fine (r, v :: l) -> within (rows o) (cols o) lo hi (blur f (soffset o) img) ->
  Forall (fun w => within (rows o) (cols o) lo hi (Lt w)) (v :: l).
Proof.
  intros f o old img r v l lo hi U K E H. unfold create in E. destruct old as [|l0 rest]; [discriminate|].
  destruct (k_percentile _ _ _) as [k|]; [|discriminate].
  destruct (evolve _ _ _ _ _ _ _) as [l'| | |] eqn:G; try discriminate. injection E as <- <- <-.
  constructor; [exact H|].
  apply (evolve_invariant f o (length (l0 :: rest)) (within (rows o) (cols o) lo hi))
    with (rest := rest) (k := k) (i := 1%nat) (prev := blur f (soffset o) img) (flow := fun _ _ => 0).
  - intros i L c M I W D. apply (diffuse_range o (length (l0 :: rest)) i L c M lo hi U I W K D).
  - lia.
  - cbn; lia.
  - intros y x _ _; lra.
  - exact G.
  - exact H.
Qed.
Example ssx_range_ex : usable ex_aos 3 /\
  (forall tsteps order, solver ex_aos = ExplicitFED tsteps order -> forall taus t, In taus tsteps -> In t taus -> 0 <= t <= / 4) /\
  (forall tsteps order, solver ex_fed = ExplicitFED tsteps order -> forall taus t, In taus tsteps -> In t taus -> 0 <= t <= / 4).
Proof.
  split; [exact ex_aos_usable|]. split; [discriminate|]. intros tsteps order E. injection E as <- <-.
  intros taus t [<-|[<-|[]]]; [intros [<-|[]]; lra|intros [<-|[<-|[]]]; lra].
Qed.
Print Assumptions ssx_range.

(** An image with another contrast and brightness gives the same scale space with that contrast and brightness, whatever image
    the object has worked on before. *)
Theorem ssx_relit : forall f o old old' img img' s b, 0 < s -> good_filters f o -> usable o (length old) -> length old' = length old ->
  (0 < nbins o)%nat -> 0 <= percentile o <= 1 -> ((rows o - 2) * (cols o - 2) <= limit)%nat ->
  same (rows o) (cols o) img' (relit s b img) ->
  agree (fun p q => fst p = fst q /\ Forall2 (level_relit o s b) (snd p) (snd q)) (create f o old img) (create f o old' img').
Proof.
  intros f o old old' img img' s b S G U N NB PC L H. unfold create.
  destruct old as [|l0 rest], old' as [|l0' rest']; try discriminate N; [cbn; auto|].
  destruct (percentile_scale (nbins o) (percentile o) s (moduli f o img) S NB (moduli_nonneg f o img)) as (k & E & E').
  { now rewrite moduli_length. } { exact PC. }
  rewrite (moduli_relit f o s b img img' S G H). rewrite E, E'.
  pose proof (blur_relit f o (soffset o) s b img img' G H) as B.
  pose proof (evolve_relit f o (length (l0 :: rest)) s b S G U rest rest' k 1 (blur f (soffset o) img) (blur f (soffset o) img') (fun _ _ => 0) (fun _ _ => 0)) as A.
  specialize (A ltac:(cbn in N; lia) ltac:(lia) ltac:(cbn; lia) ltac:(intros y x _ _; lra) ltac:(intros y x _ _; reflexivity) B).
  destruct (evolve f o k 1 rest _ _) as [l| | |]; destruct (evolve f o (s * k) 1 rest' _ _) as [l'| | |]; try contradiction A; try exact I.
  cbn in A |- *. split; [reflexivity|]. constructor; [|exact A]. split; [exact B|]. cbn [Lsmooth]. now apply blur_relit.
Qed.
Example ssx_relit_ex : good_filters (plain 4 4) ex_aos /\ usable ex_aos 3 /\ ((rows ex_aos - 2) * (cols ex_aos - 2) <= limit)%nat /\
  same 4 4 (fun _ x => 3 * INR x + 5) (relit 3 5 (fun _ x => INR x)).
Proof.
  split; [exact (plain_good ex_aos)|]. split; [exact ex_aos_usable|]. split; [rewrite limit_value; cbn; lia|]. intros y x _ _. reflexivity.
Qed.
Print Assumptions ssx_relit.

(** In particular a second image on the same object gives what it gives on a new one. *)
Corollary ssx_reuse : forall f o old old' img, good_filters f o -> usable o (length old) -> length old' = length old ->
  (0 < nbins o)%nat -> 0 <= percentile o <= 1 -> ((rows o - 2) * (cols o - 2) <= limit)%nat ->
  agree (fun p q => fst p = fst q /\ Forall2 (fun u v => same (rows o) (cols o) (Lt v) (Lt u) /\ same (rows o) (cols o) (Lsmooth v) (Lsmooth u)) (snd p) (snd q))
    (create f o old img) (create f o old' img).
Proof.
  intros f o old old' img G U N NB PC L.
  assert (H : same (rows o) (cols o) img (relit 1 0 img)) by (intros y x _ _; unfold relit; ring).
  pose proof (ssx_relit f o old old' img img 1 0 Rlt_0_1 G U N NB PC L H) as A.
  destruct (create f o old img) as [p| | |], (create f o old' img) as [q| | |]; try contradiction A; try exact I.
  cbn in A |- *. destruct A as [A B]. split; [exact A|]. clear - B.
  induction B as [|u v l l' [B1 B2] B IH]; constructor; [|exact IH]. split; intros y x Y X.
  - rewrite (B1 y x Y X). unfold relit. ring.
  - rewrite (B2 y x Y X). unfold relit. ring.
Qed.
Print Assumptions ssx_reuse.

(** What the images of the levels are: the first level is the blurred image; the smoothed image of a level, from which its conductivities and derivatives are taken, is that of the level before (of the first level: its own). *)
Theorem ssx_layers : forall f o old img r v l, create f o old img = Fine (r, v :: l) ->
  Lt v = blur f (soffset o) img /\ Lsmooth v = blur f (sderivatives o) (Lt v) /\
  forall i a b, nth_error (v :: l) i = Some a -> nth_error (v :: l) (S i) = Some b ->
    Lsmooth b = blur f (sderivatives o) (Lt a) /\ Lx b = ddx f (Lsmooth b) /\ Ly b = ddy f (Lsmooth b).
Proof.
  intros f o old img r v l E. unfold create in E. destruct old as [|l0 rest]; [discriminate|].
  destruct (k_percentile _ _ _) as [k|]; [|discriminate].
  assert (G : forall rest i w flow l, evolve f o k i rest (Lt w) flow = Fine l -> forall j a b, nth_error (w :: l) j = Some a -> nth_error (w :: l) (S j) = Some b ->
    Lsmooth b = blur f (sderivatives o) (Lt a) /\ Lx b = ddx f (Lsmooth b) /\ Ly b = ddy f (Lsmooth b)).
  { clear. induction rest as [|v rest IH]; intros i w flow l E j a b A B; cbn [evolve] in E; [injection E as <-; destruct j as [|[|]]; discriminate|].
    destruct (next_flow _ _ _ _ _) as [flow'|]; [|discriminate]. destruct (diffuse _ _ _ _) as [lt| | |]; try discriminate.
    set (u := {| Lt := lt; Lsmooth := blur f (sderivatives o) (Lt w); Lx := ddx f (blur f (sderivatives o) (Lt w)); Ly := ddy f (blur f (sderivatives o) (Lt w)) |}) in E.
    destruct (evolve f o k (S i) rest lt flow') as [l1| | |] eqn:R; try discriminate. injection E as <-.
    destruct j as [|j]; [cbn in A, B; injection A as <-; injection B as <-; repeat split|].
    apply (IH (S i) u flow' l1 R j a b); [exact A|exact B]. }
  destruct (evolve f o k 1 rest _ _) as [l1| | |] eqn:R; try discriminate. injection E as _ <- <-. split; [reflexivity|]. split; [reflexivity|].
  apply (G rest 1%nat {| Lt := blur f (soffset o) img; Lsmooth := blur f (sderivatives o) (blur f (soffset o) img); Lx := Lx l0; Ly := Ly l0 |} (fun _ _ => 0) l1 R).
Qed.
Print Assumptions ssx_layers.

(** An unsupported diffusivity is reported on the error stream only: the call succeeds, and all levels are the first. *)
Theorem ssx_unsupported_refuted : forall f o old img, usable o (length old) -> (4 <= diffusivity o)%nat -> old <> [] ->
  (0 < nbins o)%nat -> 0 <= percentile o <= 1 -> ((rows o - 2) * (cols o - 2) <= limit)%nat ->
  exists v l, create f o old img = Fine (0%Z, v :: l) /\ length l = (length old - 1)%nat /\
    Forall (fun w => same (rows o) (cols o) (Lt w) (blur f (soffset o) img)) (v :: l).
Proof.
  intros f o old img U D O NB PC L. unfold create. destruct old as [|l0 rest]; [now elim O|].
  rewrite percentile_value; [|assumption|apply moduli_nonneg|now rewrite moduli_length|assumption].
  match goal with |- context [evolve f o ?k] => set (kk := k) end. clearbody kk.
  assert (Z : forall i prev, (1 <= i < length (l0 :: rest))%nat -> exists M, diffuse o i prev (fun _ _ => 0) = Fine M /\ same (rows o) (cols o) M prev).
  { intros i prev I. destruct (diffuse_relit o 0 1 (length (l0 :: rest)) i prev (fun _ _ => 1) (fun _ _ => 0) (fun _ _ => 0) U I) as (M & _ & E & _).
    { intros y x _ _; lra. } { intros y x _ _. unfold relit. ring. } { intros y x _ _. reflexivity. }
    exists M. split; [exact E|]. destruct U as (A & B & S). unfold diffuse in E. destruct (solver o) as [tsteps order|times buffers].
    - destruct S as [_ P]. destruct (nth_error tsteps (i - 1)) as [taus|]; [|discriminate].
      destruct (run_steps _ _ _ _ _ _) as [M'|] eqn:R; [|discriminate]. injection E as ->.
      revert prev R. induction taus as [|t taus IH]; intros prev R; cbn [run_steps] in R; [injection R as <-; intros y x _ _; reflexivity|].
      destruct (nlx_divergence (rows o) (cols o) prev (fun _ _ => 0) t order A B P) as (N & EN & V). rewrite EN in R.
      intros y x Y X. rewrite (IH N R y x Y X), (V y x Y X).
      assert (Q : inflow (rows o) (cols o) prev (fun _ _ => 0) y x = 0).
      { unfold inflow. generalize (neighbours (rows o) (cols o) y x). induction l as [|q l IHl]; cbn [map fold_right]; [reflexivity|]. rewrite IHl. lra. }
      rewrite Q. ring.
    - destruct S as [Q T]. specialize (T i I).
      destruct (aos_step _ _ _ _ _ _ _) as [m| |] eqn:R; try discriminate. injection E as <-. rewrite <- Q in *.
      destruct (aox_step (rows o) prev (fun _ _ => 0) (fst (buffers i)) (snd (buffers i)) (nth i times 0 - nth (i - 1) times 0) A) as (M & UU & VV & EM & HU & HV & HM).
      { lra. } { intros; lra. }
      rewrite R in EM. injection EM as ->. cbn [entry]. intros y x Y X. rewrite (HM y x Y X).
      specialize (HU y x Y X). specialize (HV y x Y X).
      unfold AosSpec.vertical, AosSpec.horizontal, AosSpec.line_inflow in HU, HV.
      destruct (y + 1 <? rows o)%nat, (0 <? y)%nat, (x + 1 <? rows o)%nat, (0 <? x)%nat; lra. }
  assert (G : forall rest' i prev, (1 <= i)%nat -> (i + length rest' <= length (l0 :: rest))%nat -> same (rows o) (cols o) prev (blur f (soffset o) img) ->
            exists l, evolve f o kk i rest' prev (fun _ _ => 0) = Fine l /\ length l = length rest' /\
              Forall (fun w => same (rows o) (cols o) (Lt w) (blur f (soffset o) img)) l).
  { induction rest' as [|v rest' IH]; intros i prev I N H; cbn [evolve]; [exists []; auto|]. cbn [length] in N.
    unfold next_flow. destruct (Nat.ltb_spec (diffusivity o) 4); [lia|].
    destruct (Z i prev) as (M & EM & SM); [cbn [length]; lia|]. rewrite EM.
    assert (SM' : same (rows o) (cols o) M (blur f (soffset o) img)) by (intros y x Y X; rewrite (SM y x Y X); now apply H).
    destruct (IH (S i) M) as (l & El & Nl & Fl); [lia|cbn [length]; lia|exact SM'|]. rewrite El.
    eexists. split; [reflexivity|]. split; [cbn; now rewrite Nl|]. constructor; [exact SM'|exact Fl]. }
  destruct (G rest 1%nat (blur f (soffset o) img)) as (l & El & Nl & Fl); [lia|cbn; lia|intros y x _ _; reflexivity|].
  rewrite El. eexists. exists l. split; [reflexivity|]. split; [cbn [length]; lia|]. constructor; [|exact Fl].
  intros y x _ _. reflexivity.
Qed.
Example ssx_unsupported_ex : usable {| rows := 4; cols := 4; soffset := 16 / 10; sderivatives := 1; percentile := 7 / 10; nbins := 300;
  diffusivity := 4; solver := ExplicitFED [[/ 4]; [/ 8; / 4]] [2; 1]%nat |} 3.
Proof. exact ex_fed_usable. Qed.
Print Assumptions ssx_unsupported_refuted.

(** An image of one colour: the contrast factor is 0 and the levels are not numbers (the code returns 0). *)
Theorem ssx_flat_refuted : forall f o old img v, good_filters f o -> usable o (length old) -> (diffusivity o < 4)%nat -> (2 <= length old)%nat ->
  (0 < nbins o)%nat -> 0 <= percentile o <= 1 -> ((rows o - 2) * (cols o - 2) <= limit)%nat ->
  same (rows o) (cols o) img (fun _ _ => v) -> create f o old img = NotANumber.
Proof.
  intros f o old img v G U D N NB PC L H.
  assert (FL : forall A w, same (rows o) (cols o) A (fun _ _ => w) ->
            (forall sigma, exists w', same (rows o) (cols o) (blur f sigma A) (fun _ _ => w')) /\
            same (rows o) (cols o) (ddx f A) (fun _ _ => 0) /\ same (rows o) (cols o) (ddy f A) (fun _ _ => 0)).
  { intros A w HA. assert (R : same (rows o) (cols o) A (relit 0 w A)) by (intros y x Y X; rewrite (HA y x Y X); unfold relit; ring).
    split; [|split].
    - intros sigma. exists w. intros y x Y X. rewrite (blur_relit f o sigma 0 w A A G R y x Y X). unfold relit. ring.
    - intros y x Y X. rewrite (ddx_relit f o 0 w A A G R y x Y X). unfold relit. ring.
    - intros y x Y X. rewrite (ddy_relit f o 0 w A A G R y x Y X). unfold relit. ring. }
  destruct (FL img v H) as [FB _].
  assert (M : forall m, In m (moduli f o img) -> m = 0).
  { intros m I. unfold moduli in I. apply in_map_iff in I. destruct I as ([y x] & <- & I). apply in_prod_iff in I. rewrite !in_seq in I. cbn [fst snd].
    destruct (FB (sderivatives o)) as [w Hw]. destruct (FL _ w Hw) as (_ & X & Y). rewrite (X y x), (Y y x) by lia.
    replace (0 * 0 + 0 * 0) with 0 by ring. apply sqrt_0. }
  assert (HM : hmax (moduli f o img) = 0).
  { destruct (hmax_spec (moduli f o img)) as (_ & _ & [E|E]); [exact E|]. now apply M in E. }
  unfold create. destruct old as [|l0 [|l1 rest]]; [cbn in N; lia|cbn in N; lia|].
  rewrite percentile_value; [|assumption|apply moduli_nonneg|now rewrite moduli_length|assumption].
  rewrite HM, Rmult_0_l. cbn [evolve]. unfold next_flow. destruct (Nat.ltb_spec (diffusivity o) 4); [|lia].
  destruct (forallb _ _) eqn:A; [|reflexivity]. exfalso. rewrite forallb_forall in A.
  destruct U as (R2 & C2 & _). specialize (A (0%nat, 0%nat) (proj2 (in_pixels o 0 0) ltac:(lia))). cbn [fst snd] in A.
  destruct (FB (soffset o)) as [w Hw]. destruct (FL _ w Hw) as [FB2 _]. destruct (FB2 (sderivatives o)) as [w2 Hw2].
  destruct (FL _ w2 Hw2) as (_ & X & Y). rewrite (X 0%nat 0%nat), (Y 0%nat 0%nat) in A by lia.
  unfold conductivity in A. destruct (Req_EM_T 0 0) as [_|Q]; [|now elim Q].
  destruct (Req_EM_T (0 * 0 + 0 * 0) 0) as [_|Q]; [discriminate|apply Q; ring].
Qed.
Example ssx_flat_ex : good_filters (plain 4 4) ex_fed /\ usable ex_fed 3 /\ same 4 4 (fun _ _ => 0) (fun _ _ => 0).
Proof. split; [exact (plain_good ex_fed)|]. split; [exact ex_fed_usable|]. intros y x _ _. reflexivity. Qed.
Print Assumptions ssx_flat_refuted.

(** The implicit scheme has no result for images that are not square. *)
Theorem ssx_aspect_refuted : forall f o old img times buffers r, solver o = ImplicitAOS times buffers ->
  (2 <= rows o)%nat -> (2 <= cols o)%nat -> rows o <> cols o -> (2 <= length old)%nat -> create f o old img <> Fine r.
Proof.
  intros f o old img times buffers r S A B N L E. unfold create in E. destruct old as [|l0 [|l1 rest]]; [cbn in L; lia|cbn in L; lia|].
  destruct (k_percentile _ _ _) as [k|]; [|discriminate]. cbn [evolve] in E.
  destruct (next_flow _ _ _ _ _) as [c|]; [|discriminate]. unfold diffuse in E. rewrite S in E.
  destruct (Nat.lt_trichotomy (rows o) (cols o)) as [T|[T|T]]; [|contradiction|].
  - rewrite aox_wide_refuted in E by assumption. discriminate.
  - rewrite aox_tall_refuted in E by assumption. discriminate.
Qed.
Example ssx_aspect_ex : exists o times buffers, solver o = ImplicitAOS times buffers /\ (2 <= rows o)%nat /\ (2 <= cols o)%nat /\ rows o <> cols o.
Proof.
  exists {| rows := 480; cols := 752; soffset := 16 / 10; sderivatives := 1; percentile := 7 / 10; nbins := 300; diffusivity := 1;
            solver := ImplicitAOS [1; 2] (fun _ => (fun _ _ => 0, fun _ _ => 0)) |}. eexists _, _. split; [reflexivity|]. cbn [rows cols]. lia.
Qed.
Print Assumptions ssx_aspect_refuted.

(** With contrast zero a flow that is a number is zero everywhere: nothing is smoothed. *)
Theorem ssx_zero_contrast o lx ly old c y x : (diffusivity o < 4)%nat -> next_flow o 0 lx ly old = Some c -> (y < rows o)%nat -> (x < cols o)%nat -> c y x = 0.
Proof.
  intros D E Y X. unfold next_flow in E. destruct (Nat.ltb_spec (diffusivity o) 4); [|lia]. destruct (forallb _ _) eqn:A; [|discriminate]. injection E as <-. rewrite forallb_forall in A.
  specialize (A (y, x) (proj2 (in_pixels o y x) ltac:(lia))). cbn [fst snd] in A. unfold conductivity in *. destruct (Req_EM_T 0 0) as [_|Q]; [|now elim Q]. destruct (Req_EM_T _ 0); [discriminate|reflexivity].
Qed.
Example ssx_zero_contrast_ex : exists c, (diffusivity ex_fed < 4)%nat /\ next_flow ex_fed 0 (fun _ _ => 1) (fun _ _ => 0) (fun _ _ => 0) = Some c.
Proof.
  eexists. split; [cbn; lia|]. unfold next_flow. destruct (Nat.ltb_spec (diffusivity ex_fed) 4) as [_|L]; [|cbn in L; lia]. replace (forallb _ _) with true; [reflexivity|]. symmetry. apply forallb_forall. intros p _. unfold conductivity.
  destruct (Req_EM_T 0 0) as [_|Q]; [|now elim Q]. destruct (Req_EM_T (1 * 1 + 0 * 0) 0) as [Z|_]; [exfalso; lra|reflexivity].
Qed.
Print Assumptions ssx_zero_contrast.
