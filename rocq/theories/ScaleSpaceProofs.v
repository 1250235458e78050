(** Lemmas about the scale space. *)
From Coq Require Import Reals List Bool Arith ZArith Permutation Lia Lra.
From Verif Require Import DiffusionModel DiffusionSpec DiffusionProps FedTimeModel FedTimeProps AosModel AosSpec AosProps ContrastModel ContrastSpec ContrastProps.
From Verif Require Import ScaleSpaceModel ScaleSpaceSpec.
Import ListNotations.
Local Open Scope R_scope.

(** ** The contrast factor of a list of scaled magnitudes *)
Lemma hmax_scale s mods : 0 < s -> hmax (map (Rmult s) mods) = s * hmax mods.
Proof.
  intros S. unfold hmax.
  assert (G : forall h, fold_left (fun h m => if Rlt_dec h m then m else h) (map (Rmult s) mods) (s * h)
                   = s * fold_left (fun h m => if Rlt_dec h m then m else h) mods h).
  { induction mods as [|m mods IH]; intros h; cbn [map fold_left]; [reflexivity|].
    rewrite <- IH. f_equal. destruct (Rlt_dec h m), (Rlt_dec (s * h) (s * m)); try reflexivity; exfalso; nra. }
  rewrite <- G. f_equal. lra.
Qed.

Lemma histogram_scale nbins s mods : 0 < s -> (forall m, In m mods -> 0 <= m) ->
  histogram nbins (map (Rmult s) mods) = histogram nbins mods.
Proof.
  intros S P. unfold histogram. rewrite hmax_scale by assumption.
  destruct (hmax_spec mods) as (H & _ & _).
  assert (B : forall m, In m mods -> m <> 0 -> bin nbins (s * hmax mods) (s * m) = bin nbins (hmax mods) m).
  { intros m I Z. unfold bin. replace (s * m / (s * hmax mods)) with (m / hmax mods); [reflexivity|].
    field. split; [|lra]. specialize (H m I). specialize (P m I). lra. }
  clear H P. revert B. generalize (hmax mods) as h. intros h.
  generalize (fun _ : nat => 0%nat, 0%nat) as st.
  induction mods as [|m mods IH]; intros st B; cbn [map fold_left]; [reflexivity|].
  replace (count_step nbins (s * h) st (s * m)) with (count_step nbins h st m).
  - apply IH. intros m' I. apply B. now right.
  - unfold count_step. destruct (Req_EM_T m 0) as [Z|Z], (Req_EM_T (s * m) 0) as [Z'|Z']; try reflexivity.
    + exfalso. apply Z'. rewrite Z. lra.
    + exfalso. apply Z. nra.
    + now rewrite (B m (or_introl eq_refl) Z).
Qed.

(** Up to 2^24 magnitudes the substitute 0.03 is never used. *)
Lemma percentile_value nbins perc mods : (0 < nbins)%nat -> (forall m, In m mods -> 0 <= m) ->
  (length mods <= limit)%nat -> 0 <= perc <= 1 ->
  k_percentile nbins perc mods =
    Some (hmax mods * (INR (fst (scan nbins 0 0 (floor_nat (INR (snd (histogram nbins mods)) * perc)) (fst (histogram nbins mods)))) / INR nbins)).
Proof.
  intros NB POS L PC. unfold k_percentile. destruct (histogram_spec nbins mods L) as [HB HN].
  destruct (histogram nbins mods) as [hist npoints]. cbn [fst snd] in *. subst npoints.
  destruct (Nat.eqb_spec nbins 0) as [?|_]; [lia|]. cbn [andb].
  set (t := floor_nat (INR (length (edges mods)) * perc)).
  pose proof (scan_spec nbins 0 0 t hist nbins (hmax mods) (edges mods) HB) as SC.
  destruct (scan nbins 0 0 t hist) as [k nel]. cbn [fst]. destruct SC as (A & B & C & D).
  { unfold first_bins. clear. induction (edges mods); [reflexivity|assumption]. } { auto. }
  assert (ALL : first_bins nbins (hmax mods) nbins (edges mods) = length (edges mods)).
  { unfold first_bins.
    assert (E : forall m, In m (edges mods) -> (bin nbins (hmax mods) m <? nbins)%nat = true)
      by (intros m I; apply Nat.ltb_lt; now apply bin_all).
    revert E. generalize (edges mods) as l. induction l as [|m l IH]; intros E; [reflexivity|].
    cbn [filter]. rewrite (E m (or_introl eq_refl)). cbn [length]. f_equal. apply IH. intros. apply E. now right. }
  assert (TL : (t <= length (edges mods))%nat).
  { apply INR_le. pose proof (pos_INR (length (edges mods))) as P.
    destruct (floor_nat_spec (INR (length (edges mods)) * perc)) as [F _]; [apply Rmult_le_pos; lra|]. fold t in F. nra. }
  assert (TN : (t <= nel)%nat).
  { destruct D as [D|D]; [exact D|]. subst nel. rewrite D. cbn [Nat.add]. rewrite ALL. exact TL. }
  destruct (Nat.ltb_spec nel t); [lia|]. reflexivity.
Qed.

Lemma percentile_scale nbins perc s mods : 0 < s -> (0 < nbins)%nat -> (forall m, In m mods -> 0 <= m) ->
  (length mods <= limit)%nat -> 0 <= perc <= 1 ->
  exists k, k_percentile nbins perc mods = Some k /\ k_percentile nbins perc (map (Rmult s) mods) = Some (s * k).
Proof.
  intros S NB POS L PC. eexists. split; [apply percentile_value; assumption|].
  rewrite percentile_value; [| assumption | | rewrite map_length; assumption | assumption].
  - rewrite histogram_scale, hmax_scale by assumption. f_equal. ring.
  - intros m I. apply in_map_iff in I. destruct I as (m' & <- & I). specialize (POS m' I). nra.
Qed.

(** ** Conductivities *)
Lemma conductivity_scale d s k lx ly : 0 < s -> conductivity d (s * k) (s * lx) (s * ly) = conductivity d k lx ly.
Proof.
  intros S. unfold conductivity.
  destruct (Req_EM_T k 0) as [K|K], (Req_EM_T (s * k) 0) as [K'|K'].
  - replace (s * lx * (s * lx) + s * ly * (s * ly)) with (s * s * (lx * lx + ly * ly)) by ring.
    assert (0 < s * s) by nra.
    destruct (Req_EM_T (lx * lx + ly * ly) 0) as [Z|Z], (Req_EM_T (s * s * (lx * lx + ly * ly)) 0) as [Z'|Z']; try reflexivity.
    + exfalso. apply Z'. rewrite Z. ring.
    + exfalso. apply Z. apply Rmult_integral in Z'. destruct Z'; lra.
  - exfalso. apply K'. rewrite K. ring.
  - exfalso. apply Rmult_integral in K'. destruct K'; lra.
  - assert (E : 1 / (s * k * (s * k)) * (s * lx * (s * lx) + s * ly * (s * ly)) = 1 / (k * k) * (lx * lx + ly * ly)) by (field; split; lra).
    unfold pm_g1, pm_g2, weickert, charbonnier. rewrite !E.
    replace (- (1 / (s * k * (s * k))) * (s * lx * (s * lx) + s * ly * (s * ly)))
      with (- (1 / (k * k)) * (lx * lx + ly * ly)) by (field; split; lra).
    reflexivity.
Qed.

Lemma conductivity_range d k lx ly c : conductivity d k lx ly = Some c -> 0 <= c <= 1.
Proof.
  unfold conductivity. destruct (Req_EM_T k 0) as [K|K].
  - destruct (Req_EM_T _ 0); intros E; [discriminate|]. injection E as <-. lra.
  - intros E. injection E as <-. pose proof (nlx_conductivity k lx ly K) as (A & B & C & D).
    destruct d as [|[|[|d]]]; assumption.
Qed.

Lemma in_pixels o y x : In (y, x) (pixels o) <-> (y < rows o)%nat /\ (x < cols o)%nat.
Proof. unfold pixels. rewrite in_prod_iff, !in_seq. lia. Qed.

Lemma next_flow_range o k lx ly flow flow' : next_flow o k lx ly flow = Some flow' ->
  within (rows o) (cols o) 0 1 flow -> within (rows o) (cols o) 0 1 flow'.
Proof.
  unfold next_flow. destruct (diffusivity o <? 4)%nat; [|now intros E; injection E as <-].
  destruct (forallb _ _) eqn:F; [|discriminate]. intros E _. injection E as <-. intros y x Y X.
  rewrite forallb_forall in F. specialize (F (y, x) (proj2 (in_pixels o y x) (conj Y X))). cbn [fst snd] in F.
  destruct (conductivity _ _ _ _) eqn:C; [|discriminate]. now apply conductivity_range in C.
Qed.

Lemma next_flow_scale o s k lx ly lx' ly' flow flow' : 0 < s ->
  same (rows o) (cols o) lx' (relit s 0 lx) -> same (rows o) (cols o) ly' (relit s 0 ly) -> same (rows o) (cols o) flow' flow ->
  match next_flow o (s * k) lx' ly' flow', next_flow o k lx ly flow with
  | Some a, Some b => same (rows o) (cols o) a b
  | None, None => True
  | _, _ => False
  end.
Proof.
  intros S X Y F. unfold next_flow. destruct (diffusivity o <? 4)%nat; [|assumption].
  assert (E : forall y x, (y < rows o)%nat -> (x < cols o)%nat ->
            conductivity (diffusivity o) (s * k) (lx' y x) (ly' y x) = conductivity (diffusivity o) k (lx y x) (ly y x)).
  { intros y x A B. rewrite (X y x A B), (Y y x A B). unfold relit. rewrite !Rplus_0_r. now apply conductivity_scale. }
  set (p' := fun p : nat * nat => match conductivity (diffusivity o) (s * k) (lx' (fst p) (snd p)) (ly' (fst p) (snd p)) with Some _ => true | None => false end).
  set (p := fun p : nat * nat => match conductivity (diffusivity o) k (lx (fst p) (snd p)) (ly (fst p) (snd p)) with Some _ => true | None => false end).
  assert (Q : forallb p' (pixels o) = forallb p (pixels o)).
  { assert (G : forall l, (forall q, In q l -> p' q = p q) -> forallb p' l = forallb p l).
    { induction l as [|q l IH]; intros H; [reflexivity|]. cbn [forallb]. rewrite (H q (or_introl eq_refl)), IH; [reflexivity|]. intros; apply H; now right. }
    apply G. intros [y x] I. apply in_pixels in I. unfold p', p. cbn [fst snd]. now rewrite (E y x (proj1 I) (proj2 I)). }
  rewrite Q. destruct (forallb p (pixels o)); [|exact I].
  intros y x A B. now rewrite (E y x A B).
Qed.

(** ** Explicit steps *)
Lemma neighbours_inside rows cols y x q : (y < rows)%nat -> (x < cols)%nat -> In q (neighbours rows cols y x) ->
  (fst q < rows)%nat /\ (snd q < cols)%nat.
Proof.
  intros Y X Q. unfold neighbours in Q.
  destruct (Nat.ltb_spec (x + 1) cols), (Nat.ltb_spec 0 x), (Nat.ltb_spec (y + 1) rows), (Nat.ltb_spec 0 y); cbn [app In] in Q;
    repeat (destruct Q as [<-|Q]; [cbn; lia|]); contradiction.
Qed.

Lemma inflow_relit rows cols s b L L' c c' y x : same rows cols L' (relit s b L) -> same rows cols c' c ->
  (y < rows)%nat -> (x < cols)%nat -> inflow rows cols L' c' y x = s * inflow rows cols L c y x.
Proof.
  intros HL HC Y X. unfold inflow.
  assert (I := neighbours_inside rows cols y x). revert I. generalize (neighbours rows cols y x) as ns.
  induction ns as [|q ns IH]; intros I; cbn [map fold_right]; [ring|].
  rewrite IH by (intros q' A B Q; apply I; [assumption|assumption|now right]).
  destruct (I q Y X (or_introl eq_refl)) as [A B].
  rewrite (HL y x Y X), (HL _ _ A B), (HC y x Y X), (HC _ _ A B). unfold relit. ring.
Qed.

Lemma run_steps_relit rows cols s b c c' order order' taus :
  (2 <= rows)%nat -> (2 <= cols)%nat -> Permutation order (seq 1 (rows - 2)) -> Permutation order' (seq 1 (rows - 2)) ->
  same rows cols c' c -> forall L L', same rows cols L' (relit s b L) ->
  exists M M', run_steps rows cols c order taus L = Some M /\ run_steps rows cols c' order' taus L' = Some M' /\
    same rows cols M' (relit s b M).
Proof.
  intros A B P P' HC. induction taus as [|t taus IH]; intros L L' HL; cbn [run_steps]; [eauto|].
  destruct (nlx_divergence rows cols L c t order A B P) as (N & E & V). rewrite E.
  destruct (nlx_divergence rows cols L' c' t order' A B P') as (N' & E' & V'). rewrite E'.
  apply IH. intros y x Y X. unfold relit. rewrite (V' y x Y X), (V y x Y X), (inflow_relit rows cols s b L L' c c' y x HL HC Y X).
  rewrite (HL y x Y X). unfold relit. ring.
Qed.

(** ** Implicit steps *)
Lemma implicit_rows_relit n s b L L' c c' U t : same n n L' (relit s b L) -> same n n c' c ->
  implicit_rows n L c U t -> implicit_rows n L' c' (relit s b U) t.
Proof.
  intros HL HC H y x Y X. rewrite (HL y x Y X). unfold relit at 3. rewrite <- (H y x Y X).
  unfold vertical, line_inflow, relit.
  destruct (Nat.ltb_spec (y + 1) n), (Nat.ltb_spec 0 y);
    rewrite ?(HC y x), ?(HC (y + 1)%nat x), ?(HC (y - 1)%nat x) by lia;
    try (replace (y - 1 + 1)%nat with y by lia; rewrite ?(HC y x) by lia); ring.
Qed.

Lemma implicit_cols_relit n s b L L' c c' U t : same n n L' (relit s b L) -> same n n c' c ->
  implicit_cols n L c U t -> implicit_cols n L' c' (relit s b U) t.
Proof.
  intros HL HC H y x Y X. rewrite (HL y x Y X). unfold relit at 3. rewrite <- (H y x Y X).
  unfold horizontal, line_inflow, relit.
  destruct (Nat.ltb_spec (x + 1) n), (Nat.ltb_spec 0 x);
    rewrite ?(HC y x), ?(HC y (x + 1)%nat), ?(HC y (x - 1)%nat) by lia;
    try (replace (x - 1 + 1)%nat with x by lia; rewrite ?(HC y x) by lia); ring.
Qed.

Lemma aos_relit n s b L L' c c' t e1 e2 e1' e2' : (2 <= n)%nat -> 0 <= t ->
  within n n 0 1 c -> same n n L' (relit s b L) -> same n n c' c ->
  exists M M', aos_step n n (Mat n n L) (Mat n n c) t (allocated n n e1) (allocated n n e2) = Done (Mat n n M) /\
    aos_step n n (Mat n n L') (Mat n n c') t (allocated n n e1') (allocated n n e2') = Done (Mat n n M') /\
    same n n M' (relit s b M).
Proof.
  intros N T W HL HC.
  assert (C : forall y x, (y < n)%nat -> (x < n)%nat -> 0 <= c y x) by (intros y x Y X; apply (W y x Y X)).
  assert (C' : forall y x, (y < n)%nat -> (x < n)%nat -> 0 <= c' y x) by (intros y x Y X; rewrite (HC y x Y X); apply (W y x Y X)).
  destruct (aox_step n L c e1 e2 t N T C) as (M & U & V & E & HU & HV & HM).
  destruct (aox_step n L' c' e1' e2' t N T C') as (M' & U' & V' & E' & HU' & HV' & HM').
  exists M, M'. split; [exact E|]. split; [exact E'|].
  intros y x Y X. unfold relit. rewrite (HM' y x Y X), (HM y x Y X).
  rewrite (proj1 (aox_unique n L' c' t N T C' U' (relit s b U)) HU' (implicit_rows_relit n s b L L' c c' U t HL HC HU) y x Y X).
  rewrite (proj2 (aox_unique n L' c' t N T C' V' (relit s b V)) HV' (implicit_cols_relit n s b L L' c c' V t HL HC HV) y x Y X).
  unfold relit. field.
Qed.

(** ** Levels *)

(** The options fit an evolution of [n] levels: at least two rows and columns; for the explicit scheme the steps of
    every level and the threads' order; for the implicit scheme a square image and increasing times. *)
Definition usable (o : options) (n : nat) : Prop :=
  (2 <= rows o)%nat /\ (2 <= cols o)%nat /\
  match solver o with
  | ExplicitFED tsteps order => (n <= length tsteps + 1)%nat /\ Permutation order (seq 1 (rows o - 2))
  | ImplicitAOS times _ => rows o = cols o /\ forall i, (1 <= i < n)%nat -> nth (i - 1) times 0 <= nth i times 0
  end.

Lemma diffuse_relit o s b n i L L' c c' : usable o n -> (1 <= i < n)%nat -> within (rows o) (cols o) 0 1 c ->
  same (rows o) (cols o) L' (relit s b L) -> same (rows o) (cols o) c' c ->
  exists M M', diffuse o i L c = Fine M /\ diffuse o i L' c' = Fine M' /\ same (rows o) (cols o) M' (relit s b M).
Proof.
  intros (A & B & S) I W HL HC. unfold diffuse. destruct (solver o) as [tsteps order|times buffers].
  - destruct S as [N P]. destruct (nth_error tsteps (i - 1)) as [taus|] eqn:T.
    2:{ apply nth_error_None in T. lia. }
    destruct (run_steps_relit (rows o) (cols o) s b c c' order order taus A B P P HC L L' HL) as (M & M' & E & E' & Q).
    exists M, M'. rewrite E, E'. auto.
  - destruct S as [Q T]. rewrite <- Q in *. specialize (T i I).
    destruct (aos_relit (rows o) s b L L' c c' (nth i times 0 - nth (i - 1) times 0)
                (fst (buffers i)) (snd (buffers i)) (fst (buffers i)) (snd (buffers i))) as (M & M' & E & E' & R);
      [assumption|lra|assumption|assumption|assumption|].
    exists M, M'. rewrite E, E'. auto.
Qed.

Lemma diffuse_conserves o n i L c M : usable o n -> (1 <= i < n)%nat -> within (rows o) (cols o) 0 1 c ->
  diffuse o i L c = Fine M -> total (rows o) (cols o) M = total (rows o) (cols o) L.
Proof.
  intros (A & B & S) I W. unfold diffuse. destruct (solver o) as [tsteps order|times buffers].
  - destruct S as [N P]. destruct (nth_error tsteps (i - 1)) as [taus|]; [|discriminate].
    destruct (ftx_conserves (rows o) (cols o) c order taus A B P L) as (L' & E & T). rewrite E. intros Q. injection Q as <-. exact T.
  - destruct S as [Q T]. rewrite <- Q in *. specialize (T i I).
    destruct (aos_step _ _ _ _ _ _ _) as [m| |] eqn:E; try discriminate. intros F. injection F as <-.
    refine (aox_conserves (rows o) L c _ _ _ A _ _ m E); [lra|]. intros y x Y X. apply (W y x Y X).
Qed.

Lemma diffuse_range o n i L c M lo hi : usable o n -> (1 <= i < n)%nat -> within (rows o) (cols o) 0 1 c ->
  (forall tsteps order, solver o = ExplicitFED tsteps order -> forall taus t, In taus tsteps -> In t taus -> 0 <= t <= / 4) ->
  diffuse o i L c = Fine M -> within (rows o) (cols o) lo hi L -> within (rows o) (cols o) lo hi M.
Proof.
  intros (A & B & S) I W K. unfold diffuse. destruct (solver o) as [tsteps order|times buffers].
  - destruct S as [N P]. destruct (nth_error tsteps (i - 1)) as [taus|] eqn:T; [|discriminate].
    apply nth_error_In in T. specialize (K tsteps order eq_refl taus). clear N I.
    assert (G : forall ts L M, (forall t, In t ts -> 0 <= t <= / 4) -> run_steps (rows o) (cols o) c order ts L = Some M ->
              within (rows o) (cols o) lo hi L -> within (rows o) (cols o) lo hi M).
    { induction ts as [|t ts IH]; intros L0 M0 H E V; cbn [run_steps] in E; [injection E as <-; exact V|].
      destruct (nld_step _ _ L0 c t order) as [L1|] eqn:F; [|discriminate].
      apply (IH L1 M0); [intros; apply H; now right|exact E|].
      apply (nlx_range (rows o) (cols o) L0 c t order L1 lo hi A B P W (H t (or_introl eq_refl)) F V). }
    destruct (run_steps _ _ _ _ _ _) as [M'|] eqn:E; [|discriminate]. intros F V. injection F as <-.
    apply (G taus L M'); [|exact E|exact V]. intros t U. now apply K.
  - destruct S as [Q T]. rewrite <- Q in *. specialize (T i I).
    destruct (aos_step _ _ _ _ _ _ _) as [m| |] eqn:E; try discriminate. intros F V. injection F as <-.
    refine (aox_range (rows o) L c _ _ _ A _ _ m lo hi E V); [lra|]. intros y x Y X. apply (W y x Y X).
Qed.

(** A property of images that diffusion keeps holds for all levels. *)
Lemma evolve_invariant f o n (P : image -> Prop) :
  (forall i L c M, (1 <= i < n)%nat -> within (rows o) (cols o) 0 1 c -> diffuse o i L c = Fine M -> P L -> P M) ->
  forall rest k i prev flow l, (1 <= i)%nat -> (i + length rest <= n)%nat -> within (rows o) (cols o) 0 1 flow ->
  evolve f o k i rest prev flow = Fine l -> P prev -> Forall (fun v => P (Lt v)) l /\ length l = length rest.
Proof.
  intros H. induction rest as [|v rest IH]; intros k i prev flow l I N W E Q; cbn [evolve] in E.
  - injection E as <-. split; [constructor|reflexivity].
  - cbn [length] in N. destruct (next_flow _ _ _ _ _) as [flow'|] eqn:F; [|discriminate].
    pose proof (next_flow_range _ _ _ _ _ _ F W) as W'.
    destruct (diffuse o i prev flow') as [lt| | |] eqn:D; try discriminate.
    assert (Q' : P lt) by (apply (H i prev flow' lt); [lia|assumption|assumption|assumption]).
    destruct (evolve f o k (S i) rest lt flow') as [l'| | |] eqn:G; try discriminate. injection E as <-.
    destruct (IH k (S i) lt flow' l') as [A B]; [lia|lia|assumption|assumption|assumption|].
    split; [constructor; [exact Q'|exact A]|cbn [length]; now rewrite B].
Qed.

(** Two evolutions of images that differ in contrast and brightness. *)
Definition level_relit (o : options) (s b : R) (u v : level) : Prop :=
  same (rows o) (cols o) (Lt v) (relit s b (Lt u)) /\ same (rows o) (cols o) (Lsmooth v) (relit s b (Lsmooth u)).

Definition agree {A} (P : A -> A -> Prop) (a b : made A) : Prop :=
  match a, b with
  | Fine x, Fine y => P x y
  | NotANumber, NotANumber => True
  | _, _ => False
  end.

Definition good_filters (f : filters) (o : options) : Prop :=
  (forall sigma, smoothing (rows o) (cols o) (blur f sigma)) /\
  derivative (rows o) (cols o) (ddx f) /\ derivative (rows o) (cols o) (ddy f).

Lemma blur_relit f o sigma s b L L' : good_filters f o -> same (rows o) (cols o) L' (relit s b L) ->
  same (rows o) (cols o) (blur f sigma L') (relit s b (blur f sigma L)).
Proof.
  intros (G & _ & _) H y x Y X. destruct (G sigma) as [P Q].
  rewrite (P L' (relit s b L) H y x Y X). now apply Q.
Qed.

Lemma ddx_relit f o s b L L' : good_filters f o -> same (rows o) (cols o) L' (relit s b L) ->
  same (rows o) (cols o) (ddx f L') (relit s 0 (ddx f L)).
Proof.
  intros (_ & G & _) H y x Y X. destruct G as [P Q]. rewrite (P L' (relit s b L) H y x Y X). now apply Q.
Qed.

Lemma ddy_relit f o s b L L' : good_filters f o -> same (rows o) (cols o) L' (relit s b L) ->
  same (rows o) (cols o) (ddy f L') (relit s 0 (ddy f L)).
Proof.
  intros (_ & _ & G) H y x Y X. destruct G as [P Q]. rewrite (P L' (relit s b L) H y x Y X). now apply Q.
Qed.

Lemma evolve_relit f o n s b : 0 < s -> good_filters f o -> usable o n ->
  forall rest rest' k i prev prev' flow flow', length rest = length rest' -> (1 <= i)%nat -> (i + length rest <= n)%nat ->
  within (rows o) (cols o) 0 1 flow -> same (rows o) (cols o) flow' flow -> same (rows o) (cols o) prev' (relit s b prev) ->
  agree (Forall2 (level_relit o s b)) (evolve f o k i rest prev flow) (evolve f o (s * k) i rest' prev' flow').
Proof.
  intros S G U. induction rest as [|v rest IH]; intros [|v' rest'] k i prev prev' flow flow' Q I N W HF HP; try discriminate Q.
  - cbn. constructor.
  - cbn [length] in Q, N. cbn [evolve].
    pose proof (blur_relit f o (sderivatives o) s b prev prev' G HP) as B.
    pose proof (ddx_relit f o s b _ _ G B) as X. pose proof (ddy_relit f o s b _ _ G B) as Y.
    pose proof (next_flow_scale o s k _ _ _ _ flow flow' S X Y HF) as F.
    destruct (next_flow o (s * k) _ _ flow') as [c'|]; destruct (next_flow o k _ _ flow) as [c|] eqn:E; try contradiction F; [|exact Logic.I].
    pose proof (next_flow_range _ _ _ _ _ _ E W) as W'.
    destruct (diffuse_relit o s b n i prev prev' c c' U) as (M & M' & D & D' & R); [lia|assumption|assumption|assumption|].
    rewrite D, D'. specialize (IH rest' k (Datatypes.S i) M M' c c' ltac:(lia) ltac:(lia) ltac:(lia) W' F R).
    destruct (evolve f o k (Datatypes.S i) rest M c) as [l| | |]; destruct (evolve f o (s * k) (Datatypes.S i) rest' M' c') as [l'| | |]; try contradiction IH; try exact Logic.I.
    cbn in IH |- *. constructor; [|exact IH]. split; [exact R|exact B].
Qed.

Lemma moduli_nonneg f o img m : In m (moduli f o img) -> 0 <= m.
Proof. intros I. apply in_map_iff in I. destruct I as (p & <- & _). apply sqrt_pos. Qed.

Lemma moduli_length f o img : length (moduli f o img) = ((rows o - 2) * (cols o - 2))%nat.
Proof. unfold moduli. rewrite map_length, prod_length, !seq_length. reflexivity. Qed.

Lemma moduli_relit f o s b img img' : 0 < s -> good_filters f o -> same (rows o) (cols o) img' (relit s b img) ->
  moduli f o img' = map (Rmult s) (moduli f o img).
Proof.
  intros S G H. pose proof (blur_relit f o (sderivatives o) s b img img' G H) as B.
  pose proof (ddx_relit f o s b _ _ G B) as X. pose proof (ddy_relit f o s b _ _ G B) as Y.
  unfold moduli. rewrite map_map. apply map_ext_in. intros [y x] I. apply in_prod_iff in I. rewrite !in_seq in I. cbn [fst snd].
  rewrite (X y x), (Y y x) by lia. unfold relit. rewrite !Rplus_0_r.
  set (a := ddx f (blur f (sderivatives o) img) y x). set (c := ddy f (blur f (sderivatives o) img) y x).
  replace (s * a * (s * a) + s * c * (s * c)) with ((s * s) * (a * a + c * c)) by ring.
  rewrite sqrt_mult_alt by nra. rewrite sqrt_square by lra. reflexivity.
Qed.
