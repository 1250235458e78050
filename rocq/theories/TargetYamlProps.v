(** C149: configuration files of April grid targets. *)
From Coq Require Import ZArith QArith List String Lia Lqa Bool.
From Verif Require Import YamlMatrixModel SensorYamlModel TargetYamlModel TargetYamlSpec.
Import ListNotations.
Local Open Scope string_scope.

Lemma above_positive d : above_zero d = true <-> positive d.
Proof.
  destruct d as [q|p|]; cbn; [|tauto|split; [discriminate|tauto]]. rewrite negb_true_iff. split; intros H.
  - destruct (Qlt_le_dec 0 q) as [L|L]; [exact L|]. apply Qle_bool_iff in L. congruence.
  - destruct (Qle_bool q 0) eqn:E; [|reflexivity]. apply Qle_bool_iff in E. lra.
Qed.
Lemma get_says {A} (as_a : ynode -> outcome A) n key a : says as_a n key a -> safe_get as_a n key = Done (Some a).
Proof. intros (kvs & m & -> & L & E). cbn. rewrite L, E. reflexivity. Qed.
Lemma get_lacks {A} (as_a : ynode -> outcome A) kvs key : lacks as_a kvs key -> safe_get as_a (YMap kvs) key = Done None.
Proof. intros [L|(m & L & [E|E])]; cbn; rewrite L; [reflexivity| |]; rewrite E; reflexivity. Qed.
Lemma get_some {A} (as_a : ynode -> outcome A) n key a : safe_get as_a n key = Done (Some a) -> says as_a n key a.
Proof.
  unfold safe_get. destruct n as [|t|l|kvs]; try discriminate. destruct (lookup key kvs) as [m|] eqn:L; [|discriminate]. destruct (as_a m) as [x| | | |] eqn:E; try discriminate. intros H. injection H as <-. exists kvs, m. tauto.
Qed.
Lemma get_none {A} (as_a : ynode -> outcome A) kvs key : safe_get as_a (YMap kvs) key = Done None -> lacks as_a kvs key.
Proof.
  unfold safe_get, lacks. destruct (lookup key kvs) as [m|]; [|left; reflexivity]. destruct (as_a m) as [x| | | |] eqn:E; try discriminate; intros _; right; exists m; tauto.
Qed.
Section Read.
Variable as_size : ynode -> outcome Z.
Variable as_double : ynode -> outcome double.
Notation from_yaml := (from_yaml as_size as_double).
(** A complete file gives exactly the configuration it describes; the space is relative to the size, so that tags repeat every (1 + tagSpacing) sizes. *)
Theorem tyx_read n cols rows size spacing : says as_string n "target_type" "aprilgrid" -> says as_size n "tagCols" cols -> says as_size n "tagRows" rows -> says as_double n "tagSize" (Finite size) -> says as_double n "tagSpacing" (Finite spacing) ->
  (0 < cols)%Z -> (0 < rows)%Z -> (0 < size)%Q -> (0 < spacing)%Q ->
  exists space, from_yaml (Some n) = Done (Config rows cols (Finite size) (Finite space) 2) /\ (0 < space)%Q /\ (size + space == size * (1 + spacing))%Q.
Proof.
  intros T C R S P HC HR HS HP. exists (spacing * size)%Q. assert (X : (0 < spacing * size)%Q) by (apply Qmult_lt_0_compat; assumption). split; [|split; [exact X|ring]].
  unfold TargetYamlModel.from_yaml, get_into. rewrite (get_says _ _ _ _ T). cbn [obind]. rewrite String.eqb_refl. cbn [check]. rewrite (get_says _ _ _ _ C). cbn [obind]. rewrite (proj2 (Z.ltb_lt _ _) HC). cbn [check]. rewrite (get_says _ _ _ _ R). cbn [obind]. rewrite (proj2 (Z.ltb_lt _ _) HR). cbn [check]. rewrite (get_says _ _ _ _ S). cbn [obind].
  rewrite (proj2 (above_positive (Finite size)) HS). cbn [check]. rewrite (get_says _ _ _ _ P). cbn [obind times]. rewrite (proj2 (above_positive (Finite (spacing * size))) X). reflexivity.
Qed.
(** Whatever is accepted: a map of the right type with a spacing; positive numbers, each of them what the file says or, if the file does not say, the default; the border is always 2. *)
Theorem tyx_accepted file c : from_yaml file = Done c -> exists kvs spacing, file = Some (YMap kvs) /\ says as_string (YMap kvs) "target_type" "aprilgrid" /\
  (0 < num_tag_cols c)%Z /\ (says as_size (YMap kvs) "tagCols" (num_tag_cols c) \/ lacks as_size kvs "tagCols" /\ num_tag_cols c = 6%Z) /\
  (0 < num_tag_rows c)%Z /\ (says as_size (YMap kvs) "tagRows" (num_tag_rows c) \/ lacks as_size kvs "tagRows" /\ num_tag_rows c = 6%Z) /\
  positive (tag_size c) /\ (says as_double (YMap kvs) "tagSize" (tag_size c) \/ lacks as_double kvs "tagSize" /\ tag_size c = Finite (88 # 1000)) /\
  positive (tag_space c) /\ says as_double (YMap kvs) "tagSpacing" spacing /\ tag_space c = times spacing (tag_size c) /\ border_bits c = 2%Z.
Proof.
  intros E. destruct file as [n|]; [|discriminate]. unfold TargetYamlModel.from_yaml, get_into in E.
  destruct (safe_get as_string n "target_type") as [[t|]| | | |] eqn:T; try discriminate. cbn [obind] in E. destruct (String.eqb_spec t "aprilgrid") as [->|]; [|discriminate]. cbn [check] in E. pose proof (get_some _ _ _ _ T) as T'. destruct T' as (kvs & mt & -> & T1 & T2).
  destruct (safe_get as_size (YMap kvs) "tagCols") as [oc| | | |] eqn:C; try discriminate. destruct (safe_get as_size (YMap kvs) "tagRows") as [orr| | | |] eqn:R; [| | | |]; try (destruct oc; cbn [obind] in E; unfold check in E; destruct (_ <? _)%Z; discriminate).
  destruct (safe_get as_double (YMap kvs) "tagSize") as [os| | | |] eqn:S; [| | | |]; try (destruct oc, orr; cbn [obind] in E; unfold check in E; destruct (_ <? _)%Z; try discriminate; destruct (_ <? _)%Z; discriminate).
  set (cols := match oc with Some a => a | None => 6%Z end). set (rows := match orr with Some a => a | None => 6%Z end). set (size := match os with Some a => a | None => Finite (88 # 1000) end).
  assert (E' : check (0 <? cols)%Z (check (0 <? rows)%Z (check (above_zero size) (obind (safe_get as_double (YMap kvs) "tagSpacing") (fun spacing => match spacing with None => Undefined | Some relative => check (above_zero (times relative size)) (Done (Config rows cols size (times relative size) 2)) end)))) = Done c) by (rewrite <- E; unfold cols, rows, size; destruct oc, orr, os; reflexivity). clear E. unfold check in E'.
  destruct (Z.ltb_spec 0 cols) as [HC|]; [|discriminate]. destruct (Z.ltb_spec 0 rows) as [HR|]; [|discriminate]. destruct (above_zero size) eqn:HS; [|discriminate]. destruct (safe_get as_double (YMap kvs) "tagSpacing") as [[sp|]| | | |] eqn:P; try discriminate. cbn [obind] in E'. destruct (above_zero (times sp size)) eqn:HP; [|discriminate]. injection E' as <-. cbn [num_tag_cols num_tag_rows tag_size tag_space border_bits].
  exists kvs, sp. split; [reflexivity|]. split; [exists kvs, mt; tauto|]. split; [exact HC|]. split; [unfold cols; destruct oc; [left; apply get_some, C|right; split; [apply get_none, C|reflexivity]]|]. split; [exact HR|]. split; [unfold rows; destruct orr; [left; apply get_some, R|right; split; [apply get_none, R|reflexivity]]|]. split; [apply above_positive, HS|]. split; [unfold size; destruct os; [left; apply get_some, S|right; split; [apply get_none, S|reflexivity]]|]. split; [apply above_positive, HP|]. split; [apply get_some, P|]. split; reflexivity.
Qed.
(** A file that misses, or misspells, one of the numbers is accepted with the default for it; *)
Theorem tyx_default kvs cols size spacing : lacks as_size kvs "tagRows" -> says as_string (YMap kvs) "target_type" "aprilgrid" -> says as_size (YMap kvs) "tagCols" cols -> says as_double (YMap kvs) "tagSize" (Finite size) -> says as_double (YMap kvs) "tagSpacing" (Finite spacing) ->
  (0 < cols)%Z -> (0 < size)%Q -> (0 < spacing)%Q -> from_yaml (Some (YMap kvs)) = Done (Config 6 cols (Finite size) (Finite (spacing * size)) 2).
Proof.
  intros R T C S P HC HS HP. assert (X : (0 < spacing * size)%Q) by (apply Qmult_lt_0_compat; assumption).
  unfold TargetYamlModel.from_yaml, get_into. rewrite (get_says _ _ _ _ T). cbn [obind]. rewrite String.eqb_refl. cbn [check]. rewrite (get_says _ _ _ _ C). cbn [obind]. rewrite (proj2 (Z.ltb_lt _ _) HC). cbn [check]. rewrite (get_lacks _ _ _ R). cbn [obind]. change (0 <? num_tag_rows default_config)%Z with true. cbn [check]. rewrite (get_says _ _ _ _ S). cbn [obind].
  rewrite (proj2 (above_positive (Finite size)) HS). cbn [check]. rewrite (get_says _ _ _ _ P). cbn [obind times]. rewrite (proj2 (above_positive (Finite (spacing * size))) X). reflexivity.
Qed.
(** without a spacing an uninitialised variable is used. *)
Theorem tyx_spacing kvs cols rows size : lacks as_double kvs "tagSpacing" -> says as_string (YMap kvs) "target_type" "aprilgrid" -> says as_size (YMap kvs) "tagCols" cols -> says as_size (YMap kvs) "tagRows" rows -> says as_double (YMap kvs) "tagSize" size ->
  (0 < cols)%Z -> (0 < rows)%Z -> positive size -> from_yaml (Some (YMap kvs)) = Undefined.
Proof.
  intros P T C R S HC HR HS. unfold TargetYamlModel.from_yaml, get_into. rewrite (get_says _ _ _ _ T). cbn [obind]. rewrite String.eqb_refl. cbn [check]. rewrite (get_says _ _ _ _ C). cbn [obind]. rewrite (proj2 (Z.ltb_lt _ _) HC). cbn [check]. rewrite (get_says _ _ _ _ R). cbn [obind]. rewrite (proj2 (Z.ltb_lt _ _) HR). cbn [check]. rewrite (get_says _ _ _ _ S). cbn [obind].
  rewrite (proj2 (above_positive size) HS). cbn [check]. rewrite (get_lacks _ _ _ P). reflexivity.
Qed.
(** Infinite sizes are accepted. *)
Theorem tyx_infinite n cols rows spacing : says as_string n "target_type" "aprilgrid" -> says as_size n "tagCols" cols -> says as_size n "tagRows" rows -> says as_double n "tagSize" (Infinite true) -> says as_double n "tagSpacing" (Finite spacing) ->
  (0 < cols)%Z -> (0 < rows)%Z -> (0 < spacing)%Q -> from_yaml (Some n) = Done (Config rows cols (Infinite true) (Infinite true) 2).
Proof.
  intros T C R S P HC HR HP. unfold TargetYamlModel.from_yaml, get_into. rewrite (get_says _ _ _ _ T). cbn [obind]. rewrite String.eqb_refl. cbn [check]. rewrite (get_says _ _ _ _ C). cbn [obind]. rewrite (proj2 (Z.ltb_lt _ _) HC). cbn [check]. rewrite (get_says _ _ _ _ R). cbn [obind]. rewrite (proj2 (Z.ltb_lt _ _) HR). cbn [check]. rewrite (get_says _ _ _ _ S). cbn [obind above_zero check].
  rewrite (get_says _ _ _ _ P). cbn [obind]. unfold times. rewrite (proj2 (above_positive (Finite spacing)) HP). reflexivity.
Qed.
(** Files that cannot be loaded, other types of targets, and numbers that are not positive are refused; nothing is thrown to the caller. *)
Theorem tyx_refused : reader as_size -> reader as_double -> from_yaml None = Aborted /\ (forall n, ~ says as_string n "target_type" "aprilgrid" -> from_yaml (Some n) = Aborted) /\
  (forall kvs v, says as_size (YMap kvs) "tagCols" v -> (v <= 0)%Z -> from_yaml (Some (YMap kvs)) = Aborted) /\ (forall kvs v, says as_size (YMap kvs) "tagRows" v -> (v <= 0)%Z -> from_yaml (Some (YMap kvs)) = Aborted) /\
  (forall kvs d, says as_double (YMap kvs) "tagSize" d -> ~ positive d -> from_yaml (Some (YMap kvs)) = Aborted) /\ (forall kvs s, says as_double (YMap kvs) "tagSpacing" s -> (forall d, ~ positive (times s d)) -> from_yaml (Some (YMap kvs)) = Aborted) /\
  forall file, from_yaml file = Aborted \/ from_yaml file = Undefined \/ exists c, from_yaml file = Done c.
Proof.
  intros RS RD. assert (RT : reader as_string) by (intros [|t|l|k]; cbn; eauto).
  assert (G : forall A (f : ynode -> outcome A) n key, reader f -> exists o, safe_get f n key = Done o).
  { intros A f n key R. destruct n as [|t|l|kvs]; cbn; eauto. destruct (lookup key kvs) as [m|]; [|eauto]. destruct (R m) as [-> |[-> |(a & ->)]]; eauto. }
  assert (F : forall n, exists ot oc orr os op, safe_get as_string n "target_type" = Done ot /\ safe_get as_size n "tagCols" = Done oc /\ safe_get as_size n "tagRows" = Done orr /\ safe_get as_double n "tagSize" = Done os /\ safe_get as_double n "tagSpacing" = Done op /\
    from_yaml (Some n) = check ((match ot with Some t => t | None => "" end) =? "aprilgrid") (check (0 <? match oc with Some a => a | None => 6 end)%Z (check (0 <? match orr with Some a => a | None => 6 end)%Z (let size := match os with Some a => a | None => Finite (88 # 1000) end in check (above_zero size) (match op with None => Undefined | Some sp => check (above_zero (times sp size)) (Done (Config (match orr with Some a => a | None => 6 end) (match oc with Some a => a | None => 6 end) size (times sp size) 2)) end))))).
  { intros n. destruct (G _ as_string n "target_type" RT) as (ot & E1). destruct (G _ as_size n "tagCols" RS) as (oc & E2). destruct (G _ as_size n "tagRows" RS) as (orr & E3). destruct (G _ as_double n "tagSize" RD) as (os & E4). destruct (G _ as_double n "tagSpacing" RD) as (op & E5). exists ot, oc, orr, os, op. repeat (split; [assumption|]). unfold TargetYamlModel.from_yaml, get_into. rewrite E1, E2, E3, E4, E5. destruct ot, oc, orr, os, op; reflexivity. }
  split; [reflexivity|]. split; [|split; [|split; [|split; [|split]]]].
  - intros n N. destruct (F n) as (ot & oc & orr & os & op & E1 & _ & _ & _ & _ & ->). destruct ot as [t|]; [|reflexivity]. destruct (String.eqb_spec t "aprilgrid") as [->|]; [|reflexivity]. exfalso. apply N, get_some, E1.
  - intros kvs v S L. destruct (F (YMap kvs)) as (ot & oc & orr & os & op & _ & E & _ & _ & _ & ->). rewrite (get_says _ _ _ _ S) in E. injection E as <-. unfold check. destruct (_ =? _); [|reflexivity]. destruct (Z.ltb_spec 0 v); [lia|reflexivity].
  - intros kvs v S L. destruct (F (YMap kvs)) as (ot & oc & orr & os & op & _ & _ & E & _ & _ & ->). rewrite (get_says _ _ _ _ S) in E. injection E as <-. unfold check. destruct (_ =? _); [|reflexivity]. destruct (_ <? _)%Z; [|reflexivity]. destruct (Z.ltb_spec 0 v); [lia|reflexivity].
  - intros kvs d S L. destruct (F (YMap kvs)) as (ot & oc & orr & os & op & _ & _ & _ & E & _ & ->). rewrite (get_says _ _ _ _ S) in E. injection E as <-. unfold check. destruct (_ =? _); [|reflexivity]. destruct (_ <? _)%Z; [|reflexivity]. destruct (_ <? _)%Z; [|reflexivity]. cbv zeta. destruct (above_zero d) eqn:D; [|reflexivity]. apply above_positive in D. contradiction.
  - intros kvs s S L. destruct (F (YMap kvs)) as (ot & oc & orr & os & op & _ & _ & _ & _ & E & ->). rewrite (get_says _ _ _ _ S) in E. injection E as <-. unfold check. destruct (_ =? _); [|reflexivity]. destruct (_ <? _)%Z; [|reflexivity]. destruct (_ <? _)%Z; [|reflexivity]. cbv zeta. destruct (above_zero _); [|reflexivity]. destruct (above_zero (times s _)) eqn:D; [|reflexivity]. apply above_positive in D. destruct (L _ D).
  - intros [n|]; [|left; reflexivity]. destruct (F n) as (ot & oc & orr & os & op & _ & _ & _ & _ & _ & ->). unfold check. destruct (_ =? _); [|tauto]. destruct (_ <? _)%Z; [|tauto]. destruct (_ <? _)%Z; [|tauto]. cbv zeta. destruct (above_zero _); [|tauto]. destruct op; [|tauto]. destruct (above_zero _); [|tauto]. right; right. eexists. reflexivity.
Qed.
(** The spacing itself must be positive: for a positive size, finite or not, the space is positive exactly if the spacing is. *)
Lemma below_negative q : below_zero (Finite q) = true <-> (q < 0)%Q.
Proof.
  cbn. rewrite negb_true_iff. split; intros H.
  - destruct (Qlt_le_dec q 0) as [L|L]; [exact L|]. apply Qle_bool_iff in L. congruence.
  - destruct (Qle_bool 0 q) eqn:E; [|reflexivity]. apply Qle_bool_iff in E. lra.
Qed.
Lemma times_positive s d : positive d -> (positive (times s d) <-> positive s).
Proof.
  intros D. destruct d as [q|[|]|]; [| |cbn in D; discriminate|destruct D]; destruct s as [p|[|]|]; try (cbn; tauto).
  - cbn in *. split; intros H; [|now apply Qmult_lt_0_compat]. apply Qnot_le_lt. intros L. pose proof (Qmult_le_compat_r p 0 q L (Qlt_le_weak _ _ D)). lra.
  - unfold times. rewrite (proj2 (above_positive (Finite q)) D). cbn. tauto.
  - unfold times. rewrite (proj2 (above_positive (Finite q)) D). change (above_zero (Infinite false)) with false. change (below_zero (Infinite false)) with true. cbn [andb orb]. destruct (below_zero (Finite q)) eqn:B; [apply below_negative in B; cbn in D; lra|]. cbn. intuition discriminate.
  - unfold times. change (above_zero (Infinite true)) with true. change (below_zero (Infinite true)) with false. destruct (above_zero (Finite p)) eqn:A.
    + apply above_positive in A. cbn in A |- *. tauto.
    + assert (N : ~ positive (Finite p)) by (intros H; apply above_positive in H; congruence). split; [|intros H; contradiction]. cbn [andb orb]. rewrite andb_false_r. cbn [orb]. destruct (below_zero (Finite p)); cbn; [discriminate|tauto].
Qed.
Theorem tyx_spacing_positive : (forall file c, from_yaml file = Done c -> exists n s, file = Some n /\ says as_double n "tagSpacing" s /\ positive s) /\
  (reader as_size -> reader as_double -> forall kvs s, says as_double (YMap kvs) "tagSpacing" s -> ~ positive s -> from_yaml (Some (YMap kvs)) = Aborted).
Proof.
  assert (X : forall file c, from_yaml file = Done c -> exists n s, file = Some n /\ says as_double n "tagSpacing" s /\ positive s).
  { intros file c E. destruct (tyx_accepted file c E) as (kvs & s & -> & _ & _ & _ & _ & _ & D & _ & P & S & Q & _). exists (YMap kvs), s. split; [reflexivity|]. split; [exact S|]. rewrite Q in P. now apply times_positive in P. }
  split; [exact X|]. intros RS RD kvs s S N. destruct (tyx_refused RS RD) as (_ & _ & _ & _ & _ & _ & H). destruct (H (Some (YMap kvs))) as [E|[E|(c & E)]]; [exact E| |].
  - exfalso. unfold TargetYamlModel.from_yaml, get_into in E. rewrite (get_says _ _ _ _ S) in E.
    assert (RT : reader as_string) by (intros [|t|l|k]; cbn; eauto).
    assert (G : forall A (f : ynode -> outcome A) key, reader f -> exists o, safe_get f (YMap kvs) key = Done o).
    { intros A f key R. cbn. destruct (lookup key kvs) as [m|]; [|eauto]. destruct (R m) as [-> |[-> |(a & ->)]]; eauto. }
    destruct (G _ as_string "target_type" RT) as (o1 & E1). destruct (G _ as_size "tagCols" RS) as (o2 & E2). destruct (G _ as_size "tagRows" RS) as (o3 & E3). destruct (G _ as_double "tagSize" RD) as (o4 & E4). rewrite E1, E2, E3, E4 in E.
    cbn [obind] in E. unfold check in E. destruct o1, o2, o3, o4; cbn [obind] in E; repeat match type of E with (if ?b then _ else _) = _ => destruct b end; discriminate.
  - destruct (X _ _ E) as (n & s' & F & S' & P). injection F as <-. pose proof (get_says _ _ _ _ S). pose proof (get_says _ _ _ _ S'). congruence.
Qed.
(** Other keys, the order of keys and comments do not matter. *)
Theorem tyx_keys kvs kvs' : (forall k, In k keys -> lookup k kvs = lookup k kvs') -> from_yaml (Some (YMap kvs)) = from_yaml (Some (YMap kvs')).
Proof.
  intros H. unfold TargetYamlModel.from_yaml, get_into, safe_get. rewrite (H "target_type"), (H "tagCols"), (H "tagRows"), (H "tagSize"), (H "tagSpacing") by (cbn; tauto). reflexivity.
Qed.
End Read.
Print Assumptions tyx_read.
Print Assumptions tyx_accepted.
Print Assumptions tyx_default.
Print Assumptions tyx_spacing.
Print Assumptions tyx_infinite.
Print Assumptions tyx_refused.
Print Assumptions tyx_keys.
Print Assumptions tyx_spacing_positive.

(** ** Cases *)
Definition size_ex (n : ynode) : outcome Z := match n with YScalar "7" => Done 7%Z | YScalar "0" => Done 0%Z | _ => Thrown end.
Definition double_ex (n : ynode) : outcome double := match n with YScalar "0.1" => Done (Finite (1 # 10)) | YScalar "0.3" => Done (Finite (3 # 10)) | YScalar ".inf" => Done (Infinite true) | YScalar "0" => Done (Finite 0) | _ => Thrown end.
Lemma size_ex_reader : reader size_ex.
Proof. intros n. unfold size_ex. repeat match goal with |- context [match ?x with _ => _ end] => destruct x end; eauto. Qed.
Lemma double_ex_reader : reader double_ex.
Proof. intros n. unfold double_ex. repeat match goal with |- context [match ?x with _ => _ end] => destruct x end; eauto. Qed.
Definition file_ex (rows size spacing : string) : ynode := YMap [("target_type", YScalar "aprilgrid"); ("tagCols", YScalar "7"); (rows, YScalar "7"); ("tagSize", YScalar size); (spacing, YScalar "0.3")].
Example tyx_read_ex : from_yaml size_ex double_ex (Some (file_ex "tagRows" "0.1" "tagSpacing")) = Done (Config 7 7 (Finite (1 # 10)) (Finite ((3 # 10) * (1 # 10))) 2) /\ says double_ex (file_ex "tagRows" "0.1" "tagSpacing") "tagSize" (Finite (1 # 10)).
Proof. split; [reflexivity|]. eexists _, _. split; [reflexivity|]. split; reflexivity. Qed.
Example tyx_default_ex : from_yaml size_ex double_ex (Some (file_ex "tagrows" "0.1" "tagSpacing")) = Done (Config 6 7 (Finite (1 # 10)) (Finite ((3 # 10) * (1 # 10))) 2) /\ lacks size_ex [("target_type", YScalar "aprilgrid")] "tagRows".
Proof. split; [reflexivity|]. left. reflexivity. Qed.
Example tyx_spacing_ex : from_yaml size_ex double_ex (Some (file_ex "tagRows" "0.1" "spacing")) = Undefined.
Proof. reflexivity. Qed.
Example tyx_infinite_ex : from_yaml size_ex double_ex (Some (file_ex "tagRows" ".inf" "tagSpacing")) = Done (Config 7 7 (Infinite true) (Infinite true) 2).
Proof. reflexivity. Qed.
Example tyx_refused_ex : from_yaml size_ex double_ex (Some (file_ex "tagRows" "0" "tagSpacing")) = Aborted /\ forall d, ~ positive (times NaN d).
Proof. split; [reflexivity|]. intros [q|p|]; cbn; tauto. Qed.

(** ** So the claim that an accepted file determines the target is false *)
Theorem tyx_default_refuted : exists as_size as_double kvs c, reader as_size /\ reader as_double /\ lacks as_size kvs "tagRows" /\ from_yaml as_size as_double (Some (YMap kvs)) = Done c.
Proof.
  exists size_ex, double_ex, [("target_type", YScalar "aprilgrid"); ("tagCols", YScalar "7"); ("tagrows", YScalar "7"); ("tagSize", YScalar "0.1"); ("tagSpacing", YScalar "0.3")]. eexists.
  split; [apply size_ex_reader|]. split; [apply double_ex_reader|]. split; [left; reflexivity|]. reflexivity.
Qed.
Theorem tyx_spacing_refuted : exists as_size as_double kvs, reader as_size /\ reader as_double /\ says as_string (YMap kvs) "target_type" "aprilgrid" /\ from_yaml as_size as_double (Some (YMap kvs)) = Undefined.
Proof.
  exists size_ex, double_ex, [("target_type", YScalar "aprilgrid"); ("tagCols", YScalar "7"); ("tagRows", YScalar "7"); ("tagSize", YScalar "0.1")].
  split; [apply size_ex_reader|]. split; [apply double_ex_reader|]. split; [eexists _, _; split; [reflexivity|split; reflexivity]|]. reflexivity.
Qed.
Theorem tyx_infinite_refuted : exists as_size as_double n c, reader as_size /\ reader as_double /\ from_yaml as_size as_double (Some n) = Done c /\ forall q, tag_size c <> Finite q.
Proof.
  exists size_ex, double_ex, (file_ex "tagRows" ".inf" "tagSpacing"). eexists. split; [apply size_ex_reader|]. split; [apply double_ex_reader|]. split; [reflexivity|]. intros q. discriminate.
Qed.
Print Assumptions tyx_default_refuted.
Print Assumptions tyx_spacing_refuted.
Print Assumptions tyx_infinite_refuted.
Example tyx_spacing_positive_ex : from_yaml size_ex double_ex (Some (YMap [("target_type", YScalar "aprilgrid"); ("tagSize", YScalar ".inf"); ("tagSpacing", YScalar "0")])) = Aborted /\ positive (times (Infinite true) (Finite (1 # 10))).
Proof. split; reflexivity. Qed.
