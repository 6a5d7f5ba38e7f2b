(** Property C42: what calls on query builders do.  Vocabulary: QueryBuilder.v ([call], [step],
    [run]: calls one after the other, by a caller who catches exceptions) and the
    specification part of QueryBuilderMeasure.v ([answer_columns], [computes], [gaussian_asked]). *)
From Coq Require Import String Ascii Bool Arith ZArith QArith Qcanon Lia Permutation List.
From Verif Require Import Prelude Budget BudgetProofs BudgetScale Value Rows Constraints ConstraintsSpec ConstraintsProofs
  Schema SchemaProofs Query Rewrite RewriteSpec Transform TransformSpec TransformVisit QueryProofs
  Measure MeasureProofs MeasureCount MeasureRows QueryEq QueryBuilder QueryBuilderProofs QueryBuilderMeasure Props_Schema Props_Query Props_Rewrite Props_Measure.
From Verif Require KeySet KeySetTotalApi Binning BinningProofs Props_Binning Props_KeySet.
Import ListNotations.
Local Open Scope string_scope.
Local Open Scope nat_scope.

Section Builders.
Variable KW : KeySet.world.
Variable show : Query.pynum -> string.
Notation step := (QueryBuilder.step KW show).
Notation run := (QueryBuilder.run KW show).

(** ** Calls and objects *)

(** A query or grouped builder, once made, is never changed by any call; a builder only by
    calls on itself that are documented to return a changed builder, and by histogram. *)
Theorem C42_other_objects_never_change : forall st l,
  (forall i q, nth_error (st_queries st) i = Some q -> nth_error (st_queries (run st l)) i = Some q)
  /\ (forall i g, nth_error (st_groups st) i = Some g -> nth_error (st_groups (run st l)) i = Some g)
  /\ (forall i b, nth_error (st_builders st) i = Some b ->
        (forall ch, ~ In (Change i ch) l) -> (forall c s n, ~ In (Histogram i c s n) l) ->
        nth_error (st_builders (run st l)) i = Some b).
Proof.
  intros st l. destruct (run_others KW show l st) as (A & B & C). split; [exact A|]. split; [exact B|].
  intros i b N NC NH. apply C; [exact N|]. intros c I X. destruct c; try discriminate X; injection X as ->; [exact (NC _ I)|exact (NH _ _ _ I)].
Qed.

(** Which builder a call is on, and the builders it reads. *)
Definition on_builder (i : nat) (c : call) : Prop := (exists ch, c = Change i ch) \/ (exists k s n, c = Histogram i k s n).
Definition reads_builder (j : nat) (c : call) : Prop := exists i tl tr o, c = Change i (ChJoinPrivate (inl j) tl tr o).

(** What some builders become depends on the calls on them only: leaving out all other calls,
    in between, changes nothing.  (They may be joined with each other, so the set has to
    contain the builders they are joined with.) *)
Theorem C42_only_own_calls_matter : forall st l (mine : nat -> bool) (keep : call -> bool),
  (forall i, mine i = true -> i < length (st_builders st)) ->
  (forall c, keep c = true <-> exists i, mine i = true /\ on_builder i c) ->
  (forall c j, In c l -> keep c = true -> reads_builder j c -> mine j = true) ->
  forall i, mine i = true -> nth_error (st_builders (run st l)) i = nth_error (st_builders (run st (filter keep l))) i.
Proof.
  intros st l mine keep Ex KP RD i M.
  assert (KO : forall c, keep c = on mine c).
  { intros c. apply Bool.eq_iff_eq_true. rewrite KP. unfold on. split.
    - intros (j & J & [(ch & ->)|(k & s & n & ->)]); exact J.
    - destruct c; cbn [changes]; intros X; try discriminate X; [exists b|exists b]; (split; [exact X|]); [left; eauto|right; eauto]. }
  rewrite (filter_ext _ _ KO). refine (proj1 (run_slice KW show mine l _ st st _ i M)).
  - intros c j I O J. apply (RD c j I); [rewrite KO; exact O|]. destruct c; cbn [joins] in J; try discriminate J.
    destruct c; cbn [joins] in J; try discriminate J. destruct operand; [|discriminate J]. injection J as ->. unfold reads_builder. eauto.
  - intros j J. split; [reflexivity|exact (Ex j J)].
Qed.

(** A call that raises changes nothing at all. *)
Theorem C42_failed_calls_change_nothing : forall st c st' e, step st c = (st', Err e) -> st' = st.
Proof. exact (step_failed KW show). Qed.

(** A call on a builder puts one operation on top of the table it stands for; the operand of
    a join is what the other builder stands for at that time. *)
Theorem C42_changes_extend : forall auto l st i ch st',
  st = run (init auto) l -> step st (Change i ch) = (st', Ok tt) ->
  exists b e operands, nth_error (st_builders st) i = Some b
    /\ nth_error (st_builders st') i = Some {| bu_source := bu_source b; bu_expr := e |}
    /\ children e = bu_expr b :: operands
    /\ match ch with
       | ChJoinPrivate (inl j) _ _ _ => exists r, nth_error (st_builders st) j = Some r /\ operands = [bu_expr r]
       | ChJoinPrivate (inr name) _ _ _ => operands = [PrivateSource name]
       | _ => operands = []
       end
    /\ st_queries st' = st_queries st /\ st_groups st' = st_groups st.
Proof.
  intros auto l st i ch st' -> H. set (st := run (init auto) l) in *.
  assert (I : inv true st) by (apply run_inv; [apply init_inv; reflexivity|reflexivity]).
  cbn [QueryBuilder.step] in H. apply outcome_cases in H as [(H & _)|(e & _ & [=] & _)].
  apply bind_ok in H as (b & O & H). apply object_ok in O. apply bind_ok in H as (e & C & H). injection H as <-.
  destruct (changed_built _ _ _ _ _ I C (inv_builders _ _ I _ _ O)) as (_ & ops & CH).
  exists b, e, ops. split; [exact O|]. split.
  { cbn [set_expr with_builders st_builders]. apply nth_replace_same, nth_error_Some. congruence. }
  split; [exact CH|]. split; [|split; reflexivity].
  destruct ch; cbn [changed] in C; unfold bin_expr, map_expr in C;
    try (rewrite (post_init_children _ _ _ C) in CH; injection CH as <-; reflexivity).
  - apply bind_ok in C as (r & RR & C). rewrite (post_init_children _ _ _ C) in CH. injection CH as <-.
    destruct operand as [j|name]; [apply object_ok in RR; eauto|]. apply new_builder_ok in RR as (_ & ->). reflexivity.
  - apply bind_ok in C as (? & _ & C). rewrite (post_init_children _ _ _ C) in CH. injection CH as <-. reflexivity.
  - apply bind_ok in C as (? & _ & C). apply bind_ok in C as (? & _ & C). rewrite (post_init_children _ _ _ C) in CH. injection CH as <-. reflexivity.
  - apply bind_ok in C as (? & _ & C). rewrite (post_init_children _ _ _ C) in CH. injection CH as <-. reflexivity.
  - apply bind_ok in C as (? & _ & C). rewrite (post_init_children _ _ _ C) in CH. injection CH as <-. reflexivity.
Qed.

(** The columns made by map, flat_map and flat_map_by_id have the given names, in order, and
    the given descriptors; where only a type is given, nulls, NaNs and infinities are
    allowed for.  The function and the other arguments are kept as given. *)
Definition new_columns (types : dict rawdesc) (group : option string) (s : schema) : Prop :=
  Forall2 (fun p q => fst q = fst p
             /\ match snd p with
                | RDesc d => snd q = d
                | RType t => snd q = {| cd_type := t; cd_null := true; cd_nan := true; cd_inf := true |}
                | RName n => ctype_name (cd_type (snd q)) = n /\ cd_null (snd q) = true /\ cd_nan (snd q) = true /\ cd_inf (snd q) = true
                end) types (sc_cols s)
  /\ sc_group s = group /\ sc_id s = None /\ sc_space s = None.
Theorem C42_new_columns_allow_special_values : forall st i ch st' b,
  step st (Change i ch) = (st', Ok tt) -> nth_error (st_builders st) i = Some b ->
  match ch with
  | ChMap f types augment => exists s, new_columns types None s
      /\ nth_error (st_builders st') i = Some {| bu_source := bu_source b; bu_expr := MapQ (bu_expr b) f s augment |}
  | ChFlatMap f types augment grouping max_rows => exists s group, new_columns types group s
      /\ (if grouping then exists c d, types = [(c, d)] /\ group = Some c else group = None)
      /\ nth_error (st_builders st') i = Some {| bu_source := bu_source b; bu_expr := FlatMap (bu_expr b) f s augment max_rows |}
  | ChFlatMapByID f types => exists s, new_columns types None s
      /\ nth_error (st_builders st') i = Some {| bu_source := bu_source b; bu_expr := FlatMapByID (bu_expr b) f s |}
  | _ => True
  end.
Proof.
  intros st i ch st' b H N. cbn [QueryBuilder.step] in H. apply outcome_cases in H as [(H & _)|(e & _ & [=] & _)].
  apply bind_ok in H as (b' & O & H). apply object_ok in O. rewrite N in O. injection O as <-. apply bind_ok in H as (e & C & H). injection H as <-.
  assert (R : nth_error (st_builders (set_expr st i b e)) i = Some {| bu_source := bu_source b; bu_expr := e |}) by (cbn [set_expr with_builders st_builders]; apply nth_replace_same, nth_error_Some; congruence).
  assert (S : forall types g s, new_columns_schema types g = Ok s -> new_columns types g s).
  { intros types g s K. apply C36_schema_contents in K as (F & G & I & SP). split; [clear - F|auto]. induction F as [|p q l k (E & D) F IH]; constructor; [|exact IH]. split; [exact E|]. destruct (snd p); cbn [described_as] in D; [exact D| |exact D].
    destruct (snd q); cbn in D. destruct D as (-> & -> & -> & ->). reflexivity. }
  destruct ch; try exact Logic.I; cbn [changed] in C; unfold map_expr in C.
  - apply bind_ok in C as (s & K & C). cbn [post_init] in C. apply bind_ok in C as (? & _ & C). injection C as <-. eauto.
  - apply bind_ok in C as (g & G & C). apply bind_ok in C as (s & K & C). cbn [post_init] in C. apply bind_ok in C as (? & _ & C). apply bind_ok in C as (? & _ & C). injection C as <-. exists s, g. split; [eauto|]. split; [|exact R].
    destruct grouping; [|now injection G as <-]. destruct types as [|(c & d) [|]]; try discriminate. injection G as <-. eauto.
  - apply bind_ok in C as (s & K & C). cbn [post_init] in C. apply bind_ok in C as (? & _ & C). injection C as <-. eauto.
Qed.

Lemma sources_ok l : forall st, (forall i b, nth_error (st_builders st) i = Some b -> is_identifier (bu_source b) = true) ->
  forall i b, nth_error (st_builders (run st l)) i = Some b -> is_identifier (bu_source b) = true.
Proof.
  induction l as [|c l IH]; intros st I; [exact I|]. cbn [QueryBuilder.run]. apply IH. clear IH.
  destruct (step st c) as (st', o) eqn:H. cbn [fst].
  destruct c; try (cbn [QueryBuilder.step] in H; apply outcome_cases in H as [(H & ->)|(e & _ & _ & ->)]; [|exact I]);
    repeat match type of H with bind _ _ = Ok _ => apply bind_ok in H as (? & ? & H) end;
    try (injection H as <-; cbn [st_builders add_query add_group]; exact I).
  - injection H as <-. cbn [st_builders with_builders]. intros i b N. apply nth_app_inv in N as [N| ->]; [exact (I _ _ N)|].
    match goal with X : new_builder _ _ = Ok _ |- _ => apply new_builder_ok in X as (X & ->) end. assumption.
  - injection H as <-. cbn [st_builders with_builders]. intros i b' N. apply nth_app_inv in N as [N| ->]; [exact (I _ _ N)|].
    match goal with X : new_builder _ _ = Ok _ |- _ => apply new_builder_ok in X as (X & ->) end. assumption.
  - injection H as <-. cbn [set_expr st_builders with_builders]. intros i b' N. apply nth_replace_inv in N as [N| ->]; [exact (I _ _ N)|].
    match goal with X : object _ _ = Ok _ |- _ => apply object_ok in X; exact (I _ _ X) end.
  - apply histogram_step in H as [(e & _ & ->)|(b0 & s & c & r & e & _ & O & _ & _ & _ & ->)]; [exact I|].
    cbn [add_query set_expr st_builders with_builders]. intros i b' N. apply nth_replace_inv in N as [N| ->]; [exact (I _ _ N)|exact (I _ _ O)].
Qed.

(** clone() is never refused, and the clone is the builder as it is now. *)
Theorem C42_clone_is_a_copy : forall auto l i b,
  nth_error (st_builders (run (init auto) l)) i = Some b ->
  exists st', step (run (init auto) l) (Clone i) = (st', Ok tt)
    /\ st_builders st' = (st_builders (run (init auto) l) ++ [b])%list
    /\ st_queries st' = st_queries (run (init auto) l) /\ st_groups st' = st_groups (run (init auto) l).
Proof.
  intros auto l i b N. set (st := run (init auto) l) in *.
  assert (S : is_identifier (bu_source b) = true).
  { refine (sources_ok l (init auto) _ i b N). intros [|j] b'; discriminate. }
  cbn [QueryBuilder.step]. rewrite (proj2 (object_ok _ _ _) N). cbn [bind]. unfold new_builder. cbn [post_init]. rewrite S.
  cbn [negb raise_if bind outcome]. eexists. split; [reflexivity|]. cbn [st_builders with_builders st_queries st_groups bu_source].
  split; [|split; reflexivity]. destruct b. reflexivity.
Qed.

(** Every query made by calls on builders has passed the checks of the query classes (the
    hypothesis of the other theorems about queries): rebuilding it from scratch is accepted
    and gives the same query. *)
Theorem C42_queries_pass_the_checks : forall auto l i q a,
  nth_error (st_queries (run (init auto) l)) i = Some q ->
  (auto = true \/ In (SetAuto true) l -> a = true) ->
  build a (q_expr q) = Ok (q_expr q).
Proof.
  intros auto l i q a N A. apply built_build.
  refine (inv_queries a _ _ i q N). apply run_inv; [apply init_inv; auto|auto].
Qed.

(** ** What the aggregations compute *)

(** The query that a call of an aggregation makes, if it can be run at all, asks tmlt.core
    for the groups given, the statistic named, of the column given and between the bounds
    given, with the kind of noise asked for and under the documented column names. *)
Theorem C42_aggregations_compute_what_was_asked : forall R W K so mu cat data auto l i a st' g b q meas,
  catalog_made cat ->
  step (run (init auto) l) (Aggregate i a) = (st', Ok tt) ->
  nth_error (st_groups (run (init auto) l)) i = Some g ->
  nth_error (st_queries st') (length (st_queries (run (init auto) l))) = Some q ->
  compile R W K true so mu cat data b (q_expr q) = Ok meas ->
  children (q_expr q) = [gr_expr g]
  /\ exists total p, meas = MGroupBy total p /\ g_keys p = gr_keys g /\ g_outs p = answer_columns show a /\ computes a (g_agg p)
       /\ (gaussian (g_mech p) = true <-> gaussian_asked mu a).
Proof.
  intros R W K so mu cat data auto l i a st' g b q meas MADE H G Q C. set (st := run (init auto) l) in *.
  assert (I : inv true st) by (apply run_inv; [apply init_inv; reflexivity|reflexivity]).
  cbn [QueryBuilder.step] in H. rewrite (proj2 (object_ok _ _ _) G) in H. cbn [bind] in H.
  destruct (aggregate show (st_auto st) g a) as [q'|] eqn:A; [|discriminate H]. injection H as <-.
  cbn [add_query st_queries] in Q. rewrite nth_last in Q. injection Q as <-.
  destruct (aggregate_built show _ true _ _ _ (fun _ => eq_refl) A (inv_groups _ _ I _ _ G)) as (B & CH). split; [exact CH|].
  exact (aggregate_measured show R W K true so mu cat data MADE _ _ _ _ _ _ A B C).
Qed.

(** An aggregation of a whole table makes the query that grouping by the KeySet without
    columns and aggregating makes; that KeySet can always be made. *)
Theorem C42_total_is_groupby_nothing : forall st i a,
  exists k, keys_from_dict KW [] = Ok k
  /\ st_queries (run st [Total i a]) = st_queries (run st [GroupBy i k; Aggregate (length (st_groups st)) a])
  /\ st_builders (run st [Total i a]) = st_builders (run st [GroupBy i k; Aggregate (length (st_groups st)) a])
  /\ (nth_error (st_builders st) i <> None ->
      snd (step st (Total i a)) = snd (step (fst (step st (GroupBy i k))) (Aggregate (length (st_groups st)) a))).
Proof.
  intros st i a. exists (BySet [] []). split; [apply no_keys|].
  assert (G : step st (GroupBy i (BySet [] [])) = outcome st (let* b := object (st_builders st) i in
      Ok (add_group st {| gr_source := bu_source b; gr_expr := bu_expr b; gr_keys := KSet [] [] |}))) by reflexivity.
  assert (T : step st (Total i a) = outcome st (let* b := object (st_builders st) i in
      let* q := aggregate show (st_auto st) {| gr_source := bu_source b; gr_expr := bu_expr b; gr_keys := KSet [] [] |} a in
      Ok (add_query st q))) by (cbn [QueryBuilder.step]; rewrite no_keys; reflexivity).
  assert (A : forall x, step x (Aggregate (length (st_groups st)) a) = outcome x (let* g := object (st_groups x) (length (st_groups st)) in
      let* q := aggregate show (st_auto x) g a in Ok (add_query x q))) by reflexivity.
  cbn [QueryBuilder.run]. rewrite G, T, !A. unfold object.
  destruct (nth_error (st_builders st) i) as [b|] eqn:N; cbn [bind outcome fst snd].
  - cbn [add_group st_groups st_auto]. rewrite nth_last. cbn [bind].
    destruct (aggregate show (st_auto st) _ a); cbn [bind outcome fst snd add_query add_group st_queries st_builders]; auto.
  - assert (nth_error (st_groups st) (length (st_groups st)) = None) as -> by (apply nth_error_None; lia). cbn [bind outcome fst snd].
    split; [reflexivity|]. split; [reflexivity|]. congruence.
Qed.

(** Its answer is one row, computed from all rows of the table. *)
Theorem C42_total_answers_one_row : forall R W K so mu cat data auto l i a st' b q meas,
  catalog_made cat -> valid b ->
  step (run (init auto) l) (Total i a) = (st', Ok tt) ->
  nth_error (st_queries st') (length (st_queries (run (init auto) l))) = Some q ->
  compile R W K true so mu cat data b (q_expr q) = Ok meas ->
  exists total p, meas = MGroupBy total p /\ g_outs p = answer_columns show a /\ computes a (g_agg p)
    /\ run_measurement R K meas = Ok [combine (g_outs p) (k_answer K p [] (v_rows (g_table p)))].
Proof.
  intros R W K so mu cat data auto l i a st' b q meas MADE V H Q C. set (st := run (init auto) l) in *.
  assert (I : inv true st) by (apply run_inv; [apply init_inv; reflexivity|reflexivity]).
  cbn [QueryBuilder.step] in H. rewrite no_keys in H. apply outcome_cases in H as [(H & _)|(e & _ & [=] & _)].
  apply bind_ok in H as (bu & O & H). apply object_ok in O. cbn [bind group_by raise_if] in H.
  apply bind_ok in H as (q' & A & H). injection H as <-.
  cbn [add_query st_queries] in Q. rewrite nth_last in Q. injection Q as <-.
  destruct (aggregate_built show _ true _ _ _ (fun _ => eq_refl) A (inv_builders _ _ I _ _ O)) as (B & _).
  destruct (aggregate_measured show R W K true so mu cat data MADE _ _ _ _ _ _ A B C) as (total & p & -> & GK & GO & GA & _).
  exists total, p. split; [reflexivity|]. split; [exact GO|]. split; [exact GA|]. cbn [gr_keys] in GK.
  pose proof (compile_shape R W K true so mu cat data b _ _ C) as (adj & S).
  destruct (known_keys R K b _ adj total p _ _ S eq_refl GK) as (-> & KB & QB).
  assert (VT : valid (without_delta b)) by (destruct b; cbn in V |- *; try exact V; destruct V as (V & _); split; [exact V|split; discriminate]).
  assert (ZB : zero_of b = zero_of (without_delta b)) by (destruct b; reflexivity).
  rewrite ZB in KB.
  destruct (run_known R K (without_delta b) p _ _ GK KB QB VT) as (t & RP). cbn [run_measurement].
  revert RP. unfold run_plan. intros RP. rewrite RP. apply bind_ok in RP as (keys & FK & RP).
  apply bind_ok in RP as (? & _ & RP). apply bind_ok in RP as (? & _ & RP). injection RP as <-.
  unfold find_keys in FK. rewrite GK in FK. apply bind_ok in FK as (? & _ & FK). injection FK as <-. cbn [dkeys map].
  rewrite GK. cbn [keys_columns dkeys map app]. unfold group, matches. cbn [forallb].
  assert (filter (fun _ : rec => true) (v_rows (g_table p)) = v_rows (g_table p)) as ->; [|reflexivity].
  generalize (v_rows (g_table p)). induction t; cbn; congruence.
Qed.

(** min, max and median are the quantiles 0, 1 and 1/2, on builders and grouped builders. *)
Definition or_default (name : option string) (d : string) : string := match name with Some "" | None => d | Some n => n end.
Theorem C42_min_max_median_are_quantiles : forall st i c low high name,
  let half := Query.PFloat (FFin (Q2Qc (1 # 2))) in
  let q at_ suffix := UQuantile c at_ low high (Some (or_default name (c ++ suffix))) in
  (step st (Aggregate i (UMin c low high name)) = step st (Aggregate i (q (Query.PInt 0) "_min"))
   /\ step st (Aggregate i (UMax c low high name)) = step st (Aggregate i (q (Query.PInt 1) "_max"))
   /\ step st (Aggregate i (UMedian c low high name)) = step st (Aggregate i (q half "_median")))
  /\ (step st (Total i (UMin c low high name)) = step st (Total i (q (Query.PInt 0) "_min"))
   /\ step st (Total i (UMax c low high name)) = step st (Total i (q (Query.PInt 1) "_max"))
   /\ step st (Total i (UMedian c low high name)) = step st (Total i (q half "_median"))).
Proof. intros st i c low high name. destruct name as [[|]|]; repeat split; reflexivity. Qed.

(** ** Histograms *)

(** histogram makes the query, and changes the builder in the way, that binning the column,
    grouping by the KeySet of the bins and counting do. *)
Theorem C42_histogram_is_bin_group_count : forall st i column s name k,
  let n := or_default name (column ++ "_binned") in
  keys_from_dict KW [(n, bn_bins s)] = Ok k ->
  snd (step st (Histogram i column (Ok s) name)) = snd (step st (Change i (ChBin column s (Some n))))
  /\ (snd (step st (Change i (ChBin column s (Some n)))) = Ok tt ->
      let st1 := run st [Histogram i column (Ok s) name] in
      let st2 := run st [Change i (ChBin column s (Some n)); GroupBy i k; Aggregate (length (st_groups st)) (UCount None (Mech MDefault))] in
      st_queries st1 = st_queries st2 /\ st_builders st1 = st_builders st2
      /\ length (st_queries st1) = S (length (st_queries st))).
Proof.
  intros st i column s name k n KD.
  assert (NN : if_not name (column ++ "_binned") = n) by (unfold n; destruct name as [[|]|]; reflexivity).
  destruct (keys_are_a_set _ _ _ KD) as (c & r & ->).
  assert (CE : step st (Change i (ChBin column s (Some n))) = match nth_error (st_builders st) i with
      | None => (st, Err IndexError)
      | Some b => match bin_expr (st_auto st) (bu_expr b) column s (Some n) with
                  | Err e => (st, Err e) | Ok e => (set_expr st i b e, Ok tt) end end).
  { cbn [QueryBuilder.step changed]. unfold object. destruct (nth_error (st_builders st) i) as [b|]; [|reflexivity].
    cbn [bind]. destruct (bin_expr _ _ _ _ _); reflexivity. }
  assert (HE : step st (Histogram i column (Ok s) name) = match nth_error (st_builders st) i with
      | None => (st, Err IndexError)
      | Some b => match bin_expr (st_auto st) (bu_expr b) column s (Some n) with
                  | Err e => (st, Err e)
                  | Ok e => (add_query (set_expr st i b e)
                      {| q_suppress := true; q_expr := GroupByCount e (KSet c r) "count" MDefault None |}, Ok tt) end end).
  { cbn [QueryBuilder.step]. rewrite NN. unfold object. destruct (nth_error (st_builders st) i) as [b|]; [|reflexivity].
    cbn [bind]. rewrite KD. cbn [bind]. destruct (bin_expr _ _ _ _ _) as [e|]; [|reflexivity]. reflexivity. }
  cbn [QueryBuilder.run]. rewrite CE, HE. destruct (nth_error (st_builders st) i) as [b|] eqn:N; [|split; [reflexivity|discriminate]].
  destruct (bin_expr (st_auto st) (bu_expr b) column s (Some n)) as [e|] eqn:B; [|split; [reflexivity|discriminate]].
  cbn [fst snd]. split; [reflexivity|]. intros _.
  assert (NE : nth_error (st_builders (set_expr st i b e)) i = Some {| bu_source := bu_source b; bu_expr := e |}).
  { cbn [set_expr with_builders st_builders]. apply nth_replace_same, nth_error_Some. congruence. }
  cbn [QueryBuilder.step]. rewrite (proj2 (object_ok _ _ _) NE). unfold group_by. cbn [raise_if bind outcome fst bu_source bu_expr].
  cbn [add_group st_groups set_expr with_builders]. rewrite (proj2 (object_ok _ _ _) (nth_last _ _)).
  cbn [bind aggregate mech_of post_init raise_if gr_keys gr_expr if_none outcome fst add_query st_queries st_builders].
  split; [reflexivity|]. split; [reflexivity|]. rewrite app_length. cbn. lia.
Qed.

(** The answer: one group per bin, no group twice, and the number that noise is added to is
    the number of rows whose value the binning specification puts in this bin. *)
Theorem C42_histogram_counts_bins : forall R W K so mu cat data auto l st i column s name st' bld t cs b q meas,
  (forall l, Permutation (so l) l) -> constraints_hold cat data -> catalog_made cat ->
  st = run (init auto) l -> nth_error (st_builders st) i = Some bld ->
  step st (Histogram i column (Ok s) name) = (st', Ok tt) ->
  nth_error (st_queries st') (length (st_queries st)) = Some q ->
  (forall v, cell_ok (nullable (bn_desc s)) (bn_call s v) = true) ->
  holds_for W cat data (asks_gaussian mu MDefault) (bu_expr bld) ->
  build_transformation W (asks_gaussian mu MDefault) cat data (bu_expr bld) = Ok (t, cs) ->
  compile R W K true so mu cat data b (q_expr q) = Ok meas ->
  let n := or_default name (column ++ "_binned") in
  exists total g cols rows, plan_of meas = Some (total, g) /\ g_outs g = ["count"]
    /\ g_keys g = KSet cols rows /\ NoDup rows
    /\ (forall key, In key rows <-> exists v, In v (bn_bins s) /\ key = [(n, v)])
    /\ forall v, counted g [(n, v)] = length (filter (fun row => value_eqb (bn_call s (getv column row)) v) (v_rows t)).
Proof.
  intros R W K so mu cat data auto l st i column s name st' bld t cs b q meas SO HOLD MADE -> N H Q D HF BT C n.
  set (st := run (init auto) l) in *.
  assert (I : inv true st) by (apply run_inv; [apply init_inv; reflexivity|reflexivity]).
  assert (NN : if_not name (column ++ "_binned") = n) by (unfold n; destruct name as [[|]|]; reflexivity).
  apply histogram_step in H as [(e & [=] & _)|(b0 & s' & c & r & e & _ & N' & [= <-] & KD & B & ->)].
  rewrite N in N'. injection N' as <-. rewrite NN in KD, B.
  cbn [add_query st_queries set_expr with_builders] in Q. rewrite nth_last in Q. injection Q as <-. cbn [q_expr] in C.
  destruct (one_column KW _ _ _ _ KD) as (DK & ND & IN).
  assert (BE : built true e) by exact (proj1 (map_expr_built _ true _ _ _ _ _ (fun _ => eq_refl) B (inv_builders _ _ I _ _ N))).
  destruct (compile_histogram R W K true so SO mu cat data HOLD MADE _ _ _ _ _ _ _ _ _ _ _ _ B BE D HF BT DK C) as (total & g & PL & GK & GO & CT).
  exists total, g, c, r. auto 10.
Qed.
(** groupby() groups by the keys it was given: a KeySet, one column, or columns in that order. *)
Theorem C42_groups_by_what_was_asked : forall st i keys st' b,
  step st (GroupBy i keys) = (st', Ok tt) -> nth_error (st_builders st) i = Some b ->
  exists g, nth_error (st_groups st') (length (st_groups st)) = Some g /\ gr_expr g = bu_expr b
    /\ gr_keys g = match keys with BySet cols rows => KSet cols rows | ByName c => KCols [c] | ByList l => KCols l end.
Proof.
  intros st i keys st' b H B. cbn [QueryBuilder.step] in H. rewrite (proj2 (object_ok _ _ _) B) in H. cbn [bind] in H.
  apply outcome_cases in H as [(H & _)|(e & _ & [=] & _)]. apply bind_ok in H as (g & G & H). injection H as <-.
  exists g. cbn [add_group st_groups]. rewrite nth_last. split; [reflexivity|]. unfold group_by in G.
  apply bind_ok in G as (u & _ & G). injection G as <-. split; reflexivity.
Qed.

(** get_groups() searches the columns asked for, or all but the ID column, and sees every row. *)
Theorem C42_get_groups_as_asked : forall R W K so mu cat data auto l i cols st' bu b q t cs meas,
  (forall l, Permutation (so l) l) -> constraints_hold cat data -> catalog_made cat ->
  step (run (init auto) l) (GetGroupsOf i cols) = (st', Ok tt) ->
  nth_error (st_builders (run (init auto) l)) i = Some bu ->
  nth_error (st_queries st') (length (st_queries (run (init auto) l))) = Some q ->
  holds_for W cat data false (bu_expr bu) ->
  build_transformation W false cat data (bu_expr bu) = Ok (t, cs) ->
  compile R W K true so mu cat data b (q_expr q) = Ok meas ->
  exists t' out s, schema_of (w_cond_ok W) cat (bu_expr bu) = Ok s /\ meas = MGroups t' out b
    /\ Permutation (v_rows t') (map (select_row out) (v_rows t))
    /\ match cols with
       | CStr c => out = [c]
       | CNone | CList [] => forall k, In k out <-> In k (dkeys (sc_cols s)) /\ sc_id s <> Some k
       | CList cs => out = cs
       end.
Proof.
  intros R W K so mu cat data auto l i cols st' bu b q t cs meas SO HOLD MADE H B Q HF T C. set (st := run (init auto) l) in *.
  assert (I : inv true st) by (apply run_inv; [apply init_inv; reflexivity|reflexivity]).
  cbn [QueryBuilder.step] in H. rewrite (proj2 (object_ok _ _ _) B) in H. cbn [bind post_init outcome] in H. injection H as <-.
  cbn [add_query st_queries] in Q. rewrite nth_last in Q. injection Q as <-. cbn [q_expr] in C.
  assert (BU : built true (GetGroups (bu_expr bu) (columns_of cols))) by (split; [reflexivity|exact (inv_builders _ _ I _ _ B)]).
  destruct (C46_groups_see_all_rows R W K true so mu cat data b _ _ _ t cs meas SO HOLD MADE (built_build _ _ BU) HF T C) as (t' & out & s & S & -> & P & A1 & A2).
  exists t', out, s. split; [exact S|]. split; [reflexivity|]. split; [exact P|].
  destruct cols as [|c|[|c cs']]; cbn [columns_of] in A1, A2; [exact (A2 eq_refl)|apply A1; discriminate|exact (A2 eq_refl)|apply A1; discriminate].
Qed.

(** suppress() drops the rows whose count is below the threshold, and nothing else: the column
    compared is the one the count is in, whatever its name. *)
Theorem C42_suppress_compares_the_count : forall R W K so mu cat data auto l i th st' q q' b meas,
  catalog_made cat ->
  step (run (init auto) l) (Suppress i th) = (st', Ok tt) ->
  nth_error (st_queries (run (init auto) l)) i = Some q ->
  nth_error (st_queries st') (length (st_queries (run (init auto) l))) = Some q' ->
  compile R W K true so mu cat data b (q_expr q') = Ok meas ->
  exists total p o, compile R W K true so mu cat data b (q_expr q) = Ok (MGroupBy total p)
    /\ g_agg p = ACount /\ g_outs p = [o]
    /\ privacy_loss K meas = privacy_loss K (MGroupBy total p)
    /\ forall t', run_measurement R K meas = Ok t' <->
         exists t keep, run_measurement R K (MGroupBy total p) = Ok t /\ t' = filter keep t
           /\ forall r, keep r = true <-> reaches th (getv o r).
Proof.
  intros R W K so mu cat data auto l i th st' q q' b meas MADE H Q Q' C. set (st := run (init auto) l) in *.
  assert (I : inv true st) by (apply run_inv; [apply init_inv; reflexivity|reflexivity]).
  cbn [QueryBuilder.step] in H. rewrite (proj2 (object_ok _ _ _) Q) in H. cbn [bind] in H.
  apply outcome_cases in H as [(H & _)|(e & _ & [=] & _)]. apply bind_ok in H as (q2 & S & H). injection H as <-.
  cbn [add_query st_queries] in Q'. rewrite nth_last in Q'. injection Q' as ->. pose proof (inv_queries _ _ I _ _ Q) as BQ.
  unfold suppress in S. apply bind_ok in S as (u & _ & S). destruct (q_expr q) eqn:E; try discriminate S.
  apply bind_ok in S as (e & P & S). injection S as <-. cbn [post_init is_groupby_count negb raise_if bind] in P. injection P as <-.
  cbn [q_expr] in C. destruct (C39_suppression_exact R W K true so mu cat data b _ _ _ meas C) as (m' & CM & PL & RUN).
  destruct (compile_plan R W K true so mu cat data MADE b _ m' BQ CM Logic.I) as (total & p & -> & PP). cbn [planned] in PP.
  destruct PP as (_ & GO & GA & _). eexists total, p, _. split; [exact CM|]. split; [exact GA|]. split; [exact GO|]. split; [exact PL|exact RUN].
Qed.

End Builders.

(** ** Histograms of a BinningSpec *)
Section Binned.
(** As in Props_Binning.v: any type of edges with Python's comparisons, any type of names. *)
Variables E N T : Type.
Variable P : Binning.pyorder E.
Variable N_eqb : N -> N -> bool.
Hypothesis N_eqb_eq : forall a b, N_eqb a b = true <-> a = b.
Variable T_eqb : T -> T -> bool.
Hypothesis T_eqb_eq : forall a b, T_eqb a b = true <-> a = b.
Variable edge_type : list E -> res T.
Variable names_type : list (option N) -> res T.
Variable type_of : N -> T.
Variable embed : string -> N.
Variable eas : list E -> res (list string).
Hypothesis eas_length : forall l es, eas l = Ok es -> length es = length l.
(** Cells as edges (a null is no edge) and names as cells, of one type. *)
Variable read : value -> option E.
Variable write : N -> value.
Variable ty : ctype.
Hypothesis write_inj : forall a b, write a = write b -> a = b.
Hypothesis write_not_null : forall a, write a <> VNull.
Hypothesis write_type : forall a, cell_ok {| cd_type := ty; cd_null := false; cd_nan := true; cd_inf := true |} (write a) = true.

Definition write_name (o : option N) : value := match o with Some n => write n | None => VNull end.
(** A BinningSpec as builders use it: __call__, bins(), column_descriptor
    (binning_spec.py 21-52, 290-336). *)
Definition binning_of (s : Binning.spec E N T) : binning :=
  let '(null, nan, inf) := Binning.column_descriptor N (fun n => is_nan (write n)) (fun n => is_inf (write n)) (Binning.names s) (Binning.nan_bin s) in
  {| bn_call := fun v => match Binning.call E N T P s (read v) with Ok nm => write_name nm | Err _ => VNull end;
     bn_bins := map write_name (Binning.bins E N T N_eqb s false);
     bn_desc := {| cd_type := ty; cd_null := null; cd_nan := nan; cd_inf := inf |} |}.
Notation construct := (Props_Binning.construct E N T P T_eqb edge_type names_type type_of embed eas).

Lemma binning_of_call s v : bn_call (binning_of s) v = match Binning.call E N T P s (read v) with Ok nm => write_name nm | Err _ => VNull end.
Proof. unfold binning_of. destruct (Binning.column_descriptor _ _ _ _ _) as [[? ?] ?]. reflexivity. Qed.
Lemma binning_of_bins s : bn_bins (binning_of s) = map write_name (Binning.bins E N T N_eqb s false).
Proof. unfold binning_of. destruct (Binning.column_descriptor _ _ _ _ _) as [[? ?] ?]. reflexivity. Qed.
Lemma binning_of_sound edges nms rgt both nb s : construct edges nms rgt both nb = Ok s ->
  forall v, cell_ok (nullable (bn_desc (binning_of s))) (bn_call (binning_of s) v) = true.
Proof.
  intros H v. rewrite binning_of_call. destruct (Binning.call E N T P s (read v)) as [nm|] eqn:C; [|reflexivity].
  pose proof (Props_Binning.C05_column_descriptor_sound E N T P T_eqb T_eqb_eq edge_type names_type type_of embed eas eas_length
    edges nms rgt both nb s (fun n => is_nan (write n)) (fun n => is_inf (write n)) (read v) nm H C) as D.
  unfold binning_of. destruct (Binning.column_descriptor _ _ _ _ _) as [[d1 d2] d3]. destruct D as (_ & D2 & D3). cbn [bn_desc].
  destruct nm as [n|]; [|reflexivity]. cbn [write_name]. pose proof (write_type n) as WT. pose proof (write_not_null n) as WN.
  specialize (D2 n eq_refl). specialize (D3 n eq_refl). destruct (write n) as [|z|f|x|d|d]; cbn in *; try exact WT; [congruence|].
  destruct ty, f; cbn in *; auto.
Qed.
Lemma covers_no_nan edges rgt both i v : BinningProofs.covers E P edges rgt both i v -> Binning.po_nan P v = false.
Proof.
  intros (a & b & _ & _ & H). destruct (Binning.po_nan P v) eqn:X; [|reflexivity].
  destruct (Binning.po_nan_l _ P v a X) as (_ & L2). destruct (Binning.po_nan_r _ P a v X) as (R1 & _).
  destruct rgt; destruct H as ([H|H] & _); try congruence. destruct H as (_ & _ & H). congruence.
Qed.

(** The row's value lies in an interval of this name, or is NaN and this is the NaN bin. *)
Definition falls_in (edges : list E) (rgt both : bool) (nb : option N) (s : Binning.spec E N T) (nm : N) (c : value) : Prop :=
  exists v, read c = Some v
    /\ ((exists i, BinningProofs.covers E P edges rgt both i v /\ nth_error (Binning.names s) i = Some (Some nm))
        \/ (Binning.po_nan P v = true /\ nb = Some nm)).
Lemma binned_iff edges nms rgt both nb s nm c : construct edges nms rgt both nb = Ok s ->
  bn_call (binning_of s) c = write nm <-> falls_in edges rgt both nb s nm c.
Proof.
  intros H. rewrite binning_of_call.
  destruct (Props_Binning.C05_null_and_nan E N T P T_eqb T_eqb_eq edge_type names_type type_of embed eas edges nms rgt both nb s H) as (CN & CNan).
  assert (WI : forall o, write_name o = write nm <-> o = Some nm).
  { intros [o|]; cbn [write_name]; split; intros X; try (injection X as ->; reflexivity); try discriminate X.
    - apply write_inj in X. congruence.
    - symmetry in X. destruct (write_not_null _ X). }
  unfold falls_in. destruct (read c) as [v|].
  2: { rewrite CN. rewrite WI. split; [discriminate|intros (v & [=] & _)]. }
  destruct (Binning.po_nan P v) eqn:X.
  - rewrite (CNan v X), WI. split.
    + intros ->. exists v. auto.
    + intros (v' & [= <-] & [(i & CV & _)|(_ & NB)]); [apply covers_no_nan in CV; congruence|exact NB].
  - destruct (Props_Binning.C05_binning_correct E N T P T_eqb T_eqb_eq edge_type names_type type_of embed eas eas_length edges nms rgt both nb s H v X)
      as [(i & nm' & CV & UN & NT & C)|(NC & C)]; rewrite C, WI.
    + split.
      * intros ->. exists v. split; [reflexivity|]. left. eauto.
      * intros (v' & [= <-] & [(j & CJ & NJ)|(Y & _)]); [|congruence]. apply UN in CJ. subst j. congruence.
    + split; [discriminate|]. intros (v' & [= <-] & [(j & CJ & NJ)|(Y & _)]); [destruct (NC _ CJ)|congruence].
Qed.

(** The groups are the names of the bins, each once.  The number that noise is added to, for
    a name, is the number of rows with a value in one of the intervals of that name, or NaN
    when that is the name of the NaN bin.  Rows with other values or null are in no group. *)
Theorem C42_histogram_counts_intervals : forall KW show R W K so mu cat data auto l st i column edges nms rgt both nb s name st' bld t cs b q meas,
  (forall l, Permutation (so l) l) -> constraints_hold cat data -> catalog_made cat ->
  construct edges nms rgt both nb = Ok s ->
  st = run KW show (init auto) l -> nth_error (st_builders st) i = Some bld ->
  step KW show st (Histogram i column (Ok (binning_of s)) name) = (st', Ok tt) ->
  nth_error (st_queries st') (length (st_queries st)) = Some q ->
  holds_for W cat data (asks_gaussian mu MDefault) (bu_expr bld) ->
  build_transformation W (asks_gaussian mu MDefault) cat data (bu_expr bld) = Ok (t, cs) ->
  compile R W K true so mu cat data b (q_expr q) = Ok meas ->
  let n := or_default name (column ++ "_binned") in
  exists total g cols rows, plan_of meas = Some (total, g) /\ g_outs g = ["count"]
    /\ g_keys g = KSet cols rows /\ NoDup rows
    /\ (forall key, In key rows <-> exists nm, (In nm (Binning.names s) \/ (nb <> None /\ nm = nb)) /\ key = [(n, write_name nm)])
    /\ forall nm inside, (forall row, inside row = true <-> falls_in edges rgt both nb s nm (getv column row)) ->
         counted g [(n, write nm)] = length (filter inside (v_rows t)).
Proof.
  intros KW show R W K so mu cat data auto l st i column edges nms rgt both nb s name st' bld t cs b q meas SO HOLD MADE CO ST N0 H Q HF BT C n.
  destruct (C42_histogram_counts_bins KW show R W K so mu cat data auto l st i column (binning_of s) name st' bld t cs b q meas
    SO HOLD MADE ST N0 H Q (binning_of_sound _ _ _ _ _ _ CO) HF BT C) as (total & g & cols & rows & PL & GO & GK & ND & IN & CT).
  exists total, g, cols, rows. do 4 (split; [assumption|]). split.
  - intros key. rewrite IN, binning_of_bins.
    destruct (Props_Binning.C06_bins_exact E N T P N_eqb N_eqb_eq T_eqb T_eqb_eq edge_type names_type type_of embed eas edges nms rgt both nb s CO) as (BX & _).
    split.
    + intros (v & I & ->). apply in_map_iff in I as (nm & <- & I). apply BX in I. exists nm. split; [|reflexivity].
      destruct I as [I|[I|([=] & _)]]; auto.
    + intros (nm & I & ->). exists (write_name nm). split; [|reflexivity]. apply in_map, BX. tauto.
  - intros nm inside IS. rewrite CT. f_equal. apply filter_ext. intros row. apply Bool.eq_iff_eq_true.
    rewrite value_eqb_eq, IS. apply (binned_iff _ _ _ _ _ _ _ _ CO).
Qed.
End Binned.
Print Assumptions C42_groups_by_what_was_asked.
Print Assumptions C42_get_groups_as_asked.
Print Assumptions C42_suppress_compares_the_count.
Print Assumptions C42_new_columns_allow_special_values.
Print Assumptions C42_other_objects_never_change.
Print Assumptions C42_only_own_calls_matter.
Print Assumptions C42_failed_calls_change_nothing.
Print Assumptions C42_changes_extend.
Print Assumptions C42_clone_is_a_copy.
Print Assumptions C42_queries_pass_the_checks.
Print Assumptions C42_aggregations_compute_what_was_asked.
Print Assumptions C42_total_is_groupby_nothing.
Print Assumptions C42_total_answers_one_row.
Print Assumptions C42_min_max_median_are_quantiles.
Print Assumptions C42_histogram_is_bin_group_count.
Print Assumptions C42_histogram_counts_bins.
Print Assumptions C42_histogram_counts_intervals.

(** ** Concrete cases *)
Definition KW0 := Props_KeySet.W0.
Definition show0 (x : Query.pynum) : string := match x with Query.PInt _ => "int" | Query.PFloat _ => "float" end.
Notation run0 := (run KW0 show0).
Notation step0 := (step KW0 show0).

(** Edges 0, 5, 10, 15 with the name "lo" twice. *)
Definition zread (v : value) : option Z := match v with VInt z => Some z | _ => None end.
Definition zconstruct := Props_Binning.construct Z string nat BinningProofs.Z_pyorder Nat.eqb (fun _ => Ok 0) (fun _ => Ok 1) (fun _ => 1)
  (fun s => s) (fun l => Ok (map (fun _ => "x") l)).
Definition zspec : Binning.spec Z string nat := Eval vm_compute in
  match zconstruct [0; 5; 10; 15]%Z (Some [Some "lo"; Some "mid"; Some "lo"]) true true None with
  | Ok s => s
  | Err _ => {| Binning.bin_edges := []; Binning.names := []; Binning.right := true; Binning.include_both := true;
                Binning.nan_bin := None; Binning.input_type := 0; Binning.name_type := 0 |} end.
Definition zbin : binning := binning_of Z string nat BinningProofs.Z_pyorder String.eqb zread VStr VARCHAR zspec.
Definition nums : schema := sch0 [("id", dsc VARCHAR false false false); ("n", dsc INTEGER true false false)] (Some "id").
Definition nrow (i : string) (v : value) : rec := [("id", VStr i); ("n", v)].
Definition nums_rows : table := [nrow "a" (VInt 0); nrow "a" (VInt 7); nrow "b" (VInt 5); nrow "c" (VInt 15); nrow "c" (VInt 16); nrow "d" VNull].
Definition nums_src := [("nums", nums, [MaxRowsPerID 2], nums_rows)].
Definition ncat := cat0 nums_src [].
Definition ndata := data0 nums_src.

(** Cloned, binned and counted; the clone is used afterwards, and a call in between fails. *)
Definition calls0 : list call :=
  [New "nums"; Clone 0; Change 0 (ChFilter "n > 1"); Change 7 (ChFilter "n > 1"); Total 1 (UMin "n" (Query.PInt 0) (Query.PInt 9) None);
   Histogram 1 "n" (Ok zbin) None].
Definition st0' : state := run0 (init false) calls0.
Example C42_case :
  map bu_expr (st_builders st0') = [Filter (PrivateSource "nums") "n > 1";
    match nth_error (st_builders st0') 1 with Some b => bu_expr b | None => PrivateSource "" end]
  /\ length (st_queries st0') = 2
  /\ (exists st', step0 (run0 (init false) [New "nums"]) (Change 0 (ChSelect (CStr "n"))) = (st', Ok tt))
  /\ (exists e, step0 st0' (Change 7 (ChFilter "n > 1")) = (st0', Err e))
  /\ (exists st', step0 (run0 (init true) [New "nums"; GroupBy 0 (ByName "id")]) (Aggregate 0 (UCountDistinct (CStr "n") None (MechName "gaussian"))) = (st', Ok tt)
        /\ option_map q_expr (nth_error (st_queries st') 0)
           = Some (GroupByCountDistinct (PrivateSource "nums") (KCols ["id"]) ["n"] "count_distinct(n)" MGaussian None)
        /\ answer_columns show0 (UCountDistinct (CStr "n") None (MechName "gaussian")) = ["count_distinct(n)"]
        /\ gaussian_asked PureDP (UCountDistinct (CStr "n") None (MechName "gaussian"))).
Proof.
  split; [vm_compute; reflexivity|]. split; [vm_compute; reflexivity|]. split; [eexists; vm_compute; reflexivity|].
  split; [eexists; vm_compute; reflexivity|]. eexists. split; [vm_compute; reflexivity|]. split; [vm_compute; reflexivity|].
  split; [reflexivity|]. left. reflexivity.
Qed.

(** Two new columns, one with a type only. *)
Example C42_new_columns_case : exists st' e,
  step0 (run0 (init false) [New "nums"]) (Change 0 (ChFlatMap (fun _ => []) [("k", RType VARCHAR)] true true (Some 2%Z))) = (st', Ok tt)
  /\ option_map bu_expr (nth_error (st_builders st') 0) = Some e
  /\ e = FlatMap (PrivateSource "nums") (fun _ => []) {| sc_cols := [("k", dsc VARCHAR true true true)]; sc_group := Some "k"; sc_id := None; sc_space := None |} true (Some 2%Z).
Proof. eexists _, _. split; [vm_compute; reflexivity|]. split; [vm_compute; reflexivity|]. reflexivity. Qed.

(** The minimum of the table: one row. *)
Example C42_total_case :
  exists q meas v, nth_error (st_queries st0') 0 = Some q
    /\ compile exact_rounding W0 K0 true idl PureDP ncat ndata (Pure (XFin 1)) (q_expr q) = Ok meas
    /\ run_measurement exact_rounding K0 meas = Ok [[("n_min", v)]].
Proof. eexists _, _, _. split; [vm_compute; reflexivity|]. split; vm_compute; reflexivity. Qed.

(** The histogram: all hypotheses of the two theorems hold, and "lo" has 3 rows, "mid" 1. *)
Lemma nums_holds : holds_for W0 ncat ndata false (PrivateSource "nums").
Proof. split; [apply inputs0_ok; vm_compute; reflexivity|]. repeat split. Qed.
Lemma nums_constraints : constraints_hold ncat ndata.
Proof. apply constraints0. vm_compute. reflexivity. Qed.
Lemma nums_made : catalog_made ncat.
Proof.
  intros n s cs H. unfold ncat, nums_src, cat0 in H. cbn [cat_private map dget fst snd] in H.
  destruct (String.eqb n "nums"); [|discriminate H]. injection H as <- <-. reflexivity.
Qed.
Example C42_histogram_case :
  constraints_hold ncat ndata /\ catalog_made ncat
  /\ zconstruct [0; 5; 10; 15]%Z (Some [Some "lo"; Some "mid"; Some "lo"]) true true None = Ok zspec
  /\ (forall v, cell_ok (nullable (bn_desc zbin)) (bn_call zbin v) = true)
  /\ holds_for W0 ncat ndata (asks_gaussian PureDP MDefault) (PrivateSource "nums")
  /\ (exists t cs, build_transformation W0 false ncat ndata (PrivateSource "nums") = Ok (t, cs) /\ v_rows t = nums_rows)
  /\ exists st' q meas total g, step0 (run0 (init false) [New "nums"]) (Histogram 0 "n" (Ok zbin) None) = (st', Ok tt)
       /\ nth_error (st_queries st') 0 = Some q
       /\ compile exact_rounding W0 K0 true idl PureDP ncat ndata (Pure (XFin 1)) (q_expr q) = Ok meas
       /\ plan_of meas = Some (total, g)
       /\ map (counted g) [[("n_binned", VStr "lo")]; [("n_binned", VStr "mid")]] = [3; 1]
       /\ run_measurement exact_rounding K0 meas
          = Ok [[("n_binned", VStr "lo"); ("count", VInt 3)]; [("n_binned", VStr "mid"); ("count", VInt 1)]].
Proof.
  split; [exact nums_constraints|]. split; [exact nums_made|]. split; [vm_compute; reflexivity|]. split.
  { refine (binning_of_sound Z string nat BinningProofs.Z_pyorder String.eqb Nat.eqb Nat.eqb_eq (fun _ => Ok 0) (fun _ => Ok 1) (fun _ => 1)
      (fun s => s) (fun l => Ok (map (fun _ => "x") l)) _ zread VStr VARCHAR _ _ [0; 5; 10; 15]%Z (Some [Some "lo"; Some "mid"; Some "lo"]) true true None zspec _).
    - intros l es [= <-]. apply map_length.
    - discriminate.
    - reflexivity.
    - vm_compute. reflexivity. }
  split; [exact nums_holds|]. split; [eexists _, _; split; vm_compute; reflexivity|].
  eexists _, _, _, _, _. split; [vm_compute; reflexivity|]. split; [vm_compute; reflexivity|]. split; [vm_compute; reflexivity|].
  split; [reflexivity|]. split; vm_compute; reflexivity.
Qed.

(** Searching for groups, grouping by columns, and counts under another name with suppression. *)
Example C42_more_calls_case :
  let st := run0 (init true) [New "nums"; GroupBy 0 (ByList ["id"; "n"]); GroupBy 0 (BySet [("id", dsc VARCHAR true false false)] [[("id", VStr "a")]; [("id", VStr "z")]]);
                              Aggregate 1 (UCount (Some "how_many") (MechName "Laplace"))] in
  map gr_keys (st_groups st) = [KCols ["id"; "n"]; KSet [("id", dsc VARCHAR true false false)] [[("id", VStr "a")]; [("id", VStr "z")]]]
  /\ (exists st' q meas, step0 st (GetGroupsOf 0 (CStr "n")) = (st', Ok tt) /\ nth_error (st_queries st') 1 = Some q
        /\ compile exact_rounding W0 K0 true idl ApproxDP ncat ndata (Approx (XFin 1) (XFin (1 # 10))) (q_expr q) = Ok meas
        /\ match meas with MGroups t out _ => out = ["n"] /\ length (v_rows t) = length nums_rows | _ => False end)
  /\ (exists st' q meas, step0 st (Suppress 0 (Query.PInt 1)) = (st', Ok tt) /\ nth_error (st_queries st') 1 = Some q
        /\ compile exact_rounding W0 K0 true idl PureDP ncat ndata (Pure (XFin 1)) (q_expr q) = Ok meas
        /\ exists r, run_measurement exact_rounding K0 meas = Ok [r] /\ getv "id" r = VStr "a" /\ getv "how_many" r <> VNull).
Proof.
  cbv zeta. split; [vm_compute; reflexivity|]. split; [eexists _, _, _|eexists _, _, _].
  - split; [vm_compute; reflexivity|]. split; [vm_compute; reflexivity|]. split; [vm_compute; reflexivity|]. vm_compute. auto.
  - split; [vm_compute; reflexivity|]. split; [vm_compute; reflexivity|]. split; [vm_compute; reflexivity|].
    eexists. split; [vm_compute; reflexivity|]. split; [reflexivity|discriminate].
Qed.

(** ** What does not hold *)

(** Making a query does not leave the builder as it was: after a histogram the builder stands
    for the binned table, and the same call again makes a query that every session refuses
    because the new column already exists. *)
Theorem C42_histogram_keeps_builder_refuted : exists KW show l column s b1 b2 q1 q2 W cat,
  let st := run KW show (init false) l in
  let st1 := run KW show st [Histogram 0 column (Ok s) None] in
  let st2 := run KW show st1 [Histogram 0 column (Ok s) None] in
  nth_error (st_builders st) 0 = Some b1 /\ nth_error (st_builders st1) 0 = Some b2 /\ bu_expr b1 <> bu_expr b2
  /\ nth_error (st_queries st1) 0 = Some q1 /\ nth_error (st_queries st2) 1 = Some q2
  /\ (exists s1, schema_of (w_cond_ok W) cat (q_expr q1) = Ok s1)
  /\ schema_of (w_cond_ok W) cat (q_expr q2) = Err ValueError.
Proof.
  exists KW0, show0, [New "nums"], "n", zbin. eexists _, _, _, _. exists W0, ncat.
  split; [vm_compute; reflexivity|]. split; [vm_compute; reflexivity|]. split; [discriminate|].
  split; [vm_compute; reflexivity|]. split; [vm_compute; reflexivity|]. split; [eexists|]; vm_compute; reflexivity.
Qed.
Print Assumptions C42_histogram_keeps_builder_refuted.

(** A column given as a string instead of a list is that column for select, drop_null_and_nan,
    get_groups and others, but join_columns="id" joins on the columns "i" and "d". *)
Theorem C42_column_as_string_refuted : exists KW show st1 st2 st3,
  step KW show (run KW show (init false) [New "nums"]) (Change 0 (ChSelect (CStr "id"))) = (st1, Ok tt)
  /\ step KW show (run KW show (init false) [New "nums"]) (Change 0 (ChSelect (CList ["id"]))) = (st1, Ok tt)
  /\ step KW show (run KW show (init false) [New "nums"]) (Change 0 (ChJoinPublic (PubName "p") (SString "id") "inner")) = (st2, Ok tt)
  /\ step KW show (run KW show (init false) [New "nums"]) (Change 0 (ChJoinPublic (PubName "p") (SList ["id"]) "inner")) = (st3, Ok tt)
  /\ map bu_expr (st_builders st2) = [JoinPublic (PrivateSource "nums") (PubName "p") (Some ["i"; "d"]) "inner"]
  /\ map bu_expr (st_builders st3) = [JoinPublic (PrivateSource "nums") (PubName "p") (Some ["id"]) "inner"].
Proof. exists KW0, show0. eexists _, _, _. repeat (split; [vm_compute; reflexivity|]). vm_compute. reflexivity. Qed.
Print Assumptions C42_column_as_string_refuted.

(** Leaving out the calls on builder 0 does not change builder 1, its clone. *)
Definition mine1 (i : nat) : bool := i =? 1.
Definition keep1 (c : call) : bool := match c with Change b _ | Histogram b _ _ _ => mine1 b | _ => false end.
Definition more0 : list call :=
  [Change 0 (ChSelect (CStr "id")); Change 1 (ChJoinPrivate (inl 1) None None SNone); Total 0 (UCount None (Mech MDefault)); Change 1 (ChFilter "n > 3")].
Example C42_own_calls_case :
  let st := run0 (init false) [New "nums"; Clone 0] in
  (forall i, mine1 i = true -> i < length (st_builders st))
  /\ (forall c, keep1 c = true <-> exists i, mine1 i = true /\ on_builder i c)
  /\ (forall c j, In c more0 -> keep1 c = true -> reads_builder j c -> mine1 j = true)
  /\ filter keep1 more0 = [Change 1 (ChJoinPrivate (inl 1) None None SNone); Change 1 (ChFilter "n > 3")]
  /\ option_map bu_expr (nth_error (st_builders (run0 st more0)) 1)
     = Some (Filter (JoinPrivate (PrivateSource "nums") (PrivateSource "nums") None None None) "n > 3").
Proof.
  split; [intros i H; apply Nat.eqb_eq in H; subst; vm_compute; lia|]. split.
  { intros c. split.
    - destruct c; cbn [keep1]; try discriminate; intros M; exists b; (split; [exact M|]); [left|right]; eauto.
    - intros (i & M & [(ch & ->)|(k & s & n & ->)]); exact M. }
  split.
  { intros c j I K (i & tl & tr & o & ->). repeat (destruct I as [I|I]; [try discriminate I|]); [|destruct I]. injection I as <- <- <- <- <-. reflexivity. }
  split; [reflexivity|vm_compute; reflexivity].
Qed.
