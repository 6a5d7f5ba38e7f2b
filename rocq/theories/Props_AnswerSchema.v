(** Property C62: the columns that are announced for a query are those of its answer. *)
From Coq Require Import String Bool Arith ZArith QArith Qcanon Lia Permutation List.
From Verif Require Import Prelude Budget BudgetProofs BudgetScale Value Rows Constraints ConstraintsSpec ConstraintsProofs
  Schema SchemaProofs Query Rewrite RewriteSpec RewriteProofs Transform TransformSpec TransformVisit QueryProofs QueryAccept
  Session Measure MeasureProofs MeasureCount MeasureRows Props_Query Props_Rewrite Props_Session Props_Measure AnswerSchema.
Import ListNotations.
Local Open Scope string_scope.
Local Open Scope nat_scope.

(** ** What is announced *)

(** The schema of a grouped aggregation: the key columns as they are in the table, then the
    columns named in the query, of the documented type and without nulls, NaNs or infinities;
    nothing else, and no ID or grouping column. *)
Theorem C62_announced_columns : forall cond_ok cat q c k s',
  grouped_by q = Some (c, k) -> schema_of cond_ok cat q = Ok s' ->
  exists s t, schema_of cond_ok cat c = Ok s /\ output_type_is s q t /\ sc_group s' = None /\ sc_id s' = None
    /\ (forall n, In n (output_names q) -> dget n (sc_cols s') = Some (never_special t))
    /\ (forall n, In n (keys_columns k) -> ~ In n (output_names q) -> dget n (sc_cols s') = dget n (sc_cols s) /\ has_column s n)
    /\ (forall n, ~ In n (keys_columns k) -> ~ In n (output_names q) -> dget n (sc_cols s') = None)
    /\ (NoDup (keys_columns k ++ output_names q)%list -> dkeys (sc_cols s') = (keys_columns k ++ output_names q)%list).
Proof. exact announced. Qed.
Print Assumptions C62_announced_columns.

(** The schema of the groups of a table: the columns asked for as they are in the table, or
    all but the ID column if none are given. *)
Theorem C62_announced_groups : forall W cat c cols s,
  schema_of (w_cond_ok W) cat (GetGroups c cols) = Ok s ->
  exists sc, schema_of (w_cond_ok W) cat c = Ok sc /\ sc_group s = None /\ sc_id s = None
    /\ (cols = [] -> (forall n, sc_id sc = Some n -> dget n (sc_cols s) = None)
          /\ (forall n, sc_id sc <> Some n -> dget n (sc_cols s) = dget n (sc_cols sc)))
    /\ (cols <> [] -> (forall n, In n cols -> has_column sc n /\ dget n (sc_cols s) = dget n (sc_cols sc))
          /\ (forall n, ~ In n cols -> dget n (sc_cols s) = None) /\ (NoDup cols -> dkeys (sc_cols s) = cols)).
Proof.
  intros W cat c cols s H. destruct (groups_schema W cat c cols s H) as (sc & S & G & I & A & B). exists sc. split; [exact S|]. split; [exact G|]. split; [exact I|].
  split.
  - intros E. destruct (A E) as (X & _). split; intros n N; rewrite X; unfold is_col.
    + rewrite N. rewrite String.eqb_refl. reflexivity.
    + destruct (sc_id sc) as [i|]; [|reflexivity]. destruct (String.eqb_spec n i) as [->|?]; [congruence|reflexivity].
  - intros E. destruct (B E) as (X & Y & Z). split; [|split; [|exact Z]].
    + intros n J. split; [apply Y, J|]. rewrite X. apply smem_In in J. rewrite J. reflexivity.
    + intros n J. rewrite X. apply smem_false in J. rewrite J. reflexivity.
Qed.
Print Assumptions C62_announced_groups.

(** A grouped aggregation of a table is accepted exactly when its keys are columns of the
    table of the same types, a grouping column is among them, the measure column (if there is
    one) is a column of numbers that is neither a key nor the ID column, and no output column
    has the empty name. *)
Theorem C62_accepted_exactly : forall cond_ok cat q c k s,
  catalog_made cat -> grouped_by q = Some (c, k) -> schema_of cond_ok cat c = Ok s ->
  (exists s', schema_of cond_ok cat q = Ok s') <->
  key_types_agree k s /\ (forall g, sc_group s = Some g -> In g (keys_columns k))
  /\ (forall me, measure_of q = Some (c, me) ->
        ~ In me (keys_columns k) /\ sc_id s <> Some me /\ (column_type s me INTEGER \/ column_type s me DECIMAL))
  /\ ~ In "" (output_names q).
Proof. exact accepted_iff. Qed.
Print Assumptions C62_accepted_exactly.

(** ** What is returned *)

(** Whatever the data, the budget and the noise: every row of the answer to an accepted
    aggregation, suppressed or not, has exactly the announced columns, and each of its cells
    has the announced type and is null, NaN or infinite only where that is announced.  If the
    rows of the KeySet list their columns in the order of its schema, the answer lists its
    columns in the announced order.
    The hypotheses: the query was built by its constructors; data and user functions are what
    they claim to be (C19); tmlt.core returns numbers of the types it documents; the KeySet
    conforms to its own schema and allows in its columns only what the table allows; and no
    output column has the name of a key column or of another output column. *)
Theorem C62_answer_has_announced_columns : forall R W K auto so mu cat data b q0 q c k s sc m t,
  catalog_made cat -> build auto q0 = Ok q -> grouped_by (unsuppressed q) = Some (c, k) ->
  inputs_ok (query_l2 mu (unsuppressed q)) cat data -> promises W (query_l2 mu (unsuppressed q)) cat data c -> answers_as_typed K ->
  keys_as_declared k -> schema_of (w_cond_ok W) cat c = Ok sc -> keys_allowed k sc ->
  NoDup (keys_columns k ++ output_names (unsuppressed q))%list ->
  schema_of (w_cond_ok W) cat q = Ok s -> compile R W K auto so mu cat data b q = Ok m -> run_measurement R K m = Ok t ->
  conforms (sc_cols s) t
  /\ (match k with KSet _ rows => forall r, In r rows -> dkeys r = keys_columns k | KCols _ => True end ->
      forall r, In r t -> dkeys r = dkeys (sc_cols s)).
Proof.
  intros R W K auto so mu cat data b q0 q c k s sc m t CAT B. apply build_built in B. revert m t.
  induction q; intros me t G IN PR KT KD SC KA ND S C RUN;
    try (exact (grouped_answer R W K auto so mu cat data CAT b _ c k s sc me t B G IN PR KT KD SC KA ND S C RUN)).
  apply compile_suppress in C as (m' & C & ->). cbn [run_measurement] in RUN. apply bind_ok in RUN as (t' & RUN & E). injection E as <-.
  assert (BC : built auto q) by (eapply built_child; [exact B|left; reflexivity]).
  destruct (IHq BC m' t' G IN PR KT KD SC KA ND S C RUN) as (A1 & A2). split.
  - intros r I. apply filter_In in I as (I & _). exact (A1 r I).
  - intros O r I. apply filter_In in I as (I & _). exact (A2 O r I).
Qed.
Print Assumptions C62_answer_has_announced_columns.

(** The groups of a table, too. *)
Theorem C62_groups_have_announced_columns : forall R W K auto so mu cat data b q0 c cols s m t,
  catalog_made cat -> build auto q0 = Ok (GetGroups c cols) -> NoDup cols ->
  inputs_ok false cat data -> promises W false cat data c -> answers_as_typed K ->
  schema_of (w_cond_ok W) cat (GetGroups c cols) = Ok s ->
  compile R W K auto so mu cat data b (GetGroups c cols) = Ok m -> run_measurement R K m = Ok t ->
  conforms (sc_cols s) t /\ forall r, In r t -> dkeys r = dkeys (sc_cols s).
Proof.
  intros R W K auto so mu cat data b q0 c cols s m t CAT B ND IN PR KT S C RUN.
  pose proof (groups_answer R W K auto so mu cat data CAT b c cols s m t (build_built _ _ _ B) ND IN PR KT S C RUN) as A.
  split; intros r I; apply (A r I).
Qed.
Print Assumptions C62_groups_have_announced_columns.

(** ** Cases *)

(** tmlt.core answers counts and sums with the number of rows, everything else with zeros,
    in the types it documents, and finds all groups. *)
Definition zero_of_type (t : ctype) (n : Z) : value := match t with INTEGER => VInt n | _ => VFloat (z_to_f n) end.
Definition type_of_answer (g : plan) : ctype :=
  match g_agg g with
  | ACount | ACountDistinct | ABounded BSum _ _ _ => match g_mech g with CGeometric | CDiscreteGaussian => INTEGER | _ => DECIMAL end
  | AQuantile _ _ _ _ | ABounded _ _ _ _ => DECIMAL
  | ABounds me => match dget me (v_dom (g_table g)) with Some (CInt _) => INTEGER | _ => DECIMAL end
  end.
Definition K1 : core :=
  {| k_builds := fun _ => Ok tt; k_groups_builds := fun _ _ => Ok tt; k_groups_loss := fun _ b => b;
     k_select := fun _ t => t;
     k_answer := fun g _ t => map (fun _ => zero_of_type (type_of_answer g) (Z.of_nat (length t))) (g_outs g) |}.
Lemma K1_typed : answers_as_typed K1.
Proof.
  split; [intros b t r I; exact I|]. intros g key rows t T. cbn [k_answer K1].
  assert (X : type_of_answer g = t /\ (t = INTEGER \/ t = DECIMAL)).
  { unfold answer_type, type_of_answer in *. destruct (g_agg g) as [| | |kd|me]; [destruct (g_mech g); auto|destruct (g_mech g); auto|auto|destruct kd; [destruct (g_mech g)|..]; auto|].
    destruct T as (d & -> & D). destruct d; cbn in D; try discriminate; injection D as <-; auto. }
  destruct X as (-> & X). induction (g_outs g) as [|o l IH]; cbn [map]; constructor; [|exact IH]. destruct X as [-> | ->]; reflexivity.
Qed.
Definition sum_q : query := GroupByBounded BSum (PrivateSource "people") grp_keys "x" (Query.PInt 0) (Query.PInt 10) "total" MDefault None.
Definition bounds_q : query := GetBounds (PrivateSource "people") grp_keys "x" "low" "high".

Definition suppressed_q : query := SuppressAggregates (count_q (KCols ["grp"])) "n" (Query.PInt 1).
Definition answer (mu : measure) (b : budget) (q : query) : res table :=
  let* m := compile exact_rounding W0 K1 true idl mu pcat pdata b q in run_measurement exact_rounding K1 m.
Example C62_case :
  catalog_made pcat /\ answers_as_typed K1 /\ keys_as_declared grp_keys /\ keys_allowed grp_keys people
  /\ (forall l2, inputs_ok l2 pcat pdata /\ promises W0 l2 pcat pdata (PrivateSource "people"))
  /\ schema_of (w_cond_ok W0) pcat (PrivateSource "people") = Ok people
  (* a sum with known keys *)
  /\ build true sum_q = Ok sum_q /\ NoDup (keys_columns grp_keys ++ output_names sum_q)%list
  /\ (exists s, schema_of (w_cond_ok W0) pcat sum_q = Ok s
        /\ sc_cols s = [("grp", dsc VARCHAR true false false); ("total", dsc DECIMAL false false false)])
  /\ answer PureDP (Pure (XFin 1)) sum_q
     = Ok [[("grp", VStr "x"); ("total", VFloat (z_to_f 1))]; [("grp", VStr "z"); ("total", VFloat (z_to_f 0))]]
  (* a count with keys that are found, small counts suppressed *)
  /\ build true suppressed_q = Ok suppressed_q
  /\ (exists s, schema_of (w_cond_ok W0) pcat suppressed_q = Ok s
        /\ sc_cols s = [("grp", dsc VARCHAR true false false); ("n", dsc INTEGER false false false)])
  /\ (exists r rows, answer ApproxDP (Approx (XFin 1) (XFin (1 # 4))) suppressed_q = Ok (r :: rows)
        /\ r = [("grp", VNull); ("n", VInt 1)])
  (* bounds *)
  /\ build true bounds_q = Ok bounds_q
  /\ (exists r rows, answer PureDP (Pure (XFin 1)) bounds_q = Ok (r :: rows) /\ dkeys r = ["grp"; "low"; "high"])
  (* groups *)
  /\ (exists r rows, answer ApproxDP (Approx (XFin 1) (XFin (1 # 4))) (GetGroups (PrivateSource "people") []) = Ok (r :: rows) /\ dkeys r = ["grp"; "x"]).
Proof.
  split; [exact pcat_made|]. split; [exact K1_typed|]. split; [|split; [|split; [|split; [reflexivity|]]]].
  - split; [repeat constructor; intros []|]. intros r [<-|[<-|[]]]; apply row_conformsb_ok; reflexivity.
  - intros c d d' A B. cbn in A, B. destruct (String.eqb_spec c "grp") as [->|N]; [|discriminate]. injection A as <-. injection B as <-. repeat split; auto.
  - intros l2. split; [apply (proj1 (people_holds l2))|exact I].
  - split; [reflexivity|]. split; [repeat constructor; cbn; intuition discriminate|].
    split; [eexists; split; [vm_compute; reflexivity|reflexivity]|]. split; [vm_compute; reflexivity|]. split; [reflexivity|].
    split; [eexists; split; [vm_compute; reflexivity|reflexivity]|].
    split; [eexists _, _; split; [vm_compute; reflexivity|reflexivity]|]. split; [reflexivity|].
    split; eexists _, _; (split; [vm_compute; reflexivity|reflexivity]).
Qed.

(** Two things the schema does not see, hence the hypotheses on names and keys.  An output
    column with the name of a key column is accepted: the announced schema then has one
    column where the answer of the model has two.  A KeySet with nulls in a column that has
    none in the table is accepted too: the announced schema says the column has no nulls,
    while its keys are reported.  (tmlt.core may refuse either; its checks are not part of
    the model.) *)
Definition same_name_q : query := GroupByCount (PrivateSource "people") grp_keys "grp" MDefault None.
Definition id_keys : gkeys := KSet [("id", dsc VARCHAR true false false)] [[("id", VNull)]].
Definition null_key_q : query := GroupByCount (PrivateSource "people") id_keys "n" MDefault None.
Theorem C62_schema_overlooks_refuted : exists K cat data q1 q2 s1 s2 t1 t2,
  answers_as_typed K /\ build true q1 = Ok q1 /\ build true q2 = Ok q2
  /\ schema_of (w_cond_ok W0) cat q1 = Ok s1 /\ schema_of (w_cond_ok W0) cat q2 = Ok s2
  /\ (exists m1 m2, compile exact_rounding W0 K true idl PureDP cat data (Pure (XFin 1)) q1 = Ok m1 /\ run_measurement exact_rounding K m1 = Ok t1
        /\ compile exact_rounding W0 K true idl PureDP cat data (Pure (XFin 1)) q2 = Ok m2 /\ run_measurement exact_rounding K m2 = Ok t2)
  /\ length (dkeys (sc_cols s1)) = 1 /\ (exists r, In r t1 /\ length r = 2)
  /\ (exists d, dget "id" (sc_cols s2) = Some d /\ cd_null d = false) /\ (exists r, In r t2 /\ getv "id" r = VNull).
Proof.
  exists K1, pcat, pdata, same_name_q, null_key_q. eexists _, _, _, _. split; [exact K1_typed|]. split; [reflexivity|]. split; [reflexivity|].
  split; [vm_compute; reflexivity|]. split; [vm_compute; reflexivity|].
  split; [eexists _, _; split; [vm_compute; reflexivity|]; split; [vm_compute; reflexivity|]; split; [vm_compute; reflexivity|vm_compute; reflexivity]|].
  split; [reflexivity|]. split; [eexists; split; [left; reflexivity|reflexivity]|].
  split; [eexists; split; reflexivity|]. eexists. split; [left; reflexivity|reflexivity].
Qed.
Print Assumptions C62_schema_overlooks_refuted.
