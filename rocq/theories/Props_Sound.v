(** Properties C49 and C50: sessions describe their tables correctly, whatever happened before. *)
From Coq Require Import String Bool Arith ZArith QArith Lia Permutation List.
From Verif Require Import Prelude Budget BudgetProofs Value Rows Constraints ConstraintsSpec ConstraintsProofs Schema SchemaProofs Query Transform TransformSpec
  TransformConform TransformVisit TransformAgree QueryProofs QuerySame PropagateProofs Tables TablesProofs
  Accountant AccountantProofs Session SessionSpec SessionMoney SessionSteps SessionTables SessionInv SessionViews SessionWell SessionNames
  Neighboring NeighboringSpec NeighboringProofs Builder BuilderProofs BuilderTree BuilderBuild BuilderCalls BuilderSpec BuilderNeighbours SessionSound
  Props_Query Props_Session.
Import ListNotations.
Local Open Scope string_scope.
Local Open Scope nat_scope.

(** ** Histories *)

(** [st] is a state some calls on a session built by [calls] lead to.  Users are honest:
    frames are what their Spark schemas say, and view definitions keep the promises of
    TransformSpec ([honest false]); with [honest true] they also avoid the two patterns of
    C15_default_replacement_refuted and C15_private_join_refuted. *)
Definition honest_state (strict : bool) (E : env) (st : state) : Prop :=
  exists calls o l, ~ In Build calls /\ build_by E calls = Ok o
    /\ (forall n f c, In (n, (f, c)) (privates calls) -> frame_conforms f) /\ (forall n f, In (n, f) (publics calls) -> frame_conforms f)
    /\ honest E strict (o_state o) l /\ st = run E (o_state o) l.
(** As above, but frames may hold anything; view definitions need only be well-formed. *)
Definition any_state (E : env) (st : state) : Prop :=
  exists calls o l, ~ In Build calls /\ build_by E calls = Ok o /\ Forall proper l /\ st = run E (o_state o) l.

Lemma any_state_facts E st : any_state E st -> all_sessions tables_ok st /\ all_sessions fine st /\ readable_public st.
Proof.
  intros (calls & o & l & NB & B & P & ->). destruct (start_sound E false calls o NB B) as (O & T & F & R & _).
  split; [apply run_tables; assumption|]. split; [apply run_fine; assumption|apply run_readable; assumption].
Qed.
Lemma honest_any strict E st : honest_state strict E st -> any_state E st.
Proof. intros (calls & o & l & NB & B & _ & _ & H & ->). exists calls, o, l. split; [exact NB|]. split; [exact B|]. split; [eapply honest_proper, H|reflexivity]. Qed.
Lemma honest_facts strict E st : honest_state strict E st -> all_sessions (sound strict) st /\ sound_public st.
Proof.
  intros (calls & o & l & NB & B & FP & FU & H & ->). destruct (start_sound E strict calls o NB B) as (O & T & F & R & S). destruct (S FP FU) as (S1 & S2). apply run_sound; assumption.
Qed.

(** ** C49 *)

(** Every table a session lists can be described, and so can the whole session: no history
    of calls leaves a session whose catalog cannot be computed. *)
Theorem C49_always_describable : forall E st p s, any_state E st -> session st p s ->
  (exists cat data, catalog_of (s_tree s) (st_public st) (s_cons s) = Ok cat /\ data_of (s_tree s) = Ok data)
  /\ forall names n, private_sources (s_tree s) = Ok names -> In n names ->
       exists t cols g i sp, table_named (s_tree s) n = Ok t /\ get_schema (s_tree s) (st_public st) n = Ok cols
         /\ get_grouping_column (s_tree s) (st_public st) n = Ok g /\ get_id_column (s_tree s) (st_public st) n = Ok i
         /\ get_id_space (s_tree s) (st_public st) n = Ok sp.
Proof.
  intros E st p s A S. destruct (any_state_facts E st A) as (T & F & R). split; [apply (catalogs_exist st s (T p s S) (F p s S) R)|].
  intros names n PS I. pose proof (tk_layout s (T p s S)) as L. apply smem_In in I. apply (mem_names _ _ n L PS), in_dkeys in I as (t & G). exists t.
  rewrite (table_named_spec _ n L), G, (get_schema_spec _ _ n t L G), (get_grouping_spec _ _ n t L G), (get_id_column_spec _ _ n t L G), (get_id_space_spec _ _ n t L G).
  destruct (core_to_analytics_total (v_dom t)) as (cols & C). rewrite C. exists cols. eauto 10.
Qed.
Print Assumptions C49_always_describable.

(** Every private table conforms to the schema the session reports for it: each row has
    exactly the reported columns, with cells of the reported types, null, NaN or infinite only
    where reported; the ID or grouping column is one of the columns, and there is at most one. *)
Theorem C49_tables_match_their_schemas : forall E st p s n t, honest_state false E st -> session st p s -> table_named (s_tree s) n = Ok t ->
  exists cols g i, get_schema (s_tree s) (st_public st) n = Ok cols
    /\ get_grouping_column (s_tree s) (st_public st) n = Ok g /\ get_id_column (s_tree s) (st_public st) n = Ok i
    /\ NoDup (dkeys cols) /\ conforms cols (v_rows t)
    /\ (forall c, g = Some c \/ i = Some c -> In c (dkeys cols)) /\ (g = None \/ i = None).
Proof.
  intros E st p s n t H S TN. destruct (any_state_facts E st (honest_any _ _ _ H)) as (T & F & R). destruct (honest_facts _ _ _ H) as (SO & SP).
  pose proof (tk_layout s (T p s S)) as L. rewrite (table_named_spec _ n L) in TN. destruct (dget n (named (s_tree s))) as [t'|] eqn:G; [|discriminate]. injection TN as ->.
  destruct (F p s S n t G) as (ND & sc & TS). destruct (table_schema_ok t sc TS) as (CO & GR & ID & _). pose proof (table_schema_nodup t sc ND TS) as NS.
  destruct (SO p s S n t G) as ([SR SM] & _). pose proof TS as TS'. unfold table_schema in TS'. apply bind_ok in TS' as (cols & HC & TS'). pose proof (mk_fine _ _ _ _ _ TS') as (_ & FC).
  apply mk_schema_ok in TS' as (_ & _ & _ & ->). cbn [sc_cols sc_group sc_id] in *.
  exists cols, (grouping_column (v_place t)), (id_column (v_place t)). rewrite (get_schema_spec _ _ n t L G), (get_grouping_spec _ _ n t L G), (get_id_column_spec _ _ n t L G).
  split; [exact HC|]. split; [reflexivity|]. split; [reflexivity|]. split; [exact NS|]. split; [|split; [exact FC|destruct (v_place t); cbn; auto]].
  assert (SE : same_entries (v_dom t) (analytics_to_core {| sc_cols := cols; sc_group := None; sc_id := None; sc_space := None |})) by (intros k; rewrite <- CO; reflexivity).
  exact (in_domain_conforms _ _ _ SE SR).
Qed.
Print Assumptions C49_tables_match_their_schemas.
(** The same for public tables. *)
Theorem C49_public_tables_match_their_schemas : forall E st p s n f names, honest_state false E st -> session st p s ->
  dget n (st_public st) = Some f -> private_sources (s_tree s) = Ok names -> ~ In n names ->
  exists cols, get_schema (s_tree s) (st_public st) n = Ok cols /\ NoDup (dkeys cols) /\ conforms cols (frame_rows f).
Proof.
  intros E st p s n f names H S G PS NI. destruct (any_state_facts E st (honest_any _ _ _ H)) as (T & F & R). destruct (honest_facts _ _ _ H) as (SO & SP).
  pose proof (tk_layout s (T p s S)) as L. apply dget_In in G as I. destruct (SP n f I) as (C & (N & FC)). destruct (coerced_columns f C) as (d & D & _). exists d.
  assert (GN : dget n (named (s_tree s)) = None).
  { destruct (dget n (named (s_tree s))) eqn:GN; [|reflexivity]. exfalso. apply NI. apply smem_In, (mem_names _ _ n L PS), in_dkeys. eauto. }
  unfold get_schema. rewrite (find_reference_named _ n L), GN. cbn [option_map]. rewrite G. split; [exact D|]. split; [|exact (FC d D)].
  unfold spark_schema_to_analytics_columns in D. apply bind_ok in D as (l & _ & D). injection D as <-. apply NoDup_dict_of.
Qed.
Print Assumptions C49_public_tables_match_their_schemas.

(** What a query stands for conforms to the schema reported for the query, in every session
    of every history: the premises of C19 are met by what the session passes on. *)
Theorem C49_queries_match_their_schemas : forall E st p s cat data auto q0 q sc t cs, honest_state false E st -> session st p s ->
  catalog_of (s_tree s) (st_public st) (s_cons s) = Ok cat -> data_of (s_tree s) = Ok data ->
  Query.build auto q0 = Ok q -> promises (e_world E) (is_rho (s_left s)) cat data q ->
  has_schema E st s q sc -> stands_for E st s q (t, cs) ->
  NoDup (dkeys (sc_cols sc)) /\ conforms (sc_cols sc) (v_rows t) /\ metric_for (is_rho (s_left s)) sc (v_place t).
Proof.
  intros E st p s cat data auto q0 q sc t cs H S CA DA B P (cat1 & CA1 & SC) (cat2 & data2 & CA2 & DA2 & BT). rewrite CA in CA1, CA2. injection CA1 as <-. injection CA2 as <-. rewrite DA in DA2. injection DA2 as <-.
  destruct (any_state_facts E st (honest_any _ _ _ H)) as (T & F & R). destruct (honest_facts _ _ _ H) as (SO & SP).
  destruct (sound_inputs false st s cat data (T p s S) (F p s S) (SO p s S) SP CA DA) as (IN & _).
  destruct (C19_schema_describes_data _ _ _ _ auto q0 q sc t cs IN B P SC BT) as (A1 & A2 & A3 & _). auto.
Qed.
Print Assumptions C49_queries_match_their_schemas.

(** ** C50 *)

(** Every constraint a session has recorded for a table with IDs holds of it, in every
    session of every strictly honest history.  Partial: without strictness it is false, see
    C50_recorded_constraints_hold_refuted below. *)
Theorem C50_recorded_constraints_hold_partial : forall E st p s n t i cs, honest_state true E st -> session st p s ->
  table_named (s_tree s) n = Ok t -> v_place t = PKeys i -> dget n (s_cons s) = Some cs -> satisfies_all i cs (v_rows t).
Proof.
  intros E st p s n t i cs H S TN P HC. destruct (any_state_facts E st (honest_any _ _ _ H)) as (T & _). destruct (honest_facts _ _ _ H) as (SO & _).
  rewrite (table_named_spec _ n (tk_layout s (T p s S))) in TN. destruct (dget n (named (s_tree s))) as [t'|] eqn:G; [|discriminate]. injection TN as ->.
  destruct (SO p s S n t G) as (_ & OB). exact (proj1 (OB eq_refl cs HC i P)).
Qed.
Print Assumptions C50_recorded_constraints_hold_partial.
(** And so does every constraint derived for a query. *)
Theorem C50_derived_constraints_hold_partial : forall E st p s cat data auto q0 q t i cs, honest_state true E st -> session st p s ->
  catalog_of (s_tree s) (st_public st) (s_cons s) = Ok cat -> data_of (s_tree s) = Ok data ->
  Query.build auto q0 = Ok q -> promises (e_world E) (is_rho (s_left s)) cat data q ->
  finite_ids (e_world E) (is_rho (s_left s)) cat data q -> trackable (e_world E) (is_rho (s_left s)) cat data q ->
  stands_for E st s q (t, cs) -> v_place t = PKeys i -> satisfies_all i cs (v_rows t).
Proof.
  intros E st p s cat data auto q0 q t i cs H S CA DA B P FI TR (cat2 & data2 & CA2 & DA2 & BT) PI. rewrite CA in CA2. injection CA2 as <-. rewrite DA in DA2. injection DA2 as <-.
  destruct (any_state_facts E st (honest_any _ _ _ H)) as (T & F & R). destruct (honest_facts _ _ _ H) as (SO & SP).
  destruct (sound_inputs true st s cat data (T p s S) (F p s S) (SO p s S) SP CA DA) as (IN & HO).
  apply build_transformation_ok in BT as (sc & SC & V & _). eapply C15_recorded_constraints_hold_partial; try eassumption. exact (HO eq_refl).
Qed.
Print Assumptions C50_derived_constraints_hold_partial.

(** ** Examples *)
Lemma frame_check f cols : NoDup (map sf_name (sd_fields f)) -> spark_schema_to_analytics_columns (sd_fields f) = Ok cols ->
  forallb (row_conformsb cols) (frame_rows f) = true -> frame_conforms f.
Proof.
  intros N S H. split; [exact N|]. intros cols' S'. rewrite S in S'. injection S' as <-. intros r I. rewrite forallb_forall in H. apply row_conformsb_ok, H, I.
Qed.
Definition fl (n : string) (t : sparktype) (null : bool) : sfield := {| sf_name := n; sf_type := t; sf_nullable := null |}.
Definition trips : sframe := {| sd_fields := [fl "id" IntegerT true; fl "city" StringT true; fl "cost" FloatT true];
  sd_rows := [[VInt 1; VStr "a"; VNull]; [VInt 1; VNull; VFloat FNan]; [VInt 2; VStr "b"; VFloat FPInf]; [VInt 1; VStr ""; VFloat (z_to_f 3)]; [VNull; VStr "a"; VNull]] |}.
Definition codes : sframe := {| sd_fields := [fl "city" StringT false; fl "code" IntegerT true]; sd_rows := [[VStr "a"; VInt 1]; [VStr "c"; VNull]] |}.
Lemma trips_conform : frame_conforms trips.
Proof. eapply frame_check; [repeat constructor; cbn; intuition discriminate|reflexivity|vm_compute; reflexivity]. Qed.
Lemma codes_conform : frame_conforms codes.
Proof. eapply frame_check; [repeat constructor; cbn; intuition discriminate|reflexivity|vm_compute; reflexivity]. Qed.
Definition trips_calls : list bcall :=
  [WithBudget (Zcdp (XFin 4)); WithPrivate "trips" trips (AddRowsWithID "id" "people"); WithPublic "codes" codes; WithPrivate "log" codes (AddMaxRowsInMaxGroups "city" 1 2)].
(** A single ID space need not be declared if there is one private table only; here there are two. *)
Definition trips_calls' : list bcall := WithIdSpace "people" :: trips_calls.
Definition trips_state : state := match build_by E0 trips_calls' with Ok o => o_state o | Err _ => st0 (Pure (XFin 0)) end.
Definition few : query := EnforceConstraint (PrivateSource "trips") (MaxGroupsPerID "city" 2).
Definition trips_plan : list op :=
  [CreateView [] few "few" false; AddPublic [] "more" codes; CreateView [] (JoinPublic (PrivateSource "few") (PubName "more") None "inner") "coded" true;
   Partition [] "few" (Zcdp (XFin 1)) "city" [("as", VStr "a"); ("bs", VStr "b")]; CreateView [(0, 0)] (Filter (PrivateSource "as") "cost > 0") "dear" false].
Ltac source_views := split; [repeat split; try exact I; discriminate|]; intros; exists false; repeat split; try reflexivity; try exact I; try discriminate.
Lemma trips_honest : honest_state true E0 (run E0 trips_state trips_plan).
Proof.
  exists trips_calls'. assert (B : exists o, build_by E0 trips_calls' = Ok o) by (eexists; vm_compute; reflexivity). destruct B as (o & B).
  exists o, trips_plan. split; [cbn; intuition discriminate|]. split; [exact B|]. split; [|split; [|split]].
  - cbn. intros n f c [H|[H|[]]]; injection H as <- <- <-; [apply trips_conform|apply codes_conform].
  - cbn. intros n f [H|[]]; injection H as <- <-. apply codes_conform.
  - unfold trips_plan. cbn [honest honest_op]. split; [source_views|]. split; [apply codes_conform|]. split; [source_views|]. split; [exact I|]. split; [source_views|exact I].
  - unfold trips_state. rewrite B. reflexivity.
Qed.
Example C49_case : exists s s1 t1, honest_state true E0 (run E0 trips_state trips_plan)
  /\ session (run E0 trips_state trips_plan) [] s /\ session (run E0 trips_state trips_plan) [(0, 0)] s1
  /\ private_sources (s_tree s) = Ok ["coded"; "few"; "trips"; "log"] /\ private_sources (s_tree s1) = Ok ["dear"; "as"]
  /\ dget "few" (s_cons s) = Some [MaxGroupsPerID "city" 2] /\ table_named (s_tree s) "few" = Ok t1 /\ length (v_rows t1) = 4.
Proof.
  eexists _, _, _. split; [exact trips_honest|]. split; [eexists; split; [vm_compute; reflexivity|reflexivity]|]. split; [eexists; split; [vm_compute; reflexivity|reflexivity]|].
  split; [vm_compute; reflexivity|]. split; [vm_compute; reflexivity|]. split; [vm_compute; reflexivity|]. split; [vm_compute; reflexivity|vm_compute; reflexivity].
Qed.

(** Without strictness recorded constraints can be false: two views, the second replacing
    nulls by default, leave a session that records at most one row per person and city for a
    table with two such rows (session-level form of C15_default_replacement_refuted). *)
Definition merging_plan : list op :=
  [CreateView [] (EnforceConstraint (PrivateSource "trips") (MaxRowsPerGroupPerID "city" 1)) "one" false;
   CreateView [] (ReplaceNullAndNan (PrivateSource "one") []) "merged" false].
Theorem C50_recorded_constraints_hold_refuted : exists E st p s n t i cs, honest_state false E st /\ session st p s
  /\ table_named (s_tree s) n = Ok t /\ v_place t = PKeys i /\ dget n (s_cons s) = Some cs /\ ~ satisfies_all i cs (v_rows t).
Proof.
  exists E0, (run E0 trips_state merging_plan), []. eexists _, "merged", _, "id", _. split; [|split; [|split; [|split; [|split]]]].
  - exists trips_calls'. assert (B : exists o, build_by E0 trips_calls' = Ok o) by (eexists; vm_compute; reflexivity). destruct B as (o & B).
    exists o, merging_plan. split; [cbn; intuition discriminate|]. split; [exact B|]. split; [|split; [|split]].
    + cbn. intros n f c [H|[H|[]]]; injection H as <- <- <-; [apply trips_conform|apply codes_conform].
    + cbn. intros n f [H|[]]; injection H as <- <-. apply codes_conform.
    + unfold merging_plan. cbn [honest honest_op]. split; [source_views|]. split; [|exact I]. split; [cbn; repeat split; constructor|]. intros s cat data _ _ _. exists false.
      split; [split; [reflexivity|split; reflexivity]|]. split; [|discriminate]. cbn [promises]. split; [exact I|]. split; [constructor|]. intros t cs k v d _ [].
    + unfold trips_state. rewrite B. reflexivity.
  - eexists; split; [vm_compute; reflexivity|reflexivity].
  - vm_compute; reflexivity.
  - reflexivity.
  - vm_compute; reflexivity.
  - intros S. specialize (S (MaxRowsPerGroupPerID "city" 1) (or_introl eq_refl) (VInt 1) (VStr "")). vm_compute in S. lia.
Qed.
Print Assumptions C50_recorded_constraints_hold_refuted.
