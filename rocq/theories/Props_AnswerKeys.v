(** Property C65: a grouped aggregation answers once for each key of its KeySet.
    The KeySet is given by the program that builds it (KeySetApi.v: [kexpr], [kcols], [kden]);
    the query holds what that program evaluates to ([erase_keys], QueryEq.v). *)
From Coq Require Import String Bool Arith ZArith QArith Qcanon Lia Permutation List.
From Verif Require KeySet KeySetSem KeySetApi KeySetSchema KeySetSchemaApi Props_KeySet Props_KeySetSchema.
From Verif Require Import Prelude Budget Value Rows Constraints ConstraintsSpec ConstraintsProofs
  Schema SchemaProofs Query Rewrite RewriteSpec RewriteProofs Transform TransformSpec TransformVisit QueryProofs QueryAccept QueryEq
  Session Measure MeasureProofs MeasureCount MeasureRows Props_Query Props_Rewrite Props_Session Props_Measure AnswerSchema Props_AnswerSchema AnswerKeys.
Import ListNotations.
Local Open Scope string_scope.
Local Open Scope nat_scope.

(** The query [q] groups by the KeySet that the program [e] builds. *)
Definition grouped_by_program (KW : KeySet.world) (e : KeySetApi.kexpr) (q : query) : Prop :=
  exists ks k c, KeySetApi.eval KW e = Ok ks /\ erase_keys KW (XSet ks) = Ok k /\ grouped_by q = Some (c, k).

Lemma cells_of_answer cols (rows t : table) (F : rec -> rec) :
  (forall r, In r rows -> dkeys r = cols) -> t = map (fun key => (key ++ F key)%list) rows -> cells_in cols t = cells_in cols rows.
Proof.
  intros DK ->. unfold cells_in. rewrite map_map. apply map_ext_in. intros r I. apply map_ext_in. intros c J.
  apply getv_app_in. rewrite (DK r I). exact J.
Qed.
Lemma answered KW D e q R W K auto so mu cat data b m t :
  KeySetApi.usable KW D e -> KeySetApi.concrete e = true -> catalog_made cat -> built auto q -> grouped_by_program KW e q ->
  compile R W K auto so mu cat data b q = Ok m -> run_measurement R K m = Ok t ->
  exists ks s rows, KeySetApi.eval KW e = Ok ks /\ erase_keys KW (XSet ks) = Ok (KSet s rows)
    /\ (KeySetApi.kcols e = [] -> length t = 1)
    /\ (KeySetApi.kcols e <> [] -> cells_in (KeySetApi.kcols e) t = cells_in (KeySetApi.kcols e) rows
          /\ NoDup (cells_in (KeySetApi.kcols e) rows)
          /\ (forall key, In (map key (KeySetApi.kcols e)) (cells_in (KeySetApi.kcols e) rows) <-> KeySetApi.kden KW D e key)).
Proof.
  intros U C CAT B (ks & k & c & E & X & G) CM RUN. destruct (query_keys KW D e ks k U C E X) as (s & rows & -> & SK & SN & RK & KEYS).
  exists ks, s, rows. split; [exact E|]. split; [exact X|].
  destruct (keyed_rows R W K auto so mu cat data CAT b q c s rows m t B G CM RUN) as (g & _ & _ & T). rewrite SK in T.
  split; intros Z.
  - rewrite Z in T. rewrite T. reflexivity.
  - destruct (KEYS Z) as (K1 & K2). split; [|split; assumption].
    destruct (KeySetApi.kcols e) as [|c0 cl] eqn:EC; [congruence|]. rewrite <- EC in *. exact (cells_of_answer _ rows t _ RK T).
Qed.

(** For every key the KeySet documents the answer has one row, and it has no other rows:
    whatever the data, the budget, the noise and the kind of aggregation. *)
Theorem C65_one_row_per_key : forall KW D e R W K auto so mu cat data b q0 q m t,
  KeySetApi.usable KW D e -> KeySetApi.concrete e = true -> KeySetApi.kcols e <> [] ->
  catalog_made cat -> build auto q0 = Ok q -> grouped_by_program KW e q ->
  compile R W K auto so mu cat data b q = Ok m -> run_measurement R K m = Ok t ->
  NoDup (cells_in (KeySetApi.kcols e) t)
  /\ forall key, In (map key (KeySetApi.kcols e)) (cells_in (KeySetApi.kcols e) t) <-> KeySetApi.kden KW D e key.
Proof.
  intros KW D e R W K auto so mu cat data b q0 q m t U C NE CAT B G CM RUN.
  destruct (answered KW D e q R W K auto so mu cat data b m t U C CAT (build_built _ _ _ B) G CM RUN) as (ks & s & rows & _ & _ & _ & A).
  destruct (A NE) as (-> & N & KD). split; assumption.
Qed.
Print Assumptions C65_one_row_per_key.

(** A KeySet without columns, too, is answered with one row: that of all rows together. *)
Theorem C65_one_row_without_columns : forall KW D e R W K auto so mu cat data b q0 q m t,
  KeySetApi.usable KW D e -> KeySetApi.concrete e = true -> KeySetApi.kcols e = [] ->
  catalog_made cat -> build auto q0 = Ok q -> grouped_by_program KW e q ->
  compile R W K auto so mu cat data b q = Ok m -> run_measurement R K m = Ok t ->
  exists r, t = [r].
Proof.
  intros KW D e R W K auto so mu cat data b q0 q m t U C NE CAT B G CM RUN.
  destruct (answered KW D e q R W K auto so mu cat data b m t U C CAT (build_built _ _ _ B) G CM RUN) as (ks & s & rows & _ & _ & A & _).
  specialize (A NE). destruct t as [|r [|r' t]]; try discriminate A. eauto.
Qed.
Print Assumptions C65_one_row_without_columns.

(** Where small answers are suppressed, some of these rows are missing; there is still at most
    one for each key, and none for anything else. *)
Theorem C65_suppressed_keys : forall KW D e R W K auto so mu cat data b q0 q m t,
  KeySetApi.usable KW D e -> KeySetApi.concrete e = true -> KeySetApi.kcols e <> [] ->
  catalog_made cat -> build auto q0 = Ok q -> grouped_by_program KW e (unsuppressed q) ->
  compile R W K auto so mu cat data b q = Ok m -> run_measurement R K m = Ok t ->
  NoDup (cells_in (KeySetApi.kcols e) t)
  /\ forall key, In (map key (KeySetApi.kcols e)) (cells_in (KeySetApi.kcols e) t) -> KeySetApi.kden KW D e key.
Proof.
  intros KW D e R W K auto so mu cat data b q0 q m t U C NE CAT B G CM RUN. apply build_built in B.
  destruct (suppressed_rows R W K auto so mu cat data b q m CM t RUN) as (m' & t' & keep & CM' & RUN' & ->).
  destruct (answered KW D e _ R W K auto so mu cat data b m' t' U C CAT (unsuppressed_built _ _ B) G CM' RUN') as (ks & s & rows & _ & _ & _ & A).
  destruct (A NE) as (E & N & KD). rewrite <- E in N, KD. split.
  - clear - N. induction t' as [|r t IH]; [constructor|]. unfold cells_in in *. cbn [map] in N. inversion N as [|? ? NI ND]; subst.
    cbn [filter]. destruct (keep r); [|apply IH, ND]. cbn [map]. constructor; [|apply IH, ND].
    intros J. apply NI. apply in_map_iff in J as (r' & J & I). apply filter_In in I as (I & _). apply in_map_iff. eauto.
  - intros key J. apply KD. unfold cells_in in *. apply in_map_iff in J as (r' & J & I). apply filter_In in I as (I & _). apply in_map_iff. eauto.
Qed.
Print Assumptions C65_suppressed_keys.

(** The keys of the answer tell nothing: two answers, from different data, with different
    budgets, privacy definitions and noise, to different aggregations over the same KeySet,
    have the same keys. *)
Theorem C65_keys_do_not_depend_on_data : forall KW D e
    R W K auto so mu cat data b q0 q m t  R' W' K' auto' so' mu' cat' data' b' q0' q' m' t',
  KeySetApi.usable KW D e -> KeySetApi.concrete e = true -> KeySetApi.kcols e <> [] ->
  catalog_made cat -> build auto q0 = Ok q -> grouped_by_program KW e q ->
  compile R W K auto so mu cat data b q = Ok m -> run_measurement R K m = Ok t ->
  catalog_made cat' -> build auto' q0' = Ok q' -> grouped_by_program KW e q' ->
  compile R' W' K' auto' so' mu' cat' data' b' q' = Ok m' -> run_measurement R' K' m' = Ok t' ->
  cells_in (KeySetApi.kcols e) t = cells_in (KeySetApi.kcols e) t'.
Proof.
  intros KW D e R W K auto so mu cat data b q0 q m t  R' W' K' auto' so' mu' cat' data' b' q0' q' m' t' U C NE CAT B G CM RUN CAT' B' G' CM' RUN'.
  destruct (answered KW D e q R W K auto so mu cat data b m t U C CAT (build_built _ _ _ B) G CM RUN) as (ks & s & rows & E & X & _ & A).
  destruct (answered KW D e q' R' W' K' auto' so' mu' cat' data' b' m' t' U C CAT' (build_built _ _ _ B') G' CM' RUN') as (ks' & s' & rows' & E' & X' & _ & A').
  rewrite E in E'. injection E' as <-. rewrite X in X'. injection X' as <- <-.
  destruct (A NE) as (-> & _). destruct (A' NE) as (-> & _). reflexivity.
Qed.
Print Assumptions C65_keys_do_not_depend_on_data.

(** A KeySet conforms to its own schema and lists its columns in the same order, which C62
    assumes: so the answer has the announced columns, in the announced order. *)
Theorem C65_answer_has_announced_columns : forall KW D e R W K auto so mu cat data b q0 q ks k c s sc m t,
  KeySetApi.usable KW D e -> KeySetApi.concrete e = true -> KeySetSchemaApi.frames_fit KW e ->
  KeySetApi.eval KW e = Ok ks -> erase_keys KW (XSet ks) = Ok k -> grouped_by (unsuppressed q) = Some (c, k) ->
  catalog_made cat -> build auto q0 = Ok q ->
  inputs_ok (query_l2 mu (unsuppressed q)) cat data -> promises W (query_l2 mu (unsuppressed q)) cat data c -> answers_as_typed K ->
  schema_of (w_cond_ok W) cat c = Ok sc -> keys_allowed k sc ->
  NoDup (KeySetApi.kcols e ++ output_names (unsuppressed q))%list ->
  schema_of (w_cond_ok W) cat q = Ok s -> compile R W K auto so mu cat data b q = Ok m -> run_measurement R K m = Ok t ->
  conforms (sc_cols s) t
  /\ forall r, In r t -> dkeys r = (KeySetApi.kcols e ++ output_names (unsuppressed q))%list.
Proof.
  intros KW D e R W K auto so mu cat data b q0 q ks k c s sc m t U C FF E X G CAT B IN PR KT SC KA ND S CM RUN.
  pose proof (keys_declared KW D e ks k U C FF E X) as KD.
  destruct (query_keys KW D e ks k U C E X) as (sk & rows & -> & SK & SN & RK & _). pose proof ND as ND'. rewrite <- SK in ND'.
  destruct (C62_answer_has_announced_columns R W K auto so mu cat data b q0 q c (KSet sk rows) s sc m t CAT B G IN PR KT KD SC KA ND' S CM RUN) as (A1 & A2).
  split; [exact A1|]. intros r I. rewrite (A2 (fun r J => eq_trans (RK r J) (eq_sym SK)) r I).
  assert (S' : schema_of (w_cond_ok W) cat (unsuppressed q) = Ok s).
  { clear - S. revert s S. induction q; cbn [unsuppressed]; intros s S; try exact S. apply IHq. exact S. }
  destruct (announced (w_cond_ok W) cat _ c _ s G S') as (? & ? & _ & _ & _ & _ & _ & _ & _ & ORD). rewrite (ORD ND'). cbn [keys_columns]. rewrite SK. reflexivity.
Qed.
Print Assumptions C65_answer_has_announced_columns.

(** ** A case: counting and summing over two keys, one of which the table does not have; the
    KeySet names one of them twice. *)
Definition two : KeySetApi.kexpr :=
  KeySetApi.ESub (KeySetApi.ETuples [[VStr "x"]; [VStr "z"]; [VStr "x"]; [VStr "y"]] ["grp"]) (KeySetApi.ETuples [[VStr "y"]] ["grp"]).
Definition two_keys : gkeys := KSet [("grp", dsc VARCHAR false false false)] [[("grp", VStr "z")]; [("grp", VStr "x")]].
Definition two_count : query := GroupByCount (PrivateSource "people") two_keys "n" MDefault None.
Definition two_sum : query := GroupByBounded BSum (PrivateSource "people") two_keys "x" (Query.PInt 0) (Query.PInt 10) "total" MDefault None.
Example C65_case :
  KeySetApi.usable Props_KeySet.W0 Props_KeySet.D0 two /\ KeySetApi.concrete two = true /\ KeySetSchemaApi.frames_fit Props_KeySet.W0 two
  /\ grouped_by_program Props_KeySet.W0 two two_count /\ grouped_by_program Props_KeySet.W0 two two_sum
  /\ grouped_by_program Props_KeySet.W0 two (unsuppressed (SuppressAggregates two_count "n" (Query.PInt 1)))
  /\ build true two_count = Ok two_count /\ build true two_sum = Ok two_sum /\ catalog_made pcat /\ keys_allowed two_keys people
  /\ answer PureDP (Pure (XFin 1)) two_count = Ok [[("grp", VStr "z"); ("n", VInt 0)]; [("grp", VStr "x"); ("n", VInt 2)]]
  /\ answer PureDP (Pure (XFin 1)) two_sum
     = Ok [[("grp", VStr "z"); ("total", VFloat (z_to_f 0))]; [("grp", VStr "x"); ("total", VFloat (z_to_f 1))]]
  /\ answer PureDP (Pure (XFin 1)) (SuppressAggregates two_count "n" (Query.PInt 1)) = Ok [[("grp", VStr "x"); ("n", VInt 2)]].
Proof.
  assert (G : exists ks, KeySetApi.eval Props_KeySet.W0 two = Ok ks /\ erase_keys Props_KeySet.W0 (XSet ks) = Ok two_keys).
  { eexists. split; [vm_compute; reflexivity|]. vm_compute. reflexivity. }
  destruct G as (ks & E & X).
  split; [|split; [reflexivity|split; [split; exact I|]]].
  2: split; [exists ks, two_keys, (PrivateSource "people"); repeat split; assumption|].
  2: split; [exists ks, two_keys, (PrivateSource "people"); repeat split; assumption|].
  2: split; [exists ks, two_keys, (PrivateSource "people"); repeat split; assumption|].
  2: split; [reflexivity|split; [reflexivity|split; [exact pcat_made|]]].
  2: split; [|repeat split; vm_compute; reflexivity].
  - vm_compute. intuition discriminate.
  - intros c d d' A B. cbn in A, B. destruct (String.eqb_spec c "grp") as [->|N]; [|discriminate]. injection A as <-. injection B as <-. repeat split; auto.
Qed.
