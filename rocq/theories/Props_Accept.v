(** Property C44: an operation is accepted on a table exactly when it fits the table. *)
From Coq Require Import String Bool Arith ZArith QArith Qcanon Lia Permutation List.
From Verif Require Import Prelude Value Rows Constraints ConstraintsSpec Schema SchemaProofs
  Query Transform TransformSpec QueryProofs Props_Query RewriteSpec RewriteProofs QueryAccept Props_Rewrite.
Import ListNotations.
Local Open Scope string_scope.
Local Open Scope nat_scope.

Section Accepted.
Variable cond_ok : string -> list sfield -> bool.
Variable cat : catalog.
Hypothesis CAT : catalog_made cat.
Notation sch := (schema_of cond_ok cat).
(** The schema check accepts the query. *)
Definition accepted (q : query) : Prop := exists s, sch q = Ok s.
Variables (c : query) (s : schema).
Hypothesis S : sch c = Ok s.
Let M : made s := sch_made cond_ok cat CAT c s S.

(** Selecting: the columns exist and neither the ID column nor the grouping column is left
    out. *)
Lemma select_accepted cols : NoDup cols ->
  accepted (Select c cols) <-> (forall x, In x cols -> has_column s x) /\ (forall x, protected s x -> In x cols).
Proof. intros N. unfold accepted. cbn [schema_of]. rewrite S. exact (select_accepts cols s M N). Qed.
(** Renaming: the columns exist, and the new name is not that of another column. *)
Lemma rename_accepted m : (forall p, In p m -> snd p <> "") ->
  accepted (Rename c m) <-> forall old new, In (old, new) m -> has_column s old /\ (new = old \/ ~ has_column s new).
Proof. intros N. unfold accepted. cbn [schema_of]. rewrite S. exact (rename_accepts m s M N). Qed.
Lemma rename_one_to_one m s' : NoDup (dkeys (sc_cols s)) -> NoDup (dkeys m) -> NoDup (map snd m) -> sch (Rename c m) = Ok s' ->
  dkeys (sc_cols s') = map (renamed m) (dkeys (sc_cols s)) /\ NoDup (dkeys (sc_cols s'))
  /\ forall x d, dget x (sc_cols s) = Some d -> dget (renamed m x) (sc_cols s') = Some d.
Proof. intros N1 N2 N3 H. cbn [schema_of] in H. rewrite S in H. exact (rename_columns m s s' M N1 N2 N3 H). Qed.
(** Dropping or replacing special values: the columns exist, are neither the ID column nor
    the grouping column, and have the right type. *)
Lemma drop_null_accepted cols : accepted (DropNullAndNan c cols) <-> forall x, In x cols -> has_column s x /\ ~ protected s x.
Proof. unfold accepted. cbn [schema_of]. rewrite S. exact (drop_null_accepts cols s M). Qed.
Lemma drop_inf_accepted cols : accepted (DropInfinity c cols) <-> forall x, In x cols -> column_type s x DECIMAL /\ ~ protected s x.
Proof. unfold accepted. cbn [schema_of]. rewrite S. exact (drop_inf_accepts cols s M). Qed.
Lemma replace_inf_accepted rw : accepted (ReplaceInfinity c rw) <-> forall x b, In (x, b) rw -> column_type s x DECIMAL /\ ~ protected s x.
Proof. unfold accepted. cbn [schema_of]. rewrite S. exact (replace_inf_accepts rw s M). Qed.
Lemma replace_null_accepted rw : accepted (ReplaceNullAndNan c rw) <->
  forall x v, In (x, v) rw -> ~ protected s x /\ exists t, column_type s x t /\ value_suits v t.
Proof. unfold accepted. cbn [schema_of]. rewrite S. exact (replace_null_accepts rw s M). Qed.
(** Enforcing a constraint: the table has an ID column; the grouping column of the
    constraint exists and is another one. *)
Lemma enforce_accepted k : accepted (EnforceConstraint c k) <->
  exists i, sc_id s = Some i /\ forall g, grouping k = Some g -> has_column s g /\ g <> i.
Proof. unfold accepted. cbn [schema_of]. rewrite S. exact (enforce_accepts k s M). Qed.
(** Maps: augmenting maps bring new columns only; other maps are not for tables with an ID
    column or a grouping column. *)
Lemma map_accepted f new aug : made new -> NoDup (dkeys (sc_cols new)) ->
  accepted (MapQ c f new aug) <-> if aug then disjoint_columns s new else sc_group s = None /\ sc_id s = None.
Proof. intros N1 N2. unfold accepted. cbn [schema_of]. rewrite S. exact (map_accepts new aug s M N1 N2). Qed.
Lemma flat_map_accepted f new aug mr : made new -> NoDup (dkeys (sc_cols new)) ->
  accepted (FlatMap c f new aug mr) <->
  (sc_group new <> None -> sc_group s = None /\ sc_id s = None)
  /\ if aug then disjoint_columns s new else sc_group s = None /\ sc_id s = None.
Proof. intros N1 N2. unfold accepted. cbn [schema_of]. rewrite S. exact (flat_map_accepts new aug s M N1 N2). Qed.
Lemma flat_map_by_id_accepted f new : made new -> NoDup (dkeys (sc_cols new)) ->
  accepted (FlatMapByID c f new) <-> sc_group s = None /\ exists i, sc_id s = Some i /\ ~ has_column new i.
Proof. intros N1 N2. unfold accepted. cbn [schema_of]. rewrite S. exact (flat_map_by_id_accepts new s M N1 N2). Qed.
End Accepted.

(** The theorems, with everything spelled out. *)
Theorem C44_select : forall cond_ok cat c s cols, catalog_made cat -> schema_of cond_ok cat c = Ok s -> NoDup cols ->
  accepted cond_ok cat (Select c cols)
  <-> (forall x, In x cols -> has_column s x) /\ (forall x, protected s x -> In x cols).
Proof. intros cond_ok cat c s cols CAT S. exact (select_accepted cond_ok cat CAT c s S cols). Qed.
Print Assumptions C44_select.
Theorem C44_rename : forall cond_ok cat c s m, catalog_made cat -> schema_of cond_ok cat c = Ok s -> (forall p, In p m -> snd p <> "") ->
  accepted cond_ok cat (Rename c m)
  <-> forall old new, In (old, new) m -> has_column s old /\ (new = old \/ ~ has_column s new).
Proof. intros cond_ok cat c s m CAT S. exact (rename_accepted cond_ok cat CAT c s S m). Qed.
Print Assumptions C44_rename.
(** A rename with different new names is one-to-one: no column is lost. *)
Theorem C44_rename_one_to_one : forall cond_ok cat c s m s', catalog_made cat -> schema_of cond_ok cat c = Ok s ->
  NoDup (dkeys (sc_cols s)) -> NoDup (dkeys m) -> NoDup (map snd m) -> schema_of cond_ok cat (Rename c m) = Ok s' ->
  dkeys (sc_cols s') = map (renamed m) (dkeys (sc_cols s)) /\ NoDup (dkeys (sc_cols s'))
  /\ forall x d, dget x (sc_cols s) = Some d -> dget (renamed m x) (sc_cols s') = Some d.
Proof. intros cond_ok cat c s m s' CAT S. exact (rename_one_to_one cond_ok cat CAT c s S m s'). Qed.
Print Assumptions C44_rename_one_to_one.
(** If two columns get the same new name the query is accepted and one of them is lost. *)
Theorem C44_rename_loses_a_column_refuted : exists cat c s m s', catalog_made cat /\ schema_of (w_cond_ok W0) cat c = Ok s
  /\ NoDup (dkeys (sc_cols s)) /\ NoDup (dkeys m) /\ build false (Rename c m) = Ok (Rename c m)
  /\ schema_of (w_cond_ok W0) cat (Rename c m) = Ok s'
  /\ length (sc_cols s) = 3 /\ length (sc_cols s') = 2.
Proof.
  exists pcat, (PrivateSource "people"), people, [("grp", "new"); ("x", "new")]. eexists.
  split; [exact pcat_made|]. split; [reflexivity|]. split; [apply has_dup_NoDup; reflexivity|]. split; [apply has_dup_NoDup; reflexivity|].
  repeat split; vm_compute; reflexivity.
Qed.
Print Assumptions C44_rename_loses_a_column_refuted.
Theorem C44_special_values : forall cond_ok cat c s, catalog_made cat -> schema_of cond_ok cat c = Ok s ->
  (forall cols, accepted cond_ok cat (DropNullAndNan c cols) <-> forall x, In x cols -> has_column s x /\ ~ protected s x)
  /\ (forall cols, accepted cond_ok cat (DropInfinity c cols) <-> forall x, In x cols -> column_type s x DECIMAL /\ ~ protected s x)
  /\ (forall rw, accepted cond_ok cat (ReplaceInfinity c rw) <-> forall x b, In (x, b) rw -> column_type s x DECIMAL /\ ~ protected s x)
  /\ (forall rw, accepted cond_ok cat (ReplaceNullAndNan c rw) <->
        forall x v, In (x, v) rw -> ~ protected s x /\ exists t, column_type s x t /\ value_suits v t).
Proof.
  intros cond_ok cat c s CAT S. split; [exact (drop_null_accepted cond_ok cat CAT c s S)|]. split; [exact (drop_inf_accepted cond_ok cat CAT c s S)|].
  split; [exact (replace_inf_accepted cond_ok cat CAT c s S)|exact (replace_null_accepted cond_ok cat CAT c s S)].
Qed.
Print Assumptions C44_special_values.
Theorem C44_enforce : forall cond_ok cat c s k, catalog_made cat -> schema_of cond_ok cat c = Ok s ->
  accepted cond_ok cat (EnforceConstraint c k)
  <-> exists i, sc_id s = Some i /\ forall g, grouping k = Some g -> has_column s g /\ g <> i.
Proof. intros cond_ok cat c s k CAT S. exact (enforce_accepted cond_ok cat CAT c s S k). Qed.
Print Assumptions C44_enforce.
Theorem C44_maps : forall cond_ok cat c s, catalog_made cat -> schema_of cond_ok cat c = Ok s ->
  (forall f new aug, made new -> NoDup (dkeys (sc_cols new)) ->
     accepted cond_ok cat (MapQ c f new aug) <-> if aug then disjoint_columns s new else sc_group s = None /\ sc_id s = None)
  /\ (forall f new aug mr, made new -> NoDup (dkeys (sc_cols new)) ->
     accepted cond_ok cat (FlatMap c f new aug mr) <->
     (sc_group new <> None -> sc_group s = None /\ sc_id s = None)
     /\ if aug then disjoint_columns s new else sc_group s = None /\ sc_id s = None)
  /\ (forall f new, made new -> NoDup (dkeys (sc_cols new)) ->
     accepted cond_ok cat (FlatMapByID c f new) <-> sc_group s = None /\ exists i, sc_id s = Some i /\ ~ has_column new i).
Proof.
  intros cond_ok cat c s CAT S. split; [exact (map_accepted cond_ok cat CAT c s S)|]. split; [exact (flat_map_accepted cond_ok cat CAT c s S)|].
  exact (flat_map_by_id_accepted cond_ok cat CAT c s S).
Qed.
Print Assumptions C44_maps.
(** Aggregations: the keys are columns of the table, of the same types; a grouping column is
    among them; the measure column is a numeric column, neither a key nor the ID column. *)
Theorem C44_groupby : forall cond_ok cat q c s s' k m, catalog_made cat -> schema_of cond_ok cat c = Ok s ->
  ((exists qu lo hi o, q = GroupByQuantile c k m qu lo hi o) \/ (exists kd lo hi o me co, q = GroupByBounded kd c k m lo hi o me co)
   \/ exists a b, q = GetBounds c k m a b) ->
  schema_of cond_ok cat q = Ok s' ->
  key_types_agree k s /\ (forall g, sc_group s = Some g -> In g (keys_columns k))
  /\ ~ In m (keys_columns k) /\ sc_id s <> Some m /\ (column_type s m INTEGER \/ column_type s m DECIMAL).
Proof.
  intros cond_ok cat q c s s' k m CAT S Q H.
  assert (X : exists outs, groupby_schema k (Some m) outs s = Ok s').
  { destruct Q as [(qu & lo & hi & o & ->) | [(kd & lo & hi & o & me & co & ->) | (a & b & ->)]]; cbn [schema_of] in H; rewrite S in H; eexists; exact H. }
  destruct X as (outs & X). unfold groupby_schema in X. apply bind_ok in X as ([] & X & _).
  apply validate_accepts in X as (A & B & C). split; [exact A|]. split; [exact B|]. exact (C m eq_refl).
Qed.
Print Assumptions C44_groupby.

Example C44_case :
  catalog_made pcat /\ schema_of (w_cond_ok W0) pcat (PrivateSource "people") = Ok people
  /\ accepted (w_cond_ok W0) pcat (Select (PrivateSource "people") ["x"; "id"])
  /\ ~ accepted (w_cond_ok W0) pcat (Select (PrivateSource "people") ["x"; "grp"])
  /\ accepted (w_cond_ok W0) pcat (Rename (PrivateSource "people") [("x", "y"); ("grp", "grp")])
  /\ ~ accepted (w_cond_ok W0) pcat (Rename (PrivateSource "people") [("x", "grp")])
  /\ accepted (w_cond_ok W0) pcat (ReplaceNullAndNan (PrivateSource "people") [("x", VInt 3)])
  /\ ~ accepted (w_cond_ok W0) pcat (ReplaceNullAndNan (PrivateSource "people") [("x", VStr "3")])
  /\ ~ accepted (w_cond_ok W0) pcat (DropInfinity (PrivateSource "people") ["grp"])
  /\ ~ accepted (w_cond_ok W0) pcat (EnforceConstraint (PrivateSource "people") (MaxGroupsPerID "id" 3)).
Proof.
  split; [exact pcat_made|]. split; [reflexivity|].
  repeat match goal with |- _ /\ _ => split end;
    try (eexists; vm_compute; reflexivity); intros (x & H); vm_compute in H; discriminate H.
Qed.
