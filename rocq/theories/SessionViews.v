(** The catalog of a session, and what views do to it. *)
From Coq Require Import String Bool Arith ZArith QArith Lia Permutation List.
From Verif Require Import Prelude Budget Value Rows Constraints Schema SchemaProofs Query Transform TransformSpec
  TransformConform TransformVisit TransformAgree QueryProofs QuerySame Tables TablesProofs
  Accountant AccountantProofs Session SessionSpec SessionMoney SessionSteps SessionTables SessionInv.
Import ListNotations.
Local Open Scope string_scope.
Local Open Scope nat_scope.

(** ** Schemas of queries *)

(** Schemas whose special columns are columns, and whose columns have names. *)
Definition fine_schema (s : schema) : Prop :=
  ~ In "" (dkeys (sc_cols s)) /\ forall c, sc_group s = Some c \/ sc_id s = Some c -> In c (dkeys (sc_cols s)).
Lemma mk_fine d g i sp s : mk_schema d g i sp = Ok s -> fine_schema s.
Proof. intros H. apply mk_schema_ok in H as (A & B & C & ->). split; [exact A|]. cbn. intros c [G|G]; auto. Qed.

Ltac peel H :=
  repeat match type of H with
  | bind _ _ = Ok _ => let x := fresh "x" in let E := fresh "E" in apply bind_ok in H as (x & E & H)
  | Err _ = Ok _ => discriminate H
  | (let '(_, _) := ?x in _) = Ok _ => destruct x
  | (if ?b then _ else _) = Ok _ => let B := fresh "B" in destruct b eqn:B
  | match ?x with _ => _ end = Ok _ => let B := fresh "B" in destruct x eqn:B
  end.

Section Fine.
Variables (cond_ok : string -> list sfield -> bool) (cat : catalog).
Hypothesis FINE : forall n s cs, dget n (cat_private cat) = Some (s, cs) -> fine_schema s.
Lemma schema_fine q : forall s, schema_of cond_ok cat q = Ok s -> fine_schema s.
Proof.
  induction q; intros s H; cbn [schema_of] in H; try (apply bind_ok in H as (s0 & H0 & H); try pose proof (IHq _ H0) as F0);
    cbv beta delta [get_groups_schema groupby_schema schema_for_groupby rename_schema filter_schema select_schema map_schema flat_map_schema
      flat_map_by_id_schema join_private_schema join_public_schema schema_for_join replace_null_schema replace_inf_schema drop_null_schema
      drop_inf_schema no_infinity rebuild enforce_schema] zeta in H; peel H;
    try (eapply mk_fine, H); try (injection H as <-; assumption).
  - injection H as <-. eapply FINE. eassumption.
  - apply IHq, H.
Qed.
End Fine.

(** ** Domains and collections of what the visitor builds *)
Section Visited.
Variables (W : world) (l2 : bool) (cat : catalog) (data : dict vtab).
Hypothesis PLACED : forall n t, dget n data = Some t -> placed t.
Hypothesis DOM : forall n t, dget n data = Some t -> NoDup (dkeys (v_dom t)).
Hypothesis SPACE : forall n s cs t, dget n (cat_private cat) = Some (s, cs) -> dget n data = Some t -> sc_space s = v_coll t.

Lemma at_columns_keys cols f d : dkeys (at_columns cols f d) = dkeys d.
Proof. unfold at_columns, dkeys. rewrite map_map. reflexivity. Qed.
Lemma new_core_keys new : dkeys (new_core new) = dkeys (sc_cols new).
Proof. unfold new_core, dkeys. rewrite map_map. reflexivity. Qed.
Lemma mapped_nodup new aug d : NoDup (dkeys (sc_cols new)) -> NoDup (dkeys d) -> NoDup (dkeys (mapped_domain new aug d)).
Proof.
  intros A B. unfold mapped_domain. destruct aug.
  - apply NoDup_merge. exact B.
  - rewrite new_core_keys. exact A.
Qed.
Lemma visit_nodup q : dicts q -> forall t cs, visit W l2 cat data q = Ok (t, cs) -> NoDup (dkeys (v_dom t)).
Proof.
  induction q; intros D t cs H; cbn [visit dicts] in *; try discriminate; try (apply bind_ok in H as ((t0, cs0) & H0 & H)).
  - unfold visit_source in H. peel H. injection H as <- <-. eapply DOM. eassumption.
  - destruct D as (D & _). unfold visit_rename in H. peel H. injection H as <- <-. apply NoDup_dict_of.
  - unfold visit_filter in H. injection H as <- <-. cbn. eapply IHq; eassumption.
  - unfold visit_select in H. peel H. injection H as <- <-. apply NoDup_dict_of.
  - destruct D as (D & ND). unfold visit_map in H. peel H. injection H as <- <-. apply mapped_nodup; [exact ND|eapply IHq; eassumption].
  - destruct D as (D & ND). unfold visit_flat_map in H. peel H; injection H as <- <-; (apply mapped_nodup; [exact ND|eapply IHq; eassumption]).
  - destruct D as (D & ND). unfold visit_flat_map_by_id in H. peel H. injection H as <- <-. apply NoDup_merge. repeat constructor. intros [].
  - destruct D as (D1 & D2 & _). apply bind_ok in H as ((t1, cs1) & H1 & H). unfold visit_join_private in H. peel H; injection H as <- <-; cbn; eapply join_domain_nodup; eassumption.
  - unfold visit_join_public in H. peel H. injection H as <- <-. cbn. eapply join_domain_nodup; eassumption.
  - unfold visit_replace_null in H. peel H. injection H as <- <-. cbn [v_dom]. rewrite !at_columns_keys. eapply IHq; eassumption.
  - unfold visit_replace_inf in H. peel H. injection H as <- <-. cbn [v_dom]. rewrite !at_columns_keys. eapply IHq; eassumption.
  - unfold visit_drop_null in H. peel H. injection H as <- <-. cbn [v_dom]. rewrite !at_columns_keys. eapply IHq; eassumption.
  - unfold visit_drop_inf in H. peel H; injection H as <- <-; cbn [v_dom]; rewrite !at_columns_keys; eapply IHq; eassumption.
  - unfold visit_enforce in H. peel H. injection H as <- <-. cbn. eapply IHq; eassumption.
Qed.
Lemma mk_space d g i sp s : mk_schema d g i sp = Ok s -> sc_space s = sp.
Proof. intros H. apply mk_schema_ok in H as (_ & _ & _ & ->). reflexivity. Qed.
Lemma visit_space q : forall s t cs, schema_of (w_cond_ok W) cat q = Ok s -> visit W l2 cat data q = Ok (t, cs) -> sc_space s = v_coll t.
Proof.
  induction q; intros s t cs H V; cbn [visit schema_of] in *; try discriminate; try (apply bind_ok in H as (s0 & H0 & H)); try (apply bind_ok in V as ((t0, cs0) & V0 & V));
    try pose proof (IHq _ _ _ H0 V0) as EQ.
  - unfold visit_source in V. destruct (dget source_id data) as [t1|] eqn:G; [|discriminate]. destruct (dget source_id (cat_private cat)) as [(s1, cs1)|] eqn:G1; [|discriminate]. injection V as <- <-. injection H as <-. eapply SPACE; eassumption.
  - unfold visit_rename in V. peel V. injection V as <- <-. unfold rename_schema in H. peel H. rewrite (mk_space _ _ _ _ _ H). exact EQ.
  - unfold visit_filter in V. injection V as <- <-. unfold filter_schema in H. peel H. injection H as <-. exact EQ.
  - unfold visit_select in V. peel V. injection V as <- <-. unfold select_schema in H. peel H. rewrite (mk_space _ _ _ _ _ H). exact EQ.
  - pose proof (visit_placed _ _ _ _ PLACED _ _ _ V0) as P. unfold visit_map in V. peel V. injection V as <- <-. unfold map_schema in H. destruct augment.
    + peel H. rewrite (mk_space _ _ _ _ _ H). exact EQ.
    + peel H. rewrite (mk_space _ _ _ _ _ H). cbn. destruct x. apply raise_if_ok in E. unfold placed in P. destruct (v_place t0); cbn in E; try discriminate; try contradiction; congruence.
  - pose proof (visit_placed _ _ _ _ PLACED _ _ _ V0) as P. unfold visit_flat_map in V. apply bind_ok in V as (y & VY & V). peel V. injection V as <- <-. cbn [v_coll]. unfold flat_map_schema in H. peel H.
    + rewrite (mk_space _ _ _ _ _ H). exact EQ.
    + rewrite (mk_space _ _ _ _ _ H). unfold placed in P. destruct (v_place t0); cbn in VY; try contradiction; congruence.
  - unfold visit_flat_map_by_id in V. peel V. injection V as <- <-. unfold flat_map_by_id_schema in H. peel H. rewrite (mk_space _ _ _ _ _ H). exact EQ.
  - apply bind_ok in H as (s1 & H1 & H). apply bind_ok in V as ((t1, cs1) & V1 & V). pose proof (IHq1 _ _ _ H0 V0) as EQ. unfold join_private_schema, schema_for_join in H. peel H. rewrite (mk_space _ _ _ _ _ H).
    unfold visit_join_private in V. peel V; injection V as <- <-; exact EQ.
  - unfold join_public_schema, schema_for_join in H. peel H. rewrite (mk_space _ _ _ _ _ H). unfold visit_join_public in V. peel V. injection V as <- <-. exact EQ.
  - unfold replace_null_schema, rebuild in H. peel H. rewrite (mk_space _ _ _ _ _ H). unfold visit_replace_null in V. peel V. injection V as <- <-. exact EQ.
  - unfold replace_inf_schema, no_infinity, rebuild in H. peel H. rewrite (mk_space _ _ _ _ _ H). unfold visit_replace_inf in V. peel V. injection V as <- <-. exact EQ.
  - unfold drop_null_schema, rebuild in H. peel H. rewrite (mk_space _ _ _ _ _ H). unfold visit_drop_null in V. peel V. injection V as <- <-. exact EQ.
  - unfold drop_inf_schema, no_infinity, rebuild in H. peel H. rewrite (mk_space _ _ _ _ _ H). unfold visit_drop_inf in V. peel V; injection V as <- <-; exact EQ.
  - unfold visit_enforce in V. peel V. injection V as <- <-. cbn [v_coll]. rewrite <- EQ. unfold enforce_schema in H. peel H; injection H as <-; reflexivity.
Qed.
End Visited.

(** ** The catalog *)

(** The schema the session reports for a table. *)
Definition table_schema (t : vtab) : res schema :=
  let* cols := core_to_analytics (v_dom t) in mk_schema cols (grouping_column (v_place t)) (id_column (v_place t)) (v_coll t).
Record catalog_for (x : tree) (pub : dict sframe) (cons : dict (list constraint)) (cat : catalog) : Prop := {
  cf_private : forall n t, dget n (named x) = Some t ->
    exists s cs, table_schema t = Ok s /\ dget n cons = Some cs /\ dget n (cat_private cat) = Some (s, cs);
  cf_none : forall n, dget n (named x) = None -> dget n (cat_private cat) = None;
  cf_public : catalog_public pub = Ok (cat_public cat)
}.
Lemma dget_app {V} n (a b : dict V) : dget n (a ++ b)%list = match dget n a with Some v => Some v | None => dget n b end.
Proof. induction a as [|(k, v) a IH]; [reflexivity|]. cbn. destruct (String.eqb n k); [reflexivity|exact IH]. Qed.
Lemma catalog_private_ok x pub cons : layout x -> forall names acc out, catalog_private x pub cons names acc = Ok out -> NoDup names ->
  (forall n, In n names -> dget n (named x) <> None) ->
  (forall n, ~ In n names -> dget n out = dget n acc)
  /\ forall n t, In n names -> dget n (named x) = Some t ->
       exists s cs, table_schema t = Ok s /\ dget n cons = Some cs /\ dget n out = Some (s, cs).
Proof.
  intros L names. induction names as [|m names IH]; intros acc out H ND NM; cbn [catalog_private] in H.
  - injection H as <-. split; [reflexivity|]. intros n t [].
  - destruct (dget m (named x)) as [t|] eqn:G; [|exfalso; apply (NM m); [now left|exact G]].
    rewrite (get_schema_spec x pub m t L G), (get_grouping_spec x pub m t L G), (get_id_column_spec x pub m t L G), (get_id_space_spec x pub m t L G) in H.
    apply bind_ok in H as (cols & HC & H). apply bind_ok in H as (cs & HS & H). cbn [bind] in H. apply bind_ok in H as ([] & HM & H). apply bind_ok in H as (s & HK & H).
    apply raise_if_ok in HM. inversion ND as [|? ? NI ND']; subst. apply IH in H as (A & B); [|exact ND'|intros n I; apply NM; now right].
    assert (O : dget m out = Some (s, cs)).
    { rewrite (A m NI), dget_app. destruct (dget m acc) eqn:GA; [|cbn; rewrite String.eqb_refl; reflexivity].
      exfalso. unfold dmem in HM. rewrite GA in HM. discriminate. }
    split.
    + intros n NI2. rewrite A by (intros I; apply NI2; now right). rewrite dget_app. destruct (dget n acc); [reflexivity|]. cbn. destruct (String.eqb n m) eqn:EQ; [|reflexivity].
      apply String.eqb_eq in EQ. subst. exfalso. apply NI2. now left.
    + intros n t0 [<-|I] G0; [|apply B; assumption]. rewrite G in G0. injection G0 as <-. exists s, cs. split; [unfold table_schema; rewrite HC; exact HK|]. split; [|exact O].
      destruct (dget m cons); congruence.
Qed.
Lemma catalog_private_total x pub cons : layout x -> forall names acc, NoDup names -> (forall n, In n names -> dget n acc = None) ->
  (forall n, In n names -> exists t s cs, dget n (named x) = Some t /\ table_schema t = Ok s /\ dget n cons = Some cs) ->
  exists out, catalog_private x pub cons names acc = Ok out.
Proof.
  intros L names. induction names as [|m names IH]; intros acc ND NA NM; cbn [catalog_private]; [eauto|].
  destruct (NM m (or_introl eq_refl)) as (t & s & cs & G & TS & GC). unfold table_schema in TS. apply bind_ok in TS as (cols & HC & HK).
  rewrite (get_schema_spec x pub m t L G), (get_grouping_spec x pub m t L G), (get_id_column_spec x pub m t L G), (get_id_space_spec x pub m t L G), HC, GC. cbn [bind].
  unfold dmem. rewrite (NA m (or_introl eq_refl)). cbn [raise_if bind]. rewrite HK. cbn [bind]. inversion ND as [|? ? NI ND']; subst. apply IH; [exact ND'| |intros n I; apply NM; now right].
  intros n I. rewrite dget_app, (NA n (or_intror I)). cbn. destruct (String.eqb n m) eqn:EQ; [|reflexivity]. apply String.eqb_eq in EQ. subst. contradiction.
Qed.
Lemma catalog_of_for x pub cons cat : layout x -> catalog_of x pub cons = Ok cat -> catalog_for x pub cons cat.
Proof.
  intros L H. unfold catalog_of in H. destruct (private_sources_spec x L) as (names & PS & ND & NM). rewrite PS in H. cbn [bind] in H.
  apply bind_ok in H as (priv & HP & H). apply bind_ok in H as (publ & HU & H). injection H as <-.
  assert (NZ : forall n, In n names <-> dget n (named x) <> None).
  { intros n. rewrite NM. rewrite in_dkeys. destruct (dget n (named x)); split; intros X; try congruence; eauto. destruct X; discriminate. }
  destruct (catalog_private_ok x pub cons L _ _ _ HP ND (fun n I => proj1 (NZ n) I)) as (A & B). constructor; cbn.
  - intros n t G. apply B; [|exact G]. apply NZ. congruence.
  - intros n G. rewrite A; [reflexivity|]. intros I. apply NZ in I. contradiction.
  - exact HU.
Qed.
Lemma catalog_exists x pub cons publ : layout x -> (forall n t, dget n (named x) = Some t -> exists s cs, table_schema t = Ok s /\ dget n cons = Some cs) ->
  catalog_public pub = Ok publ -> exists cat, catalog_of x pub cons = Ok cat.
Proof.
  intros L H HU. unfold catalog_of. destruct (private_sources_spec x L) as (names & PS & ND & NM). rewrite PS. cbn [bind].
  destruct (catalog_private_total x pub cons L names [] ND) as (priv & ->).
  - reflexivity.
  - intros n I. apply NM, in_dkeys in I as (t & G). destruct (H n t G) as (s & cs & A & B). eauto 6.
  - cbn [bind]. rewrite HU. cbn [bind]. eauto.
Qed.

(** ** Replacing sources in what the visitor builds *)
Section ReplaceVisit.
Variables (W : world) (l2 : bool) (cat cat' : catalog) (data data' : dict vtab) (f f' : string -> query).
Hypothesis PUB : cat_public cat' = cat_public cat.
Hypothesis SRC : forall n, visit W l2 cat data (f n) = visit W l2 cat' data' (f' n).
Lemma visit_replace q : visit W l2 cat data (replace f q) = visit W l2 cat' data' (replace f' q).
Proof.
  induction q; cbn [replace visit]; rewrite ?IHq, ?IHq1, ?IHq2; try reflexivity; [apply SRC|].
  destruct (visit W l2 cat' data' (replace f' q)) as [(t, cs)|e]; [|reflexivity]. cbn [bind]. unfold visit_join_public, public_frame. rewrite PUB. reflexivity.
Qed.
End ReplaceVisit.

(** ** Views *)

Definition fine_table (t : vtab) : Prop := NoDup (dkeys (v_dom t)) /\ exists s, table_schema t = Ok s.
Lemma table_schema_ok t s : table_schema t = Ok s ->
  core_cols (sc_cols s) = v_dom t /\ sc_group s = grouping_column (v_place t) /\ sc_id s = id_column (v_place t) /\ sc_space s = v_coll t.
Proof. intros H. unfold table_schema in H. apply bind_ok in H as (cols & HC & H). apply mk_schema_ok in H as (_ & _ & _ & ->). cbn. apply core_to_analytics_same in HC. auto. Qed.
Lemma table_schema_nodup t s : NoDup (dkeys (v_dom t)) -> table_schema t = Ok s -> NoDup (dkeys (sc_cols s)).
Proof. intros N H. apply table_schema_ok in H as (H & _). rewrite <- H, dkeys_core_cols in N. exact N. Qed.
Lemma of_core_total d : exists c, of_core d = Ok c.
Proof. destruct d; cbn; eauto. Qed.
Lemma core_to_analytics_total d : exists a, core_to_analytics d = Ok a.
Proof.
  unfold core_to_analytics. induction d as [|(k, c) d (a & IH)]; [eexists; reflexivity|]. cbn. destruct (of_core_total c) as (c' & ->). cbn. fold core_to_analytics in *. rewrite IH. cbn. eauto.
Qed.
Lemma validate_nodup l2 s t : NoDup (dkeys (v_dom t)) -> validate l2 s t = Ok tt ->
  NoDup (dkeys (sc_cols s)) /\ same_entries (v_dom t) (core_cols (sc_cols s)) /\ metric_for l2 s (v_place t).
Proof. intros N H. apply validate_ok in H as (A & B & C); [|exact N]. rewrite analytics_to_core_cols in B. auto. Qed.
Lemma metric_columns l2 s p : metric_for l2 s p -> sc_group s = grouping_column p /\ sc_id s = id_column p.
Proof.
  unfold metric_for. destruct (sc_group s), (sc_id s); intros H; try contradiction; subst; split; reflexivity.
Qed.
(** What a view's table looks like in the catalog: the schema of its query. *)
Lemma view_schema W l2 cat data q y s :
  (forall n s0 cs, dget n (cat_private cat) = Some (s0, cs) -> fine_schema s0) ->
  (forall n t, dget n data = Some t -> placed t) ->
  (forall n t, dget n data = Some t -> NoDup (dkeys (v_dom t))) ->
  (forall n s0 cs t, dget n (cat_private cat) = Some (s0, cs) -> dget n data = Some t -> sc_space s0 = v_coll t) ->
  dicts q -> build_transformation W l2 cat data q = Ok y -> schema_of (w_cond_ok W) cat q = Ok s ->
  NoDup (dkeys (v_dom (fst y))) /\ exists s', table_schema (fst y) = Ok s' /\ same_schema s' s.
Proof.
  intros FI PL ND SP D B S. unfold build_transformation in B. rewrite S in B. cbn [bind] in B. apply bind_ok in B as ((t, cs) & V & B). apply bind_ok in B as ([] & VA & B). injection B as <-. cbn [fst] in *.
  assert (NV : NoDup (dkeys (v_dom t))) by (eapply visit_nodup; eassumption). split; [exact NV|].
  destruct (validate_nodup _ _ _ NV VA) as (NS & SE & M). destruct (metric_columns _ _ _ M) as (MG & MI).
  pose proof (visit_space W l2 cat data PL SP q s t cs S V) as SC. destruct (schema_fine _ cat FI q s S) as (FE & FC).
  destruct (core_to_analytics_total (v_dom t)) as (a & A). pose proof (core_to_analytics_same _ _ A) as AK.
  assert (KA : dkeys a = dkeys (v_dom t)) by (rewrite <- AK; symmetry; apply dkeys_core_cols).
  assert (KS : forall c, In c (dkeys a) <-> In c (dkeys (sc_cols s))).
  { intros c. rewrite KA, in_dkeys, (SE c), <- in_dkeys, dkeys_core_cols. reflexivity. }
  eexists. split.
  - unfold table_schema. rewrite A. cbn [bind]. apply mk_schema_ok. split; [rewrite KS; exact FE|]. rewrite <- MG, <- MI.
    split; [intros c E; apply KS, FC; auto|]. split; [intros c E; apply KS, FC; auto|]. reflexivity.
  - split; cbn [sc_cols sc_group sc_id sc_space]; [rewrite KA; exact NV|exact NS|rewrite AK; exact SE|reflexivity|reflexivity|symmetry; exact SC].
Qed.

Lemma catalog_nodup x pub cons cat : (forall n t, dget n (named x) = Some t -> fine_table t) -> catalog_for x pub cons cat ->
  (forall n s cs, dget n (cat_private cat) = Some (s, cs) -> fine_schema s /\ NoDup (dkeys (sc_cols s)))
  /\ (forall n s cs t, dget n (cat_private cat) = Some (s, cs) -> dget n (named x) = Some t -> sc_space s = v_coll t)
  /\ (forall n s fr, dget n (cat_public cat) = Some (s, fr) -> NoDup (dkeys (sc_cols s))).
Proof.
  intros FT [CP CN CU]. split; [|split].
  - intros n s cs H. destruct (dget n (named x)) as [t|] eqn:G; [|rewrite (CN n G) in H; discriminate]. destruct (CP n t G) as (s' & cs' & TS & _ & E). rewrite E in H. injection H as -> ->.
    split; [unfold table_schema in TS; apply bind_ok in TS as (? & _ & TS); eapply mk_fine, TS|]. eapply table_schema_nodup; [apply (FT n t G)|exact TS].
  - intros n s cs t H G. destruct (CP n t G) as (s' & cs' & TS & _ & E). rewrite E in H. injection H as -> ->. apply table_schema_ok in TS. apply TS.
  - intros n s fr H. apply dget_In in H. unfold catalog_public in CU. revert H. generalize (cat_public cat) CU. clear. induction pub as [|(k, f) pub IH]; intros l CU H; cbn in CU.
    + injection CU as <-. destruct H.
    + apply bind_ok in CU as (p & HP & CU). apply bind_ok in CU as (l' & HL & CU). injection CU as <-. destruct H as [->|H]; [|eapply IH; eassumption].
      apply bind_ok in HP as (cols & HC & HP). apply bind_ok in HP as (s' & HS & HP). injection HP as <- <- <-. apply mk_schema_ok in HS as (_ & _ & _ & ->). cbn.
      unfold spark_schema_to_analytics_columns in HC. apply bind_ok in HC as (l & _ & HC). injection HC as <-. apply NoDup_dict_of.
Qed.

Section View.
Variables (E : env).
Notation W := (e_world E).
(** One session before and after a view was created. *)
Variables (s s' : sess) (pub : dict sframe) (v : string) (d : query) (y : vtab * list constraint) (cat cat' : catalog) (data data' : dict vtab).
Hypothesis BN : by_name (w_cond_ok W).
Hypothesis FT : forall n t, dget n (named (s_tree s)) = Some t -> fine_table t.
Hypothesis LO : layout (s_tree s).
Hypothesis LO' : layout (s_tree s').
Hypothesis CAT : catalog_of (s_tree s) pub (s_cons s) = Ok cat.
Hypothesis DATA : data_of (s_tree s) = Ok data.
Hypothesis CAT' : catalog_of (s_tree s') pub (s_cons s') = Ok cat'.
Hypothesis DATA' : data_of (s_tree s') = Ok data'.
Hypothesis DD : dicts d.
Hypothesis FRESH : dmem v pub = false.
Hypothesis NEW : dget v (named (s_tree s)) = None.
Hypothesis BT : build_transformation W (is_rho (s_left s)) cat data d = Ok y.
Hypothesis TABLES : Permutation (named (s_tree s')) ((v, fst y) :: named (s_tree s)).
Hypothesis CONS : s_cons s' = dset v (snd y) (s_cons s).

Lemma dmem_public n : dmem n pub = dmem n (cat_public cat).
Proof.
  pose proof (cf_public _ _ _ _ (catalog_of_for _ _ _ _ LO CAT)) as CU. unfold catalog_public in CU. revert CU. generalize (cat_public cat). clear.
  induction pub as [|(k, f) p IH]; intros l CU; cbn in CU; [injection CU as <-; reflexivity|].
  apply bind_ok in CU as (x & HP & CU). apply bind_ok in CU as (l' & HL & CU). injection CU as <-. apply bind_ok in HP as (cols & _ & HP). apply bind_ok in HP as (s1 & _ & HP). injection HP as <-.
  cbn. unfold dmem in *. cbn. destruct (String.eqb n k); [reflexivity|]. apply IH, HL.
Qed.
Lemma named_view n : dget n (named (s_tree s')) = if String.eqb n v then Some (fst y) else dget n (named (s_tree s)).
Proof.
  rewrite (perm_same _ _ (layout_nodup _ LO') TABLES n). cbn. reflexivity.
Qed.
Lemma publics_same : cat_public cat' = cat_public cat.
Proof.
  pose proof (cf_public _ _ _ _ (catalog_of_for _ _ _ _ LO CAT)). pose proof (cf_public _ _ _ _ (catalog_of_for _ _ _ _ LO' CAT')). congruence.
Qed.
Lemma data_get n : dget n data = dget n (named (s_tree s)).
Proof. destruct (data_of_spec _ LO) as (da & D & H). rewrite D in DATA. injection DATA as <-. apply H. Qed.
Lemma data_get' n : dget n data' = dget n (named (s_tree s')).
Proof. destruct (data_of_spec _ LO') as (da & D & H). rewrite D in DATA'. injection DATA' as <-. apply H. Qed.
(** The catalog says the same about the other tables. *)
Lemma catalog_other n : n <> v -> dget n (cat_private cat') = dget n (cat_private cat).
Proof.
  intros NE. pose proof (catalog_of_for _ _ _ _ LO CAT) as [CP CN CU]. pose proof (catalog_of_for _ _ _ _ LO' CAT') as [CP' CN' CU'].
  pose proof (named_view n) as G. apply String.eqb_neq in NE. rewrite NE in G. destruct (dget n (named (s_tree s))) as [t|] eqn:T.
  - destruct (CP n t T) as (s1 & cs1 & A1 & B1 & ->). destruct (CP' n t G) as (s2 & cs2 & A2 & B2 & ->). rewrite CONS, dget_dset_other in B2 by (apply String.eqb_neq in NE; congruence). congruence.
  - rewrite (CN n T), (CN' n G). reflexivity.
Qed.
Lemma source_visit n : visit W (is_rho (s_left s)) cat' data' (PrivateSource n)
  = visit W (is_rho (s_left s)) cat data (if String.eqb n v then d else PrivateSource n).
Proof.
  destruct (String.eqb n v) eqn:EQ.
  - apply String.eqb_eq in EQ. subst n. cbn. unfold visit_source. rewrite data_get', named_view, String.eqb_refl.
    pose proof (catalog_of_for _ _ _ _ LO' CAT') as [CP' CN' CU']. pose proof (named_view v) as G. rewrite String.eqb_refl in G.
    destruct (CP' v _ G) as (s2 & cs2 & A2 & B2 & ->). rewrite CONS, dget_dset_same in B2. injection B2 as <-.
    unfold build_transformation in BT. apply bind_ok in BT as (s0 & _ & H). apply bind_ok in H as (x & V & H). apply bind_ok in H as (u & _ & H). injection H as <-. rewrite V. destruct x. reflexivity.
  - cbn. unfold visit_source. rewrite data_get', data_get, named_view, EQ. apply String.eqb_neq in EQ. rewrite (catalog_other n EQ). reflexivity.
Qed.
Lemma view_visit q : visit W (is_rho (s_left s)) cat' data' q = visit W (is_rho (s_left s)) cat data (subst v d q).
Proof.
  rewrite <- (replace_id q) at 1. unfold subst. apply visit_replace; [symmetry; apply publics_same|]. apply source_visit.
Qed.
Lemma source_same n s0 : schema_of (w_cond_ok W) cat' (PrivateSource n) = Ok s0 ->
  exists s1, schema_of (w_cond_ok W) cat (if String.eqb n v then d else PrivateSource n) = Ok s1 /\ same_schema s0 s1.
Proof.
  pose proof (catalog_of_for _ _ _ _ LO CAT) as CF. destruct (catalog_nodup _ _ _ _ FT CF) as (FI & SP & PN).
  intros H. destruct (String.eqb n v) eqn:EQ.
  - apply String.eqb_eq in EQ. subst n. pose proof BT as BT'. unfold build_transformation in BT'. apply bind_ok in BT' as (sd & HS & _). exists sd. split; [exact HS|].
    destruct (view_schema W (is_rho (s_left s)) cat data d y sd) as (_ & s1 & TS & SS); try assumption.
    + intros m s1 cs G. apply (FI m s1 cs G).
    + intros m t G. exact (data_placed _ _ LO DATA _ _ G).
    + intros m t G. rewrite data_get in G. apply (FT m t G).
    + intros m s1 cs t G1 G2. rewrite data_get in G2. eapply SP; eassumption.
    + cbn in H. unfold source_schema in H. apply bind_ok in H as (u & _ & H). pose proof (named_view v) as G. rewrite String.eqb_refl in G.
      destruct (cf_private _ _ _ _ (catalog_of_for _ _ _ _ LO' CAT') v _ G) as (s2 & cs2 & A2 & _ & E2). rewrite E2 in H. injection H as <-. rewrite TS in A2. injection A2 as <-. exact SS.
  - cbn in *. unfold source_schema in *. rewrite publics_same in H. apply String.eqb_neq in EQ. rewrite (catalog_other n EQ) in H. exists s0. split; [exact H|].
    apply same_schema_refl. apply bind_ok in H as (u & _ & H). destruct (dget n (cat_private cat)) as [(s1, cs1)|] eqn:G; [|discriminate]. injection H as <-. apply (FI _ _ _ G).
Qed.
Lemma source_same' n s1 : schema_of (w_cond_ok W) cat (if String.eqb n v then d else PrivateSource n) = Ok s1 ->
  exists s0, schema_of (w_cond_ok W) cat' (PrivateSource n) = Ok s0 /\ same_schema s1 s0.
Proof.
  pose proof (catalog_of_for _ _ _ _ LO CAT) as CF. destruct (catalog_nodup _ _ _ _ FT CF) as (FI & SP & PN).
  intros H. destruct (String.eqb n v) eqn:EQ.
  - apply String.eqb_eq in EQ. subst n.
    destruct (view_schema W (is_rho (s_left s)) cat data d y s1) as (_ & s2 & TS & SS); try assumption.
    + intros m s2 cs G. apply (FI m s2 cs G).
    + intros m t G. exact (data_placed _ _ LO DATA _ _ G).
    + intros m t G. rewrite data_get in G. apply (FT m t G).
    + intros m s2 cs t G1 G2. rewrite data_get in G2. eapply SP; eassumption.
    + exists s2. split; [|apply same_schema_sym, SS]. cbn. unfold source_schema. rewrite publics_same, <- dmem_public, FRESH. cbn [raise_if bind].
      pose proof (named_view v) as G. rewrite String.eqb_refl in G. destruct (cf_private _ _ _ _ (catalog_of_for _ _ _ _ LO' CAT') v _ G) as (s3 & cs2 & A2 & _ & ->). congruence.
  - cbn in *. unfold source_schema in *. rewrite publics_same. apply String.eqb_neq in EQ. rewrite (catalog_other n EQ). exists s1. split; [exact H|].
    apply same_schema_refl. apply bind_ok in H as (u & _ & H). destruct (dget n (cat_private cat)) as [(s2, cs1)|] eqn:G; [|discriminate]. injection H as <-. apply (FI _ _ _ G).
Qed.
Lemma publics_nodup n s0 fr : dget n (cat_public cat) = Some (s0, fr) -> NoDup (dkeys (sc_cols s0)).
Proof. apply (proj2 (proj2 (catalog_nodup _ _ _ _ FT (catalog_of_for _ _ _ _ LO CAT)))). Qed.
Lemma view_schema_of q : dicts q ->
  (forall s0, schema_of (w_cond_ok W) cat' q = Ok s0 -> exists s1, schema_of (w_cond_ok W) cat (subst v d q) = Ok s1 /\ same_schema s0 s1)
  /\ (forall s1, schema_of (w_cond_ok W) cat (subst v d q) = Ok s1 -> exists s0, schema_of (w_cond_ok W) cat' q = Ok s0 /\ same_schema s0 s1).
Proof.
  intros D. split; intros s0 H.
  - rewrite <- (replace_id q) in H. unfold subst. eapply (replace_same _ cat' cat PrivateSource); try eassumption.
    + symmetry. apply publics_same.
    + rewrite publics_same. apply publics_nodup.
    + apply source_same.
  - rewrite <- (replace_id q). apply (replace_same _ cat cat' _ PrivateSource BN publics_same publics_nodup source_same' q D) in H as (s1 & H & SS). exists s1. split; [exact H|apply same_schema_sym, SS].
Qed.
Lemma validate_same l2 a b t : NoDup (dkeys (v_dom t)) -> same_schema a b -> validate l2 a t = Ok tt -> validate l2 b t = Ok tt.
Proof.
  intros N SS H. apply (validate_nodup _ _ _ N) in H as (A & B & C). apply (validate_ok _ _ _ N). split; [apply SS|]. split.
  - rewrite analytics_to_core_cols. intros c. rewrite (B c). apply SS.
  - unfold metric_for in *. rewrite <- (ss_group _ _ SS), <- (ss_id _ _ SS). exact C.
Qed.
Lemma view_build q z : dicts q -> build_transformation W (is_rho (s_left s)) cat' data' q = Ok z <->
  build_transformation W (is_rho (s_left s)) cat data (subst v d q) = Ok z.
Proof.
  intros D. destruct (view_schema_of q D) as (A & B). unfold build_transformation. rewrite (view_visit q).
  assert (NV : forall t cs, visit W (is_rho (s_left s)) cat data (subst v d q) = Ok (t, cs) -> NoDup (dkeys (v_dom t))).
  { intros t cs V. rewrite <- view_visit in V. eapply visit_nodup; [|exact D|exact V]. intros n t0 G. rewrite data_get', named_view in G. destruct (String.eqb n v).
    - injection G as <-. pose proof (catalog_of_for _ _ _ _ LO CAT) as CF. destruct (catalog_nodup _ _ _ _ FT CF) as (FI & SP & PN).
      pose proof BT as BT'. unfold build_transformation in BT'. apply bind_ok in BT' as (sd & HS & _).
      refine (proj1 (view_schema W (is_rho (s_left s)) cat data d y sd _ _ _ _ DD BT HS)).
      + intros m s1 cs0 G. apply (FI m s1 cs0 G).
      + intros m t1 G. exact (data_placed _ _ LO DATA _ _ G).
      + intros m t1 G. rewrite data_get in G. apply (FT m t1 G).
      + intros m s1 cs0 t1 G1 G2. rewrite data_get in G2. eapply SP; eassumption.
    - apply (FT n t0 G). }
  split; intros H; apply bind_ok in H as (s0 & HS & H); apply bind_ok in H as ((t, cs) & V & H); apply bind_ok in H as ([] & VA & H); injection H as <-.
  - destruct (A s0 HS) as (s1 & -> & SS). cbn [bind]. rewrite V. cbn [bind fst]. rewrite (validate_same _ _ _ _ (NV t cs V) SS VA). reflexivity.
  - destruct (B s0 HS) as (s1 & -> & SS). cbn [bind]. rewrite V. cbn [bind fst]. rewrite (validate_same _ _ _ _ (NV t cs V) (same_schema_sym _ _ SS) VA). reflexivity.
Qed.
End View.
