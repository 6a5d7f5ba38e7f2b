(** Which table queries with an accepted schema can be computed. *)
From Coq Require Import String Bool Arith ZArith QArith Qcanon Lia Permutation List.
From Verif Require Import Prelude Value Rows Constraints ConstraintsSpec ConstraintsProofs Schema SchemaProofs
  Query Transform TransformSpec TransformConform TransformVisit TransformAgree TransformIds QueryProofs RewriteSpec RewriteProofs
  QueryAccept QuerySame SessionTables SessionViews.
Import ListNotations.
Local Open Scope string_scope.
Local Open Scope nat_scope.

(** *** Specification *)
Section Spec.
Variables (cond_ok : string -> list sfield -> bool) (cat : catalog).
Notation sch := (schema_of cond_ok cat).

(** What a table query with an accepted schema still has to say, or must not do:
    - a FlatMap of a table without privacy IDs gives the number of rows it keeps;
    - private joins take tables without grouping columns; on tables with IDs the ID column
      is joined on, on tables without IDs both truncation strategies are given;
    - a public join does not rename the grouping or ID column. *)
Fixpoint computable (q : query) : Prop :=
  match q with
  | PrivateSource _ => True
  | FlatMap c _ _ _ mr => computable c /\ forall s, sch c = Ok s -> sc_id s = None -> mr <> None
  | JoinPrivate l r tl tr on =>
      computable l /\ computable r
      /\ forall sl sr, sch l = Ok sl -> sch r = Ok sr ->
           sc_group sl = None /\ sc_group sr = None
           /\ match sc_id sl with Some i => In i (chosen sl sr on) | None => tl <> None /\ tr <> None end
  | JoinPublic c p on _ =>
      computable c
      /\ forall s r i, sch c = Ok s -> public_schema cat p = Ok r -> protected s i -> has_column r i -> In i (chosen s r on)
  | GetGroups c _ | GetBounds c _ _ _ _ | Rename c _ | Filter c _ | Select c _ | MapQ c _ _ _
  | FlatMapByID c _ _ | ReplaceNullAndNan c _ | ReplaceInfinity c _ | DropNullAndNan c _ | DropInfinity c _
  | EnforceConstraint c _ | GroupByCount c _ _ _ _ | GroupByCountDistinct c _ _ _ _ _ | GroupByQuantile c _ _ _ _ _ _
  | GroupByBounded _ c _ _ _ _ _ _ _ | SuppressAggregates c _ _ => computable c
  end.
End Spec.

(** The tables of a session: each table of the catalog has data, of the ID space the
    catalog says, and only tables with privacy IDs carry constraints. *)
Record stocked (cat : catalog) (data : dict vtab) : Prop := {
  sk_made : catalog_made cat;
  sk_public : forall n s f, dget n (cat_public cat) = Some (s, f) -> made s;
  sk_data : forall n, dget n (cat_private cat) <> None -> dget n data <> None;
  sk_placed : forall n t, dget n data = Some t -> placed t;
  sk_space : forall n s cs t, dget n (cat_private cat) = Some (s, cs) -> dget n data = Some t -> sc_space s = v_coll t;
  sk_constraints : forall n t s cs, dget n data = Some t -> dget n (cat_private cat) = Some (s, cs) -> in_collection (v_place t) = false -> cs = []
}.

Lemma simplify_nil : simplify [] = [].
Proof. reflexivity. Qed.

Section Bare.
Variables (W : world) (l2 : bool) (cat : catalog) (data : dict vtab).
Hypothesis BARE : forall n t s cs, dget n data = Some t -> dget n (cat_private cat) = Some (s, cs) -> in_collection (v_place t) = false -> cs = [].
Notation vis := (visit W l2 cat data).
(** Tables without IDs never carry constraints. *)
Lemma visit_bare q : forall t cs, vis q = Ok (t, cs) -> in_collection (v_place t) = false -> cs = [].
Proof.
  induction q; intros t1 cs1 H C; cbn [visit] in H; try discriminate;
    try (apply bind_ok in H as ((t0 & cs0) & H0 & H)).
  - unfold visit_source in H. destruct (dget source_id data) as [t|] eqn:E; [|discriminate].
    destruct (dget source_id (cat_private cat)) as [(s & cs)|] eqn:Es; [|discriminate]. injection H as <- <-. exact (BARE _ _ _ _ E Es C).
  - unfold visit_rename in H. peel H. injection H as <- <-. cbn [v_place] in C.
    rewrite (IHq _ _ H0); [reflexivity|]. destruct (v_place t0); exact C.
  - injection H as <- <-. rewrite (IHq _ _ H0 C). reflexivity.
  - unfold visit_select in H. peel H. injection H as <- <-. rewrite (IHq _ _ H0 C). reflexivity.
  - unfold visit_map in H. apply bind_ok in H as (? & ? & H). apply bind_ok in H as (cs' & E & H). injection H as <- <-.
    rewrite (IHq _ _ H0 C) in E. unfold propagate_map in E. apply bind_ok in E as (? & _ & E). injection E as <-. reflexivity.
  - unfold visit_flat_map in H. apply bind_ok in H as (y & Y & H). apply bind_ok in H as (cs' & E & H). injection H as <- <-. cbn [v_place] in C.
    assert (C0 : in_collection (v_place t0) = false).
    { destruct (in_collection (v_place t0)) eqn:Q; [|reflexivity]. apply bind_ok in Y as (? & _ & Y). apply bind_ok in Y as (? & _ & Y). injection Y as <-. cbn in C. congruence. }
    rewrite (IHq _ _ H0 C0) in E. unfold propagate_flat_map in E. apply bind_ok in E as (? & _ & E). injection E as <-. reflexivity.
  - unfold visit_flat_map_by_id in H. peel H. injection H as <- <-. reflexivity.
  - apply bind_ok in H as ((t3 & cs3) & H1 & H). unfold visit_join_private in H. apply bind_ok in H as (? & _ & H). apply bind_ok in H as (((p, lr), rr) & Z & H).
    apply bind_ok in H as (d & _ & H). injection H as <- <-. cbn [v_place] in C.
    destruct (v_place t0) eqn:Pl, (v_place t3) eqn:Pr; try discriminate Z.
    + apply bind_ok in Z as (? & _ & Z). apply bind_ok in Z as (? & _ & Z). injection Z as <- <- <-. discriminate C.
    + rewrite (IHq1 _ _ H0), (IHq2 _ _ H1) by (rewrite ?Pl, ?Pr; reflexivity). reflexivity.
  - unfold visit_join_public in H. apply bind_ok in H as (? & _ & H). apply bind_ok in H as (? & _ & H). apply bind_ok in H as (? & _ & H).
    apply bind_ok in H as (? & _ & H). apply bind_ok in H as (? & _ & H). injection H as <- <-. rewrite (IHq _ _ H0 C). reflexivity.
  - unfold visit_replace_null in H. peel H. injection H as <- <-. rewrite (IHq _ _ H0 C). reflexivity.
  - unfold visit_replace_inf in H. peel H. injection H as <- <-. rewrite (IHq _ _ H0 C). reflexivity.
  - unfold visit_drop_null in H. peel H. injection H as <- <-. rewrite (IHq _ _ H0 C). reflexivity.
  - unfold visit_drop_inf in H. peel H; injection H as <- <-; rewrite (IHq _ _ H0 C); reflexivity.
  - exfalso. unfold visit_enforce in H. apply bind_ok in H as (y & Y & H). injection H as <- <-. cbn [v_place] in C.
    destruct c; cbn [enforce] in Y; cbn [t_place] in Y; destruct (v_place t0); try discriminate; injection Y as <-; discriminate C.
Qed.

End Bare.

Section Total.
Variables (W : world) (l2 : bool) (cat : catalog) (data : dict vtab).
Hypothesis IN : inputs_ok l2 cat data.
Hypothesis SK : stocked cat data.
Notation sch := (schema_of (w_cond_ok W) cat).
Notation vis := (visit W l2 cat data).

Lemma agrees_has s t c : agrees l2 s t -> In c (dkeys (v_dom t)) <-> has_column s c.
Proof. intros A. unfold has_column. rewrite (same_entries_keys _ _ (ag_same _ _ _ A) c), dkeys_core_cols. reflexivity. Qed.
Lemma agrees_get s t c : agrees l2 s t -> dget c (v_dom t) = option_map to_core (dget c (sc_cols s)).
Proof. intros A. rewrite (ag_same _ _ _ A c), dget_core_cols. reflexivity. Qed.
Lemma agrees_schema s t : agrees l2 s t -> made s -> exists x, mk_schema (map (fun p => (fst p, view (snd p))) (v_dom t)) None None None = Ok x.
Proof.
  intros A M. eexists. apply mk_schema_ok. rewrite (dkeys_map_val view). split; [|split; [discriminate|split; [discriminate|reflexivity]]].
  rewrite (agrees_has s t "" A). apply (made_facts s M).
Qed.
Lemma opt_metric s t l : agrees l2 s t -> opt_in (sc_group s) l = false -> opt_in (sc_id s) l = false -> opt_in (metric_column (v_place t)) l = false.
Proof. intros A G I. destruct (metric_col l2 s _ (ag_metric _ _ _ A)) as (-> & _). destruct (sc_group s); assumption. Qed.

Lemma rename_total m s t cs s' : agrees l2 s t -> rename_schema m s = Ok s' -> exists y, visit_rename m (t, cs) = Ok y.
Proof.
  intros A H. unfold rename_schema in H. apply bind_ok in H as ([] & H & _). apply raise_if_ok in H. rewrite missing_false in H.
  unfold visit_rename. rewrite raise_no; [cbn [bind]; eauto|].
  destruct (existsb _ (dkeys m)) eqn:Q; [|reflexivity]. apply existsb_exists in Q as (c & I & Q). apply negb_true_iff in Q.
  apply H in I. apply (agrees_has s t c A) in I. apply dmem_In in I. congruence.
Qed.
Lemma select_total cols s t cs s' : agrees l2 s t -> select_schema cols s = Ok s' -> exists y, visit_select cols (t, cs) = Ok y.
Proof.
  intros A H. unfold select_schema in H. apply bind_ok in H as ([] & H1 & H). apply bind_ok in H as ([] & H2 & H). apply bind_ok in H as ([] & H3 & _).
  apply raise_if_ok in H1, H2, H3. rewrite missing_false in H3. unfold visit_select.
  destruct (proj2 (mapM_accepted (fun c => match dget c (v_dom t) with Some k => Ok (c, k) | None => Err ValueError end) cols)) as (d & ->).
  { intros c I. rewrite (agrees_get s t c A). apply H3, dmem_In in I. unfold dmem in I. destruct (dget c (sc_cols s)); [cbn; eauto|discriminate]. }
  cbn [bind]. rewrite raise_no; [cbn [bind]; eauto|].
  destruct (metric_col l2 s _ (ag_metric _ _ _ A)) as (-> & O). destruct (sc_group s) as [g|]; [|destruct (sc_id s); [|reflexivity]]; cbn in *; assumption.
Qed.
Lemma map_total f new aug s t cs s' : agrees l2 s t -> map_schema new aug s = Ok s' -> (in_collection (v_place t) = false -> cs = []) ->
  exists y, visit_map f new aug (t, cs) = Ok y.
Proof.
  intros A H C. unfold visit_map, propagate_map. destruct aug; [rewrite andb_false_r; cbn; eauto|].
  unfold map_schema in H. apply bind_ok in H as ([] & H1 & H). apply bind_ok in H as ([] & H2 & _). apply raise_if_ok in H1, H2.
  pose proof (ag_metric _ _ _ A) as M. unfold metric_for in M. destruct (sc_group s), (sc_id s); try discriminate. rewrite M in *. rewrite (C eq_refl). cbn. eauto.
Qed.
Lemma flat_map_total f new aug mr s t cs s' : agrees l2 s t -> flat_map_schema new aug s = Ok s' -> (in_collection (v_place t) = false -> cs = []) ->
  ((sc_id s = None -> mr <> None) /\ exists y, visit_flat_map l2 f new aug mr (t, cs) = Ok y)
  \/ (~ (sc_id s = None -> mr <> None) /\ visit_flat_map l2 f new aug mr (t, cs) = Err ValueError).
Proof.
  intros A H C. unfold flat_map_schema in H. apply bind_ok in H as ([] & H1 & H). apply bind_ok in H as ([] & H2 & H). apply raise_if_ok in H1, H2.
  pose proof (ag_metric _ _ _ A) as M. unfold metric_for in M. unfold visit_flat_map, propagate_flat_map.
  destruct (sc_id s) as [i|] eqn:Ei.
  - left. split; [discriminate|]. destruct (sc_group s) eqn:Eg; [contradiction|]. rewrite M. cbn [in_collection].
    destruct aug.
    + cbn [negb raise_if bind]. rewrite andb_true_r in H2. rewrite raise_no by exact H2. cbn [bind andb raise_if]. eauto.
    + apply bind_ok in H as ([] & _ & H). apply bind_ok in H as ([] & H & _). discriminate H.
  - assert (P : in_collection (v_place t) = false) by (destruct (sc_group s); rewrite M; reflexivity).
    rewrite (C P), P. destruct mr as [z|].
    + left. split; [discriminate|]. destruct (sc_group new) as [g|].
      * destruct (sc_group s); [discriminate|]. rewrite M. cbn [bind]. rewrite andb_false_r. cbn [raise_if bind]. eauto.
      * cbn [bind]. rewrite andb_false_r. cbn [raise_if bind]. eauto.
    + right. split; [|reflexivity]. intros Q. apply Q; reflexivity.
Qed.
Lemma flat_map_by_id_total f new s t cs s' : agrees l2 s t -> flat_map_by_id_schema new s = Ok s' -> exists y, visit_flat_map_by_id W f new (t, cs) = Ok y.
Proof.
  intros A H. unfold flat_map_by_id_schema in H. destruct (sc_id s) as [i|] eqn:Ei; [|discriminate].
  apply bind_ok in H as ([] & _ & H). apply bind_ok in H as ([] & H1 & H). apply bind_ok in H as (d & H2 & _).
  pose proof (ag_metric _ _ _ A) as M. unfold metric_for in M. rewrite Ei in M. destruct (sc_group s); [contradiction|].
  unfold visit_flat_map_by_id. rewrite M, (agrees_get s t i A). unfold lookup_col in H2. destruct (dget i (sc_cols s)); [|discriminate]. cbn [option_map]. rewrite H1. cbn [bind]. eauto.
Qed.
Lemma replace_null_total rw s t cs s' : agrees l2 s t -> made s -> replace_null_schema rw s = Ok s' -> exists y, visit_replace_null rw (t, cs) = Ok y.
Proof.
  intros A M H. unfold replace_null_schema in H. apply bind_ok in H as ([] & H1 & H). apply bind_ok in H as ([] & H2 & H). apply bind_ok in H as (u & H3 & _). apply raise_if_ok in H1, H2.
  unfold visit_replace_null. rewrite raise_no by (eapply opt_metric; eassumption). cbn [bind]. rewrite core_to_analytics_view. cbn [bind].
  assert (G : exists m, get_replace_with rw (map (fun p => (fst p, view (snd p))) (v_dom t)) (metric_column (v_place t)) = Ok m); [|destruct G as (m & ->); cbn [bind]; eauto].
  assert (T : forall p, In p rw -> exists d, dget (fst p) (sc_cols s) = Some d /\ value_suits (snd p) (cd_type d)).
  { intros p I. destruct (proj1 (mapM_accepted _ rw) (ex_intro _ u H3) p I) as (y & Y). destruct (dget (fst p) (sc_cols s)) as [d|]; [|discriminate].
    exists d. split; [reflexivity|]. apply value_fits_spec. destruct y. apply raise_if_ok in Y. apply negb_false_iff, Y. }
  unfold get_replace_with. destruct rw as [|p0 rw0] eqn:R.
  - destruct (agrees_schema s t A M) as (x & ->). cbn [bind]. eauto.
  - rewrite <- R in *. clear R. rewrite raise_no.
    2:{ apply missing_false. intros c I. apply in_map_iff in I as (p & <- & I). destruct (T p I) as (d & D & _). rewrite (dkeys_map_val view). apply (agrees_has s t _ A). apply has_column_iff. eauto. }
    cbn [bind]. apply mapM_accepted. intros p I. destruct (T p I) as (d & D & S). rewrite dget_map_val, (agrees_get s t _ A), D. cbn [option_map].
    destruct (is_decimal (view (to_core d))) eqn:Q; [|eauto]. unfold float_value. destruct d as [[] ? ? ?]; try discriminate Q; cbn in S; destruct (snd p); cbn [bind] in *; try contradiction; try discriminate; eauto; destruct S; discriminate.
Qed.
Lemma decimal_agrees cols s t : agrees l2 s t -> check_decimal cols s = Ok tt ->
  existsb (fun c => match dget c (map (fun p => (fst p, view (snd p))) (v_dom t)) with Some d => negb (is_decimal d) | None => true end) cols = false.
Proof.
  intros A H. destruct (existsb _ cols) eqn:Q; [|reflexivity]. exfalso. apply existsb_exists in Q as (c & I & Q). rewrite check_decimal_accepts in H. destruct (H c I) as (d & D & T).
  rewrite dget_map_val, (agrees_get s t c A), D in Q. destruct d as [ty ? ? ?]. cbn in T. subst ty. discriminate.
Qed.
Lemma replace_inf_total rw s t cs s' : agrees l2 s t -> made s -> replace_inf_schema rw s = Ok s' -> exists y, visit_replace_inf rw (t, cs) = Ok y.
Proof.
  intros A M H. unfold replace_inf_schema in H. apply bind_ok in H as ([] & _ & H). apply bind_ok in H as ([] & _ & H). apply bind_ok in H as ([] & H & _).
  unfold visit_replace_inf. rewrite core_to_analytics_view. cbn [bind]. destruct (agrees_schema s t A M) as (x & ->). cbn [bind].
  rewrite raise_no; [cbn [bind]; eauto|]. destruct rw as [|p0 rw0] eqn:R; [|rewrite <- R in *; apply (decimal_agrees (dkeys rw) s t A H)].
  destruct (existsb _ _) eqn:Q; [|reflexivity]. exfalso. apply existsb_exists in Q as (c & I & Q). rewrite (dkeys_map_val (fun _ => (z_to_f 0, z_to_f 0))) in I.
  apply in_map_iff in I as ((c', d) & EQ & D). cbn in EQ. subst c'.
  set (an := map (fun p => (fst p, view (snd p))) (v_dom t)) in *.
  assert (N : NoDup (dkeys an)) by (unfold an; rewrite (dkeys_map_val view); apply (ag_dom _ _ _ A)).
  apply filter_In in D as (D & DD). apply (In_dget _ _ _ N) in D. rewrite D in Q. cbn in DD. rewrite DD in Q. discriminate.
Qed.
Lemma drop_inf_total cols s t cs s' : agrees l2 s t -> made s -> drop_inf_schema cols s = Ok s' -> exists y, visit_drop_inf cols (t, cs) = Ok y.
Proof.
  intros A M H. unfold drop_inf_schema in H. apply bind_ok in H as ([] & _ & H). apply bind_ok in H as ([] & _ & H). apply bind_ok in H as ([] & H & _).
  unfold visit_drop_inf. rewrite core_to_analytics_view. cbn [bind]. destruct (agrees_schema s t A M) as (x & ->). cbn [bind].
  destruct cols as [|c0 l] eqn:R; [cbn [bind]; eauto|]. rewrite <- R in *. clear R.
  rewrite check_decimal_accepts in H.
  destruct (proj2 (mapM_accepted (fun c => let* d := lookup_col (map (fun p => (fst p, view (snd p))) (v_dom t)) c in raise_if (negb (is_decimal d)) ValueError) cols)) as (u & ->); [|cbn [bind]; eauto].
  intros c I. destruct (H c I) as (d & D & T). unfold lookup_col. rewrite dget_map_val, (agrees_get s t c A), D. destruct d as [ty ? ? ?]. cbn in T. subst ty. cbn. eauto.
Qed.
Lemma drop_null_total cols s t cs s' : agrees l2 s t -> made s -> drop_null_schema cols s = Ok s' -> exists y, visit_drop_null cols (t, cs) = Ok y.
Proof.
  intros A M H. unfold drop_null_schema in H. apply bind_ok in H as ([] & H1 & H). apply bind_ok in H as ([] & H2 & H). apply bind_ok in H as ([] & H3 & _). apply raise_if_ok in H1, H2, H3.
  unfold visit_drop_null. rewrite core_to_analytics_view. cbn [bind]. destruct (agrees_schema s t A M) as (x & ->). cbn [bind].
  rewrite raise_no by (eapply opt_metric; eassumption). cbn [bind]. rewrite raise_no; [cbn [bind]; eauto|].
  apply missing_false. rewrite missing_false in H3. intros c I. destruct cols as [|c0 l].
  - unfold dkeys in *. apply in_map_iff in I as (p & <- & I). apply filter_In in I as (I & _). apply in_map, I.
  - rewrite (dkeys_map_val view). apply (agrees_has s t c A), H3, I.
Qed.
Lemma enforce_total c s t cs s' : agrees l2 s t -> enforce_schema c s = Ok s' -> exists y, visit_enforce W c (t, cs) = Ok y.
Proof.
  intros A H. unfold enforce_schema in H. destruct (sc_id s) as [i|] eqn:Ei; [|discriminate]. pose proof (ag_metric _ _ _ A) as M. unfold metric_for in M. rewrite Ei in M. destruct (sc_group s); [contradiction|].
  unfold visit_enforce. rewrite M. destruct c; cbn; eauto.
Qed.

(** Joins: the library checks the same columns against domains in another order. *)
Lemma entries_perm {V} (a b : dict V) : NoDup (dkeys a) -> NoDup (dkeys b) -> same_entries a b -> Permutation a b.
Proof.
  intros Na Nb E. apply NoDup_Permutation.
  - exact (NoDup_map_inv _ _ Na).
  - exact (NoDup_map_inv _ _ Nb).
  - intros (c, k). split; intros I; apply dget_In.
    + rewrite <- (E c). apply In_dget; assumption.
    + rewrite (E c). apply In_dget; assumption.
Qed.
Lemma join_total s t r tr on lj d : agrees l2 s t -> NoDup (dkeys tr) -> NoDup (dkeys (sc_cols r)) -> same_entries tr (core_cols (sc_cols r)) ->
  join_domain (chosen s r on) lj (analytics_to_core s) (analytics_to_core r) = Ok d ->
  exists d', join_domain (join_columns on (v_dom t) tr) lj (v_dom t) tr = Ok d'.
Proof.
  intros A Nt Nr E H.
  destruct (join_domain_perm (chosen s r on) (join_columns on (v_dom t) tr) lj (analytics_to_core s) (v_dom t) (analytics_to_core r) tr d) as (d' & D & _); [| | | | |exact H|eauto].
  - unfold chosen, join_columns. destruct on; [reflexivity|]. apply NoDup_Permutation.
    + apply List.NoDup_filter, (ag_wf _ _ _ A).
    + apply List.NoDup_filter, (ag_dom _ _ _ A).
    + intros c. symmetry. apply (agree_common l2 s r t tr A E).
  - rewrite analytics_to_core_cols, dkeys_core_cols. apply (ag_wf _ _ _ A).
  - rewrite analytics_to_core_cols, dkeys_core_cols. exact Nr.
  - apply Permutation_sym, entries_perm; [apply (ag_dom _ _ _ A)|rewrite analytics_to_core_cols, dkeys_core_cols; apply (ag_wf _ _ _ A)|apply (ag_same _ _ _ A)].
  - apply Permutation_sym, entries_perm; [exact Nt|rewrite analytics_to_core_cols, dkeys_core_cols; exact Nr|exact E].
Qed.
Lemma chosen_same s t r tr on c : agrees l2 s t -> same_entries tr (core_cols (sc_cols r)) -> In c (join_columns on (v_dom t) tr) <-> In c (chosen s r on).
Proof. intros A E. unfold chosen, join_columns. destruct on; [tauto|]. apply (agree_common l2 s r t tr A E). Qed.

Definition join_fits (tl tr : option strategy) (on : option (list string)) (sl sr : schema) : Prop :=
  sc_group sl = None /\ sc_group sr = None
  /\ match sc_id sl with Some i => In i (chosen sl sr on) | None => tl <> None /\ tr <> None end.
Lemma join_private_total tl tr on sl sr s' t1 t2 cs1 cs2 : agrees l2 sl t1 -> agrees l2 sr t2 -> join_private_schema sl sr on = Ok s' ->
  sc_space sl = v_coll t1 -> sc_space sr = v_coll t2 ->
  (join_fits tl tr on sl sr /\ exists y, visit_join_private W tl tr on (t1, cs1) (t2, cs2) = Ok y)
  \/ (~ join_fits tl tr on sl sr /\ visit_join_private W tl tr on (t1, cs1) (t2, cs2) = Err ValueError).
Proof.
  intros A1 A2 H S1 S2. unfold join_private_schema in H. apply bind_ok in H as ([] & H1 & H). apply bind_ok in H as ([] & H2 & H). apply bind_ok in H as ([] & _ & H).
  apply raise_if_ok in H1, H2. apply negb_false_iff, option_eqb_eq in H1; [|apply String.eqb_eq].
  unfold schema_for_join in H. apply bind_ok in H as (d & D & _).
  destruct (join_total sl t1 sr (v_dom t2) on (String.eqb "inner" "left") d A1 (ag_dom _ _ _ A2) (ag_wf _ _ _ A2) (ag_same _ _ _ A2) D) as (d' & D'). cbn in D'.
  pose proof (ag_metric _ _ _ A1) as M1. pose proof (ag_metric _ _ _ A2) as M2. unfold metric_for in M1, M2.
  unfold visit_join_private. rewrite <- S1, <- S2, H2. cbn [raise_if bind]. unfold join_fits. rewrite <- H1 in M2.
  destruct (sc_group sl) as [g1|], (sc_id sl) as [i|]; try contradiction.
  - right. rewrite M1. split; [intros (Q & _); discriminate|reflexivity].
  - destruct (sc_group sr) as [g2|]; [contradiction|]. rewrite M1, M2, String.eqb_refl. cbn [negb raise_if bind].
    destruct (smem i (join_columns on (v_dom t1) (v_dom t2))) eqn:Q.
    + left. split.
      * split; [reflexivity|]. split; [reflexivity|]. apply smem_In in Q. apply (chosen_same sl t1 sr (v_dom t2) on i A1 (ag_same _ _ _ A2)), Q.
      * cbn [negb raise_if bind]. rewrite D'. cbn [bind]. eauto.
    + right. split; [|reflexivity]. intros (_ & _ & I). apply smem_false in Q. apply Q. apply (chosen_same sl t1 sr (v_dom t2) on i A1 (ag_same _ _ _ A2)), I.
  - destruct (sc_group sr) as [g2|]; rewrite M1, M2.
    + right. split; [intros (_ & Q & _); discriminate|reflexivity].
    + destruct tl as [sl'|]; [destruct tr as [sr'|]|].
      * left. split; [repeat split; discriminate|]. cbn [bind]. rewrite D'. cbn [bind]. eauto.
      * right. split; [intros (_ & _ & _ & Q); apply Q; reflexivity|reflexivity].
      * right. split; [intros (_ & _ & Q & _); apply Q; reflexivity|reflexivity].
Qed.

Lemma public_total p r : public_schema cat p = Ok r -> match p with PubName _ => True | PubFrame f => frame_conforms f end ->
  exists f pd ps, public_frame cat p = Ok f /\ spark_schema_to_analytics_columns (sd_fields f) = Ok pd /\ mk_schema pd None None None = Ok ps
    /\ NoDup (dkeys (sc_cols r)) /\ NoDup (dkeys (analytics_to_core ps)) /\ same_entries (analytics_to_core ps) (core_cols (sc_cols r)).
Proof.
  intros H P. assert (ND : forall fs d, spark_schema_to_analytics_columns fs = Ok d -> NoDup (dkeys d)).
  { intros fs d E. unfold spark_schema_to_analytics_columns in E. inv_ok E. injection E as <-. apply NoDup_dict_of. }
  destruct p as [n|f]; cbn in H |- *.
  - destruct (dget n (cat_public cat)) as [(s, f)|] eqn:G; [|discriminate]. injection H as <-.
    destruct (proj2 IN n s f G) as (F & Ns & _ & _ & d & Ed & Sd). pose proof (sk_public _ _ SK n s f G) as M.
    exists f, d, {| sc_cols := d; sc_group := None; sc_id := None; sc_space := None |}.
    split; [reflexivity|]. split; [exact Ed|]. split; [|split; [exact Ns|split; [rewrite analytics_to_core_cols, dkeys_core_cols; exact (ND _ _ Ed)|intros c; symmetry; exact (Sd c)]]].
    apply mk_schema_ok. split; [|split; [discriminate|split; [discriminate|reflexivity]]].
    intros I. apply (proj1 (made_facts s M)). unfold has_column. rewrite <- dkeys_core_cols, <- analytics_to_core_cols. apply (same_entries_keys _ _ Sd). fold (core_cols d). rewrite dkeys_core_cols. exact I.
  - apply bind_ok in H as (d & E & H). exists f, d, r. split; [reflexivity|]. split; [exact E|]. split; [exact H|].
    apply mk_schema_ok in H as (_ & _ & _ & ->). cbn [sc_cols]. split; [exact (ND _ _ E)|]. split; [rewrite analytics_to_core_cols, dkeys_core_cols; exact (ND _ _ E)|intros c; reflexivity].
Qed.
Definition public_fits (p : pubtable) (on : option (list string)) (s : schema) : Prop :=
  forall r i, public_schema cat p = Ok r -> protected s i -> has_column r i -> In i (chosen s r on).
Lemma join_public_total p on how s s' t cs : agrees l2 s t -> made s -> join_public_schema cat s p on how = Ok s' ->
  match p with PubName _ => True | PubFrame f => frame_conforms f end -> (how = "left" -> sc_id s = None) ->
  (public_fits p on s /\ exists y, visit_join_public cat p on how (t, cs) = Ok y)
  \/ (~ public_fits p on s /\ visit_join_public cat p on how (t, cs) = Err ValueError).
Proof.
  intros A MS H P L. unfold join_public_schema in H. apply bind_ok in H as (r & R & H). apply bind_ok in H as ([] & _ & H). unfold schema_for_join in H. apply bind_ok in H as (d & D & _).
  destruct (public_total p r R P) as (f & pd & ps & Ef & Ed & Es & Nr & Nt & E).
  destruct (join_total s t r (analytics_to_core ps) on _ d A Nt Nr E D) as (d' & D').
  unfold visit_join_public. rewrite Ef. cbn [bind]. rewrite Ed. cbn [bind]. rewrite Es. cbn [bind].
  assert (LL : negb (in_collection (v_place t)) && String.eqb how "left" = String.eqb how "left").
  { destruct (String.eqb_spec how "left") as [Eh|]; [|apply andb_false_r]. rewrite andb_true_r.
    specialize (L Eh). pose proof (ag_metric _ _ _ A) as M. unfold metric_for in M. rewrite L in M. destruct (sc_group s); rewrite M; reflexivity. }
  rewrite LL, D'. cbn [bind].
  assert (X : (match metric_column (v_place t) with Some c => smem c (overlapping (join_columns on (v_dom t) (analytics_to_core ps)) (v_dom t) (analytics_to_core ps)) | None => false end = true)
     <-> exists i, protected s i /\ has_column r i /\ ~ In i (chosen s r on)).
  { destruct (metric_col l2 s _ (ag_metric _ _ _ A)) as (-> & O).
    assert (Y : forall c, protected s c -> smem c (overlapping (join_columns on (v_dom t) (analytics_to_core ps)) (v_dom t) (analytics_to_core ps)) = true <-> has_column r c /\ ~ In c (chosen s r on)).
    { intros c Pc. rewrite smem_In. unfold overlapping, common_columns. rewrite !filter_In, negb_true_iff, smem_false, (chosen_same s t r _ on c A E), (agrees_has s t c A).
      rewrite (same_entries_dmem _ _ c E), dmem_In, dkeys_core_cols. unfold has_column at 2. pose proof (proj2 (made_facts s MS) c Pc). tauto. }
    unfold protected in *. destruct (sc_group s) as [g|].
    - rewrite Y by (left; reflexivity). split; [intros Q; exists g; tauto|]. intros (i & [Q|Q] & Z); [injection Q as <-; exact Z|]. destruct O as [O|O]; congruence.
    - destruct (sc_id s) as [i|].
      + rewrite Y by (right; reflexivity). split; [intros Q; exists i; tauto|]. intros (j & [Q|Q] & Z); [discriminate|injection Q as <-; exact Z].
      + split; [discriminate|]. intros (j & [Q|Q] & _); discriminate. }
  destruct (match metric_column (v_place t) with Some c => _ | None => false end) eqn:Q.
  - right. split; [|reflexivity]. intros F. destruct (proj1 X eq_refl) as (i & X1 & X2 & X3). exact (X3 (F r i R X1 X2)).
  - left. split; [|cbn [raise_if bind]; eauto]. intros r' i R' X1 X2. rewrite R in R'. injection R' as <-.
    destruct (in_dec string_dec i (chosen s r on)) as [I|I]; [exact I|]. discriminate (proj2 X (ex_intro _ i (conj X1 (conj X2 I)))).
Qed.

(** A table query with an accepted schema can be computed, or is refused with a ValueError
    because of what [computable] says. *)
Lemma visit_verdict auto q : is_table q -> built auto q -> promises W l2 cat data q -> regular W cat q -> forall s, sch q = Ok s ->
  (computable (w_cond_ok W) cat q /\ exists y, vis q = Ok y) \/ (~ computable (w_cond_ok W) cat q /\ vis q = Err ValueError).
Proof.
  assert (GO : forall (P P' : Prop) c (k : vtab * list constraint -> res (vtab * list constraint)),
    ((P /\ exists y, vis c = Ok y) \/ (~ P /\ vis c = Err ValueError)) -> (P' -> P) ->
    (P -> forall t cs, vis c = Ok (t, cs) -> (P' /\ exists y, k (t, cs) = Ok y) \/ (~ P' /\ k (t, cs) = Err ValueError)) ->
    (P' /\ exists y, (let* x := vis c in k x) = Ok y) \/ (~ P' /\ (let* x := vis c in k x) = Err ValueError)).
  { intros P P' c k [(Y & ((t, cs) & V))|(N & V)] PP K.
    - rewrite V. cbn [bind]. apply (K Y t cs V).
    - rewrite V. right. split; [intros Q; apply N, PP, Q|reflexivity]. }
  induction q; intros T B P R s0 S; cbn [is_table] in T; try contradiction; cbn [schema_of] in S; try (apply bind_ok in S as (s & S0 & S)); cbn [computable visit].
  - left. split; [exact I|]. unfold source_schema in S. destruct (dget source_id (cat_private cat)) as [(s1, cs1)|] eqn:G; [|discriminate].
    unfold visit_source. destruct (dget source_id data) as [t|] eqn:E; [|exfalso; apply (sk_data _ _ SK source_id); [congruence|exact E]]. rewrite G. eauto.
  - destruct B as (B0 & B), P as (P & P2). apply GO with (P := computable (w_cond_ok W) cat q); [exact (IHq T B P R _ S0)|tauto|]. intros Y t cs V. left. split; [exact Y|].
    eapply rename_total; [exact (schema_agrees W l2 cat data IN auto q B P R s t cs S0 V)|exact S].
  - destruct B as (B0 & B). apply GO with (P := computable (w_cond_ok W) cat q); [exact (IHq T B P R _ S0)|tauto|]. intros Y t cs V. left. split; [exact Y|]. unfold visit_filter. eauto.
  - destruct B as (B0 & B). apply GO with (P := computable (w_cond_ok W) cat q); [exact (IHq T B P R _ S0)|tauto|]. intros Y t cs V. left. split; [exact Y|].
    eapply select_total; [exact (schema_agrees W l2 cat data IN auto q B P R s t cs S0 V)|exact S].
  - destruct B as (B0 & B), P as (P & P2). apply GO with (P := computable (w_cond_ok W) cat q); [exact (IHq T B P R _ S0)|tauto|]. intros Y t cs V. left. split; [exact Y|].
    eapply map_total; [exact (schema_agrees W l2 cat data IN auto q B P R s t cs S0 V)|exact S|exact (visit_bare W l2 cat data (sk_constraints _ _ SK) q t cs V)].
  - destruct B as (B0 & B), P as (P & P2), R as (R & R2). apply GO with (P := computable (w_cond_ok W) cat q); [exact (IHq T B P R _ S0)|tauto|]. intros Y t cs V.
    destruct (flat_map_total f new augment max_rows s t cs s0) as [(Z & K)|(Z & K)]; [exact (schema_agrees W l2 cat data IN auto q B P R s t cs S0 V)|exact S|exact (visit_bare W l2 cat data (sk_constraints _ _ SK) q t cs V)|left|right].
    + split; [|exact K]. split; [exact Y|]. intros s1 S1. rewrite S0 in S1. injection S1 as <-. exact Z.
    + split; [|exact K]. intros (_ & Q). apply Z, (Q s S0).
  - destruct B as (B0 & B), P as (P & P2). apply GO with (P := computable (w_cond_ok W) cat q); [exact (IHq T B P R _ S0)|tauto|]. intros Y t cs V. left. split; [exact Y|].
    eapply flat_map_by_id_total; [exact (schema_agrees W l2 cat data IN auto q B P R s t cs S0 V)|exact S].
  - apply bind_ok in S as (sr & S1 & S). destruct B as (B0 & B1 & B2), P as (P1 & P2), R as (R1 & R2), T as (T1 & T2).
    apply GO with (P := computable (w_cond_ok W) cat q1); [exact (IHq1 T1 B1 P1 R1 _ S0)|tauto|]. intros Y t cs V.
    apply GO with (P := computable (w_cond_ok W) cat q2); [exact (IHq2 T2 B2 P2 R2 _ S1)|tauto|]. intros Y2 t2 cs2 V2.
    assert (DOM : forall n t, dget n data = Some t -> NoDup (dkeys (v_dom t))) by (intros n t9 G; destruct (proj1 IN n t9 G) as (? & ? & _ & _ & N & _); exact N).
    destruct (join_private_total tl tr on s sr s0 t t2 cs cs2) as [(Z & K)|(Z & K)];
      [exact (schema_agrees W l2 cat data IN auto q1 B1 P1 R1 s t cs S0 V)|exact (schema_agrees W l2 cat data IN auto q2 B2 P2 R2 sr t2 cs2 S1 V2)|exact S| | |left|right].
    + exact (visit_space W l2 cat data (sk_placed _ _ SK) (sk_space _ _ SK) q1 s t cs S0 V).
    + exact (visit_space W l2 cat data (sk_placed _ _ SK) (sk_space _ _ SK) q2 sr t2 cs2 S1 V2).
    + split; [|exact K]. split; [exact Y|]. split; [exact Y2|]. intros a b E1 E2. rewrite S0 in E1. rewrite S1 in E2. injection E1 as <-. injection E2 as <-. exact Z.
    + split; [|exact K]. intros (_ & _ & Q). apply Z, (Q s sr S0 S1).
  - destruct B as (B0 & B), P as (P & P2), R as (R & R2). apply GO with (P := computable (w_cond_ok W) cat q); [exact (IHq T B P R _ S0)|tauto|]. intros Y t cs V.
    destruct (join_public_total public on how s s0 t cs) as [(Z & K)|(Z & K)];
      [exact (schema_agrees W l2 cat data IN auto q B P R s t cs S0 V)|exact (sch_made _ _ (sk_made _ _ SK) q s S0)|exact S|exact P2|exact (R2 s S0)|left|right].
    + split; [|exact K]. split; [exact Y|]. intros s1 r i S1. rewrite S0 in S1. injection S1 as <-. apply Z.
    + split; [|exact K]. intros (_ & Q). apply Z. intros r i. exact (Q s r i S0).
  - destruct B as (B0 & B), P as (P & P2). apply GO with (P := computable (w_cond_ok W) cat q); [exact (IHq T B P R _ S0)|tauto|]. intros Y t cs V. left. split; [exact Y|].
    eapply replace_null_total; [exact (schema_agrees W l2 cat data IN auto q B P R s t cs S0 V)|exact (sch_made _ _ (sk_made _ _ SK) q s S0)|exact S].
  - destruct B as (B0 & B), P as (P & P2), R as (R & R2). apply GO with (P := computable (w_cond_ok W) cat q); [exact (IHq T B P R _ S0)|tauto|]. intros Y t cs V. left. split; [exact Y|].
    eapply replace_inf_total; [exact (schema_agrees W l2 cat data IN auto q B P R s t cs S0 V)|exact (sch_made _ _ (sk_made _ _ SK) q s S0)|exact S].
  - destruct B as (B0 & B). apply GO with (P := computable (w_cond_ok W) cat q); [exact (IHq T B P R _ S0)|tauto|]. intros Y t cs V. left. split; [exact Y|].
    eapply drop_null_total; [exact (schema_agrees W l2 cat data IN auto q B P R s t cs S0 V)|exact (sch_made _ _ (sk_made _ _ SK) q s S0)|exact S].
  - destruct B as (B0 & B), R as (R & R2). apply GO with (P := computable (w_cond_ok W) cat q); [exact (IHq T B P R _ S0)|tauto|]. intros Y t cs V. left. split; [exact Y|].
    eapply drop_inf_total; [exact (schema_agrees W l2 cat data IN auto q B P R s t cs S0 V)|exact (sch_made _ _ (sk_made _ _ SK) q s S0)|exact S].
  - destruct B as (B0 & B). apply GO with (P := computable (w_cond_ok W) cat q); [exact (IHq T B P R _ S0)|tauto|]. intros Y t cs V. left. split; [exact Y|].
    eapply enforce_total; [exact (schema_agrees W l2 cat data IN auto q B P R s t cs S0 V)|exact S].
Qed.
End Total.
