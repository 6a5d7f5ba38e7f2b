(** Property C57: describe tells the truth about sessions, tables and queries. *)
From Coq Require Import String Bool Arith ZArith QArith Lia Permutation List.
From Verif Require Import Prelude Budget BudgetProofs Value Rows Constraints ConstraintsSpec ConstraintsProofs Schema SchemaProofs Query Transform TransformSpec
  TransformConform TransformVisit TransformAgree QueryProofs QuerySame PropagateProofs Tables TablesProofs
  Accountant AccountantProofs Session SessionSpec SessionMoney SessionSteps SessionTables SessionInv SessionUse SessionViews SessionWell SessionNames
  Neighboring NeighboringSpec NeighboringProofs Builder BuilderProofs BuilderTree BuilderBuild BuilderCalls BuilderSpec BuilderNeighbours SessionSound
  Describe Props_Query Props_Session Props_Sound.
Import ListNotations.
Local Open Scope string_scope.
Local Open Scope nat_scope.

(** ** Reading a printed table *)

(** The cell of a row under a header. *)
Fixpoint under (h : string) (hs row : list string) : option string :=
  match hs, row with
  | h' :: hs, x :: row => if String.eqb h h' then Some x else under h hs row
  | _, _ => None
  end.
(** What a table says about the column [c] under the header [h]. *)
Definition says (g : grid) (c h : string) : option string :=
  match List.find (fun row => match row with x :: _ => String.eqb x c | [] => false end) (snd g) with
  | Some row => under h (fst g) row
  | None => None
  end.
Definition space_text (s : schema) : string := match sc_space s with Some x => x | None => "" end.

(** The table printed for a schema. *)
Record tells (s : schema) (g : grid) : Prop := {
  (** one row per column, in order, and nothing is cut off *)
  tl_rows : map (fun row => hd_error row) (snd g) = map Some (dkeys (sc_cols s));
  tl_width : forall row, In row (snd g) -> length row = length (fst g);
  tl_headers : NoDup (fst g);
  (** every column: its type and whether it may hold nulls *)
  tl_type : forall c d, dget c (sc_cols s) = Some d -> says g c "Column Type" = Some (ctype_name (cd_type d));
  tl_null : forall c d, dget c (sc_cols s) = Some d -> says g c "Nullable" = Some (yes_no (cd_null d));
  (** the ID column and the ID space *)
  tl_id : forall c d, dget c (sc_cols s) = Some d ->
    says g c "ID Col" = option_map (fun i => yes_no (String.eqb c i)) (sc_id s)
    /\ says g c "ID Space" = option_map (fun i => if String.eqb c i then space_text s else "") (sc_id s);
  (** the grouping column *)
  tl_group : forall c d, dget c (sc_cols s) = Some d -> says g c "Grouping Column" = option_map (fun x => yes_no (String.eqb c x)) (sc_group s);
  (** NaN and infinity, for the columns that can hold them *)
  tl_decimal : forall c d, dget c (sc_cols s) = Some d -> cd_type d = DECIMAL ->
    says g c "NaN Allowed" = Some (yes_no (cd_nan d)) /\ says g c "Infinity Allowed" = Some (yes_no (cd_inf d));
  tl_other : forall c d, dget c (sc_cols s) = Some d -> cd_type d <> DECIMAL ->
    forall h, h = "NaN Allowed" \/ h = "Infinity Allowed" -> says g c h = None \/ says g c h = Some ""
}.

Lemma fine_truthy_id s : fine_schema s -> truthy (sc_id s) = match sc_id s with Some _ => true | None => false end.
Proof.
  intros (NE & IN). unfold truthy. destruct (sc_id s) as [i|] eqn:I; [|reflexivity]. destruct (String.eqb_spec i "") as [->|]; [|reflexivity].
  destruct NE. apply IN. right. reflexivity.
Qed.
Lemma fine_truthy_group s : fine_schema s -> truthy (sc_group s) = match sc_group s with Some _ => true | None => false end.
Proof.
  intros (NE & IN). unfold truthy. destruct (sc_group s) as [i|] eqn:I; [|reflexivity]. destruct (String.eqb_spec i "") as [->|]; [|reflexivity].
  destruct NE. apply IN. left. reflexivity.
Qed.
Lemma row_of s c d : NoDup (dkeys (sc_cols s)) -> dget c (sc_cols s) = Some d ->
  List.find (fun row => match row with x :: _ => String.eqb x c | [] => false end) (snd (describe_schema s)) = Some (column_row s (c, d)).
Proof.
  unfold describe_schema. cbn [snd]. intros _. generalize s at 2 4 as s0. generalize (sc_cols s) as cols. clear. intros cols s0.
  induction cols as [|(k, x) cols IH]; intros G; [discriminate|]. cbn [map List.find]. cbn [dget] in G.
  unfold column_row at 1. cbn [fst snd app]. rewrite String.eqb_sym. destruct (String.eqb_spec c k) as [->|]; [injection G as ->; reflexivity|]. apply IH, G.
Qed.
Lemma decimal_exists cols c d : dget c cols = Some d -> cd_type d = DECIMAL -> existsb (fun p : string * coldesc => is_decimal (snd p)) cols = true.
Proof. intros G D. apply existsb_exists. exists (c, d). split; [apply dget_In, G|]. unfold is_decimal. cbn. rewrite D. reflexivity. Qed.
Lemma schema_told s : fine_schema s -> NoDup (dkeys (sc_cols s)) -> tells s (describe_schema s).
Proof.
  intros FI ND. pose proof (fine_truthy_id s FI) as TI. pose proof (fine_truthy_group s FI) as TG. split.
  - unfold describe_schema, dkeys. cbn [snd]. rewrite !map_map. apply map_ext. intros (c, d). reflexivity.
  - unfold describe_schema. cbn [fst snd]. intros row I. apply in_map_iff in I as ((c, d) & <- & _). unfold column_row, headers. rewrite !app_length. cbn [fst snd].
    destruct (truthy (sc_id s)), (truthy (sc_group s)), (existsb _ (sc_cols s)), (names_column (sc_id s) c), (is_decimal d); reflexivity.
  - unfold describe_schema, headers. cbn [fst]. destruct (truthy (sc_id s)), (truthy (sc_group s)), (existsb _ (sc_cols s)); repeat constructor; cbn; intuition discriminate.
  - intros c d G. unfold says. rewrite (row_of s c d ND G). reflexivity.
  - intros c d G. unfold says. rewrite (row_of s c d ND G). unfold column_row, describe_schema, headers. cbn [fst snd].
    destruct (truthy (sc_id s)), (truthy (sc_group s)), (names_column (sc_id s) c); reflexivity.
  - intros c d G. unfold says. rewrite (row_of s c d ND G). unfold column_row, describe_schema, headers. cbn [fst snd]. rewrite TI, TG.
    destruct (sc_id s) as [i|]; cbn [option_map names_column]; [|destruct (sc_group s), (existsb _ (sc_cols s)), (is_decimal d); split; reflexivity].
    destruct (String.eqb c i); split; reflexivity.
  - intros c d G. unfold says. rewrite (row_of s c d ND G). unfold column_row, describe_schema, headers. cbn [fst snd]. rewrite TI, TG.
    destruct (sc_id s) as [i|]; cbn [option_map names_column]; [destruct (String.eqb c i)|]; (destruct (sc_group s) as [g|]; cbn [option_map names_column]; [reflexivity|]);
      destruct (existsb _ (sc_cols s)), (is_decimal d); reflexivity.
  - intros c d G D. unfold says. rewrite (row_of s c d ND G). unfold column_row, describe_schema, headers. cbn [fst snd]. rewrite (decimal_exists _ _ _ G D).
    unfold is_decimal. rewrite D. destruct (truthy (sc_id s)), (truthy (sc_group s)), (names_column (sc_id s) c); split; reflexivity.
  - intros c d G D h HH. unfold says. rewrite (row_of s c d ND G). unfold column_row, describe_schema, headers. cbn [fst snd].
    assert (DD : is_decimal d = false) by (unfold is_decimal; destruct (cd_type d); try reflexivity; destruct (D eq_refl)). rewrite DD.
    destruct (existsb _ (sc_cols s)); destruct HH as [-> | ->]; destruct (truthy (sc_id s)), (truthy (sc_group s)), (names_column (sc_id s) c); cbn; auto.
Qed.

(** For every schema that can be made: the printed table tells it. *)
Theorem C57_schemas_are_told : forall cols g i sp s, NoDup (dkeys cols) -> mk_schema cols g i sp = Ok s -> sc_cols s = cols /\ tells s (describe_schema s).
Proof.
  intros cols g i sp s ND M. pose proof (mk_fine _ _ _ _ _ M) as FI. apply mk_schema_ok in M as (_ & _ & _ & M). rewrite M in *. split; [reflexivity|].
  apply schema_told; [exact FI|exact ND].
Qed.
Print Assumptions C57_schemas_are_told.
(** Two schemas whose tables are printed alike agree in all that matters: columns, types,
    special values where they are possible, ID and grouping columns, and the ID space. *)
Theorem C57_tables_tell_schemas_apart : forall cols g i sp cols' g' i' sp' s s', NoDup (dkeys cols) -> NoDup (dkeys cols') ->
  mk_schema cols g i sp = Ok s -> mk_schema cols' g' i' sp' = Ok s' -> describe_schema s = describe_schema s' ->
  analytics_to_core s = analytics_to_core s' /\ sc_id s = sc_id s' /\ sc_group s = sc_group s' /\ (sc_id s <> None -> space_text s = space_text s').
Proof.
  intros cols g i sp cols' g' i' sp' s s' ND ND' M M' EQ.
  pose proof (mk_fine _ _ _ _ _ M) as FI. pose proof (mk_fine _ _ _ _ _ M') as FI'.
  destruct (C57_schemas_are_told _ _ _ _ _ ND M) as (EC & T). destruct (C57_schemas_are_told _ _ _ _ _ ND' M') as (EC' & T'). rewrite <- EQ in T'. clear M M'.
  rewrite <- EC in ND. rewrite <- EC' in ND'. clear EC EC' cols cols' g g' i i' sp sp'.
  assert (K : dkeys (sc_cols s) = dkeys (sc_cols s')).
  { pose proof (tl_rows _ _ T) as R. rewrite (tl_rows _ _ T') in R. clear - R. revert R. generalize (dkeys (sc_cols s')) as b. generalize (dkeys (sc_cols s)) as a.
    intros a b. revert a. induction b as [|y b IH]; intros [|x a] R; try discriminate; [reflexivity|]. cbn in R. injection R as -> R. f_equal. apply IH, R. }
  assert (YN : forall a b, yes_no a = yes_no b -> a = b) by (intros [] []; (reflexivity || discriminate)).
  assert (CN : forall a b, ctype_name a = ctype_name b -> a = b) by (intros [] []; (reflexivity || discriminate)).
  assert (SAME : forall c d d', dget c (sc_cols s) = Some d -> dget c (sc_cols s') = Some d' -> to_core d = to_core d').
  { intros c d d' G G'. pose proof (tl_type _ _ T _ _ G) as A. rewrite (tl_type _ _ T' _ _ G') in A. injection A as A. apply CN in A.
    pose proof (tl_null _ _ T _ _ G) as B. rewrite (tl_null _ _ T' _ _ G') in B. injection B as B. apply YN in B.
    unfold to_core. rewrite A, B. destruct (cd_type d) eqn:D; try reflexivity.
    destruct (tl_decimal _ _ T _ _ G D) as (N & F). destruct (tl_decimal _ _ T' _ _ G' A) as (N' & F'). rewrite N in N'. rewrite F in F'.
    injection N' as N'. injection F' as F'. apply YN in N'. apply YN in F'. congruence. }
  assert (SI : sc_id s = sc_id s' /\ (sc_id s <> None -> space_text s = space_text s')).
  { destruct FI as (_ & IN). destruct FI' as (_ & IN').
    destruct (sc_id s) as [i|] eqn:ES.
    - assert (I : In i (dkeys (sc_cols s))) by (apply IN; right; reflexivity). pose proof I as I'. rewrite K in I'.
      apply in_dkeys in I as (d & G). apply in_dkeys in I' as (d' & G'). destruct (tl_id _ _ T _ _ G) as (A & B). destruct (tl_id _ _ T' _ _ G') as (A' & B').
      rewrite ES in A, B. cbn [option_map] in A, B. rewrite String.eqb_refl in A, B. rewrite A in A'. rewrite B in B'. destruct (sc_id s') as [i'|]; [|discriminate]. cbn [option_map] in A', B'.
      injection A' as A'. change "True" with (yes_no true) in A'. apply YN in A'. symmetry in A'. rewrite A' in B'. apply String.eqb_eq in A'. subst i'. split; [reflexivity|]. intros _. congruence.
    - split; [|congruence]. destruct (sc_id s') as [i'|] eqn:ES'; [|reflexivity]. exfalso.
      assert (I : In i' (dkeys (sc_cols s'))) by (apply IN'; right; reflexivity). pose proof I as I'. rewrite <- K in I'.
      apply in_dkeys in I as (d & G). apply in_dkeys in I' as (d' & G'). destruct (tl_id _ _ T' _ _ G) as (A & _). destruct (tl_id _ _ T _ _ G') as (A' & _).
      rewrite ES' in A. rewrite ES in A'. cbn [option_map] in *. congruence. }
  assert (SG : sc_group s = sc_group s').
  { destruct FI as (_ & IN). destruct FI' as (_ & IN').
    destruct (sc_group s) as [i|] eqn:ES.
    - assert (I : In i (dkeys (sc_cols s))) by (apply IN; left; reflexivity). pose proof I as I'. rewrite K in I'.
      apply in_dkeys in I as (d & G). apply in_dkeys in I' as (d' & G'). pose proof (tl_group _ _ T _ _ G) as A. pose proof (tl_group _ _ T' _ _ G') as A'.
      rewrite ES in A. cbn [option_map] in A. rewrite String.eqb_refl in A. rewrite A in A'. destruct (sc_group s') as [i'|]; [|discriminate]. cbn [option_map] in A'.
      injection A' as A'. change "True" with (yes_no true) in A'. apply YN in A'. symmetry in A'. apply String.eqb_eq in A'. congruence.
    - destruct (sc_group s') as [i'|] eqn:ES'; [|reflexivity]. exfalso.
      assert (I : In i' (dkeys (sc_cols s'))) by (apply IN'; left; reflexivity). pose proof I as I'. rewrite <- K in I'.
      apply in_dkeys in I as (d & G). apply in_dkeys in I' as (d' & G'). pose proof (tl_group _ _ T' _ _ G) as A. pose proof (tl_group _ _ T _ _ G') as A'.
      rewrite ES' in A. rewrite ES in A'. cbn [option_map] in *. congruence. }
  split; [|destruct SI as (SI1 & SI2); auto].
  unfold analytics_to_core. clear - K SAME ND. revert K SAME ND. generalize (sc_cols s') as b. generalize (sc_cols s) as a. intros a b. revert a.
  induction b as [|(k', d') b IH]; intros [|(k, d) a] K SAME ND; try discriminate; [reflexivity|]. cbn [dkeys map fst] in K. injection K as -> K. cbn [map fst snd]. f_equal.
  - f_equal. apply (SAME k'); cbn [dget]; rewrite String.eqb_refl; reflexivity.
  - inversion ND as [|? ? NI ND']; subst. apply IH; [exact K| |exact ND']. intros c x x' G G'. apply (SAME c); cbn [dget]; (destruct (String.eqb_spec c k') as [->|]; [|assumption]); exfalso; apply NI.
    + apply in_dkeys. eauto.
    + apply in_dkeys. eauto.
Qed.
Print Assumptions C57_tables_tell_schemas_apart.

(** ** Sessions *)

Lemma catalog_private_keys x pub cons names : forall acc out, catalog_private x pub cons names acc = Ok out -> dkeys out = (dkeys acc ++ names)%list.
Proof.
  induction names as [|n names IH]; intros acc out H; cbn [catalog_private] in H; [injection H as <-; rewrite app_nil_r; reflexivity|].
  apply bind_ok in H as (cols & _ & H). apply bind_ok in H as (cs & _ & H). apply bind_ok in H as (g & _ & H). apply bind_ok in H as (i & _ & H).
  apply bind_ok in H as (sp & _ & H). apply bind_ok in H as (u & _ & H). apply bind_ok in H as (s & _ & H). apply IH in H. rewrite H.
  unfold dkeys. rewrite map_app, <- app_assoc. reflexivity.
Qed.
Lemma catalog_keys x pub cons cat : catalog_of x pub cons = Ok cat -> exists names, private_sources x = Ok names /\ dkeys (cat_private cat) = names /\ dkeys (cat_public cat) = dkeys pub.
Proof.
  intros H. unfold catalog_of in H. apply bind_ok in H as (names & PS & H). apply bind_ok in H as (pr & P & H). apply bind_ok in H as (pu & U & H). injection H as <-.
  exists names. split; [exact PS|]. cbn [cat_private cat_public]. split; [exact (catalog_private_keys _ _ _ _ _ _ P)|]. unfold catalog_public in U. clear - U.
  revert pu U. induction pub as [|(n, f) pub IH]; intros pu U; cbn [mapM] in U; [injection U as <-; reflexivity|].
  apply bind_ok in U as ((k, z) & A & U). apply bind_ok in U as (l & B & U). injection U as <-. apply bind_ok in A as (cols & _ & A). apply bind_ok in A as (s & _ & A). injection A as <- <-.
  cbn [dkeys map fst]. f_equal. apply IH, B.
Qed.

(** In every state of every session: describe works if there is a private table; it lists
    the private tables the session has, in the order of private_sources, each with the
    schema the session reports for it and the constraints recorded for it; the public tables;
    the budget that remains; and says nothing about the state exactly if the session is the
    active one. *)
Theorem C57_sessions_are_told : forall E st p s names, any_state E st -> session st p s -> private_sources (s_tree s) = Ok names -> names <> [] ->
  exists d, describe_self st p = Ok d /\ tx_budget d = remaining_privacy_budget s
    /\ (forall x, tx_state d = Some x <-> state_at (st_root st) p x /\ x <> ACTIVE)
    /\ dkeys (tx_private d) = names /\ dkeys (tx_public d) = public_sources (st_public st)
    /\ (forall n, In n names -> exists cols g i sp sc cs,
          get_schema (s_tree s) (st_public st) n = Ok cols /\ get_grouping_column (s_tree s) (st_public st) n = Ok g
          /\ get_id_column (s_tree s) (st_public st) n = Ok i /\ get_id_space (s_tree s) (st_public st) n = Ok sp
          /\ mk_schema cols g i sp = Ok sc /\ dget n (s_cons s) = Some cs /\ dget n (tx_private d) = Some (describe_schema sc, cs))
    /\ (forall n f, In (n, f) (st_public st) -> exists cols sc, spark_schema_to_analytics_columns (sd_fields f) = Ok cols
          /\ mk_schema cols None None None = Ok sc /\ In (n, describe_schema sc) (tx_public d)).
Proof.
  intros E st p s names A (c & F & DS) PS NE. assert (S : session st p s) by (exists c; auto). destruct (any_state_facts E st A) as (TA & FA & R).
  destruct (catalogs_exist st s (TA p s S) (FA p s S) R) as (cat & data & CA & _). pose proof (tk_layout s (TA p s S)) as L.
  pose proof (catalog_of_for _ _ _ _ L CA) as CF. destruct (catalog_keys _ _ _ _ CA) as (names' & PS' & KP & KU). rewrite PS in PS'. injection PS' as <-.
  unfold describe_self. rewrite F, DS, CA. cbn [bind].
  assert (N0 : (length (map (fun x : string * (schema * list constraint) => (fst x, (describe_schema (fst (snd x)), match dget (fst x) (s_cons s) with Some cs => cs | None => [] end))) (cat_private cat)) =? 0) = false).
  { rewrite map_length. apply Nat.eqb_neq. intros Z. apply NE. rewrite <- KP. unfold dkeys. destruct (cat_private cat); [reflexivity|discriminate]. }
  rewrite N0. cbn [raise_if bind]. eexists. split; [reflexivity|]. cbn [tx_budget tx_state tx_private tx_public]. split; [reflexivity|]. split; [|split; [|split; [|split]]].
  - intros x. split.
    + intros H. split; [exists c; split; [exact F|]|]; destruct (a_state c); congruence.
    + intros ((c' & F' & <-) & NA). rewrite F in F'. injection F' as <-. destruct (a_state c); congruence.
  - unfold dkeys in *. rewrite map_map. rewrite <- KP. apply map_ext. reflexivity.
  - unfold public_sources. rewrite <- KU. unfold dkeys. rewrite map_map. apply map_ext. reflexivity.
  - intros n I. assert (I' := I). apply smem_In in I'. apply (mem_names _ _ n L PS) in I'. apply in_dkeys in I' as (t & G).
    destruct (cf_private _ _ _ _ CF n t G) as (sc & cs & TS & GC & GP).
    rewrite (get_schema_spec _ _ n t L G), (get_grouping_spec _ _ n t L G), (get_id_column_spec _ _ n t L G), (get_id_space_spec _ _ n t L G).
    unfold table_schema in TS. apply bind_ok in TS as (cols & HC & TS). exists cols. eexists _, _, _, sc, cs. split; [exact HC|]. split; [reflexivity|]. split; [reflexivity|]. split; [reflexivity|].
    split; [exact TS|]. split; [exact GC|]. clear - GP GC. revert GP. generalize (cat_private cat) as l. induction l as [|(k, (x, y)) l IH]; intros GP; [discriminate|]. cbn [map fst snd dget] in *.
    destruct (String.eqb_spec n k) as [->|]; [|apply IH, GP]. injection GP as -> ->. rewrite GC. reflexivity.
  - intros n f I. pose proof (cf_public _ _ _ _ CF) as U. unfold catalog_public in U. revert U. generalize (cat_public cat) as l. revert I. generalize (st_public st) as pub. clear.
    induction pub as [|(k, g) pub IH]; intros I l U; [destruct I|]. cbn [mapM] in U. apply bind_ok in U as (z & B & U). apply bind_ok in U as (l' & C & U). injection U as <-.
    cbn [fst snd] in B. apply bind_ok in B as (cols & HC & B). apply bind_ok in B as (sc & HS & B). injection B as <-. destruct I as [I|I].
    + injection I as -> ->. exists cols, sc. split; [exact HC|]. split; [exact HS|]. left. reflexivity.
    + destruct (IH I l' C) as (cols' & sc' & X & Y & Z). exists cols', sc'. split; [exact X|]. split; [exact Y|]. right. exact Z.
Qed.
Print Assumptions C57_sessions_are_told.
(** A session that lost its last private table cannot be described (if the library lets the
    last table be deleted at all). *)
Theorem C57_empty_sessions_are_not_described : forall E st p s, any_state E st -> session st p s -> private_sources (s_tree s) = Ok [] ->
  describe_self st p = Err InternalError.
Proof.
  intros E st p s A (c & F & DS) PS. assert (S : session st p s) by (exists c; auto). destruct (any_state_facts E st A) as (TA & FA & R).
  destruct (catalogs_exist st s (TA p s S) (FA p s S) R) as (cat & data & CA & _). destruct (catalog_keys _ _ _ _ CA) as (names' & PS' & KP & _). rewrite PS in PS'. injection PS' as <-.
  unfold describe_self. rewrite F, DS, CA. cbn [bind]. destruct (cat_private cat); [reflexivity|discriminate].
Qed.
Print Assumptions C57_empty_sessions_are_not_described.
(** "This session has been stopped, and can no longer be used": no query, view, deletion or
    partition is accepted, or changes anything, whatever is called in between. *)
Theorem C57_stopped_means_stopped : forall E st p d calls o, any_state E st -> describe_self st p = Ok d -> tx_state d = Some RETIRED ->
  needs_session o = true -> target o = p -> exists e, step E (run E st calls) o = (run E st calls, Err e).
Proof.
  intros E st p d calls o (bc & b0 & l & NB & B & _ & ->) D T N TG. destruct (start_sound E false bc b0 NB B) as (O & _).
  assert (RT : state_at (st_root (run E (o_state b0) l)) p RETIRED).
  { unfold describe_self in D. destruct (find p (st_root (run E (o_state b0) l))) as [c|] eqn:F; [|discriminate]. exists c. split; [exact F|].
    apply bind_ok in D as (cat & _ & D). apply bind_ok in D as (u & _ & D). injection D as <-. cbn [tx_state] in T. destruct (a_state c); congruence. }
  apply retired_refuses; [exact N|]. rewrite TG. apply run_retired; [apply run_ok, O|exact RT].
Qed.
Print Assumptions C57_stopped_means_stopped.

(** ** Queries *)

(** describe(query) prints the schema of the query and, for a query that can become a view,
    its constraints; it fails exactly if a view could not be made of it for a reason other
    than that it is an aggregation. *)
Definition aggregates (q : query) : bool :=
  match q with
  | GetGroups _ _ | GetBounds _ _ _ _ _ | GroupByCount _ _ _ _ _ | GroupByCountDistinct _ _ _ _ _ _
  | GroupByQuantile _ _ _ _ _ _ _ | GroupByBounded _ _ _ _ _ _ _ _ _ | SuppressAggregates _ _ _ => true
  | _ => false
  end.
Lemma aggregates_not W l2 cat data q : aggregates q = true -> visit W l2 cat data q = Err NotImplementedError.
Proof. destruct q; try discriminate; reflexivity. Qed.
Theorem C57_aggregations_are_told : forall E st p s q sc k, any_state E st -> session st p s -> aggregates q = true -> has_schema E st s q sc ->
  exists d, describe_query_obj E st p q k = Ok d /\ qx_grid d = describe_schema sc /\ qx_cons d = [].
Proof.
  intros E st p s q sc k A S AG (cat & CA & SC). destruct (any_state_facts E st A) as (TA & FA & R).
  destruct (catalogs_exist st s (TA p s S) (FA p s S) R) as (cat' & data & CA' & DA). unfold describe_query_obj, session_at. destruct S as (c & -> & ->). cbn [bind]. rewrite CA. cbn [bind]. rewrite SC. cbn [bind].
  rewrite DA. cbn [bind]. unfold build_transformation. rewrite SC. cbn [bind]. rewrite (aggregates_not _ _ _ _ _ AG). cbn [bind]. eexists. split; [reflexivity|]. split; reflexivity.
Qed.
Print Assumptions C57_aggregations_are_told.
Theorem C57_queries_are_told : forall E st p s q sc t cs k, session st p s -> has_schema E st s q sc -> stands_for E st s q (t, cs) ->
  exists d, describe_query_obj E st p q k = Ok d /\ qx_grid d = describe_schema sc /\ qx_cons d = cs.
Proof.
  intros E st p s q sc t cs k S (cat & CA & SC) (cat' & data & CA' & DA & BT). rewrite CA in CA'. injection CA' as <-. unfold describe_query_obj, session_at. destruct S as (c & -> & ->). cbn [bind].
  rewrite CA. cbn [bind]. rewrite SC. cbn [bind]. rewrite DA. cbn [bind]. rewrite BT. cbn [bind]. eexists. split; [reflexivity|]. split; reflexivity.
Qed.
Print Assumptions C57_queries_are_told.
(** describe(query) does not hide errors: if it works, the query has the schema it prints,
    and either the constraints are those of the table the query stands for, or the query
    cannot become a view of any name because it is an aggregation: create_view then raises
    NotImplementedError. *)
Theorem C57_failures_are_told : forall E st p s q k d, session st p s -> describe_query_obj E st p q k = Ok d ->
  (exists sc, has_schema E st s q sc /\ qx_grid d = describe_schema sc)
  /\ ((exists t, stands_for E st s q (t, qx_cons d))
      \/ qx_cons d = [] /\ forall v cache names a, private_sources (s_tree s) = Ok names -> state_at (st_root st) p a -> a <> RETIRED ->
           e_identifier E v = true -> ~ In v names -> ~ In v (public_sources (st_public st)) ->
           exists st', step E st (CreateView p q v cache) = (st', Err NotImplementedError)).
Proof.
  intros E st p s q k d (c & F & D) H. unfold describe_query_obj in H.
  assert (S1 : session_at st p = Ok s) by (unfold session_at; rewrite F, D; reflexivity). rewrite S1 in H. cbn [bind] in H.
  apply bind_ok in H as (cat & CA & H). apply bind_ok in H as (sc & SC & H). apply bind_ok in H as (data & DA & H). apply bind_ok in H as (cs & BT & H).
  injection H as <-. cbn [qx_grid qx_cons]. split; [exists sc; split; [exists cat; split; assumption|reflexivity]|].
  destruct (build_transformation _ _ _ _ _) as [(t, cs')|e] eqn:B.
  - injection BT as <-. left. exists t, cat, data. split; [exact CA|]. split; [exact DA|]. exact B.
  - destruct e; try discriminate. injection BT as <-. right. split; [reflexivity|]. intros v cache names a PS SA NR ID NP NB.
    cbn [step]. unfold create_view, attempt, activated. rewrite S1, ID. cbn [negb raise_if]. apply state_at_iff in SA. unfold activate. rewrite SA.
    assert (NP' : smem v names = false) by (destruct (smem v names) eqn:X; [apply smem_In in X; contradiction|reflexivity]).
    assert (NB' : dmem v (st_public st) = false). { destruct (dmem v (st_public st)) eqn:X; [|reflexivity]. exfalso. apply NB. unfold public_sources. apply dmem_In. exact X. }
    destruct a; try contradiction; rewrite PS; cbn [st_public set_root]; rewrite NP', NB'; cbn [orb raise_if]; rewrite CA, DA, B; eexists; reflexivity.
Qed.
Print Assumptions C57_failures_are_told.
(** The groups: columns given as such are listed; of a KeySet with distinct rows the columns
    are listed and the number of groups told; a KeySet without columns is not mentioned. *)
Theorem C57_groups_are_told : forall E st p q d k, describe_query_obj E st p q k = Ok d ->
  (k = None -> qx_groups d = None)
  /\ (forall cols, k = Some (KCols cols) -> qx_groups d = Some (cols, None))
  /\ (forall cols rows groups, k = Some (KSet cols rows) -> cols <> [] -> NoDup groups -> (forall r, In r groups <-> In r rows) -> NoDup rows ->
        qx_groups d = Some (dkeys cols, Some (length groups)))
  /\ (forall rows, k = Some (KSet [] rows) -> qx_groups d = None).
Proof.
  intros E st p q d k H. unfold describe_query_obj in H. apply bind_ok in H as (s & _ & H). apply bind_ok in H as (cat & _ & H). apply bind_ok in H as (sc & _ & H).
  apply bind_ok in H as (data & _ & H). apply bind_ok in H as (cs & _ & H). injection H as <-. cbn [qx_groups].
  split; [intros ->; reflexivity|]. split; [intros cols ->; reflexivity|]. split; [|intros rows ->; reflexivity].
  intros cols rows groups -> N ND IN NR. destruct cols as [|x cols]; [contradiction|]. cbn [describe_groups length Nat.ltb Nat.leb]. do 3 f_equal.
  apply Permutation_length, NoDup_Permutation; [exact NR|exact ND|]. intros r. symmetry. apply IN.
Qed.
Print Assumptions C57_groups_are_told.
Lemma find_none s c : dget c (sc_cols s) = None ->
  List.find (fun row => match row with x :: _ => String.eqb x c | [] => false end) (snd (describe_schema s)) = None.
Proof.
  unfold describe_schema. cbn [snd]. generalize s at 2 as s0. generalize (sc_cols s) as cols. clear. intros cols s0. induction cols as [|(k, x) cols IH]; intros G; [reflexivity|].
  cbn [map List.find]. cbn [dget] in G. unfold column_row at 1. cbn [fst snd app]. rewrite String.eqb_sym. destruct (String.eqb_spec c k) as [->|]; [discriminate|]. apply IH, G.
Qed.
Lemma to_core_decimal d d' : to_core d = to_core d' -> is_decimal d = is_decimal d'.
Proof. unfold to_core, is_decimal. destruct (cd_type d), (cd_type d'); try reflexivity; discriminate. Qed.
Lemma decimals_same s s' : same_schema s s' -> existsb (fun p : string * coldesc => is_decimal (snd p)) (sc_cols s) = true -> existsb (fun p : string * coldesc => is_decimal (snd p)) (sc_cols s') = true.
Proof.
  intros SS H. apply existsb_exists in H as ((c, d) & I & D). apply (In_dget _ _ _ (ss_nodup _ _ SS)) in I. pose proof (ss_cols _ _ SS c) as Q. rewrite !dget_core_cols, I in Q. cbn [option_map] in Q.
  destruct (dget c (sc_cols s')) as [d'|] eqn:G; [|discriminate]. injection Q as Q. apply existsb_exists. exists (c, d'). split; [apply dget_In, G|]. cbn [snd] in *. rewrite <- (to_core_decimal _ _ Q). exact D.
Qed.
Lemma decimals_eq s s' : same_schema s s' -> existsb (fun p : string * coldesc => is_decimal (snd p)) (sc_cols s) = existsb (fun p : string * coldesc => is_decimal (snd p)) (sc_cols s').
Proof.
  intros SS. pose proof (decimals_same _ _ SS) as A. pose proof (decimals_same _ _ (same_schema_sym _ _ SS)) as B.
  destruct (existsb _ (sc_cols s)), (existsb _ (sc_cols s')); try reflexivity; [symmetry; apply A; reflexivity|apply B; reflexivity].
Qed.
Lemma says_same s s' : same_schema s s' -> fst (describe_schema s) = fst (describe_schema s') /\ forall c h, says (describe_schema s) c h = says (describe_schema s') c h.
Proof.
  intros SS. assert (HD : headers s = headers s') by (unfold headers; rewrite (ss_id _ _ SS), (ss_group _ _ SS), (decimals_eq _ _ SS); reflexivity). split; [exact HD|].
  intros c h. unfold says. pose proof (ss_cols _ _ SS c) as Q. rewrite !dget_core_cols in Q.
  destruct (dget c (sc_cols s)) as [d|] eqn:G, (dget c (sc_cols s')) as [d'|] eqn:G'; try discriminate.
  - rewrite (row_of _ _ _ (ss_nodup _ _ SS) G), (row_of _ _ _ (ss_nodup' _ _ SS) G'). cbn [option_map] in Q. injection Q as Q.
    replace (column_row s' (c, d')) with (column_row s (c, d)); [unfold describe_schema; cbn [fst]; rewrite HD; reflexivity|].
    unfold column_row. rewrite <- (decimals_eq _ _ SS), (ss_id _ _ SS), (ss_group _ _ SS), (ss_space _ _ SS). cbn [fst snd]. rewrite <- (to_core_decimal _ _ Q).
    assert (T : cd_type d = cd_type d' /\ cd_null d = cd_null d' /\ (is_decimal d = true -> cd_nan d = cd_nan d' /\ cd_inf d = cd_inf d')).
    { unfold to_core, is_decimal in *. destruct (cd_type d), (cd_type d'); try discriminate Q; injection Q as Q; auto; repeat split; auto; discriminate. }
    destruct T as (T1 & T2 & T3). rewrite T1, T2. destruct (is_decimal d); [destruct (T3 eq_refl) as (-> & ->)|]; reflexivity.
  - rewrite (find_none _ _ G), (find_none _ _ G'). reflexivity.
Qed.

(** What describe says about a query is what it says about a view of it, once created: the
    same constraints and, in every cell, the same facts about every column (the columns may
    be listed in another order); and the view is listed like that among the tables. *)
Theorem C57_views_are_as_described : forall E st p s q v cache st' k,
  by_name (w_cond_ok (e_world E)) -> any_state E st -> session st p s -> dicts q -> Query.is_identifier v = true ->
  step E st (CreateView p q v cache) = (st', Ok tt) ->
  exists d d' t, describe_query_obj E st p q k = Ok d /\ describe_name E st' p v = Ok d' /\ describe_self st' p = Ok t
    /\ qx_cons d' = qx_cons d /\ fst (qx_grid d') = fst (qx_grid d) /\ (forall c h, says (qx_grid d') c h = says (qx_grid d) c h)
    /\ dget v (tx_private t) = Some (qx_grid d', qx_cons d').
Proof.
  intros E st p s q v cache st' k BN A S D IV H. destruct (any_state_facts E st A) as (TA & FA & R). pose proof A as (bc & b0 & l & NB & B & P & EQ). destruct (start_sound E false bc b0 NB B) as (O0 & _).
  assert (O : ok (st_root st)) by (rewrite EQ; apply run_ok, O0).
  assert (A' : any_state E st').
  { exists bc, b0, (l ++ [CreateView p q v cache])%list. split; [exact NB|]. split; [exact B|]. split; [apply Forall_app; split; [exact P|constructor; [exact D|constructor]]|].
    assert (RA : forall l1 st1 o, run E st1 (l1 ++ [o])%list = fst (step E (run E st1 l1) o)) by (induction l1 as [|a l1 IH]; intros; [reflexivity|cbn; apply IH]).
    rewrite RA, <- EQ, H. reflexivity. }
  destruct (any_state_facts E st' A') as (TA' & FA' & R').
  destruct (view_step E _ _ _ _ _ _ _ O TA S H) as (cat & data & y & s' & CA & DA & BT & S' & PB & L' & PT & CN & SL & _ & _ & FR & DM & _).
  assert (DS : dicts (PrivateSource v)) by exact I. assert (SB : subst v q (PrivateSource v) = q) by (unfold subst; cbn [replace]; rewrite String.eqb_refl; reflexivity).
  pose proof (view_stands E st p q v cache st' s s' (PrivateSource v) y BN O TA (FA p s S) D DS S H S') as VS. rewrite SB in VS.
  assert (SF : stands_for E st s q y) by (exists cat, data; auto). pose proof (proj2 VS SF) as SF'.
  destruct y as (ty, cy). pose proof BT as BT'. apply build_transformation_ok in BT' as (sc & SC & _).
  assert (HS : has_schema E st s q sc) by (exists cat; auto). destruct (view_has_schema E st p q v cache st' s s' (PrivateSource v) BN O TA (FA p s S) D DS S H S') as (_ & VB). rewrite SB in VB.
  destruct (VB sc HS) as (sc' & HS' & SS).
  destruct (C57_queries_are_told E st p s q sc ty cy k S HS SF) as (d & D1 & D2 & D3).
  destruct (C57_queries_are_told E st' p s' (PrivateSource v) sc' ty cy None S' HS' SF') as (d' & D1' & D2' & D3').
  destruct (private_sources_spec _ L') as (names & PS & _ & NI).
  assert (IN : In v names). { apply NI. apply (Permutation_in (l := dkeys ((v, fst (ty, cy)) :: named (s_tree s)))); [unfold dkeys; apply Permutation_map, Permutation_sym, PT|left; reflexivity]. }
  destruct (C57_sessions_are_told E st' p s' names A' S' PS) as (t & T1 & _ & _ & _ & _ & T2 & _); [intros Z; rewrite Z in IN; destruct IN|].
  exists d, d', t. split; [exact D1|]. split; [unfold describe_name; rewrite IV; cbn [negb raise_if bind]; exact D1'|]. split; [exact T1|]. split; [congruence|].
  rewrite D2, D2'. destruct (says_same _ _ SS) as (X & Y). split; [exact X|]. split; [exact Y|].
  destruct (T2 v IN) as (cols & g & i & sp & sc2 & cs & G1 & G2 & G3 & G4 & MK & GC & GT). rewrite GT. f_equal. f_equal.
  - f_equal. destruct HS' as (cat' & CA' & SC'). pose proof (catalog_of_for _ _ _ _ L' CA') as CF. assert (IV' := proj1 (NI v) IN). apply in_dkeys in IV' as (tv & GV).
    destruct (cf_private _ _ _ _ CF v tv GV) as (s3 & cs3 & TS & _ & GP). cbn [schema_of] in SC'. unfold source_schema in SC'. apply bind_ok in SC' as (u & _ & SC'). rewrite GP in SC'. injection SC' as <-.
    rewrite (get_schema_spec _ _ v tv L' GV) in G1. rewrite (get_grouping_spec _ _ v tv L' GV) in G2. rewrite (get_id_column_spec _ _ v tv L' GV) in G3. rewrite (get_id_space_spec _ _ v tv L' GV) in G4.
    unfold table_schema in TS. rewrite G1 in TS. cbn [bind] in TS. injection G2 as <-. injection G3 as <-. injection G4 as <-. rewrite MK in TS. injection TS as <-. reflexivity.
  - rewrite CN, dget_dset_same in GC. injection GC as <-. congruence.
Qed.
Print Assumptions C57_views_are_as_described.

(** ** Names *)

(** describe(name) works for every private table, unless a public table has its name, and
    says what describe() says about the table.  Partial: it does not work for public tables,
    see C57_public_names_refuted. *)
Theorem C57_names_are_told_partial : forall E st p s names n, honest_state false E st -> session st p s -> private_sources (s_tree s) = Ok names -> In n names ->
  Query.is_identifier n = true -> ~ In n (public_sources (st_public st)) ->
  exists d t, describe_name E st p n = Ok d /\ describe_self st p = Ok t /\ dget n (tx_private t) = Some (qx_grid d, qx_cons d).
Proof.
  intros E st p s names n HO S PS IN ID NP. pose proof (honest_any _ _ _ HO) as A. destruct (any_state_facts E st A) as (TA & FA & R). destruct (honest_facts _ _ _ HO) as (SO & SP).
  destruct (C57_sessions_are_told E st p s names A S PS) as (t & T1 & _ & _ & _ & _ & T2 & _); [intros Z; rewrite Z in IN; destruct IN|].
  destruct (T2 n IN) as (cols & g & i & sp & sc2 & cs & G1 & G2 & G3 & G4 & MK & GC & GT).
  destruct (catalogs_exist st s (TA p s S) (FA p s S) R) as (cat & data & CA & DA). pose proof (tk_layout s (TA p s S)) as L. pose proof (catalog_of_for _ _ _ _ L CA) as CF.
  destruct (sound_inputs false st s cat data (TA p s S) (FA p s S) (SO p s S) SP CA DA) as (INP & _).
  assert (I' := IN). apply smem_In in I'. apply (mem_names _ _ n L PS) in I'. apply in_dkeys in I' as (tv & GV).
  destruct (cf_private _ _ _ _ CF n tv GV) as (sc & cs' & TS & GC' & GP). rewrite GC in GC'. injection GC' as <-.
  rewrite (get_schema_spec _ _ n tv L GV) in G1. rewrite (get_grouping_spec _ _ n tv L GV) in G2. rewrite (get_id_column_spec _ _ n tv L GV) in G3. rewrite (get_id_space_spec _ _ n tv L GV) in G4.
  pose proof TS as TS'. unfold table_schema in TS'. rewrite G1 in TS'. cbn [bind] in TS'. injection G2 as <-. injection G3 as <-. injection G4 as <-. rewrite MK in TS'. injection TS' as <-.
  assert (GD : dget n data = Some tv) by (destruct (data_of_spec _ L) as (da & DA' & DG); rewrite DA in DA'; injection DA' as <-; rewrite DG; exact GV).
  assert (GU : dmem n (cat_public cat) = false).
  { destruct (dmem n (cat_public cat)) eqn:DM; [|reflexivity]. exfalso. apply NP. unfold public_sources. destruct (catalog_keys _ _ _ _ CA) as (_ & _ & _ & <-). unfold dmem in DM.
    destruct (dget n (cat_public cat)) eqn:DG; [|discriminate]. apply in_dkeys. eauto. }
  assert (HS : has_schema E st s (PrivateSource n) sc2) by (exists cat; split; [exact CA|]; cbn [schema_of]; unfold source_schema; rewrite GU; cbn [raise_if bind]; rewrite GP; reflexivity).
  assert (SF : stands_for E st s (PrivateSource n) (tv, cs)).
  { exists cat, data. split; [exact CA|]. split; [exact DA|]. apply build_transformation_ok. exists sc2. destruct HS as (cat' & CA' & SC). rewrite CA in CA'. injection CA' as <-. split; [exact SC|].
    split; [cbn [visit]; unfold visit_source; rewrite GD, GP; reflexivity|]. destruct (proj1 INP n tv GD) as (sc3 & cs3 & GP3 & N1 & N2 & _ & SE & ME & _). rewrite GP in GP3. injection GP3 as <- <-.
    apply validate_ok; auto. }
  destruct (C57_queries_are_told E st p s (PrivateSource n) sc2 tv cs None S HS SF) as (d & D1 & D2 & D3). exists d, t. split; [unfold describe_name; rewrite ID; exact D1|]. split; [exact T1|].
  rewrite GT, D2, D3. reflexivity.
Qed.
Print Assumptions C57_names_are_told_partial.
(** It never works for a public table, although describe() lists it. *)
Theorem C57_public_names_refuted : exists E st s d n, honest_state true E st /\ session st [] s /\ describe_self st [] = Ok d
  /\ In n (dkeys (tx_public d)) /\ get_schema (s_tree s) (st_public st) n <> Err KeyError /\ describe_name E st [] n = Err ValueError.
Proof.
  exists E0, (run E0 trips_state trips_plan). eexists _, _, "codes". split; [exact trips_honest|]. split; [eexists; split; [vm_compute; reflexivity|reflexivity]|].
  split; [vm_compute; reflexivity|]. split; [vm_compute; auto|]. split; [vm_compute; discriminate|vm_compute; reflexivity].
Qed.
Print Assumptions C57_public_names_refuted.

(** ** Examples *)

(** A session with an ID table, a grouped table, views and public tables, waiting for its parts. *)
Example C57_case : exists s d dq,
  honest_state true E0 (run E0 trips_state trips_plan) /\ session (run E0 trips_state trips_plan) [] s
  /\ describe_self (run E0 trips_state trips_plan) [] = Ok d
  /\ tx_state d = Some WAITING_FOR_CHILDREN /\ dkeys (tx_private d) = ["coded"; "few"; "trips"; "log"] /\ dkeys (tx_public d) = ["codes"; "more"]
  /\ dget "few" (tx_private d) = Some ((["Column Name"; "Column Type"; "ID Col"; "ID Space"; "Nullable"; "NaN Allowed"; "Infinity Allowed"],
       [["id"; "INTEGER"; "True"; "people"; "True"; ""; ""]; ["city"; "VARCHAR"; "False"; ""; "True"; ""; ""];
        ["cost"; "DECIMAL"; "False"; ""; "True"; "True"; "True"]]), [MaxGroupsPerID "city" 2])
  /\ describe_query_obj E0 (run E0 trips_state trips_plan) [] few (Some (KCols ["city"])) = Ok dq
  /\ qx_cons dq = [MaxGroupsPerID "city" 2] /\ qx_groups dq = Some (["city"], None).
Proof.
  eexists _, _, _. split; [exact trips_honest|]. split; [eexists; split; [vm_compute; reflexivity|reflexivity]|].
  split; [vm_compute; reflexivity|]. split; [vm_compute; reflexivity|]. split; [vm_compute; reflexivity|]. split; [vm_compute; reflexivity|].
  split; [vm_compute; reflexivity|]. split; [vm_compute; reflexivity|]. split; vm_compute; reflexivity.
Qed.
(** A view described before and after. *)
Example C57_view_case : exists st' d, by_name (w_cond_ok (e_world E0)) /\ any_state E0 trips_state /\ dicts few /\ Query.is_identifier "few" = true
  /\ step E0 trips_state (CreateView [] few "few" true) = (st', Ok tt) /\ describe_query_obj E0 trips_state [] few None = Ok d /\ describe_name E0 st' [] "few" = Ok d.
Proof.
  eexists _, _. split; [intros cond fs fs' _; reflexivity|]. split.
  - exists trips_calls'. assert (B : exists o, build_by E0 trips_calls' = Ok o) by (eexists; vm_compute; reflexivity). destruct B as (o & B).
    exists o, []. split; [cbn; intuition discriminate|]. split; [exact B|]. split; [constructor|]. unfold trips_state. rewrite B. reflexivity.
  - split; [repeat split|]. split; [reflexivity|]. split; [vm_compute; reflexivity|]. split; vm_compute; reflexivity.
Qed.
(** A grouped query with a KeySet of two groups, and one that is an error. *)
Example C57_groups_case : exists d e, 
  describe_query_obj E0 trips_state [] few (Some (KSet [("city", dsc VARCHAR true false false)] [[("city", VStr "x")]; [("city", VStr "y")]])) = Ok d
  /\ qx_groups d = Some (["city"], Some 2)
  /\ describe_query_obj E0 trips_state [] (PrivateSource "nope") None = Err e.
Proof. do 2 eexists. split; [vm_compute; reflexivity|]. split; [reflexivity|vm_compute; reflexivity]. Qed.
