(** Property C55: how many rows of a query's result change when rows of tables without privacy
    IDs change. *)
From Coq Require Import String Bool Arith ZArith QArith Qcanon Lia Permutation List.
From Verif Require Import Prelude Budget BudgetProofs Value Rows Constraints ConstraintsSpec Schema SchemaProofs Query RewriteSpec Transform TransformSpec TransformVisit QueryProofs Tables
  Accountant AccountantProofs Session SessionSpec SessionMoney SessionTables SessionInv SessionViews SessionWell SessionSound Neighboring Builder BuilderCalls BuilderNeighbours
  Measure MeasureProofs MeasureCount BlindSpec Blind BlindMeasure BlindSession Distance SensitivitySpec SensitivityCounts
  StabilitySpec RowStability RowStabilityMeasure PersonSession Props_Query Props_Session Props_Measure Props_Blind Props_Sound Props_Sensitivity PrivacySpec PrivacyProofs.
Import ListNotations.
Local Open Scope string_scope.
Local Open Scope nat_scope.

(** A query is accepted for both datasets or for none, with the same constraints, and its two
    results are at most as many rows apart as [spread] says. *)
Theorem C55_rows_of_a_query : forall W l2 cat data data' d q k t cs,
  hide_all data = hide_all data' ->
  (forall n u u', dget n data = Some u -> dget n data' = Some u' -> row_distance (v_rows u) (v_rows u') <= d n) ->
  spread W l2 cat data d q k ->
  build_transformation W l2 cat data q = Ok (t, cs) ->
  exists t', build_transformation W l2 cat data' q = Ok (t', cs) /\ row_distance (v_rows t) (v_rows t') <= k.
Proof.
  intros W l2 cat data data' d q k t cs SAME APART S B.
  pose proof (build_hide W l2 cat data q) as H. pose proof (build_hide W l2 cat data' q) as H'. rewrite SAME, H', B in H. cbn [rmap] in H.
  destruct (build_transformation W l2 cat data' q) as [(t', cs')|] eqn:B'; [|discriminate H]. cbn [rmap] in H. unfold hide2 in H. cbn [fst snd] in H. assert (cs' = cs) as -> by congruence.
  exists t'. split; [reflexivity|]. eapply (visit_stable W l2 cat data data' d SAME APART); [exact S|apply (build_parts _ _ _ _ _ _ _ B)|apply (build_parts _ _ _ _ _ _ _ B')].
Qed.
Print Assumptions C55_rows_of_a_query.

(** Two sessions with the same calls and other rows: the same session [p] of both, whose tables
    [n] are [d n] rows apart. *)
Record rows_apart (E : env) (st st' : state) (p : list (nat * nat)) (s : sess) (cat : catalog) (data : dict vtab) (d : string -> nat) : Prop := {
  ra_states : any_state E st /\ any_state E st' /\ same_but_rows st st';
  ra_session : session st p s;
  ra_catalog : catalog_of (s_tree s) (st_public st) (s_cons s) = Ok cat;
  ra_data : data_of (s_tree s) = Ok data;
  ra_tables : forall s' n t t', session st' p s' -> dget n (named (s_tree s)) = Some t -> dget n (named (s_tree s')) = Some t' -> row_distance (v_rows t) (v_rows t') <= d n
}.
Lemma apart_pair E K auto so st st' p s cat data d q b m m' : blind E -> rows_apart E st st' p s cat data d ->
  measurement_of E K auto so st p q b = Ok m -> measurement_of E K auto so st' p q b = Ok m' ->
  exists adj data', catalog_made cat /\ hide_all data = hide_all data'
    /\ (forall n t t', dget n data = Some t -> dget n data' = Some t' -> row_distance (v_rows t) (v_rows t') <= d n)
    /\ measure_for adj = measure_for (s_left s)
    /\ compile (e_round E) (e_world E) K auto so (measure_for adj) cat data adj q = Ok m
    /\ compile (e_round E) (e_world E) K auto so (measure_for adj) cat data' adj q = Ok m'.
Proof.
  intros BL [(A & A' & SB) S CA DA T] M M'. unfold measurement_of in M, M'.
  apply bind_ok in M as (s0 & S0 & M). apply session_at_iff in S0. rewrite (session_inj st p s0 s S0 S) in *. clear s0 S0.
  apply bind_ok in M as (adj & CO & M). rewrite CA in M. cbn [bind] in M. rewrite DA in M. cbn [bind] in M.
  apply bind_ok in M' as (s' & S' & M'). apply session_at_iff in S'. apply bind_ok in M' as (adj' & CO' & M'). apply bind_ok in M' as (cat' & CA' & M'). apply bind_ok in M' as (data' & DA' & M').
  pose proof (pair_hide st st' p s s' SB S S') as HS. pose proof (f_equal st_public SB) as HP. cbn in HP. pose proof (f_equal s_tree HS) as HT. cbn in HT. pose proof (f_equal s_cons HS) as HC. cbn in HC.
  assert (adj' = adj) as -> by (rewrite <- (compile_hide E BL), HS, (compile_hide E BL), HP, CO' in CO; congruence).
  assert (cat' = cat) as -> by (rewrite <- catalog_hide in CA, CA'; rewrite HT, HC, HP in CA; congruence).
  destruct (any_state_facts E st A) as (TK & _). destruct (any_state_facts E st' A') as (TK' & _).
  destruct (data_of_spec _ (tk_layout s (TK p s S))) as (da & DA1 & DG). rewrite DA1 in DA. injection DA as ->.
  destruct (data_of_spec _ (tk_layout s' (TK' p s' S'))) as (da' & DA1' & DG'). rewrite DA1' in DA'. injection DA' as ->.
  exists adj, data'. split; [eapply session_catalog_made; [exact (TK p s S)|exact CA]|]. split.
  { pose proof (data_hide (s_tree s)) as H1. pose proof (data_hide (s_tree s')) as H2. rewrite DA1 in H1. rewrite DA1' in H2. rewrite HT, H2 in H1. cbn in H1. congruence. }
  split; [intros n t t' G G'; rewrite DG in G; rewrite DG' in G'; exact (T s' n t t' S' G G')|]. split; [|split; assumption].
  destruct (compile_adj E _ _ _ _ _ CO) as (_ & KA). symmetry. exact (proj1 (measure_kind _ _ KA)).
Qed.

(** The tables that an aggregation reads. *)
Theorem C55_rows_read_by_an_aggregation : forall E K auto so st st' p s cat data d q b m m' k,
  blind E -> rows_apart E st st' p s cat data d -> built auto q ->
  spread (e_world E) (agg_gaussian (measure_for (s_left s)) q) cat data d (agg_child q) k ->
  measurement_of E K auto so st p q b = Ok m -> measurement_of E K auto so st' p q b = Ok m' ->
  row_distance (v_rows (table_of m)) (v_rows (table_of m')) <= k.
Proof.
  intros E K auto so st st' p s cat data d q b m m' k BL RA B S M M'. destruct (apart_pair _ _ _ _ _ _ _ _ _ _ _ _ _ _ _ BL RA M M') as (adj & data' & MADE & SAME & APART & MU & C & C').
  rewrite <- MU in S. eapply measure_stable; eassumption.
Qed.
Print Assumptions C55_rows_read_by_an_aggregation.
(** Counts of rows or of distinct rows: the changes over all groups together. *)
Theorem C55_counts : forall E K auto so st st' p s cat data d q b m m' k total g total' g' keys,
  blind E -> blind_core K -> rows_apart E st st' p s cat data d -> built auto q ->
  spread (e_world E) (agg_gaussian (measure_for (s_left s)) q) cat data d (agg_child q) k ->
  measurement_of E K auto so st p q b = Ok m -> measurement_of E K auto so st' p q b = Ok m' ->
  plan_of m = Some (total, g) -> plan_of m' = Some (total', g') -> distinct_keys (agg_columns q) keys ->
  list_sum (map (count_change g g') keys) <= k.
Proof.
  intros E K auto so st st' p s cat data d q b m m' k total g total' g' keys BL BK RA B S M M' P P' DK. destruct (apart_pair _ _ _ _ _ _ _ _ _ _ _ _ _ _ _ BL RA M M') as (adj & data' & MADE & SAME & APART & MU & C & C').
  rewrite <- MU in S. eapply counts_stable; eassumption.
Qed.
Print Assumptions C55_counts.

(** ** Non-vacuity, and the formula in the documentation *)
(** Orders and items, joined on the order number. *)
Definition orders_frame (rows : list (list value)) : sframe :=
  {| sd_fields := [{| sf_name := "order"; sf_type := LongT; sf_nullable := false |}; {| sf_name := "shop"; sf_type := StringT; sf_nullable := false |}]; sd_rows := rows |}.
Definition items_frame (rows : list (list value)) : sframe :=
  {| sd_fields := [{| sf_name := "order"; sf_type := LongT; sf_nullable := false |}; {| sf_name := "item"; sf_type := LongT; sf_nullable := false |}]; sd_rows := rows |}.
Definition four_orders : list (list value) := [[VInt 1; VStr "a"]; [VInt 2; VStr "b"]; [VInt 3; VStr "c"]; [VInt 4; VStr "d"]].
Definition twelve_items : list (list value) := flat_map (fun o => map (fun i => [VInt o; VInt i]) [1; 2; 3]%Z) [1; 2; 3; 4]%Z.
Definition shop_calls (orders : list (list value)) : list bcall :=
  [WithBudget (Pure (XFin 1)); WithPrivate "orders" (orders_frame orders) (AddMaxRows 4); WithPrivate "items" (items_frame twelve_items) (AddMaxRows 1)].
Definition shop_state (orders : list (list value)) : state := match build_by E1 (shop_calls orders) with Ok o => o_state o | Err _ => st0 (Pure (XFin 0)) end.
Definition sales : query := JoinPrivate (PrivateSource "orders") (PrivateSource "items") (Some DropNonUnique) (Some (DropExcess 3)) (Some ["order"]).
Definition sold : query := GroupByCount sales (KSet [] [[]]) "n" MDefault None.
Definition joined_rows (st : state) : option table :=
  match (let* s := session_at st [] in let* cat := catalog_of (s_tree s) (st_public st) (s_cons s) in let* data := data_of (s_tree s) in
         build_transformation W0 false cat data sales) with Ok (t, _) => Some (v_rows t) | Err _ => None end.

(** The sensitivity of private joins that users are told is too small: the roles of the two
    tables are swapped in it.  Removing four rows of the first table, which its protected change
    allows, changes twelve rows of the join, where the documented formula promises eleven. *)
Theorem C55_documented_join_sensitivity_refuted : exists o o' t t',
  build_by E1 (shop_calls four_orders) = Ok o /\ build_by E1 (shop_calls []) = Ok o'
  /\ Forall2 same_call (shop_calls four_orders) (shop_calls [])
  /\ joined_rows (o_state o) = Some t /\ joined_rows (o_state o') = Some t'
  /\ row_distance t t' = 12 /\ documented_sensitivity DropNonUnique (DropExcess 3) 4 1 = 11.
Proof. do 4 eexists. split; [vm_compute; reflexivity|]. split; [vm_compute; reflexivity|]. split; [repeat constructor|]. repeat (split; [vm_compute; reflexivity|]). vm_compute. reflexivity. Qed.
Print Assumptions C55_documented_join_sensitivity_refuted.

Lemma shop_any orders : (exists o, build_by E1 (shop_calls orders) = Ok o) -> any_state E1 (shop_state orders).
Proof. intros (o & B). exists (shop_calls orders), o, []. split; [cbn; intuition discriminate|]. split; [exact B|]. split; [constructor|]. unfold shop_state. rewrite B. reflexivity. Qed.
Definition shop_d (n : string) : nat := if String.eqb n "orders" then 4 else 1.
Definition sold_in (st : state) : option nat := match measurement_of E1 K0 true idl st [] sold (Pure (XFin 1)) with
  | Ok m => match plan_of m with Some (_, g) => Some (counted g []) | None => None end | Err _ => None end.
(** The bound of [C55_counts] is attained up to the change of the second table. *)
Example C55_case : blind E1 /\ blind_core K0 /\ built true sold
  /\ exists s cat data, rows_apart E1 (shop_state four_orders) (shop_state []) [] s cat data shop_d
       /\ spread (e_world E1) (agg_gaussian (measure_for (s_left s)) sold) cat data shop_d (agg_child sold) (3 * 1 * 4 + 1 * 2 * 1)
       /\ sold_in (shop_state four_orders) = Some 12 /\ sold_in (shop_state []) = Some 0.
Proof.
  split; [exact E1_blind|]. split; [exact K0_blind|]. split; [vm_compute; auto|].
  eexists _, _, _. split; [constructor|].
  - split; [apply shop_any; eexists; vm_compute; reflexivity|]. split; [apply shop_any; eexists; vm_compute; reflexivity|vm_compute; reflexivity].
  - eexists. split; [vm_compute; reflexivity|reflexivity].
  - vm_compute. reflexivity.
  - vm_compute. reflexivity.
  - intros s' n t t' S' G G'. assert (SS : session_at (shop_state []) [] = Ok s') by (apply session_at_iff, S'). vm_compute in SS. injection SS as <-.
    apply dget_In in G. vm_compute in G. destruct G as [G|[G|[]]]; injection G as <- <-; vm_compute in G'; injection G' as <-; vm_compute; lia.
  - split; [|split; vm_compute; reflexivity]. unfold sold. cbn [agg_child]. unfold sales. apply (sp_join_private _ _ _ _ shop_d _ _ DropNonUnique (DropExcess 3) _ (shop_d "orders") (shop_d "items")); eapply sp_source; vm_compute; reflexivity.
Qed.
(** Maps to several rows and joins with public tables. *)
Definition tags : sframe := items_frame [[VInt 1; VInt 10]; [VInt 1; VInt 11]].
Definition tagged : query :=
  JoinPublic (FlatMap (Select (PrivateSource "orders") ["shop"; "order"]) (fun r => [[("half", VInt 0)]; [("half", VInt 1)]; [("half", VInt 2)]])
    (sch0 [("half", dsc INTEGER false false false)] None) true (Some 2%Z)) (PubFrame tags) None "left".
Definition tagged_rows (st : state) : option table :=
  match (let* s := session_at st [] in let* cat := catalog_of (s_tree s) (st_public st) (s_cons s) in let* data := data_of (s_tree s) in
         build_transformation W0 false cat data tagged) with Ok (t, _) => Some (v_rows t) | Err _ => None end.
Example C55_case_multiplied : exists s cat data t t',
  rows_apart E1 (shop_state four_orders) (shop_state []) [] s cat data shop_d
  /\ spread (e_world E1) false cat data shop_d tagged (2 * (2 * 4))
  /\ tagged_rows (shop_state four_orders) = Some t /\ tagged_rows (shop_state []) = Some t' /\ length t = 10 /\ t' = [].
Proof.
  destruct C55_case as (_ & _ & _ & s & cat & data & RA & _). exists s, cat, data. do 2 eexists. split; [exact RA|].
  split; [|split; [vm_compute; reflexivity|split; [vm_compute; reflexivity|vm_compute; auto]]].
  assert (SS : session_at (shop_state four_orders) [] = Ok s) by (apply session_at_iff, RA). pose proof (ra_catalog _ _ _ _ _ _ _ _ RA) as CA. pose proof (ra_data _ _ _ _ _ _ _ _ RA) as DA.
  vm_compute in SS. injection SS as <-. vm_compute in CA, DA. injection CA as <-. injection DA as <-.
  unfold tagged. apply (sp_join_public _ _ _ _ shop_d _ _ _ _ _ 2 tags); [|vm_compute; reflexivity|lia|].
  - apply (sp_flat_map _ _ _ _ shop_d _ _ _ _ 2%Z). constructor. eapply (sp_source _ _ _ _ shop_d "orders"); vm_compute; reflexivity.
  - intros t cs cols _ _ p key _. eapply Nat.le_trans; [apply filter_length_le|]. vm_compute. lia.
Qed.
