(** Properties C32, C33 and C34: protected changes, neighbouring datasets and builders. *)
From Coq Require Import String Bool Arith ZArith QArith Lia Permutation List.
From Verif Require Import Prelude Budget BudgetProofs Value Rows Constraints ConstraintsSpec Schema SchemaProofs Query Transform Tables TablesProofs TransformConform TransformAgree
  Accountant AccountantProofs Session SessionSpec SessionSteps SessionTables SessionInv SessionViews SessionWell Neighboring NeighboringSpec NeighboringProofs NeighboringDistance
  Builder BuilderProofs BuilderTree BuilderBuild BuilderCalls BuilderSpec BuilderNeighbours Props_Session Props_Views.
Import ListNotations.
Local Open Scope string_scope.
Local Open Scope nat_scope.
Local Open Scope list_scope.

(** ** Material for the examples *)

Definition fld (n : string) (t : sparktype) (null : bool) : sfield := {| sf_name := n; sf_type := t; sf_nullable := null |}.
Definition visits : sframe := {| sd_fields := [fld "id" IntegerT true; fld "shop" StringT false]; sd_rows := [[VInt 1; VStr "a"]; [VInt 2; VStr "a"]; [VInt 1; VStr "b"]] |}.
Definition buyers : sframe := {| sd_fields := [fld "user" LongT false; fld "age" LongT true]; sd_rows := [[VInt 1; VInt 30]; [VInt 3; VNull]] |}.
Definition orders : sframe := {| sd_fields := [fld "day" DateT false; fld "total" FloatT false]; sd_rows := [[VDate 1; VNull]] |}.
Definition shops : sframe := {| sd_fields := [fld "shop" StringT false]; sd_rows := [[VStr "a"]; [VStr "b"]] |}.
Definition calls0 : list bcall :=
  [WithPrivate "orders" orders (AddMaxRowsInMaxGroups "day" 4 3); WithBudget (Zcdp (XFin 1)); WithPublic "shops" shops;
   WithPrivate "visits" visits (AddRowsWithID "id" "people"); WithIdSpace "people"; WithPrivate "plain" shops (AddMaxRows 5);
   WithPrivate "buyers" buyers (AddRowsWithID "user" "people")].

(** ** C32: every private table is protected by exactly one protected change *)

(** Conjunctions are flat, however deeply the given relations are nested: the children are
    exactly the parts of the given relations, and the tables mentioned, with repetitions and
    in order, are the same. *)
Theorem C32_nesting_loses_nothing : forall l,
  exists children, mk_conjunction [CList l] = Ok (Conjunction children)
    /\ (l <> [] -> mk_conjunction (map CRel l) = Ok (Conjunction children))
    /\ (forall x, In x children <-> exists y, In y l /\ part_of x y)
    /\ (forall x, In x children -> ~ is_conjunction x)
    /\ flat_map tables_of children = flat_map tables_of l.
Proof.
  intros l. exists (flatten l). split; [reflexivity|]. split.
  - intros NE. destruct l as [|r l]; [congruence|]. cbn [map mk_conjunction].
    assert (M : forall l, mapM (fun a => match a with CRel r => Ok r | CList _ => Err TypeError end) (map CRel l) = Ok l).
    { clear. induction l as [|a l IH]; [reflexivity|]. cbn. rewrite IH. reflexivity. }
    change (CRel r :: map CRel l) with (map CRel (r :: l)). rewrite M. reflexivity.
  - split; [|split; [apply flatten_flat|apply flatten_tables]]. intros x. induction l as [|r l IH]; cbn; [split; [contradiction|intros (y & [] & _)]|].
    rewrite in_app_iff, flatten_one_part, IH. split; [intros [H|(y & I & H)]; eauto|]. intros (y & [<-|I] & H); eauto.
Qed.
Print Assumptions C32_nesting_loses_nothing.
Example C32_case_nesting :
  mk_conjunction [CRel (Conjunction [AddRemoveRows "a" 1; Conjunction [Conjunction [AddRemoveRows "b" 2]; Conjunction []]]); CRel (AddRemoveKeys "s" [("c", "id")] 1)]
  = Ok (Conjunction [AddRemoveRows "a" 1; AddRemoveRows "b" 2; AddRemoveKeys "s" [("c", "id")] 1]).
Proof. reflexivity. Qed.

(** A relation that passes validation mentions each table of the session exactly once and
    no other table ([keys_distinct]: table_to_key_column is a dictionary). *)
Theorem C32_validated_relations_cover_once : forall l dfs, (forall r, In r l -> keys_distinct r) -> validate_input (Conjunction l) dfs = Ok tt ->
  forall n, count_occ String.string_dec (flat_map tables_of l) n = if smem n (dkeys dfs) then 1 else 0.
Proof.
  intros l dfs K V n. destruct (validate_conjunction _ _ V) as (_ & C & N). specialize (N K). destruct (smem n (dkeys dfs)) eqn:M.
  - apply smem_In, C in M. apply NoDup_count_occ'; assumption.
  - apply smem_false in M. apply count_occ_not_In. intros I. apply M, C, I.
Qed.
Print Assumptions C32_validated_relations_cover_once.

(** The relation of a session: exactly one of its children is about a given private table,
    and that child says what the protected change of the table says; children are about
    private tables only; the session's private tables are exactly the given ones. *)
Theorem C32_sessions_protect_each_table_once : forall E l o, ~ In Build l -> build_by E l = Ok o ->
  exists children names, generate_neighboring_relation (map (fun p => (fst p, snd (snd p))) (privates l)) = Ok (Conjunction children)
    /\ private_sources (s_tree (root o)) = Ok names /\ Permutation names (map fst (privates l))
    /\ (forall n f c, In (n, (f, c)) (privates l) ->
          exists before r after, children = before ++ r :: after /\ protects n c r /\ (forall r', In r' (before ++ after) -> ~ In n (tables_of r')))
    /\ (forall r n, In r children -> In n (tables_of r) -> In n (map fst (privates l))).
Proof.
  intros E l o NB H. pose proof (proj1 (build_by_iff E l NB) (ex_intro _ o H)) as BU. destruct (build_by_result E l o NB H) as (x & names & _ & NN & IN & PS & ->). destruct BU as [_ _ BN _ _ BF _ _ _].
  destruct (nodup_append_inv _ _ BN) as (N0 & _ & _). assert (N : NoDup (map fst (map (fun p => (fst p, snd (snd p))) (privates l)))) by (rewrite keys_changes; exact N0).
  exists (children_of (map (fun p => (fst p, snd (snd p))) (privates l))), names. split; [|split; [exact PS|split; [|split]]].
  - apply generate_ok; [exact N|]. intros n c I. apply in_map_iff in I as ((m, (f, d)) & J & I). cbn in J. injection J as <- <-. apply check_sensible, (BF _ _ _ I).
  - apply NoDup_Permutation; assumption.
  - intros n f c I. assert (I' : In (n, c) (map (fun p => (fst p, snd (snd p))) (privates l))) by (apply in_map_iff; exists (n, (f, c)); auto).
    destruct (children_protect _ n c N I') as (r & J & T & P). apply in_split in J as (be & af & S). exists be, r, af. split; [exact S|]. split; [exact P|].
    intros r' J' T'. pose proof (children_distinct_tables _ N) as D. rewrite S, flat_map_app in D. cbn [flat_map] in D.
    apply (Permutation_NoDup (l' := tables_of r ++ (flat_map tables_of be ++ flat_map tables_of af))) in D.
    + destruct (nodup_append_inv _ _ D) as (_ & _ & X). apply (X n T). rewrite <- flat_map_app. apply in_flat_map. eauto.
    + rewrite !app_assoc. apply Permutation_app_tail, Permutation_app_comm.
  - intros r n I T. destruct (children_cover _ r n N I T) as (c & J & _). apply in_map_iff in J as ((m, (f, d)) & J & K). cbn in J. injection J as <- <-. apply in_map_iff. exists (m, (f, d)). auto.
Qed.
Print Assumptions C32_sessions_protect_each_table_once.

(** Relations are not checked this well when they are made by hand, which only the private
    API allows: two relations about one ID space pass validation, but only the last of them
    is in the session's data, so a table disappears. *)
Theorem C32_repeated_id_space_refuted : exists l dfs x,
  validate_input (Conjunction l) dfs = Ok tt /\ In "visits" (dkeys dfs)
  /\ visit_relation false dfs (Conjunction l) = Ok x /\ ~ In "visits" (dkeys (named (fst x))).
Proof.
  exists [AddRemoveKeys "people" [("visits", "id")] 1; AddRemoveKeys "people" [("buyers", "user")] 1], [("visits", stored visits); ("buyers", buyers)]. eexists.
  split; [reflexivity|]. split; [left; reflexivity|]. split; [reflexivity|]. cbn. intros [H|[]]. discriminate.
Qed.
Print Assumptions C32_repeated_id_space_refuted.
(** A single relation about IDs passes validation though it does not mention all tables. *)
Theorem C32_single_relation_covers_all_refuted : exists r dfs n,
  validate_input r dfs = Ok tt /\ In n (dkeys dfs) /\ ~ In n (tables_of r).
Proof.
  exists (AddRemoveKeys "people" [("visits", "id")] 1), [("visits", stored visits); ("buyers", buyers)], "buyers". split; [reflexivity|]. split; [right; left; reflexivity|].
  cbn. intros [H|[]]. discriminate.
Qed.
Print Assumptions C32_single_relation_covers_all_refuted.

(** ** C33: neighbouring distances match the protected change *)

(** A session is built twice, from calls that give neighbouring private tables.  Then in
    each entry of the session's data the two are within the distance that is used for
    noise calibration. *)
Theorem C33_distance_bounds_the_change : forall E l l' o o' k d, ~ In Build l -> ~ In Build l' -> budgets l' = budgets l ->
  neighbours (stored_private (privates l)) (stored_private (privates l')) -> build_by E l = Ok o -> build_by E l' = Ok o' ->
  o_din o' = o_din o
  /\ (In (k, d) (o_din o) -> exists n, entry_apart k (s_tree (root o)) (s_tree (root o')) n /\ bounds_squared n d).
Proof.
  intros E l l' o o' k d NB NB' BB NE H H'. pose proof (proj1 (build_by_iff E l NB) (ex_intro _ o H)) as [_ _ BN _ _ BF _ _ _].
  destruct (build_by_result E l o NB H) as (x & names & B & _ & _ & _ & ->). destruct (build_by_result E l' o' NB' H') as (x' & names' & B' & _ & _ & _ & ->). rewrite BB, B in B'. injection B' as <-.
  destruct (nodup_append_inv _ _ BN) as (N & _ & _). rewrite <- stored_keys in N. cbn. split; [symmetry; apply distances_alike, NE|].
  intros I. apply entry_bounded; [exact N| |exact NE|exact I]. intros n f c J. apply in_stored in J as (g & J & ->). apply (BF _ _ _ J).
Qed.
Print Assumptions C33_distance_bounds_the_change.
(** Every private table is in an entry: a table without IDs in its own, a table with IDs in
    that of its ID space. *)
Theorem C33_every_table_has_a_distance : forall E l o n f c, ~ In Build l -> build_by E l = Ok o -> In (n, (f, c)) (privates l) ->
  In (match c with AddRowsWithID _ s => TableCollection s | _ => NamedTable n end) (map fst (o_din o)).
Proof.
  intros E l o n f c NB H I. pose proof (proj1 (build_by_iff E l NB) (ex_intro _ o H)) as [_ _ BN _ _ _ _ _ _]. destruct (nodup_append_inv _ _ BN) as (N & _ & _). rewrite <- stored_keys in N.
  destruct (build_by_result E l o NB H) as (x & names & B & _ & _ & _ & ->). cbn. apply (distances_cover x _ n (stored f) c N). apply in_stored. eauto.
Qed.
Print Assumptions C33_every_table_has_a_distance.
(** The distances are no larger than they have to be: they are reached. *)
Theorem C33_distance_is_reached : forall E l l' o o' k d, ~ In Build l -> ~ In Build l' -> budgets l' = budgets l ->
  far_neighbours (stored_private (privates l)) (stored_private (privates l')) -> build_by E l = Ok o -> build_by E l' = Ok o' ->
  In (k, d) (o_din o) -> exists n, entry_apart k (s_tree (root o)) (s_tree (root o')) n /\ Z.of_nat n = squared d.
Proof.
  intros E l l' o o' k d NB NB' BB NE H H'. pose proof (proj1 (build_by_iff E l NB) (ex_intro _ o H)) as [_ _ BN _ _ BF _ _ _].
  destruct (build_by_result E l o NB H) as (x & names & B & _ & _ & _ & ->). destruct (build_by_result E l' o' NB' H') as (x' & names' & B' & _ & _ & _ & ->). rewrite BB, B in B'. injection B' as <-.
  destruct (nodup_append_inv _ _ BN) as (N & _ & _). rewrite <- stored_keys in N. cbn. intros I. apply entry_reached; [exact N| |exact NE|exact I].
  intros n f c J. apply in_stored in J as (g & J & ->). apply (BF _ _ _ J).
Qed.
Print Assumptions C33_distance_is_reached.
(** For rows and for IDs the tables within the distance are exactly the neighbours. *)
Theorem C33_rows_within_distance : forall n a b, row_distance a b <= n <-> rows_changed n a b.
Proof. intros n a b. symmetry. apply rows_changed_iff. Qed.
Print Assumptions C33_rows_within_distance.
Theorem C33_ids_within_distance : forall l, keys_distance l <= 1 <-> id_changed l.
Proof. intros l. symmetry. apply id_changed_iff. Qed.
Print Assumptions C33_ids_within_distance.

(** Non-vacuity: neighbours of the example, and its distances. *)
Definition visits1 : sframe := {| sd_fields := sd_fields visits; sd_rows := [[VInt 2; VStr "a"]] |}.
Definition buyers1 : sframe := {| sd_fields := sd_fields buyers; sd_rows := [[VInt 3; VNull]] |}.
Definition orders1 : sframe := {| sd_fields := sd_fields orders; sd_rows := [[VDate 2; VNull]; [VDate 2; VNull]; [VDate 1; VNull]] |}.
Definition shops1 : sframe := {| sd_fields := sd_fields shops; sd_rows := [[VStr "a"]; [VStr "c"]; [VStr "c"]] |}.
Definition calls1 : list bcall :=
  [WithPrivate "orders" orders1 (AddMaxRowsInMaxGroups "day" 4 3); WithBudget (Zcdp (XFin 1)); WithPublic "shops" shops;
   WithPrivate "visits" visits1 (AddRowsWithID "id" "people"); WithIdSpace "people"; WithPrivate "plain" shops1 (AddMaxRows 5);
   WithPrivate "buyers" buyers1 (AddRowsWithID "user" "people")].
Example C33_case :
  neighbours (stored_private (privates calls0)) (stored_private (privates calls1))
  /\ is_ok (build_by E0 calls0) = true /\ is_ok (build_by E0 calls1) = true
  /\ (let* o := build_by E0 calls0 in Ok (o_din o)) = Ok [(NamedTable "orders", DRoot 3 4); (NamedTable "plain", DExact 5); (TableCollection "people", DExact 1)].
Proof.
  split; [|vm_compute; auto]. split; [reflexivity|]. split.
  - intros n f f' c c' I I'. cbn in I, I'. destruct I as [I|[I|[I|[I|[]]]]]; injection I as <- <- <-; destruct I' as [I'|[I'|[I'|[I'|[]]]]]; try (exfalso; congruence); injection I' as <- <-; try exact Logic.I.
    + exists [], [[("day", VDate 2); ("total", VNull)]; [("day", VDate 2); ("total", VNull)]], [VDate 2]. split; [|split; [cbn; lia|split]].
      * exists [[("day", VDate 1); ("total", VNull)]]. split; cbn; [apply Permutation_refl|]. apply (Permutation_app_comm [_; _] [_]).
      * cbn. intros r [<-|[<-|[]]]; cbn; auto.
      * intros v. cbn. unfold has_value. cbn. destruct (value_eqb (VDate 2) v); cbn; lia.
    + apply rows_changed_iff. vm_compute. lia.
  - intros s. apply id_changed_iff. destruct (String.eqb_spec s "people") as [->|NE]; [vm_compute; lia|]. unfold in_space_of. cbn.
    destruct (String.eqb s "people") eqn:S; [apply String.eqb_eq in S; congruence|]. cbn. lia.
Qed.

(** ** C34: session builders accept each name, budget and ID space once *)

(** A chain of calls ends in a session exactly when there was one budget, at least one
    private table, all names are distinct identifiers across private and public tables, all
    ID spaces are declared once and every ID space used is declared (or belongs to the only
    private table), and the tables have the columns their protected changes speak of. *)
Theorem C34_built_exactly_when : forall E l, ~ In Build l -> ((exists o, build_by E l = Ok o) <-> buildable E l).
Proof. exact build_by_iff. Qed.
Print Assumptions C34_built_exactly_when.
(** The order of the calls does not matter. *)
Theorem C34_any_order : forall E l l', ~ In Build l -> Permutation l l' -> ((exists o, build_by E l = Ok o) <-> (exists o, build_by E l' = Ok o)).
Proof.
  intros E l l' NB P. assert (NB' : ~ In Build l') by (intros I; apply NB; eapply Permutation_in; [apply Permutation_sym, P|exact I]).
  rewrite !build_by_iff by assumption. split; apply buildable_perm; [exact P|apply Permutation_sym, P].
Qed.
Print Assumptions C34_any_order.

(** What the session starts with: the budget, the private tables with their rows, ID
    columns, grouping columns and ID spaces, and the public tables. *)
Theorem C34_session_has_what_was_given : forall E l o, ~ In Build l -> build_by E l = Ok o ->
  (exists x, budgets l = [x] /\ s_initial (root o) = accountant_budget x /\ s_left (root o) = accountant_budget x)
  /\ st_public (o_state o) = stored_public (publics l)
  /\ (exists names, private_sources (s_tree (root o)) = Ok names /\ Permutation names (map fst (privates l)))
  /\ forall n f c pub, In (n, (f, c)) (privates l) ->
       get_id_column (s_tree (root o)) pub n = Ok (match c with AddRowsWithID i _ => Some i | _ => None end)
       /\ get_id_space (s_tree (root o)) pub n = Ok (match c with AddRowsWithID _ s => Some s | _ => None end)
       /\ get_grouping_column (s_tree (root o)) pub n = Ok (match c with AddMaxRowsInMaxGroups g _ _ => Some g | _ => None end)
       /\ exists t, table_named (s_tree (root o)) n = Ok t /\ v_rows t = frame_rows f.
Proof.
  intros E l o NB H. pose proof (proj1 (build_by_iff E l NB) (ex_intro _ o H)) as [_ _ BN _ _ BF _ _ _]. destruct (nodup_append_inv _ _ BN) as (N & _ & _). pose proof N as N0. rewrite <- stored_keys in N.
  destruct (build_by_result E l o NB H) as (x & names & B & NN & IN & PS & ->). split; [exists x; auto|]. split; [reflexivity|].
  split; [exists names; split; [exact PS|apply NoDup_Permutation; assumption]|].
  intros n f c pub I. cbn [root o_state start_state st_root a_data s_tree]. pose proof (sources_layout (is_rho x) _ N) as L.
  assert (G : dget n (named (tree_of_sources (is_rho x) (stored_private (privates l)))) = Some (source_table (is_rho x) (stored_private (privates l)) (stored f) c)).
  { rewrite named_sources by exact N. rewrite (In_dget n (stored f, c) _ N); [reflexivity|]. apply in_stored. eauto. }
  rewrite (get_id_column_spec _ pub n _ L G), (get_id_space_spec _ pub n _ L G), (get_grouping_spec _ pub n _ L G). split; [destruct c; reflexivity|]. split; [destruct c; reflexivity|]. split; [destruct c; reflexivity|].
  exists (source_table (is_rho x) (stored_private (privates l)) (stored f) c). split; [rewrite (table_named_spec _ _ L), G; reflexivity|]. cbn. destruct (BF n f c I) as (_ & (f' & R) & _). unfold stored. rewrite R. apply coerce_columns in R as (R1 & R2).
  unfold frame_rows. unfold columns in R1. now rewrite R1, R2.
Qed.
Print Assumptions C34_session_has_what_was_given.
(** Built sessions are where the histories of C25 to C29 and C45 start. *)
Lemma add_public_run E : forall pub st st', add_public E st pub = Ok st' -> st' = run E st (map (fun p => AddPublic [] (fst p) (snd p)) pub).
Proof.
  induction pub as [|(n, f) pub IH]; intros st st' H; [injection H as <-; reflexivity|]. cbn [add_public] in H. cbn [map run step fst snd].
  destruct (add_public_dataframe E st [] n f) as (st1, r) eqn:A. destruct r; [|discriminate]. cbn [fst]. apply IH, H.
Qed.
Theorem C34_built_sessions_are_well_built : forall E l o, ~ In Build l -> (forall x, In x (budgets l) -> valid x) -> build_by E l = Ok o ->
  exists b, well_built E b (s_tree (root o)) (o_state o).
Proof.
  intros E l o NB V H. pose proof (proj1 (build_by_iff E l NB) (ex_intro _ o H)) as BU. pose proof BU as [_ _ BN BI _ BF BP _ _]. destruct (nodup_append_inv _ _ BN) as (N & N2 & N3). pose proof N as N0. rewrite <- stored_keys in N.
  destruct (build_by_result E l o NB H) as (x & names & B & NN & IN & PS & ->). exists (accountant_budget x).
  exists (start_state x (stored_private (privates l)) names []), (map (fun p => AddPublic [] (fst p) (snd p)) (stored_public (publics l))).
  split; [apply accountant_valid, V; rewrite B; left; reflexivity|]. cbn [root o_state start_state st_root a_data s_tree]. split; [apply sources_layout, N|]. split; [|split; [|split]].
  - intros n t G. rewrite named_sources in G by exact N. destruct (dget n (stored_private (privates l))) as [(f, c)|] eqn:D; [|discriminate]. cbn in G. injection G as <-.
    apply dget_In, in_stored in D as (g & D & ->). destruct (BF _ _ _ D) as (_ & R & F). apply source_fine; [apply stored_coerced, R|exact F].
  - unfold new_session. rewrite PS. reflexivity.
  - apply Forall_forall. intros c J. apply in_map_iff in J as (p & <- & _). exact Logic.I.
  - apply (add_public_run E). rewrite (add_public_ok E x _ names PS (stored_public (publics l)) []).
    + reflexivity.
    + cbn [dkeys map app]. rewrite stored_public_keys. exact N2.
    + intros n J. rewrite stored_public_keys in J. split; [apply BI; auto|]. rewrite IN. intros K. exact (N3 n K J).
    + intros n f J. apply in_map_iff in J as ((m, g) & K & J). cbn in K. injection K as <- <-. apply stored_coerced, (BP _ _ J).
Qed.
Print Assumptions C34_built_sessions_are_well_built.
(** Session.from_dataframe is a builder with one budget and one private table. *)
Theorem C34_from_dataframe : forall E x n f c o, from_dataframe E x n f c = Ok o <-> build_by E [WithBudget x; WithPrivate n f c] = Ok o.
Proof.
  intros E x n f c o. unfold from_dataframe, build_by. cbn [chain bcall_result]. unfold with_privacy_budget. cbn [empty_builder b_budget raise_if bind].
  set (b := {| b_budget := Some x; b_private := _; b_public := _; b_spaces := _ |}). unfold with_private_dataframe at 1 2. destruct (check_change c) as [[]|e]; cbn [bind]; [|split; discriminate].
  destruct (let* _ := raise_if _ _ in _) as [b1|e]; cbn [bind]; tauto.
Qed.
Print Assumptions C34_from_dataframe.

(** Any history of a builder, in which calls may fail and be caught, and build() may be
    called any number of times: the session built at the end has the first budget given,
    and tables with distinct names that were given by calls. *)
Record told (E : env) (calls : list bcall) (b : builder) : Prop := {
  told_budget : b_budget b = hd_error (budgets calls);
  told_private : forall n f c, In (n, (f, c)) (b_private b) -> exists g, In (WithPrivate n g c) calls /\ readable g /\ f = stored g;
  told_public : forall n f, In (n, f) (b_public b) -> exists g, In (WithPublic n g) calls /\ readable g /\ f = stored g;
  told_spaces : forall s, In s (b_spaces b) -> In (WithIdSpace s) calls
                \/ (In Build calls /\ exists n f i, hd_error (b_private b) = Some (n, (f, AddRowsWithID i s)))
}.
Lemma told_more E calls c b : told E calls b -> (forall x, c = WithBudget x -> b_budget b <> None) -> told E (calls ++ [c]) b.
Proof.
  intros [A B C D] F. constructor.
  - unfold budgets. rewrite flat_map_app. fold (budgets calls). rewrite A. destruct (budgets calls) eqn:G; [|reflexivity]. cbn. destruct c; try reflexivity. exfalso. apply (F b0 eq_refl). rewrite A. reflexivity.
  - intros n f k I. destruct (B n f k I) as (g & J & R). exists g. split; [apply in_app_iff; auto|exact R].
  - intros n f I. destruct (C n f I) as (g & J & R). exists g. split; [apply in_app_iff; auto|exact R].
  - intros s I. destruct (D s I) as [J|(J & K)]; [left|right; split; [|exact K]]; apply in_app_iff; auto.
Qed.
Lemma told_run E calls : told E calls (brun E empty_builder calls).
Proof.
  induction calls as [|c calls IH] using rev_ind; [constructor; cbn; try reflexivity; intros; contradiction|].
  assert (R : forall l b, brun E b (l ++ [c]) = bstep E (brun E b l) c) by (induction l as [|a l IHl]; intros b; [reflexivity|cbn; apply IHl]). rewrite R.
  set (b := brun E empty_builder calls) in *. clearbody b. unfold bstep. destruct c as [x|n f p|n f|s|].
  - destruct (bcall_result E b (WithBudget x)) as [b'|e] eqn:H; cbn [bcall_result] in H.
    + apply with_budget_ok in H as (BN & ->). pose proof IH as [A B C D]. constructor; cbn.
      * unfold budgets. rewrite flat_map_app. fold (budgets calls). rewrite BN in A. destruct (budgets calls); [reflexivity|discriminate].
      * intros n f k I. destruct (B n f k I) as (g & J & K). exists g. split; [apply in_app_iff; auto|exact K].
      * intros n f I. destruct (C n f I) as (g & J & K). exists g. split; [apply in_app_iff; auto|exact K].
      * intros s I. destruct (D s I) as [J|(J & K)]; [left|right; split; [|exact K]]; apply in_app_iff; auto.
    + apply told_more; [exact IH|]. intros y _ N. unfold with_privacy_budget in H. rewrite N in H. discriminate.
  - destruct (bcall_result E b (WithPrivate n f p)) as [b'|e] eqn:H; cbn [bcall_result] in H; [|apply told_more; [exact IH|discriminate]].
    apply with_private_ok in H as (_ & _ & _ & _ & f' & F & ->). assert (T : told E (calls ++ [WithPrivate n f p]) b) by (apply told_more; [exact IH|discriminate]). destruct T as [A B C D]. constructor; cbn; auto.
    + intros m g k I. apply in_app_iff in I as [I|[I|[]]]; [apply B, I|]. injection I as <- <- <-. exists f. split; [apply in_app_iff; right; left; reflexivity|]. split; [exists f'; exact F|]. unfold stored. now rewrite F.
    + intros s I. destruct (D s I) as [J|(J & m & g & i & K)]; [auto|]. right. split; [exact J|]. exists m, g, i. destruct (b_private b); [discriminate|exact K].
  - destruct (bcall_result E b (WithPublic n f)) as [b'|e] eqn:H; cbn [bcall_result] in H; [|apply told_more; [exact IH|discriminate]].
    apply with_public_ok in H as (_ & _ & _ & f' & F & ->). assert (T : told E (calls ++ [WithPublic n f]) b) by (apply told_more; [exact IH|discriminate]). destruct T as [A B C D]. constructor; cbn; auto.
    intros m g I. apply in_app_iff in I as [I|[I|[]]]; [apply C, I|]. injection I as <- <-. exists f. split; [apply in_app_iff; right; left; reflexivity|]. split; [exists f'; exact F|]. unfold stored. now rewrite F.
  - destruct (bcall_result E b (WithIdSpace s)) as [b'|e] eqn:H; cbn [bcall_result] in H; [|apply told_more; [exact IH|discriminate]].
    apply with_space_ok in H as (_ & _ & ->). assert (T : told E (calls ++ [WithIdSpace s]) b) by (apply told_more; [exact IH|discriminate]). destruct T as [A B C D]. constructor; cbn; auto.
    intros u I. apply in_app_iff in I as [I|[<-|[]]]; [apply D, I|]. left. apply in_app_iff. right. left. reflexivity.
  - assert (T : told E (calls ++ [Build]) b) by (apply told_more; [exact IH|discriminate]). unfold build. destruct (b_budget b); [|exact T]. destruct (b_private b) as [|q r] eqn:P; [exact T|].
    destruct (add_id_space_if_one_private_df E b) as [b'|e] eqn:H; [|exact T]. cbn [fst]. unfold add_id_space_if_one_private_df in H. rewrite P in H. destruct q as (n, (f, c)).
    assert (Z : b' = b -> told E (calls ++ [Build]) b') by (intros ->; exact T).
    destruct r as [|q r]; [|destruct c; injection H as <-; apply Z; reflexivity]. destruct c as [k|g k m|i s]; try (injection H as <-; apply Z; reflexivity).
    destruct (smem s (b_spaces b)); [injection H as <-; apply Z; reflexivity|]. apply with_space_ok in H as (_ & _ & ->). destruct T as [A B C D]. constructor; cbn; auto.
    intros u I. apply in_app_iff in I as [I|[<-|[]]]; [apply D, I|]. right. split; [apply in_app_iff; right; left; reflexivity|]. rewrite P. exists n, f, i. reflexivity.
Qed.
Theorem C34_any_history : forall E calls o, snd (build E (brun E empty_builder calls)) = Ok o -> exists x names l pub,
  hd_error (budgets calls) = Some x /\ s_initial (root o) = accountant_budget x
  /\ st_public (o_state o) = pub /\ private_sources (s_tree (root o)) = Ok names /\ Permutation names (map fst l)
  /\ NoDup (map fst l ++ map fst pub) /\ (forall n, In n (map fst l) \/ In n (map fst pub) -> e_identifier E n = true)
  /\ l <> []
  /\ (forall n f c, In (n, (f, c)) l -> (exists g, In (WithPrivate n g c) calls /\ readable g /\ f = stored g) /\ sensible c /\ fits f c)
  /\ (forall n f, In (n, f) pub -> exists g, In (WithPublic n g) calls /\ readable g /\ f = stored g)
  /\ (forall n f i s, In (n, (f, AddRowsWithID i s)) l ->
        In (WithIdSpace s) calls \/ ((length l = 1 \/ In Build calls) /\ exists n' f' i', hd_error l = Some (n', (f', AddRowsWithID i' s)))).
Proof.
  intros E calls o H. pose proof (run_keeps E calls empty_builder (empty_ok E)) as OK. pose proof (told_run E calls) as T. set (b := brun E empty_builder calls) in *. clearbody b.
  pose proof (build_ready E b OK o H) as RD. destruct (build_ok E b OK RD) as (x & names & B & PS & NN & IN & H'). rewrite H in H'. injection H' as ->. destruct RD as (_ & P & F & _ & R). destruct T as [A BT C D]. destruct OK as [N I CH _ _ _ _].
  exists x, names, (b_private b), (b_public b). split; [congruence|]. split; [reflexivity|]. split; [reflexivity|]. split; [exact PS|]. split; [apply NoDup_Permutation; [exact NN|apply (nodup_append_inv _ _ N)|exact IN]|].
  split; [exact N|]. split; [exact I|]. split; [exact P|]. split; [|split; [exact C|]].
  - intros n f c J. split; [apply BT, J|]. split; [apply check_sensible, (CH _ _ _ J)|apply (F _ _ _ J)].
  - intros n f i s J. destruct (R _ _ _ _ J) as [K|(K & _)].
    + destruct (D s K) as [K1|(K1 & K2)]; [auto|]. right. split; [right; exact K1|exact K2].
    + right. split; [left; exact K|]. destruct (b_private b) as [|q [|q' r]]; [contradiction| |discriminate]. destruct J as [->|[]]. exists n, f, i. reflexivity.
Qed.
Print Assumptions C34_any_history.
(** build() declares the ID space of the only private table, so after a first build() a
    second table may use it undeclared, which is refused without that build(). *)
Theorem C34_build_leaves_builder_alone_refuted : exists E l c o,
  snd (build E (brun E empty_builder (l ++ [Build] ++ [c]))) = Ok o /\ snd (build E (brun E empty_builder (l ++ [c]))) = Err ValueError.
Proof.
  exists E0, [WithBudget (Pure (XFin 1)); WithPrivate "visits" visits (AddRowsWithID "id" "people")], (WithPrivate "buyers" buyers (AddRowsWithID "user" "people")).
  eexists. split; vm_compute; reflexivity.
Qed.
Print Assumptions C34_build_leaves_builder_alone_refuted.

(** Non-vacuity: the example is buildable, and small changes make it fail. *)
Example C34_case :
  buildable E0 calls0
  /\ (let* o := build_by E0 calls0 in private_sources (s_tree (root o))) = Ok ["buyers"; "visits"; "plain"; "orders"]
  /\ build_by E0 (WithBudget (Zcdp (XFin 1)) :: calls0) = Err ValueError
  /\ build_by E0 (WithPublic "plain" shops :: calls0) = Err ValueError
  /\ build_by E0 (filter (fun c => match c with WithIdSpace _ => false | _ => true end) calls0) = Err ValueError.
Proof.
  split; [|vm_compute; auto]. apply build_by_iff; [cbn; intuition discriminate|]. eexists. vm_compute. reflexivity.
Qed.
