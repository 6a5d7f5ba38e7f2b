(** Property C78: what is asked of a part of a partition is answered as if it were asked of
    the rows that were put in the part. *)
From Coq Require Import String Bool Arith ZArith QArith Qcanon Lia Permutation List.
From Verif Require Import Prelude Budget BudgetScale Value Rows Constraints ConstraintsSpec ConstraintsProofs Schema SchemaProofs Query QuerySame Rewrite RewriteSpec Transform TransformSpec TransformConform TransformVisit QueryProofs Tables TablesProofs
  Accountant AccountantProofs Session SessionSpec SessionMoney SessionSteps SessionTables SessionInv SessionUse SessionViews SessionWell SessionSound SessionNames SessionParts
  Neighboring Builder BuilderCalls BuilderNeighbours SessionBare Measure MeasureTotal Footprint ViewAnswers Props_Query Props_Session Props_Views Props_Measure Props_Sound Props_Footprint Props_ViewAnswers.
Import ListNotations.
Local Open Scope string_scope.
Local Open Scope nat_scope.

(** ** Specification *)
(** The call splits the table [t], called [src], of the session [s] at [p] by [col]; the part
    with the value [v] is called [name], and its session is at [q] afterwards. *)
Record splits_off (E : env) (st : state) (p : path) (s : sess) (src : string) (t : vtab) (col : string) (name : string) (v : value) (st' : state) (q : path) : Prop := {
  so_session : session st p s;
  so_table : table_named (s_tree s) src = Ok t;
  so_call : exists want splits l i, partition_and_create E st p src want col splits = (st', Ok l)
              /\ nth_error splits i = Some (name, v) /\ nth_error l i = Some (name, q)
}.
(** The condition selects the rows of [rows] that have the value [v]. *)
Definition selects (E : env) (cond col : string) (v : value) (rows : table) : Prop :=
  forall r, In r rows -> (w_cond_holds (e_world E) cond r = true <-> getv col r = v).
(** The query is about the private table [n] and about public tables only. *)
Definition only_about (n : string) (q : query) : Prop := forall m, In m (sources q) -> m = n.

(** ** Proofs *)
Lemma selected E cond col v rows : selects E cond col v rows -> filter (w_cond_holds (e_world E) cond) rows = filter (has_value col v) rows.
Proof.
  induction rows as [|r rows IH]; intros S; [reflexivity|]. cbn [filter]. rewrite IH by (intros r' I; apply S; right; exact I).
  assert (X : w_cond_holds (e_world E) cond r = has_value col v r); [|rewrite X; reflexivity].
  pose proof (S r (or_introl eq_refl)) as SR. unfold has_value. apply eq_true_iff_eq. rewrite SR. symmetry. apply value_eqb_eq.
Qed.
Lemma partition_public E st p src want col splits st' l : ok (st_root st) -> partition_and_create E st p src want col splits = (st', Ok l) -> st_public st' = st_public st.
Proof.
  intros O P. assert (SE : step E st (Partition p src want col splits) = (st', Ok tt)) by (cbn [step]; rewrite P; reflexivity).
  apply step_effect in SE; [|exact O]. inversion SE; subst; [match goal with X : _ \/ _ |- _ => destruct X; discriminate end|]. cbn [set_root st_public]. match goal with R : ready _ _ _ |- _ => apply R end.
Qed.
Lemma partition_any E st p src want col splits st' l : any_state E st -> partition_and_create E st p src want col splits = (st', Ok l) -> any_state E st'.
Proof.
  intros A P. assert (X : st' = run E st [Partition p src want col splits]) by (cbn; rewrite P; reflexivity). rewrite X. apply any_state_run; [exact A|]. repeat constructor.
Qed.
Lemma view_any E st p d v cache st' : any_state E st -> dicts d -> step E st (CreateView p d v cache) = (st', Ok tt) -> any_state E st'.
Proof.
  intros A D P. assert (X : st' = run E st [CreateView p d v cache]) by (cbn [run]; rewrite P; reflexivity). rewrite X. apply any_state_run; [exact A|]. repeat constructor. exact D.
Qed.

Lemma view_entry E st p s d v cache st' s' : ok (st_root st) -> all_sessions tables_ok st -> session st p s ->
  step E st (CreateView p d v cache) = (st', Ok tt) -> session st' p s' ->
  exists cat data y, catalog_for (s_tree s) (st_public st) (s_cons s) cat /\ data_of (s_tree s) = Ok data
    /\ visit (e_world E) (is_rho (s_left s)) cat data d = Ok y
    /\ dget v (named (s_tree s')) = Some (fst y) /\ dget v (s_cons s') = Some (snd y) /\ layout (s_tree s') /\ st_public st' = st_public st /\ s_left s' = s_left s.
Proof.
  intros O T S V S'. destruct (view_step E st p d v cache st' s O T S V) as (cat & data & y & s1 & CA & DA & BU & S1 & PB & L1 & PE & CO & LE & _ & _ & GN & _).
  rewrite (session_unique st' p s' s1 S' S1). exists cat, data, y.
  assert (BV : visit (e_world E) (is_rho (s_left s)) cat data d = Ok y).
  { unfold build_transformation in BU. apply bind_ok in BU as (sc & _ & BU). apply bind_ok in BU as (z & VI & BU). apply bind_ok in BU as (u & _ & BU). injection BU as <-. exact VI. }
  split; [apply catalog_of_for; [apply (tk_layout s (T p s S))|exact CA]|]. split; [exact DA|]. split; [exact BV|]. split; [|split; [rewrite CO; apply dget_dset_same|]; auto].
  rewrite (perm_dget _ _ v (layout_nodup _ L1) PE). cbn. rewrite String.eqb_refl. reflexivity.
Qed.

Lemma part_entry E st p s src t col name v st' q : ok (st_root st) -> all_sessions tables_ok st -> splits_off E st p s src t col name v st' q ->
  exists c, match id_column (v_place t), c with
            | None, None => True
            | Some _, Some c => exists cs, dget src (s_cons s) = Some cs /\ splitting_constraint col cs c
            | _, _ => False
            end
    /\ is_part st' t (match c with Some c => keeps_groups c | None => false end) col (SessionParts.truncated E t c) name v q.
Proof.
  intros O T [S TN (want & splits & l & i & P & NI & NL)]. destruct (parts_spec E st p src want col splits st' l s O T S P) as (t' & c & G & _ & _ & C & PA).
  rewrite (table_named_spec _ src (tk_layout s (T p s S))), G in TN. injection TN as ->. exists c. split; [exact C|].
  destruct (PA i name v NI) as (q' & NL' & IP). rewrite NL in NL'. injection NL' as <-. exact IP.
Qed.

(** ** C78 *)
(** A part of a table without ID and grouping columns is the same table, with the same
    (that is, no) constraints, as a view of the rows with the part's value. *)
Theorem C78_parts_are_filtered_tables : forall E st p s src t col name v st1 q child cond cache st2 s2,
  any_state E st -> splits_off E st p s src t col name v st1 q -> session st1 q child ->
  id_column (v_place t) = None -> grouping_column (v_place t) = None -> selects E cond col v (v_rows t) ->
  step E st (CreateView p (Filter (PrivateSource src) cond) name cache) = (st2, Ok tt) -> session st2 p s2 ->
  table_named (s_tree child) name = table_named (s_tree s2) name /\ is_ok (table_named (s_tree child) name) = true
  /\ dget name (s_cons child) = dget name (s_cons s2) /\ st_public st1 = st_public st2.
Proof.
  intros E st p s src t col name v st1 q child cond cache st2 s2 A SO SC NID NGR SEL V S2. destruct (any_state_facts E st A) as (T & F & R). pose proof (any_state_ok E st A) as O.
  pose proof (so_session _ _ _ _ _ _ _ _ _ _ _ SO) as S. pose proof (tk_layout s (T p s S)) as L.
  assert (A1 : any_state E st1) by (destruct (so_call _ _ _ _ _ _ _ _ _ _ _ SO) as (? & ? & ? & ? & P & _); exact (partition_any _ _ _ _ _ _ _ _ _ A P)).
  destruct (part_entry _ _ _ _ _ _ _ _ _ _ _ O T SO) as (c & C & [(child' & part & S1 & N & RO & DO & PL & CL & CO & _)]).
  rewrite NID in C. destruct c as [c|]; [destruct C|]. rewrite <- (session_unique _ _ _ _ SC S1) in *. clear S1.
  unfold SessionParts.truncated in RO. rewrite NID in RO.
  destruct (view_entry E st p s _ name cache st2 s2 O T S V S2) as (cat & data & y & CF & DA & VI & G2 & C2 & L2 & PB & _).
  rewrite (table_named_spec _ _ L2), G2. rewrite (table_named_spec _ _ (tk_layout child (proj1 (any_state_facts E st1 A1) q child SC))), N. cbn [dget]. rewrite String.eqb_refl. rewrite C2, CO. cbn [dget]. rewrite String.eqb_refl.
  pose proof (so_table _ _ _ _ _ _ _ _ _ _ _ SO) as TN. rewrite (table_named_spec _ _ L) in TN. destruct (dget src (named (s_tree s))) as [t0|] eqn:G; [|discriminate]. injection TN as ->.
  destruct (data_of_spec _ L) as (data' & DA' & D). rewrite DA in DA'. injection DA' as <-. destruct (cf_private _ _ _ _ CF src t G) as (sc & cs & _ & CS & CG).
  cbn [visit] in VI. unfold visit_source in VI. rewrite D, G, CG in VI. cbn [bind visit_filter] in VI. injection VI as <-. cbn [fst snd].
  assert (PT : placed t) by (apply (data_placed _ _ L DA src); rewrite D; exact G).
  assert (PS : v_place t = PSym /\ v_coll t = None) by (unfold placed in PT; destruct (v_place t); try discriminate; auto). destruct PS as (PS & PC).
  assert (cs = []) as ->. { apply (any_state_bare E st A p s S src t cs G CS). rewrite PS. reflexivity. }
  split; [|split; [reflexivity|split; [reflexivity|]]].
  - destruct part as [dom coll pl rows]. cbn [v_rows v_dom v_place v_coll] in *. subst. rewrite (selected _ _ _ _ _ SEL), PS, PC. reflexivity.
  - rewrite PB. destruct (so_call _ _ _ _ _ _ _ _ _ _ _ SO) as (? & ? & ? & ? & P & _). exact (partition_public _ _ _ _ _ _ _ _ _ O P).
Qed.
Print Assumptions C78_parts_are_filtered_tables.

(** So every question about the part, with joins of public tables and with any noise, has the
    same answer as about that view, or is refused with the same exception. *)
Theorem C78_parts_answer_like_views : forall E K auto so st p s src t col name v st1 q cond cache st2 c Q,
  any_state E st -> splits_off E st p s src t col name v st1 q ->
  id_column (v_place t) = None -> grouping_column (v_place t) = None -> selects E cond col v (v_rows t) ->
  step E st (CreateView p (Filter (PrivateSource src) cond) name cache) = (st2, Ok tt) -> only_about name Q ->
  answer E K auto so st1 q c Q = answer E K auto so st2 p c Q.
Proof.
  intros E K auto so st p s src t col name v st1 q cond cache st2 c Q A SO NID NGR SEL V OA. destruct (any_state_facts E st A) as (T & F & R). pose proof (any_state_ok E st A) as O.
  pose proof (so_session _ _ _ _ _ _ _ _ _ _ _ SO) as S.
  assert (A1 : any_state E st1) by (destruct (so_call _ _ _ _ _ _ _ _ _ _ _ SO) as (? & ? & ? & ? & P & _); exact (partition_any _ _ _ _ _ _ _ _ _ A P)).
  assert (A2 : any_state E st2) by (apply (view_any E st p (Filter (PrivateSource src) cond) name cache st2 A); [cbn; tauto|exact V]).
  destruct (part_entry _ _ _ _ _ _ _ _ _ _ _ O T SO) as (k & _ & [(child & _ & S1 & _)]).
  destruct (view_step E st p _ name cache st2 s O T S V) as (_ & _ & _ & s2 & _ & _ & _ & S2 & _).
  destruct (C78_parts_are_filtered_tables E st p s src t col name v st1 q child cond cache st2 s2 A SO S1 NID NGR SEL V S2) as (TE & _ & CE & PE).
  apply (C69_sessions_agree E K auto so st1 q child st2 p s2 c Q A1 A2 S1 S2). split.
  - intros n IN. rewrite (OA n IN). rewrite PE. tauto.
  - intros n _. rewrite PE. reflexivity.
Qed.
Print Assumptions C78_parts_answer_like_views.

(** If as much is left in the part as in the session with the view, asking costs the same or is
    refused with the same exception. *)
Theorem C78_parts_charge_like_views : forall E K auto so st p s src t col name v st1 q child cond cache st2 s2 want Q,
  compiles_with E K auto so -> any_state E st -> splits_off E st p s src t col name v st1 q -> session st1 q child ->
  id_column (v_place t) = None -> grouping_column (v_place t) = None -> selects E cond col v (v_rows t) ->
  step E st (CreateView p (Filter (PrivateSource src) cond) name cache) = (st2, Ok tt) -> session st2 p s2 -> only_about name Q -> s_left child = s_left s2 ->
  compile_and_get_info E child (st_public st1) Q want = compile_and_get_info E s2 (st_public st2) Q want.
Proof.
  intros E K auto so st p s src t col name v st1 q child cond cache st2 s2 want Q CW A SO S1 NID NGR SEL V S2 OA LE.
  assert (A1 : any_state E st1) by (destruct (so_call _ _ _ _ _ _ _ _ _ _ _ SO) as (? & ? & ? & ? & P & _); exact (partition_any _ _ _ _ _ _ _ _ _ A P)).
  assert (A2 : any_state E st2) by (apply (view_any E st p (Filter (PrivateSource src) cond) name cache st2 A); [cbn; tauto|exact V]).
  destruct (C78_parts_are_filtered_tables E st p s src t col name v st1 q child cond cache st2 s2 A SO S1 NID NGR SEL V S2) as (TE & _ & CE & PE).
  apply (C69_same_charge E K auto so st1 q child st2 p s2 want Q CW A1 A2 S1 S2); [|exact LE]. split.
  - intros n IN. rewrite (OA n IN). rewrite PE. tauto.
  - intros n _. rewrite PE. reflexivity.
Qed.
Print Assumptions C78_parts_charge_like_views.

(** And so a question about the part has the answer that the same question about the rows with
    the part's value has in the session that was split. *)
Theorem C78_parts_answer_like_filters : forall E K auto so st p s src t col name v st1 q cond cache st2 s2 c Q a z,
  by_name (w_cond_ok (e_world E)) -> any_state E st -> splits_off E st p s src t col name v st1 q ->
  id_column (v_place t) = None -> grouping_column (v_place t) = None -> selects E cond col v (v_rows t) ->
  step E st (CreateView p (Filter (PrivateSource src) cond) name cache) = (st2, Ok tt) -> session st2 p s2 -> only_about name Q ->
  built auto (PrivateSource src) -> question auto Q a -> noise_fits E st2 s2 (measure_for c) Q a ->
  (answer E K auto so st1 q c Q = Ok z <-> answer E K auto so st p c (subst name (Filter (PrivateSource src) cond) Q) = Ok z).
Proof.
  intros E K auto so st p s src t col name v st1 q cond cache st2 s2 c Q a z BN A SO NID NGR SEL V S2 OA BS QU NF.
  rewrite (C78_parts_answer_like_views E K auto so st p s src t col name v st1 q cond cache st2 c Q A SO NID NGR SEL V OA).
  apply (C77_view_answers_partial E K auto so st p s _ name cache st2 s2 c Q a z BN A (so_session _ _ _ _ _ _ _ _ _ _ _ SO)); try assumption; [cbn; tauto|]. split; [reflexivity|exact BS].
Qed.
Print Assumptions C78_parts_answer_like_filters.

(** A part of a table with IDs that was split under a limit on the number of parts per ID is
    the table of the rows that were kept and have the part's value.  It has no constraints:
    what was enforced has to be enforced anew in the part. *)
Theorem C78_parts_with_ids : forall E st p s src t idc col m name v st1 q child cond cache st2 s2,
  any_state E st -> splits_off E st p s src t col name v st1 q -> session st1 q child ->
  id_column (v_place t) = Some idc -> (exists cs, dget src (s_cons s) = Some cs /\ forall k, In (MaxGroupsPerID col k) cs <-> k = m) ->
  selects E cond col v (v_rows t) ->
  step E st (CreateView p (Filter (EnforceConstraint (PrivateSource src) (MaxGroupsPerID col m)) cond) name cache) = (st2, Ok tt) -> session st2 p s2 ->
  table_named (s_tree child) name = table_named (s_tree s2) name /\ is_ok (table_named (s_tree child) name) = true
  /\ dget name (s_cons child) = Some [] /\ st_public st1 = st_public st2.
Proof.
  intros E st p s src t idc col m name v st1 q child cond cache st2 s2 A SO SC ID (cs0 & CS0 & ONE) SEL V S2. destruct (any_state_facts E st A) as (T & F & R). pose proof (any_state_ok E st A) as O.
  pose proof (so_session _ _ _ _ _ _ _ _ _ _ _ SO) as S. pose proof (tk_layout s (T p s S)) as L.
  assert (A1 : any_state E st1) by (destruct (so_call _ _ _ _ _ _ _ _ _ _ _ SO) as (? & ? & ? & ? & P & _); exact (partition_any _ _ _ _ _ _ _ _ _ A P)).
  destruct (part_entry _ _ _ _ _ _ _ _ _ _ _ O T SO) as (c & C & [(child' & part & S1 & N & RO & DO & PL & CL & CO & _)]).
  rewrite ID in C. destruct c as [c|]; [|destruct C]. destruct C as (cs1 & CS1 & IN & SP). rewrite CS0 in CS1. injection CS1 as <-.
  assert (c = MaxGroupsPerID col m) as ->.
  { destruct c as [k|g k|g k]; [|subst g; f_equal; apply ONE, IN|destruct SP]. exfalso. apply (SP m). apply ONE. reflexivity. }
  rewrite <- (session_unique _ _ _ _ SC S1) in *. clear S1.
  unfold SessionParts.truncated in RO. rewrite ID in RO. cbn [keeps_groups] in PL, CL.
  destruct (view_entry E st p s _ name cache st2 s2 O T S V S2) as (cat & data & y & CF & DA & VI & G2 & C2 & L2 & PB & _).
  rewrite (table_named_spec _ _ L2), G2. rewrite (table_named_spec _ _ (tk_layout child (proj1 (any_state_facts E st1 A1) q child SC))), N. cbn [dget]. rewrite String.eqb_refl. rewrite CO. cbn [dget]. rewrite String.eqb_refl.
  pose proof (so_table _ _ _ _ _ _ _ _ _ _ _ SO) as TN. rewrite (table_named_spec _ _ L) in TN. destruct (dget src (named (s_tree s))) as [t0|] eqn:G; [|discriminate]. injection TN as ->.
  destruct (data_of_spec _ L) as (data' & DA' & D). rewrite DA in DA'. injection DA' as <-. destruct (cf_private _ _ _ _ CF src t G) as (sc & cs & _ & CS & CG).
  assert (PT : placed t) by (apply (data_placed _ _ L DA src); rewrite D; exact G).
  assert (PS : v_place t = PKeys idc) by (unfold placed in PT; destruct (v_place t); cbn in ID; first [discriminate|congruence|destruct PT]).
  cbn [visit] in VI. unfold visit_source in VI. rewrite D, G, CG in VI. cbn [bind visit_enforce] in VI. rewrite PS in VI. cbn [enforce t_place t_rows bind visit_filter v_dom v_coll v_place v_rows] in VI. injection VI as <-. cbn [fst snd].
  split; [|split; [reflexivity|split; [reflexivity|]]].
  - destruct part as [dom coll pl rows]. cbn [v_rows v_dom v_place v_coll] in *. subst. rewrite <- (selected E cond col v); [rewrite PS; reflexivity|].
    intros r I1. apply SEL. eapply sub_table_In; [|exact I1]. apply enforce_rows_sub.
  - rewrite PB. destruct (so_call _ _ _ _ _ _ _ _ _ _ _ SO) as (? & ? & ? & ? & P & _). exact (partition_public _ _ _ _ _ _ _ _ _ O P).
Qed.
Print Assumptions C78_parts_with_ids.

(** ** Cases *)
(** Conditions that ask for a city, by its name. *)
Definition E2 : env.
Proof.
  refine {| e_world := {| w_cond_ok := fun _ _ => true; w_cond_holds := fun c r => value_eqb (getv "city" r) (VStr c); w_row_order := rec_order; w_key_order := fun _ => value_order |};
            e_round := exact_rounding; e_down := fun q => q; e_identifier := fun n => negb (String.eqb n "");
            e_compiles := fun cat x q b => Ok tt; e_relation := fun _ _ _ => true; e_temps := fun _ _ => [];
            e_shuffle := fun l => l; e_empty_ok := false; e_retires_waiting := false |}.
  - intros q H. split; [exact H|apply Qle_refl].
  - intros l. apply Permutation_refl.
Defined.
Lemma by_name_E2 : by_name (w_cond_ok (e_world E2)). Proof. repeat intro. reflexivity. Qed.
Definition shop : state := match build_by E2 plain_calls with Ok o => o_state o | Err _ => st0 (Pure (XFin 0)) end.
Lemma shop_any l : Forall proper l -> any_state E2 (run E2 shop l).
Proof.
  intros P. unfold shop. assert (B : exists o, build_by E2 plain_calls = Ok o) by (eexists; vm_compute; reflexivity). destruct B as (o & B). rewrite B.
  exists plain_calls, o, l. split; [cbn; intuition discriminate|]. split; [exact B|]. split; [exact P|reflexivity].
Qed.
Lemma selects_city c rows : selects E2 c "city" (VStr c) rows.
Proof. intros r _. apply value_eqb_eq. Qed.
(** The table "plain" split by city; in the part of "a", a count by code of the rows joined
    with the public table "codes". *)
Definition a_codes : query :=
  GroupByCount (JoinPublic (PrivateSource "as") (PubName "codes") None "inner") (KSet [("city", dsc VARCHAR false false false)] [[("city", VStr "a")]; [("city", VStr "c")]]) "n" MLaplace None.
Example C78_case : exists s t st1 st2 s2,
  splits_off E2 shop [] s "plain" t "city" "as" (VStr "a") st1 [(0, 0)]
  /\ id_column (v_place t) = None /\ grouping_column (v_place t) = None /\ selects E2 "a" "city" (VStr "a") (v_rows t)
  /\ step E2 shop (CreateView [] (Filter (PrivateSource "plain") "a") "as" true) = (st2, Ok tt) /\ session st2 [] s2
  /\ only_about "as" a_codes /\ built true (PrivateSource "plain")
  /\ question true a_codes (JoinPublic (PrivateSource "as") (PubName "codes") None "inner")
  /\ noise_fits E2 st2 s2 (measure_for (Zcdp (XFin 1))) a_codes (JoinPublic (PrivateSource "as") (PubName "codes") None "inner")
  /\ answer E2 K0 true idl st1 [(0, 0)] (Zcdp (XFin 1)) a_codes = Ok [[("city", VStr "a"); ("n", VInt 1)]; [("city", VStr "c"); ("n", VInt 0)]]
  /\ answer E2 K0 true idl shop [] (Zcdp (XFin 1)) (GroupByCount (PrivateSource "plain") (KSet [("city", dsc VARCHAR false false false)] [[("city", VStr "a")]; [("city", VStr "c")]]) "n" MLaplace None)
     = Ok [[("city", VStr "a"); ("n", VInt 1)]; [("city", VStr "c"); ("n", VInt 1)]].
Proof.
  eexists. eexists. eexists. eexists. eexists.
  split. { constructor; [eexists; split; [vm_compute; reflexivity|reflexivity]|vm_compute; reflexivity|].
    exists (Zcdp (XFin 1)), [("as", VStr "a"); ("bs", VStr "b")]. eexists. exists 0. split; [vm_compute; reflexivity|]. split; reflexivity. }
  split; [reflexivity|]. split; [reflexivity|]. split; [apply selects_city|]. split; [vm_compute; reflexivity|]. split; [eexists; split; [vm_compute; reflexivity|reflexivity]|].
  split; [intros m IN; cbn in IN; destruct IN as [IN|IN]; [symmetry; exact IN|destruct IN]|]. split; [repeat split|]. split.
  - split; [cbn; intuition (try discriminate; one_key)|]. split; [repeat split; reflexivity|]. split; [reflexivity|]. split; [exact I|]. intros c H; discriminate H.
  - split; [right; intros sc (cat & CA & SC); vm_compute in CA; injection CA as <-; vm_compute in SC; injection SC as <-; reflexivity|]. split; vm_compute; reflexivity.
Qed.
(** A table with IDs: each ID in at most two parts. *)
Definition limited_calls : list op := [CreateView [] few "few" false].
Example C78_ids_case : exists s t st1 child st2 s2,
  any_state E2 (run E2 shop limited_calls) /\ splits_off E2 (run E2 shop limited_calls) [] s "few" t "city" "as" (VStr "a") st1 [(0, 0)] /\ session st1 [(0, 0)] child
  /\ id_column (v_place t) = Some "id" /\ (exists cs, dget "few" (s_cons s) = Some cs /\ forall k, In (MaxGroupsPerID "city" k) cs <-> k = 2)
  /\ selects E2 "a" "city" (VStr "a") (v_rows t)
  /\ step E2 (run E2 shop limited_calls) (CreateView [] (Filter (EnforceConstraint (PrivateSource "few") (MaxGroupsPerID "city" 2)) "a") "as" false) = (st2, Ok tt) /\ session st2 [] s2
  /\ (exists part, table_named (s_tree child) "as" = Ok part /\ length (v_rows part) = 1) /\ dget "as" (s_cons s2) = Some [MaxGroupsPerID "city" 2].
Proof.
  eexists. eexists. eexists. eexists. eexists. eexists. split; [apply shop_any; repeat constructor|].
  split. { constructor; [eexists; split; [vm_compute; reflexivity|reflexivity]|vm_compute; reflexivity|].
    exists (Zcdp (XFin 1)), [("as", VStr "a"); ("bs", VStr "b")]. eexists. exists 0. split; [vm_compute; reflexivity|]. split; reflexivity. }
  split; [eexists; split; [vm_compute; reflexivity|reflexivity]|]. split; [reflexivity|].
  split. { eexists. split; [reflexivity|]. intros k. cbn. split; [intros [H|[]]; injection H; auto|intros ->; left; reflexivity]. }
  split; [apply selects_city|]. split; [vm_compute; reflexivity|]. split; [eexists; split; [vm_compute; reflexivity|reflexivity]|].
  split; [|vm_compute; reflexivity]. eexists. split; [vm_compute; reflexivity|]. reflexivity.
Qed.
