(** Property C73: which aggregations are compiled, and how the others are refused. *)
From Coq Require Import String Bool Arith ZArith QArith Qcanon Lqa Lia Permutation List.
From Verif Require Import Prelude Budget BudgetProofs BudgetScale Value Rows Constraints ConstraintsSpec ConstraintsProofs Schema SchemaProofs Query Transform TransformSpec
  TransformConform TransformVisit TransformAgree QueryProofs QuerySame PropagateProofs Rewrite RewriteSpec RewriteProofs QueryAccept TransformTotal Tables TablesProofs
  Accountant AccountantProofs Session SessionSpec SessionMoney SessionSteps SessionTables SessionInv SessionViews SessionWell SessionNames SessionCharge
  Neighboring NeighboringSpec NeighboringProofs Builder BuilderProofs BuilderTree BuilderBuild BuilderCalls BuilderSpec BuilderNeighbours SessionSound
  SessionUse Measure MeasureProofs Props_Query Props_Session Props_Sound Props_Message Props_Partition Props_Sensitivity SessionBare Props_Computed Props_Measure MeasureTotal.
Import ListNotations.
Local Open Scope string_scope.
Local Open Scope nat_scope.
Notation obstacle := MeasureTotal.obstacle.
Notation measure_for := MeasureTotal.measure_for.

(** ** C73 *)

(** An aggregation that the constructors accept and that has a schema, with a budget.  There
    is a truncation [pick] of its table, a cheapest among those that the known constraints
    allow ([cheapest], MeasureTotal.v), or none if none is allowed, such that compiling
    succeeds only if there is no [obstacle], and fails only with the exception that an
    obstacle calls for, or because tmlt.core refuses.  [inner q] is the aggregation whose
    small answers are suppressed, if any; [inputs_ok] says that the tables are what the
    catalog says, seen with the metric of the noise that is used. *)
Theorem C73_compiled_or_refused : forall R W K auto so cat data b q0 q c sc,
  (forall l, Permutation (so l) l) -> stocked cat data -> catalog_made cat -> valid b ->
  Query.build auto q0 = Ok q -> schema_of (w_cond_ok W) cat q = Ok sc -> table_of (inner q) = Some c -> is_table c ->
  inputs_ok (gaussian_wanted (measure_for b) (inner q)) cat data ->
  promises W (gaussian_wanted (measure_for b) (inner q)) cat data c -> regular W cat c ->
  exists pick, (forall cs, known W cat data (gaussian_wanted (measure_for b) (inner q)) c cs -> cheapest W (measure_for b) cat (inner q) cs pick)
    /\ match compile R W K auto so (measure_for b) cat data b q with
       | Ok _ => forall e, ~ obstacle W (measure_for b) cat data b (inner q) pick e
       | Err e => obstacle W (measure_for b) cat data b (inner q) pick e \/ core_refuses K e
       end.
Proof.
  intros R W K auto so cat data b q0 q c sc SO SK CAT VB B S TO T IN P RG.
  exact (compile_verdict R W K auto so cat data b SO SK VB q c sc (build_built auto q0 q B) S TO T P RG IN CAT).
Qed.
Print Assumptions C73_compiled_or_refused.

(** Queries that are no aggregations are not implemented. *)
Theorem C73_tables_are_not_released : forall R W K auto so cat data b q0 q sc,
  catalog_made cat -> Query.build auto q0 = Ok q -> schema_of (w_cond_ok W) cat q = Ok sc -> is_table q ->
  compile R W K auto so (measure_for b) cat data b q = Err NotImplementedError.
Proof.
  intros R W K auto so cat data b q0 q sc CAT B S T. apply build_built in B. unfold compile. rewrite S. cbn [bind].
  destruct (proj1 (rewrite_total auto (w_cond_ok W) (measure_for b) cat CAT q sc B S) (table_child_rules W cat b q T)) as (q' & RW).
  destruct (rewrite_ok auto (w_cond_ok W) (measure_for b) cat CAT q q' sc B S RW) as (_ & _ & RR & _). rewrite RW. cbn [bind].
  rewrite (table_unchanged _ _ q q' T RR). destruct q; try contradiction; reflexivity.
Qed.
Print Assumptions C73_tables_are_not_released.

Lemma inputs_other l2 l2' cat data : inputs_ok l2 cat data ->
  l2 = l2' \/ (forall n s cs, dget n (cat_private cat) = Some (s, cs) -> sc_group s = None) -> inputs_ok l2' cat data.
Proof.
  intros IN [->|N]; [exact IN|]. destruct IN as [IN PU]. split; [|exact PU]. intros n t D. destruct (IN n t D) as (s & cs & G & A1 & A2 & A3 & A4 & M & A5).
  exists s, cs. repeat (split; [assumption|]). split; [|exact A5]. unfold metric_for in M |- *. rewrite (N n s cs G) in *. exact M.
Qed.

Lemma not_zero b : ~ (xeq (loss b) (XFin 0) /\ xeq (delta b) (XFin 0)) -> existsb (budget_eqb b) zero_budgets = false.
Proof.
  intros N. apply not_true_iff_false. intros X. apply N. apply existsb_exists in X as (z & I & X). cbn in I.
  assert (Z0 : xeq (XFin 0) (XFin 0)) by (cbn; reflexivity).
  destruct I as [<-|[<-|[<-|[]]]]; destruct b as [x|x y|x]; try discriminate X; unfold budget_eqb in X; unfold loss, delta.
  - apply xeqb_iff in X. auto.
  - replace (Budget.is_infinite (Approx x y) && Budget.is_infinite (Approx (XFin 0) (XFin 0))) with false in X by (rewrite andb_false_r; reflexivity).
    apply andb_true_iff in X as [X Y]. apply xeqb_iff in X. apply xeqb_iff in Y. auto.
  - apply xeqb_iff in X. auto.
Qed.
(** In every session of every honest history that was not stopped, if what is left allows
    the request: the query is answered or refused as above, with the budget [adj] that the
    session is charged. *)
Theorem C73_in_every_session : forall E K auto so st p s a cat data q0 q c sc want,
  compiles_with E K auto so -> (forall l, Permutation (so l) l) -> honest_state false E st -> session st p s ->
  catalog_of (s_tree s) (st_public st) (s_cons s) = Ok cat -> data_of (s_tree s) = Ok data ->
  Query.build auto q0 = Ok q -> has_schema E st s q sc -> table_of (inner q) = Some c -> is_table c ->
  let l2 := gaussian_wanted (measure_for (s_left s)) (inner q) in
  l2 = is_rho (s_left s) \/ (forall n t cs, dget n (cat_private cat) = Some (t, cs) -> sc_group t = None) ->
  promises (e_world E) l2 cat data c -> regular (e_world E) cat c ->
  state_at (st_root st) p a -> a <> RETIRED -> valid (s_left s) -> valid want -> same_kind (s_left s) (request (s_left s) want) ->
  ~ (xeq (loss (request (s_left s) want)) (XFin 0) /\ xeq (delta (request (s_left s) want)) (XFin 0)) ->
  Props_Message.allowed (s_left s) (request (s_left s) want) -> (forall adj, e_relation E (s_tree s) q adj = true) ->
  exists adj pick st', charge_for (s_left s) (request (s_left s) want) adj
    /\ (forall cs, known (e_world E) cat data l2 c cs -> cheapest (e_world E) (measure_for (s_left s)) cat (inner q) cs pick)
    /\ ((step E st (Evaluate p q want) = (st', Ok tt) /\ forall e, ~ obstacle (e_world E) (measure_for (s_left s)) cat data adj (inner q) pick e)
        \/ exists e, step E st (Evaluate p q want) = (st', Err e)
             /\ (obstacle (e_world E) (measure_for (s_left s)) cat data adj (inner q) pick e \/ core_refuses K e)).
Proof.
  intros E K auto so st p s a cat data q0 q c sc want CW SO H S CA DA B (cat' & CA' & SC) TO T l2 LG P R SA NR VL V KD NZ0 AL REL. rewrite CA in CA'. injection CA' as <-.
  destruct (any_state_facts E st (honest_any _ _ _ H)) as (TK & F & _). destruct (honest_facts _ _ _ H) as (SD & SP).
  destruct (sound_inputs false st s cat data (TK p s S) (F p s S) (SD p s S) SP CA DA) as (IN & _).
  pose proof (session_stocked _ s cat data (TK p s S) (any_state_bare E st (honest_any _ _ _ H) p s S) CA DA) as SK.
  pose proof (session_catalog_made s _ cat (TK p s S) CA) as CM.
  assert (IN' : inputs_ok l2 cat data) by (apply (inputs_other _ l2 cat data IN); destruct LG; auto).
  destruct (process_total E (s_left s) _ VL (request_valid _ _ V) KD) as (adj & PB).
  destruct (process_valid _ _ _ _ PB) as (VA & K1). pose proof (same_kind_trans _ _ _ KD K1) as K2.
  assert (MF : measure_for adj = measure_for (s_left s)) by (destruct (s_left s), adj; try contradiction; reflexivity).
  assert (VT : validate_type (s_left s) (request (s_left s) want) = Ok tt) by (destruct (s_left s), want; cbn in KD |- *; try contradiction; reflexivity).
  destruct (allowed_spends _ _ _ VL VA K2 KD (process_charge _ _ _ _ VL KD PB) AL) as (rest & SPD).
  assert (NZ : existsb (budget_eqb (request (s_left s) want)) zero_budgets = false) by (apply not_zero, NZ0).
  destruct (activates _ _ _ _ S SA NR) as (S1 & t & A).
  destruct (C73_compiled_or_refused (e_round E) (e_world E) K auto so cat data adj q0 q c sc SO SK CM VA B SC TO T) as (pick & PK & VE); try (rewrite MF; assumption); [exact R|].
  rewrite MF in PK, VE.
  assert (CI : compile_and_get_info E s (st_public st) q want
    = let* _ := compile (e_round E) (e_world E) K auto so (measure_for (s_left s)) cat data adj q in Ok adj).
  { unfold compile_and_get_info. rewrite (lift_total E _ _ V). cbn [bind]. rewrite VT, NZ. cbn [bind raise_if]. rewrite PB. cbn [bind]. rewrite CA. cbn [bind]. rewrite SC. cbn [bind].
    rewrite CW. rewrite DA. cbn [bind]. change (Props_Measure.measure_for adj) with (measure_for adj). rewrite MF. destruct (compile _ _ _ _ _ _ _ _ _ _); reflexivity. }
  cbn [step]. unfold evaluate, attempt, activated. rewrite S1, CI.
  destruct (compile (e_round E) (e_world E) K auto so (measure_for (s_left s)) cat data adj q) as [m|e]; cbn [bind].
  - rewrite A, REL. cbn [negb]. rewrite SPD. eexists adj, pick, _. split; [exact (process_charge _ _ _ _ VL KD PB)|]. split; [exact PK|]. left. split; [reflexivity|exact VE].
  - eexists adj, pick, _. split; [exact (process_charge _ _ _ _ VL KD PB)|]. split; [exact PK|]. right. exists e. split; [reflexivity|exact VE].
Qed.
Print Assumptions C73_in_every_session.

(** ** Each case arises *)

(** The sessions of C71, with approximate DP, pure DP and zCDP, compiled with a tmlt.core
    that accepts everything. *)
Definition with_budget (b : budget) : list bcall := WithBudget b :: tl mixed_calls.
Definition opened (b : budget) : state := match build_by E1 (with_budget b) with Ok o => o_state o | Err _ => st0 b end.
Lemma opened_honest b : b = Pure (XFin 4) \/ b = Approx (XFin 4) (XFin (1 # 10)) \/ b = Zcdp (XFin 4) -> honest_state false E1 (opened b).
Proof.
  intros Hb. exists (with_budget b). assert (B : exists o, build_by E1 (with_budget b) = Ok o) by (destruct Hb as [Hb|[Hb|Hb]]; subst b; eexists; vm_compute; reflexivity). destruct B as (o & B).
  exists o, []. split; [cbn; intuition discriminate|]. split; [exact B|]. split; [|split; [|split]].
  - cbn. intros n f c [H|[H|[H|[]]]]; injection H as <- <- <-; (eapply frame_check; [repeat constructor; cbn; intuition discriminate|reflexivity|vm_compute; reflexivity]).
  - cbn. intros n f [H|[H|[]]]; injection H as <- <-; (eapply frame_check; [repeat constructor; cbn; intuition discriminate|reflexivity|vm_compute; reflexivity]).
  - exact I.
  - unfold opened. rewrite B. reflexivity.
Qed.
(** Before anything else, and whatever the query, a budget of another kind and a budget of
    nothing at all are refused with a ValueError; nothing changes. *)
Theorem C73_budgets_refused_first : forall E st p s q want,
  session st p s -> valid want ->
  ~ same_kind (s_left s) (request (s_left s) want)
  \/ (xeq (loss (request (s_left s) want)) (XFin 0) /\ xeq (delta (request (s_left s) want)) (XFin 0)) ->
  step E st (Evaluate p q want) = (st, Err ValueError) /\ step E st (SpendOnly p q want) = (st, Err ValueError).
Proof.
  intros E st p s q want S V H. destruct S as (c & F & D).
  assert (C : compile_and_get_info E s (st_public st) q want = Err ValueError).
  { unfold compile_and_get_info. rewrite (lift_total E _ _ V). cbn [bind].
    destruct (validate_type (s_left s) (request (s_left s) want)) as [[]|e] eqn:VT; cbn [bind].
    2:{ destruct (s_left s), (request _ want); cbn in VT; congruence. }
    destruct H as [H|(L & Z)]; [exfalso; apply H; destruct (s_left s), (request _ want); cbn in VT |- *; try discriminate; exact Logic.I|].
    replace (existsb (budget_eqb (request (s_left s) want)) zero_budgets) with true; [reflexivity|]. symmetry. apply existsb_exists.
    destruct (request (s_left s) want) as [x|x y|x]; cbn [loss delta] in L, Z.
    - exists (Pure (XFin 0)). split; [now left|]. cbn [budget_eqb]. now apply xeqb_iff.
    - exists (Approx (XFin 0) (XFin 0)). split; [right; now left|]. unfold budget_eqb.
      destruct (Budget.is_infinite (Approx x y) && Budget.is_infinite (Approx (XFin 0) (XFin 0))); [reflexivity|].
      apply andb_true_iff. split; now apply xeqb_iff.
    - exists (Zcdp (XFin 0)). split; [right; right; now left|]. cbn [budget_eqb]. now apply xeqb_iff. }
  split; cbn [step]; unfold evaluate, spend_without_executing, attempt, session_at; rewrite F, D, C; reflexivity.
Qed.
Print Assumptions C73_budgets_refused_first.
Example C73_zero_case : let b := Approx (XFin 4) (XFin (1 # 10)) in
  exists s, session (opened b) [] s /\ valid (Pure (XFin 0)) /\ xeq (loss (request (s_left s) (Pure (XFin 0)))) (XFin 0)
    /\ xeq (delta (request (s_left s) (Pure (XFin 0)))) (XFin 0) /\ ~ same_kind (s_left s) (Zcdp (XFin 1)).
Proof.
  cbv zeta. eexists. split; [eexists; split; reflexivity|]. repeat split; cbn; try reflexivity; try discriminate; tauto.
Qed.

Definition no_keys : gkeys := KSet [] [[]].
Definition by_c : gkeys := KSet [("c", dsc VARCHAR false false false)] [[("c", VStr "u")]].
Definition once : query := EnforceConstraint (PrivateSource "visits") (MaxRowsPerID 1).
Definition per_c : query := EnforceConstraint (EnforceConstraint (PrivateSource "visits") (MaxGroupsPerID "c" 2)) (MaxRowsPerGroupPerID "c" 1).
Definition refuses (b : budget) (q : query) (e : exn) : Prop :=
  exists s cat sc, session (opened b) [] s /\ catalog_of (s_tree s) (st_public (opened b)) (s_cons s) = Ok cat
    /\ Query.build true q = Ok q /\ schema_of (w_cond_ok (e_world E1)) cat q = Ok sc
    /\ snd (step E1 (opened b) (Evaluate [] q b)) = Err e.
Theorem C73_refusals_occur :
  let pure := Pure (XFin 4) in let approx := Approx (XFin 4) (XFin (1 # 10)) in
  (forall b, b = pure \/ b = approx -> honest_state false E1 (opened b))
  /\ (* Gaussian noise without zCDP *)
     refuses pure (GroupByCount once no_keys "n" MGaussian None) ValueError
  /\ (* infinite values, infinite bounds *)
     refuses pure (GroupByBounded BSum once no_keys "cost" (Query.PFloat (z_to_f 0)) (Query.PFloat FPInf) "n" MDefault None) ValueError
  /\ (* a table that cannot be computed *)
     refuses pure (GroupByCount (FlatMap (PrivateSource "plain") one_y new_y true None) no_keys "n" MDefault None) ValueError
  /\ (* keys to be found, with pure DP *)
     refuses pure (GroupByCount once (KCols ["c"]) "n" MDefault None) ValueError
  /\ (* IDs without a bound on their rows *)
     refuses pure (GroupByCount (PrivateSource "visits") no_keys "n" MDefault None) RuntimeError
  /\ (* get_groups with pure DP, and of the IDs *)
     refuses pure (GetGroups once ["c"]) ValueError
  /\ refuses approx (GetGroups once ["x_left"]) RuntimeError
  /\ (* count_distinct: a column that does not exist; the grouping column of the truncation
        is not among the columns counted *)
     refuses pure (GroupByCountDistinct once no_keys ["nowhere"] "n" MDefault None) ValueError
  /\ refuses pure (GroupByCountDistinct per_c no_keys ["x"] "n" MDefault None) ValueError
  /\ (* count_distinct of columns with keys to be found *)
     refuses approx (GroupByCountDistinct once (KCols ["c"]) ["x"] "n" MDefault None) AttributeError.
Proof.
  cbn zeta. split; [intros b [Hb|Hb]; subst b; apply opened_honest; auto|].
  repeat split; eexists _, _, _; (split; [eexists; split; [vm_compute; reflexivity|reflexivity]|]); (split; [vm_compute; reflexivity|]);
    (split; [vm_compute; reflexivity|]); (split; vm_compute; reflexivity).
Qed.
Print Assumptions C73_refusals_occur.

(** What the last premise on the metric is for.  With zCDP and a table that is protected by
    groups, every aggregation with Laplace noise ends in an internal error that tells the
    user of a bug in the library, and so does every get_bounds: the metric of such a table
    goes with Gaussian noise. *)
Theorem C73_laplace_with_groups_refuted :
  let zcdp := Zcdp (XFin 4) in
  honest_state false E1 (opened zcdp)
  /\ exists s cat data, session (opened zcdp) [] s /\ catalog_of (s_tree s) (st_public (opened zcdp)) (s_cons s) = Ok cat /\ data_of (s_tree s) = Ok data
  /\ Forall (fun q => Query.build false q = Ok q /\ (exists sc, schema_of (w_cond_ok (e_world E1)) cat q = Ok sc)
        /\ table_of q = Some (PrivateSource "grouped")
        /\ (forall pick e, ~ obstacle (e_world E1) RhoZCDP cat data zcdp q pick e) /\ (forall e, ~ core_refuses K0 e)
        /\ snd (step E1 (opened zcdp) (Evaluate [] q zcdp)) = Err InternalError)
       [ GroupByCount (PrivateSource "grouped") by_c "n" MLaplace None;
         GroupByBounded BSum (PrivateSource "grouped") by_c "tag" (Query.PInt 0) (Query.PInt 9) "n" MLaplace None;
         GetBounds (PrivateSource "grouped") by_c "tag" "lo" "hi" ]
  /\ (* the same count with the default noise *)
     snd (step E1 (opened zcdp) (Evaluate [] (GroupByCount (PrivateSource "grouped") by_c "n" MDefault None) zcdp)) = Ok tt.
Proof.
  cbn zeta. split; [apply opened_honest; auto|]. eexists _, _, _. split; [eexists; split; [vm_compute; reflexivity|reflexivity]|].
  split; [vm_compute; reflexivity|]. split; [vm_compute; reflexivity|]. split; [|vm_compute; reflexivity].
  assert (CR : forall e, ~ core_refuses K0 e).
  { intros e [(g & X)|[(t & x & X)|(_ & t & x & X)]]; [discriminate X|discriminate X|]. cbn [k_groups_loss K0] in X. now rewrite self_match in X. }
  repeat (constructor; [split; [vm_compute; reflexivity|]; split; [eexists; vm_compute; reflexivity|]; split; [reflexivity|]; split; [|split; [exact CR|vm_compute; reflexivity]];
    intros pick e OB; inversion OB as [X|c m s d lo hi ME BO SC D MI NF|c TO NC|cols KO NS|c s cs TO SC ID|c cols s e' X|c k cols out m co s cs e' X]; subst;
    [discriminate X
    |try discriminate BO; try discriminate ME; injection ME as <- <-; vm_compute in SC; injection SC as <-; vm_compute in D; injection D as <-; destruct MI as [MI _]; discriminate MI
    |injection TO as <-; apply NC; exact I
    |discriminate KO
    |injection TO as <-; vm_compute in SC; injection SC as <-; now apply ID
    |discriminate X
    |discriminate X]|]). constructor.
Qed.
Print Assumptions C73_laplace_with_groups_refuted.

(** A query that meets every premise and is answered: small counts suppressed, keys to be
    found, IDs truncated by groups, special values dropped, a public join. *)
Definition visits_per_c : query :=
  SuppressAggregates (GroupByCount (DropNullAndNan (JoinPublic per_c (PubName "tags") (Some ["c"]) "inner") ["cost"]) (KCols ["c"]) "n" MDefault None) "n" (Query.PInt 2).
Example C73_case : let b := Approx (XFin 4) (XFin (1 # 10)) in let want := Approx (XFin 1) (XFin (1 # 20)) in let st := opened b in
  exists s cat data c sc st', compiles_with E1 K0 true idl /\ (forall l, Permutation (idl l) l) /\ honest_state false E1 st /\ session st [] s
  /\ catalog_of (s_tree s) (st_public st) (s_cons s) = Ok cat /\ data_of (s_tree s) = Ok data
  /\ Query.build true visits_per_c = Ok visits_per_c /\ has_schema E1 st s visits_per_c sc /\ table_of (inner visits_per_c) = Some c /\ is_table c
  /\ gaussian_wanted (measure_for (s_left s)) (inner visits_per_c) = is_rho (s_left s)
  /\ promises (e_world E1) (is_rho (s_left s)) cat data c /\ regular (e_world E1) cat c
  /\ state_at (st_root st) [] ACTIVE /\ valid (s_left s) /\ valid want /\ same_kind (s_left s) (request (s_left s) want)
  /\ ~ (xeq (loss (request (s_left s) want)) (XFin 0) /\ xeq (delta (request (s_left s) want)) (XFin 0))
  /\ Props_Message.allowed (s_left s) (request (s_left s) want) /\ (forall adj, e_relation E1 (s_tree s) visits_per_c adj = true)
  /\ step E1 st (Evaluate [] visits_per_c want) = (st', Ok tt)
  /\ known (e_world E1) cat data false c [MaxGroupsPerID "c" 2; MaxRowsPerGroupPerID "c" 1].
Proof.
  cbn zeta. eexists _, _, _, _, _, _. split; [intros cat x q b; reflexivity|]. split; [exact idl_ok|]. split; [apply opened_honest; auto|].
  split; [eexists; split; [vm_compute; reflexivity|reflexivity]|].
  split; [vm_compute; reflexivity|]. split; [vm_compute; reflexivity|]. split; [vm_compute; reflexivity|].
  split; [eexists; split; vm_compute; reflexivity|]. split; [reflexivity|]. split; [exact I|]. split; [reflexivity|].
  split; [cbn [promises per_c]; repeat split|]. split; [cbn [regular per_c]; repeat split; auto; discriminate|].
  split; [apply state_at_iff; vm_compute; reflexivity|].
  split; [vm_compute; repeat split; discriminate|]. split; [vm_compute; repeat split; discriminate|]. split; [vm_compute; exact I|].
  split; [intros [X _]; vm_compute in X; discriminate X|]. split; [right; vm_compute; repeat split; discriminate|]. split; [reflexivity|].
  split; [vm_compute; reflexivity|]. eexists. vm_compute. reflexivity.
Qed.
