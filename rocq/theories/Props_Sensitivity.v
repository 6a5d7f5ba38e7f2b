(** Property C53: how much one person can change what an aggregation reads and counts. *)
From Coq Require Import String Bool Arith ZArith QArith Qcanon Lia Permutation List.
From Verif Require Import Prelude Budget BudgetScale Value Rows Constraints ConstraintsSpec ConstraintsStab Schema SchemaProofs Query RewriteSpec Transform TransformSpec Tables TablesProofs
  TransformConform QueryProofs Accountant AccountantProofs Session SessionSpec SessionMoney SessionSteps SessionTables SessionInv SessionViews SessionWell SessionSound
  Neighboring NeighboringProofs Builder BuilderCalls BuilderNeighbours Measure MeasureProofs MeasureCount
  BlindSpec Blind BlindMeasure BlindSession BlindBuilder PersonSpec PersonSession PersonStart PersonAbsent
  Distance SensitivitySpec Sensitivity SensitivityCounts Props_Query Props_Session Props_Measure Props_Blind Props_Sound Props_Person.
Import ListNotations.
Local Open Scope string_scope.
Local Open Scope nat_scope.

(** An aggregation of a session is compiled with the budget [b], giving the measurement [m].
    The functions in its maps do what they say (as for C15), and do not drop finite IDs. The
    child is measured in the metric of the session, or no table of the session is grouped. *)
Record measured (E : env) (K : core) (auto : bool) (so : list string -> list string) (st : state) (p : list (nat * nat)) (b : budget) (q : query)
    (s : sess) (cat : catalog) (data : dict vtab) (m : measurement) : Prop := {
  me_session : session st p s;
  me_catalog : catalog_of (s_tree s) (st_public st) (s_cons s) = Ok cat;
  me_data : data_of (s_tree s) = Ok data;
  me_built : built auto q;
  me_promises : promises (e_world E) (agg_gaussian (measure_for b) q) cat data (agg_child q);
  me_finite : finite_ids (e_world E) (agg_gaussian (measure_for b) q) cat data (agg_child q);
  me_metric : agg_gaussian (measure_for b) q = is_rho (s_left s)
              \/ forall n t, dget n (named (s_tree s)) = Some t -> grouping_column (v_place t) = None;
  me_compiled : compile (e_round E) (e_world E) K auto so (measure_for b) cat data b q = Ok m
}.

Lemma session_catalog_made s pub cat : tables_ok s -> catalog_of (s_tree s) pub (s_cons s) = Ok cat -> catalog_made cat.
Proof.
  intros TK CA n sc cs G. pose proof (catalog_of_for _ _ _ _ (tk_layout s TK) CA) as CF. destruct (dget n (named (s_tree s))) as [t|] eqn:GT.
  - destruct (cf_private _ _ _ _ CF n t GT) as (s1 & cs1 & TS & _ & G1). rewrite G1 in G. injection G as <- <-. unfold table_schema in TS. apply bind_ok in TS as (cols & _ & TS). exact (made_schema _ _ _ _ _ TS).
  - rewrite (cf_none _ _ _ _ CF n GT) in G. discriminate.
Qed.
Lemma inputs_other_metric a b cat data : inputs_ok a cat data -> (forall n t, dget n data = Some t -> grouping_column (v_place t) = None) -> inputs_ok b cat data.
Proof.
  intros (A & B) N. split; [|exact B]. intros n t G. destruct (A n t G) as (s & cs & C & D & F & I & J & M & O). exists s, cs. repeat (split; [assumption|]). split; [|exact O].
  specialize (N n t G). unfold metric_for in *. destruct (sc_group s) as [g|]; [|exact M]. destruct (sc_id s); [contradiction|]. rewrite M in N. discriminate.
Qed.
Lemma measured_meets E K auto so st p b q s cat data m : good st -> measured E K auto so st p b q s cat data m ->
  tables_ok s /\ catalog_made cat /\ meets (e_world E) cat (agg_gaussian (measure_for b) q) data (agg_child q)
  /\ forall n, dget n data = dget n (named (s_tree s)).
Proof.
  intros [O T F A P] [S CA DA B PR FI ME C]. pose proof (T p s S) as TK. split; [exact TK|]. split; [exact (session_catalog_made s _ cat TK CA)|].
  destruct (data_of_spec _ (tk_layout s TK)) as (da & DA' & DG). rewrite DA' in DA. injection DA as ->. split; [|exact DG]. split; [|split; assumption].
  destruct (sound_inputs true st s cat data TK (F p s S) (A p s S) P CA DA') as (IN & _). destruct ME as [->|N]; [exact IN|].
  eapply inputs_other_metric; [exact IN|]. intros n t G. apply (N n t). rewrite <- DG. exact G.
Qed.
Lemma histories_good E k keep l l' h st st' : two_histories E k keep l l' h st st' -> good st /\ good st'
  /\ (calls_lack k keep l' -> all_sessions (lacks k keep) st').
Proof.
  intros [BL (NB & NB' & F) FC FP (o & o' & B & B' & H & H' & -> & ->)].
  destruct (start_sound E true l o NB B) as (O1 & T1 & F1 & _ & S1). destruct S1 as (A1 & P1); [intros n f c I; apply (FC n f c); left; exact I|intros n f I; apply (FP n f); left; exact I|].
  destruct (start_sound E true l' o' NB' B') as (O2 & T2 & F2 & _ & S2). destruct S2 as (A2 & P2); [intros n f c I; apply (FC n f c); right; exact I|intros n f I; apply (FP n f); right; exact I|].
  assert (R : forall h st, good st -> honest E true st h -> good (run E st h)).
  { clear. induction h as [|x h IH]; intros st G HO; [exact G|]. cbn [honest] in HO. destruct HO as (H1 & H2). cbn. apply IH; [apply step_good; assumption|exact H2]. }
  assert (G1 : good (o_state o)) by (constructor; assumption). assert (G2 : good (o_state o')) by (constructor; assumption).
  split; [apply R; assumption|]. split; [apply R; assumption|]. intros CL. apply run_lacks; [exact G2| |exact H'].
  apply (start_lacks E k keep l'); try assumption. intros n f c I. apply (FC n f c). right. exact I.
Qed.

(** What both measurements have in common. *)
Section Pair.
Variables (E : env) (K : core) (auto : bool) (so : list string -> list string) (sp : string) (j : value) (l l' : list bcall) (h : list op) (st st' : state).
Variables (p : list (nat * nat)) (b : budget) (q : query) (s s' : sess) (cat cat' : catalog) (data data' : dict vtab) (m m' : measurement).
Hypothesis TH : two_histories E sp (everyone_but j) l l' h st st'.
Hypothesis M : measured E K auto so st p b q s cat data m.
Hypothesis M' : measured E K auto so st' p b q s' cat' data' m'.
Lemma pair_catalog : cat' = cat /\ hide_all data' = hide_all data.
Proof.
  destruct (histories_follow _ _ _ _ _ _ _ _ TH) as (_ & SB). pose proof (pair_hide st st' p s s' SB (me_session _ _ _ _ _ _ _ _ _ _ _ _ M) (me_session _ _ _ _ _ _ _ _ _ _ _ _ M')) as HS.
  pose proof (f_equal s_tree HS) as HT. cbn in HT. pose proof (f_equal s_cons HS) as HC. cbn in HC. pose proof (f_equal st_public SB) as HP. cbn in HP. split.
  - pose proof (me_catalog _ _ _ _ _ _ _ _ _ _ _ _ M) as C. pose proof (me_catalog _ _ _ _ _ _ _ _ _ _ _ _ M') as C'. rewrite <- catalog_hide in C, C'. rewrite HT, HC, HP in C. congruence.
  - pose proof (me_data _ _ _ _ _ _ _ _ _ _ _ _ M) as D. pose proof (me_data _ _ _ _ _ _ _ _ _ _ _ _ M') as D'. pose proof (data_hide (s_tree s)) as H1. pose proof (data_hide (s_tree s')) as H2.
    rewrite D in H1. rewrite D' in H2. rewrite HT, H2 in H1. cbn in H1. congruence.
Qed.
Lemma pair_hidden : blind_core K -> hide_measurement m = hide_measurement m'.
Proof.
  intros BK. destruct pair_catalog as (EC & ED). pose proof (me_compiled _ _ _ _ _ _ _ _ _ _ _ _ M) as C. pose proof (me_compiled _ _ _ _ _ _ _ _ _ _ _ _ M') as C'. rewrite EC in C'.
  pose proof (compile_hide' (e_round E) (e_world E) K BK auto so (measure_for b) cat data b q) as H1. pose proof (compile_hide' (e_round E) (e_world E) K BK auto so (measure_for b) cat data' b q) as H2.
  rewrite C in H1. rewrite C', ED, H1 in H2. cbn in H2. congruence.
Qed.
Lemma pair_apart n : n = 2 \/ (n = 1 /\ calls_lack sp (everyone_but j) l') ->
  p = [] \/ (exists x t, dget x (named (s_tree s)) = Some t /\ v_coll t = Some sp) ->
  v_rows (table_of m) = v_rows (table_of m')
  \/ exists c x cs, prepared (agg_child q) c /\ build_transformation (e_world E) (agg_gaussian (measure_for b) q) cat data c = Ok (x, cs)
       /\ apart_at_most so (measure_for b) n (agg_columns q) cs (table_of m) (table_of m').
Proof.
  intros N Q. destruct pair_catalog as (EC & _). destruct (histories_follow _ _ _ _ _ _ _ _ TH) as (FW & _). destruct (histories_good _ _ _ _ _ _ _ _ TH) as (G & G' & LA).
  destruct (measured_meets _ _ _ _ _ _ _ _ _ _ _ _ G M) as (TK & MD & ME & DG). destruct (measured_meets _ _ _ _ _ _ _ _ _ _ _ _ G' M') as (TK' & _ & ME' & DG'). rewrite EC in ME'.
  assert (LK : like sp (everyone_but j) s s').
  { destruct (FW p s s' (me_session _ _ _ _ _ _ _ _ _ _ _ _ M) (me_session _ _ _ _ _ _ _ _ _ _ _ _ M')) as [LK|(NP & WO)]; [exact LK|]. destruct Q as [Q|(x & t & GT & CT)]; [contradiction|]. exfalso. exact (WO x t GT CT). }
  assert (LD : forall x, option_map (restrict (Some sp) (everyone_but j)) (dget x data) = option_map (restrict (Some sp) (everyone_but j)) (dget x data')) by (intros x; rewrite DG, DG'; apply LK).
  pose proof (me_compiled _ _ _ _ _ _ _ _ _ _ _ _ M') as C'. rewrite EC in C'.
  eapply (reads_apart (e_world E) auto so (measure_for b) cat data data' sp j); [exact ME|exact ME'| |].
  - eapply (compile_reads (e_round E) (e_world E) K auto so (measure_for b) cat data data' (Some sp) (everyone_but j) MD LD); [exact (me_built _ _ _ _ _ _ _ _ _ _ _ _ M)|exact ME|exact ME'|exact (me_compiled _ _ _ _ _ _ _ _ _ _ _ _ M)|exact C'].
  - destruct N as [N|(N & CL)]; [left; exact N|right]. split; [exact N|]. intros x. rewrite DG'. destruct (dget x (named (s_tree s'))) as [t|] eqn:GT; [|reflexivity]. cbn. f_equal.
    exact (LA CL p s' (me_session _ _ _ _ _ _ _ _ _ _ _ _ M') x t GT).
Qed.
End Pair.

(** The tables that the two measurements read are the same, or obtained row by row, without
    changes to the grouping columns, from two truncated tables that are as far apart as the
    truncation allows for the person: once if the person was added or removed, twice if their
    rows were replaced.  The truncation is chosen from the constraints of the aggregated table. *)
Theorem C53_what_one_person_changes : forall E K auto so sp j l l' h st st' p b q s s' cat cat' data data' m m' n,
  two_histories E sp (everyone_but j) l l' h st st' ->
  n = 2 \/ (n = 1 /\ calls_lack sp (everyone_but j) l') ->
  measured E K auto so st p b q s cat data m -> measured E K auto so st' p b q s' cat' data' m' ->
  p = [] \/ (exists x t, dget x (named (s_tree s)) = Some t /\ v_coll t = Some sp) ->
  v_rows (table_of m) = v_rows (table_of m')
  \/ exists c x cs, prepared (agg_child q) c /\ build_transformation (e_world E) (agg_gaussian (measure_for b) q) cat data c = Ok (x, cs)
       /\ apart_at_most so (measure_for b) n (agg_columns q) cs (table_of m) (table_of m').
Proof. intros. eapply pair_apart; eassumption. Qed.
Print Assumptions C53_what_one_person_changes.

(** Counts.  For any keys, the changes in the counts of rows or of distinct rows, per group,
    are zero, or their squares add up to at most the square of the stability of the truncation
    (once or twice); without zCDP so do the changes themselves. *)
Theorem C53_counts : forall E K auto so sp j l l' h st st' p b q s s' cat cat' data data' m m' n total g total' g' keys,
  blind_core K -> two_histories E sp (everyone_but j) l l' h st st' ->
  n = 2 \/ (n = 1 /\ calls_lack sp (everyone_but j) l') ->
  measured E K auto so st p b q s cat data m -> measured E K auto so st' p b q s' cat' data' m' ->
  p = [] \/ (exists x t, dget x (named (s_tree s)) = Some t /\ v_coll t = Some sp) ->
  plan_of m = Some (total, g) -> plan_of m' = Some (total', g') -> distinct_keys (agg_columns q) keys ->
  (forall key, count_change g g' key = 0)
  \/ exists c x cs tr, prepared (agg_child q) c /\ build_transformation (e_world E) (agg_gaussian (measure_for b) q) cat data c = Ok (x, cs)
       /\ choose_trunc so (measure_for b) (agg_columns q) cs = Some tr
       /\ list_sum (map (fun key => count_change g g' key * count_change g g' key) keys) <= n * n * stability_squared (measure_for b) (agg_columns q) tr
       /\ (measure_for b <> RhoZCDP ->
           list_sum (map (count_change g g') keys) * list_sum (map (count_change g g') keys) <= n * n * stability_squared (measure_for b) (agg_columns q) tr).
Proof.
  intros E K auto so sp j l l' h st st' p b q s s' cat cat' data data' m m' n total g total' g' keys BK TH N M M' Q P P' DK.
  assert (HM : hide_measurement m = hide_measurement m') by (eapply pair_hidden; eassumption). destruct (hidden_plans _ _ _ _ _ _ HM P P') as (KE & AE & DE).
  destruct (histories_good _ _ _ _ _ _ _ _ TH) as (G & _). destruct (measured_meets _ _ _ _ _ _ _ _ _ _ _ _ G M) as (_ & MD & _).
  pose proof (compiled_keys _ _ _ _ _ _ _ _ _ _ _ _ _ MD (me_built _ _ _ _ _ _ _ _ _ _ _ _ M) (me_compiled _ _ _ _ _ _ _ _ _ _ _ _ M) P) as KC.
  assert (PA : v_rows (table_of m) = v_rows (table_of m') \/ exists c x cs, prepared (agg_child q) c /\ build_transformation (e_world E) (agg_gaussian (measure_for b) q) cat data c = Ok (x, cs)
       /\ apart_at_most so (measure_for b) n (agg_columns q) cs (table_of m) (table_of m')) by (eapply pair_apart; eassumption).
  destruct PA as [ER|(c & x & cs & PR & BT & AP)]; rewrite (table_of_plan _ _ _ P), (table_of_plan _ _ _ P') in *.
  - left. intros key. apply change_none; assumption.
  - right. rewrite <- KC in *. destruct (change_apart g g' KE AE DE so (measure_for b) n cs keys AP DK) as (tr & CT & S2 & S1). exists c, x, cs, tr. auto.
Qed.
Print Assumptions C53_counts.

(** Non-vacuity: visits per city of the view "few" of C49, once per person and city.  Person 1
    has other rows in one dataset, and none in another. *)
Definition trips4 : sframe := {| sd_fields := sd_fields trips; sd_rows := [[VInt 2; VStr "b"; VFloat FPInf]; [VNull; VStr "a"; VNull]] |}.
Lemma trips4_conform : frame_conforms trips4.
Proof. eapply frame_check; [repeat constructor; cbn; intuition discriminate|reflexivity|vm_compute; reflexivity]. Qed.
Definition trips_calls4 : list bcall :=
  [WithIdSpace "people"; WithBudget (Zcdp (XFin 4)); WithPrivate "trips" trips4 (AddRowsWithID "id" "people"); WithPublic "codes" codes;
   WithPrivate "log" codes (AddMaxRowsInMaxGroups "city" 1 2)].
Definition trips_state4 : state := match build_by E0 trips_calls4 with Ok o => o_state o | Err _ => trips_state end.
Lemma trips_two4 : two_histories E0 "people" (everyone_but (VInt 1)) trips_calls' trips_calls4 trips_plan (run E0 trips_state trips_plan) (run E0 trips_state4 trips_plan).
Proof.
  assert (B : exists o, build_by E0 trips_calls' = Ok o) by (eexists; vm_compute; reflexivity). destruct B as (o & B).
  assert (B' : exists o, build_by E0 trips_calls4 = Ok o) by (eexists; vm_compute; reflexivity). destruct B' as (o' & B'). constructor.
  - exact E0_blind.
  - split; [cbn; intuition discriminate|]. split; [cbn; intuition discriminate|]. repeat constructor.
  - intros n f c [H|H]; cbn in H; destruct H as [H|[H|[]]]; injection H as <- <- <-; first [apply trips_conform|apply codes_conform|apply trips4_conform].
  - intros n f [H|H]; cbn in H; destruct H as [H|[]]; injection H as <- <-; apply codes_conform.
  - exists o, o'. split; [exact B|]. split; [exact B'|]. split; [|split; [|split]].
    + unfold trips_plan. cbn [honest honest_op]. split; [source_views|]. split; [apply codes_conform|]. split; [source_views|]. split; [exact I|]. split; [source_views|exact I].
    + unfold trips_plan. cbn [honest honest_op]. split; [source_views|]. split; [apply codes_conform|]. split; [source_views|]. split; [exact I|]. split; [source_views|exact I].
    + unfold trips_state. rewrite B. reflexivity.
    + unfold trips_state4. rewrite B'. reflexivity.
Qed.
Definition visits : query :=
  GroupByCount (EnforceConstraint (PrivateSource "few") (MaxRowsPerGroupPerID "city" 1))
    (KSet [("city", dsc VARCHAR true false false)] [[("city", VStr "a")]; [("city", VStr "b")]; [("city", VStr "")]; [("city", VNull)]]) "n" MDefault None.
Definition visit_keys : list rec := [[("city", VStr "a")]; [("city", VStr "b")]; [("city", VStr "")]; [("city", VNull)]].
Ltac measured_case := eexists _, _, _, _; constructor;
  [eexists; split; [vm_compute; reflexivity|reflexivity]|vm_compute; reflexivity|vm_compute; reflexivity|vm_compute; auto|cbn; auto|cbn; auto|left; vm_compute; reflexivity|vm_compute; reflexivity].
Lemma visits_measured : exists s cat data m, measured E0 K0 true idl (run E0 trips_state trips_plan) [] (Zcdp (XFin 1)) visits s cat data m.
Proof. measured_case. Qed.
Lemma visits_measured3 : exists s cat data m, measured E0 K0 true idl (run E0 trips_state3 trips_plan) [] (Zcdp (XFin 1)) visits s cat data m.
Proof. measured_case. Qed.
Lemma visits_measured4 : exists s cat data m, measured E0 K0 true idl (run E0 trips_state4 trips_plan) [] (Zcdp (XFin 1)) visits s cat data m.
Proof. measured_case. Qed.
Definition visits_plan (st : state) : option plan :=
  match (let* s := session_at st [] in let* cat := catalog_of (s_tree s) (st_public st) (s_cons s) in let* data := data_of (s_tree s) in
         compile exact_rounding W0 K0 true idl RhoZCDP cat data (Zcdp (XFin 1)) visits) with
  | Ok m => option_map snd (plan_of m) | Err _ => None end.
Example C53_case : blind_core K0
  /\ two_histories E0 "people" (everyone_but (VInt 1)) trips_calls' trips_calls3 trips_plan (run E0 trips_state trips_plan) (run E0 trips_state3 trips_plan)
  /\ two_histories E0 "people" (everyone_but (VInt 1)) trips_calls' trips_calls4 trips_plan (run E0 trips_state trips_plan) (run E0 trips_state4 trips_plan)
  /\ calls_lack "people" (everyone_but (VInt 1)) trips_calls4
  /\ distinct_keys (agg_columns visits) visit_keys
  /\ exists g g3 g4, visits_plan (run E0 trips_state trips_plan) = Some g /\ visits_plan (run E0 trips_state3 trips_plan) = Some g3 /\ visits_plan (run E0 trips_state4 trips_plan) = Some g4
       /\ map (counted g) visit_keys = [1; 1; 1; 1] /\ map (counted g3) visit_keys = [1; 2; 0; 0] /\ map (counted g4) visit_keys = [1; 1; 0; 0]
       /\ choose_trunc idl RhoZCDP (agg_columns visits) [MaxGroupsPerID "city" 2; MaxRowsPerGroupPerID "city" 1] = Some (TGroups "city" 2 1).
Proof.
  split; [exact K0_blind|]. split; [exact (proj1 C52_case)|]. split; [exact trips_two4|]. split; [|split].
  - intros n f i H r I. cbn in H. destruct H as [H|[H|[]]]; [|discriminate H]. injection H as <- <- <-. cbn in I. destruct I as [<-|[<-|[]]]; reflexivity.
  - vm_compute. repeat constructor; cbn; intuition discriminate.
  - eexists _, _, _. split; [vm_compute; reflexivity|]. split; [vm_compute; reflexivity|]. split; [vm_compute; reflexivity|]. vm_compute. repeat split; reflexivity.
Qed.
