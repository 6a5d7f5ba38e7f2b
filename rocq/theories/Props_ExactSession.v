(** Property C66 in sessions: what C66_* assumes of the tables is true in every state that a
    session reaches. *)
From Coq Require Import String Bool Arith ZArith QArith Qcanon Lia Permutation List.
From Verif Require Import Prelude Budget BudgetScale Value Rows Constraints ConstraintsSpec ConstraintsStab Schema SchemaProofs Query RewriteSpec Transform TransformSpec Tables TablesProofs
  TransformConform QueryProofs Accountant AccountantProofs Session SessionSpec SessionMoney SessionSteps SessionTables SessionInv SessionViews SessionWell SessionSound
  Builder BuilderCalls Measure MeasureProofs MeasureCount MeasureRows
  Props_Query Props_Session Props_Measure Props_Sound Props_Sensitivity AnswerSchema AnswerKeys Exact Props_Exact.
Import ListNotations.
Local Open Scope string_scope.
Local Open Scope nat_scope.

(** The tables of the session [s] are measured in the metric that the mechanism needs, or none
    of them protects groups of rows. *)
Definition metric_fits (l2 : bool) (s : sess) : Prop :=
  l2 = is_rho (s_left s) \/ forall n t, dget n (named (s_tree s)) = Some t -> grouping_column (v_place t) = None.

Lemma session_meets E st p s cat data l2 : honest_state true E st -> session st p s ->
  catalog_of (s_tree s) (st_public st) (s_cons s) = Ok cat -> data_of (s_tree s) = Ok data -> metric_fits l2 s ->
  constraints_hold cat data /\ catalog_made cat /\ inputs_ok l2 cat data.
Proof.
  intros H S CA DA ME. destruct (any_state_facts E st (honest_any _ _ _ H)) as (T & F & _). destruct (honest_facts _ _ _ H) as (SO & SP).
  destruct (sound_inputs true st s cat data (T p s S) (F p s S) (SO p s S) SP CA DA) as (IN & HO).
  split; [exact (HO eq_refl)|]. split; [exact (session_catalog_made s _ cat (T p s S) CA)|].
  destruct ME as [->|N]; [exact IN|]. eapply inputs_other_metric; [exact IN|]. intros n t G. apply (N n t).
  destruct (data_of_spec _ (tk_layout s (T p s S))) as (da & DA' & DG). rewrite DA' in DA. injection DA as ->. rewrite <- DG. exact G.
Qed.

(** After any calls of honest users (builder, views, partitions, public tables, evaluations,
    failed calls), a count with an unlimited budget is exact for the tables of the session. *)
Theorem C66_session_counts_exact : forall E K A auto so st p s cat data b q0 c k o m co meas t,
  exact_core K A -> (forall l, Permutation (so l) l) -> honest_state true E st -> session st p s ->
  catalog_of (s_tree s) (st_public st) (s_cons s) = Ok cat -> data_of (s_tree s) = Ok data ->
  Query.build auto q0 = Ok (GroupByCount c k o m co) -> metric_fits (asks_gaussian (measure_for b) m) s ->
  promises (e_world E) (asks_gaussian (measure_for b) m) cat data c -> finite_ids (e_world E) (asks_gaussian (measure_for b) m) cat data c ->
  trackable (e_world E) (asks_gaussian (measure_for b) m) cat data c ->
  keys_as_declared k -> ~ In o (keys_columns k) -> loss b = XPInf ->
  compile (e_round E) (e_world E) K auto so (measure_for b) cat data b (GroupByCount c k o m co) = Ok meas ->
  run_measurement (e_round E) K meas = Ok t ->
  exists T cs, build_transformation (e_world E) (asks_gaussian (measure_for b) m) cat data c = Ok (T, cs)
    /\ (forall r, In r t -> number (getv o r) = Some (z_to_f (Z.of_nat (length (rows_with_key (keys_columns k) r (v_rows T))))))
    /\ (forall l, k = KCols l -> NoDup (cells_in l t) /\ forall vs, In vs (cells_in l t) <-> In vs (cells_in l (v_rows T))).
Proof.
  intros E K A auto so st p s cat data b q0 c k o m co meas t EC SO H S CA DA B ME P FI TR KD NO L C RUN.
  destruct (session_meets E st p s cat data _ H S CA DA ME) as (HO & MADE & IN).
  eapply C66_counts_exact; try eassumption. repeat (split; try assumption).
Qed.
Print Assumptions C66_session_counts_exact.

(** So are sums, averages, variances, quantiles and bounds. *)
Theorem C66_session_measures_exact : forall E K A auto so st p s cat data b q0 q c me k a T cs meas t,
  exact_core K A -> (forall l, Permutation (so l) l) -> honest_state true E st -> session st p s ->
  catalog_of (s_tree s) (st_public st) (s_cons s) = Ok cat -> data_of (s_tree s) = Ok data ->
  Query.build auto q0 = Ok q -> measure_of q = Some (c, me) -> aggregation_of q = Some a -> grouped_by q = Some (c, k) ->
  metric_fits (query_l2 (measure_for b) q) s ->
  promises (e_world E) (query_l2 (measure_for b) q) cat data c -> finite_ids (e_world E) (query_l2 (measure_for b) q) cat data c ->
  trackable (e_world E) (query_l2 (measure_for b) q) cat data c ->
  build_transformation (e_world E) (query_l2 (measure_for b) q) cat data c = Ok (T, cs) ->
  keys_as_declared k -> NoDup (keys_columns k ++ output_names q)%list -> loss b = XPInf ->
  compile (e_round E) (e_world E) K auto so (measure_for b) cat data b q = Ok meas ->
  run_measurement (e_round E) K meas = Ok t ->
  let cleaned := flat_map (clean_row me (bounds_of q)) (v_rows T) in
  (forall r, In r t -> map (fun o => getv o r) (output_names q) = A a (rows_with_key (keys_columns k) r cleaned))
  /\ (forall l, k = KCols l -> NoDup (cells_in l t) /\ forall vs, In vs (cells_in l t) <-> In vs (cells_in l cleaned)).
Proof.
  intros E K A auto so st p s cat data b q0 q c me k a T cs meas t EC SO H S CA DA B MO AO G ME P FI TR BT KD ND L C RUN.
  destruct (session_meets E st p s cat data _ H S CA DA ME) as (HO & MADE & IN).
  eapply C66_measures_exact; try eassumption. repeat (split; try assumption).
Qed.
Print Assumptions C66_session_measures_exact.

(** A case: the state of Props_Sound after two views, a new public table and a partition; the
    view "few", which allows two cities per person, with at most three rows of each, counted by city. *)
Definition few_keys : gkeys := KSet [("city", dsc VARCHAR true false false)] [[("city", VStr "a")]; [("city", VStr "b")]; [("city", VStr "z")]].
Definition few_rows : query := EnforceConstraint (PrivateSource "few") (MaxRowsPerID 3).
Definition few_count : query := GroupByCount few_rows few_keys "n" MDefault None.
Example C66_session_case : exists s cat data meas,
  honest_state true E0 (run E0 trips_state trips_plan) /\ session (run E0 trips_state trips_plan) [] s
  /\ catalog_of (s_tree s) (st_public (run E0 trips_state trips_plan)) (s_cons s) = Ok cat /\ data_of (s_tree s) = Ok data
  /\ Query.build true few_count = Ok few_count /\ metric_fits (asks_gaussian (measure_for (Zcdp XPInf)) MDefault) s
  /\ promises (e_world E0) true cat data few_rows /\ finite_ids (e_world E0) true cat data few_rows
  /\ trackable (e_world E0) true cat data few_rows /\ keys_as_declared few_keys
  /\ compile (e_round E0) (e_world E0) K2 true idl RhoZCDP cat data (Zcdp XPInf) few_count = Ok meas
  /\ run_measurement (e_round E0) K2 meas
     = Ok [[("city", VStr "a"); ("n", VInt 1)]; [("city", VStr "b"); ("n", VInt 1)]; [("city", VStr "z"); ("n", VInt 0)]].
Proof.
  eexists _, _, _, _. split; [exact trips_honest|]. split; [eexists; split; [vm_compute; reflexivity|reflexivity]|].
  split; [vm_compute; reflexivity|]. split; [vm_compute; reflexivity|]. split; [reflexivity|]. split; [left; vm_compute; reflexivity|].
  split; [repeat split|]. split; [repeat split|]. split; [repeat split|]. split.
  - split; [repeat constructor; intros []|]. intros r [<-|[<-|[<-|[]]]]; apply row_conformsb_ok; reflexivity.
  - split; [vm_compute; reflexivity|]. vm_compute. reflexivity.
Qed.
