(** Which rows an aggregation is computed from. *)
From Coq Require Import String Bool Arith ZArith QArith Qcanon Lia Permutation List.
From Verif Require Import Prelude Budget Value Rows Constraints ConstraintsSpec ConstraintsProofs ConstraintsStab
  Schema SchemaProofs Query Rewrite RewriteSpec RewriteProofs RewriteRows Transform TransformSpec TransformVisit TransformConform TransformAgree
  QueryProofs PropagateProofs Session Measure MeasureProofs MeasureCount.
Import ListNotations.
Local Open Scope string_scope.
Local Open Scope nat_scope.

(** Whether distances between tables are measured in L2 for a query. *)
Definition query_l2 (mu : measure) (q : query) : bool :=
  match q with
  | GroupByCount _ _ _ m _ | GroupByCountDistinct _ _ _ _ m _ | GroupByBounded _ _ _ _ _ _ _ m _ => asks_gaussian mu m
  | GroupByQuantile _ _ _ _ _ _ _ => match mu with RhoZCDP => true | _ => false end
  | _ => false
  end.

Lemma right_gaussian mu m P x : right_noise mu m P x -> gaussian x = asks_gaussian mu m.
Proof.
  intros (_ & A & _). unfold gaussian_noise in A. destruct x, m, mu; cbn; try reflexivity; exfalso;
    try (destruct (proj1 A (or_introl eq_refl)) as [X|(X & Y)]; discriminate);
    try (destruct (proj1 A (or_intror eq_refl)) as [X|(X & Y)]; discriminate);
    try (destruct (proj2 A (or_introl eq_refl)); discriminate);
    try (destruct (proj2 A (or_intror (conj eq_refl eq_refl))); discriminate).
Qed.
Lemma visit_is_table W l2 cat data q : forall x, visit W l2 cat data q = Ok x -> is_table q.
Proof.
  induction q; intros x H; cbn [visit is_table] in *; try discriminate H; try exact I;
    try (apply bind_ok in H as (y & Y & H); apply (IHq y Y)).
  apply bind_ok in H as (y & Y & H). apply bind_ok in H as (z & Z & H). split; [apply (IHq1 y Y)|apply (IHq2 z Z)].
Qed.
Lemma rewritten_to_table cond_ok cat q q' : rewritten cond_ok cat q q' -> is_table q' -> q = q'.
Proof.
  induction 1; cbn [is_table]; intros T; try contradiction; try (rewrite IHrewritten by exact T); try reflexivity.
  destruct T as (T1 & T2). rewrite IHrewritten1 by exact T1. rewrite IHrewritten2 by exact T2. reflexivity.
Qed.

Section RowsUsed.
Variable R : rounding.
Variable W : world.
Variable K : core.
Variable auto : bool.
Variable so : list string -> list string.
Hypothesis SO : forall l, Permutation (so l) l.
Variable mu : measure.
Variable cat : catalog.
Variable data : dict vtab.
Hypothesis HOLD : constraints_hold cat data.
Hypothesis MADE : catalog_made cat.
Notation sch := (schema_of (w_cond_ok W) cat).
Notation mq := (measure_query R W K auto so mu cat data).
Notation cmp := (compile R W K auto so mu cat data).

Definition holds_for (l2 : bool) (c : query) : Prop :=
  inputs_ok l2 cat data /\ promises W l2 cat data c /\ finite_ids W l2 cat data c /\ trackable W l2 cat data c.
Lemma good_table l2 c t cs : built auto c -> holds_for l2 c -> build_transformation W l2 cat data c = Ok (t, cs) -> good t cs.
Proof.
  intros B (IN & P & F & TR) T i PI. apply build_transformation_ok in T as (s & S & V & _).
  exact (proj1 (visit_tracked W l2 cat data IN HOLD auto c B P F TR s t cs S V i PI)).
Qed.
Lemma built_child q c : built auto q -> In c (below q) -> built auto c.
Proof.
  intros B I. destruct q; cbn [below In] in I; cbn [built] in B; destruct B as (_ & B); intuition (subst; auto).
Qed.

(** Rows of a table, counted. *)
Lemma compile_count b c k o m co meas : built auto (GroupByCount c k o m co) -> holds_for (asks_gaussian mu m) c ->
  cmp b (GroupByCount c k o m co) = Ok meas ->
  exists t cs total g, build_transformation W (asks_gaussian mu m) cat data c = Ok (t, cs)
    /\ plan_of meas = Some (total, g) /\ g_keys g = k /\ g_outs g = [o]
    /\ forall key, counted g key = length (rows_with_key (keys_columns k) key (v_rows t)).
Proof.
  intros B HF H. apply compile_inv in H as (s & q' & adj & S & RW & M).
  destruct (rewrite_ok auto (w_cond_ok W) mu cat MADE _ _ _ B S RW) as (B' & _ & RR & _ & RM).
  inversion RR; subst. cbn [measure_query] in M. apply (visit_count_ok R W K so SO mu cat data) in M as (cm & t & cs & g & -> & T & P & KK & O & C).
  assert (is_table c') by (apply build_transformation_ok in T as (? & _ & V & _); exact (visit_is_table _ _ _ _ _ _ V)).
  match goal with X : rewritten _ _ c c' |- _ => pose proof (rewritten_to_table _ _ _ _ X ltac:(assumption)) as -> end.
  inversion RM as [? RN _]; subst. destruct RN as (x & [= <-] & RN). rewrite (right_gaussian _ _ _ _ RN) in T.
  exists t, cs, adj, g. split; [exact T|]. split; [exact P|]. split; [first [exact KK|reflexivity]|]. split; [exact O|]. apply C.
  eapply good_table; [eapply built_child; [exact B|left; reflexivity]|exact HF|exact T].
Qed.
Lemma compile_count_distinct b c k cols o m co meas : built auto (GroupByCountDistinct c k cols o m co) -> holds_for (asks_gaussian mu m) c ->
  cmp b (GroupByCountDistinct c k cols o m co) = Ok meas ->
  exists t cs s total g, build_transformation W (asks_gaussian mu m) cat data c = Ok (t, cs) /\ sch c = Ok s
    /\ plan_of meas = Some (total, g) /\ g_keys g = k /\ g_outs g = [o]
    /\ forall key, counted g key = distinct_count (counted_cols cols s) (rows_with_key (keys_columns k) key (v_rows t)).
Proof.
  intros B HF H. apply compile_inv in H as (s & q' & adj & S & RW & M).
  destruct (rewrite_ok auto (w_cond_ok W) mu cat MADE _ _ _ B S RW) as (B' & _ & RR & _ & RM).
  inversion RR; subst. cbn [measure_query] in M.
  apply (visit_count_distinct_ok R W K auto so SO mu cat data) in M as (cm & t & cs & s1 & g & -> & T & S1 & P & KK & O & C).
  assert (is_table c') by (apply build_transformation_ok in T as (? & _ & V & _); exact (visit_is_table _ _ _ _ _ _ V)).
  match goal with X : rewritten _ _ c c' |- _ => pose proof (rewritten_to_table _ _ _ _ X ltac:(assumption)) as -> end.
  inversion RM as [? RN _]; subst. destruct RN as (x & [= <-] & RN). rewrite (right_gaussian _ _ _ _ RN) in T.
  assert (BC : built auto c') by (eapply built_child; [exact B|left; reflexivity]).
  exists t, cs, s1, adj, g. split; [exact T|]. split; [exact S1|]. split; [exact P|]. split; [first [exact KK|reflexivity]|]. split; [exact O|]. apply C.
  - eapply good_table; [exact BC|exact HF|exact T].
  - destruct HF as (IN & PR & _). destruct (built_conforms W _ cat data IN auto c' s1 t cs BC PR S1 T) as (_ & _ & MF & _).
    intros i SI. unfold metric_for in MF. rewrite SI in MF. destruct (sc_group s1); [destruct MF|exact MF].
  - destruct HF as (IN & PR & _). destruct (built_conforms W _ cat data IN auto c' s1 t cs BC PR S1 T) as (_ & _ & _ & SE).
    intros x. rewrite !in_dkeys. rewrite SE, analytics_to_core_cols, dget_core_cols.
    destruct (dget x (sc_cols s1)); cbn; split; intros (? & Y); try discriminate; eexists; reflexivity.
Qed.

(** Aggregations of a measure column. *)
Lemma cleaned_holds l2 m bo c c' : cleaned (w_cond_ok W) cat m bo c c' -> holds_for l2 c -> holds_for l2 c'.
Proof.
  intros (s & d & c1 & _ & _ & A & B) (IN & P & F & T). split; [exact IN|].
  assert (X : promises W l2 cat data c1 /\ finite_ids W l2 cat data c1 /\ trackable W l2 cat data c1).
  { destruct A as [(_ & ->)|(_ & ->)]; [cbn [promises finite_ids trackable]|]; repeat split; assumption. }
  destruct X as (P1 & F1 & T1). destruct B as [(_ & ->)|(_ & ->)]; [|repeat split; assumption].
  unfold without_infinities. destruct bo as [(lo & hi)|]; cbn [promises finite_ids trackable].
  - split; [split; [exact P1|]|split; split; try assumption; discriminate]. repeat constructor. intros [].
  - repeat split; assumption.
Qed.
Lemma cleaned_table m bo c c' : cleaned (w_cond_ok W) cat m bo c c' -> is_table c' -> is_table c.
Proof.
  intros (s & d & c1 & _ & _ & A & B) T.
  assert (is_table c1) by (destruct B as [(_ & ->)|(_ & ->)]; [unfold without_infinities in T; destruct bo as [(? & ?)|]; exact T|exact T]).
  destruct A as [(_ & ->)|(_ & ->)]; assumption.
Qed.
Lemma measured_inv b q m adj c me : mq b q = Ok (m, adj) -> measure_of q = Some (c, me) -> everywhere (right_mechanism (w_cond_ok W) mu cat) q ->
  exists t cs gr t1 g, build_transformation W (query_l2 mu q) cat data c = Ok (t, cs) /\ truncated W so mu gr (t, cs) = Ok t1
    /\ plan_of m = Some (adj, g) /\ v_rows (g_table g) = v_rows t1.
Proof.
  intros H M RM. destruct q; try discriminate M; cbn [measure_of] in M; injection M as -> ->; cbn [measure_query] in H.
  - unfold visit_bounds in H. apply bind_ok in H as (bs & _ & H). apply bind_ok in H as ((t & cs) & T & H). apply bind_ok in H as (t1 & T1 & H).
    apply finish_inv in H as (kb & qb & -> & -> & _). eexists t, cs, _, t1, _. split; [exact T|]. split; [exact T1|]. split; reflexivity.
  - unfold visit_quantile in H. apply bind_ok in H as (bs & _ & H). apply bind_ok in H as ((t & cs) & T & H). apply bind_ok in H as (t1 & T1 & H).
    apply finish_inv in H as (kb & qb & -> & -> & _). eexists t, cs, _, t1, _.
    split; [|split; [exact T1|]; split; reflexivity]. unfold child_table in T. rewrite <- T. cbn [query_l2]. destruct mu; reflexivity.
  - unfold visit_bounded in H. apply bind_ok in H as (bs & _ & H). apply bind_ok in H as (cm & CM & H). apply bind_ok in H as ((t & cs) & T & H). apply bind_ok in H as (t1 & T1 & H).
    apply finish_inv in H as (kb & qb & -> & -> & _). eexists t, cs, _, t1, _.
    split; [|split; [exact T1|]; split; reflexivity]. unfold child_table in T. rewrite <- T. cbn [query_l2].
    inversion RM as [? RN _]; subst. cbn [right_mechanism] in RN. destruct RN as (x & s & d & -> & _ & _ & RN).
    injection CM as <-. rewrite (right_gaussian _ _ _ _ RN). reflexivity.
Qed.
Lemma rewritten_l2 q q' : rewritten (w_cond_ok W) cat q q' -> query_l2 mu q' = query_l2 mu q.
Proof. destruct 1; reflexivity. Qed.
Lemma compile_measured b q c me t cs meas : built auto q -> measure_of q = Some (c, me) -> holds_for (query_l2 mu q) c ->
  build_transformation W (query_l2 mu q) cat data c = Ok (t, cs) ->
  cmp b q = Ok meas ->
  exists total g, plan_of meas = Some (total, g)
    /\ same_table (v_rows (g_table g)) (flat_map (clean_row me (bounds_of q)) (v_rows t)).
Proof.
  intros B MO HF T H. apply compile_inv in H as (s & q' & adj & S & RW & M).
  destruct (rewrite_ok auto (w_cond_ok W) mu cat MADE _ _ _ B S RW) as (B' & _ & RR & _ & RM).
  assert (IT : is_table c) by (apply build_transformation_ok in T as (? & _ & V & _); exact (visit_is_table _ _ _ _ _ _ V)).
  assert (PQ : promises W (query_l2 mu q) cat data q) by (destruct q; try discriminate MO; cbn [measure_of] in MO; injection MO as -> ->; cbn [promises]; apply HF).
  destruct (rewrite_rows auto mu W _ cat data q q' s c me t cs (proj1 HF) MADE B PQ S MO IT T RW) as (c' & t' & cs' & MO' & BO & V & E & _ & _).
  destruct (measured_inv _ _ _ _ _ _ M MO' RM) as (t2 & cs2 & gr & t3 & g & T2 & T3 & P & GT).
  rewrite (rewritten_l2 _ _ RR) in T2.
  destruct (rewritten_measure _ _ _ _ _ _ RR MO) as (c1 & c2 & RC & CL & MO2 & _). rewrite MO' in MO2. injection MO2 as <-.
  pose proof (rewritten_table _ _ _ _ RC IT) as ->.
  assert (BC : built auto c') by (eapply built_child; [exact B'|destruct q'; try discriminate MO'; cbn [measure_of] in MO'; injection MO' as -> ->; left; reflexivity]).
  pose proof (good_table _ _ _ _ BC (cleaned_holds _ _ _ _ _ CL HF) T2) as G.
  apply build_transformation_ok in T2 as (s2 & _ & V2 & _). rewrite V in V2. injection V2 as <- <-.
  exists adj, g. split; [exact P|]. rewrite GT. rewrite <- E. eapply truncated_same; [exact SO|exact G|exact T3].
Qed.
Lemma compile_groups b c cols t cs meas : built auto (GetGroups c cols) -> holds_for false c ->
  build_transformation W false cat data c = Ok (t, cs) ->
  cmp b (GetGroups c cols) = Ok meas ->
  exists t' out s, sch c = Ok s /\ meas = MGroups t' out b
    /\ same_table (v_rows t') (map (select_row out) (v_rows t))
    /\ (cols <> [] -> out = cols)
    /\ (cols = [] -> forall k, In k out <-> In k (dkeys (sc_cols s)) /\ sc_id s <> Some k).
Proof.
  intros B HF T H. apply compile_inv in H as (s & q' & adj & S & RW & M).
  destruct (rewrite_ok auto (w_cond_ok W) mu cat MADE _ _ _ B S RW) as (B' & _ & RR & _ & RM).
  assert (IT : is_table c) by (apply build_transformation_ok in T as (? & _ & V & _); exact (visit_is_table _ _ _ _ _ _ V)).
  assert (q' = GetGroups c cols) as ->.
  { inversion RR as [| ? c' ? RC | | | | | | | | | | | | | | | | | | |]; subst. rewrite (rewritten_table _ _ _ _ RC IT). reflexivity. }
  cbn [measure_query] in M. unfold visit_groups in M.
  apply bind_ok in M as (? & _ & M). apply bind_ok in M as (s1 & S1 & M). apply bind_ok in M as (? & _ & M).
  apply bind_ok in M as ((t2 & cs2) & T2 & M). unfold child_table in T2. cbn [gaussian] in T2. rewrite T in T2. injection T2 as <- <-.
  apply bind_ok in M as (t1 & T1 & M). apply bind_ok in M as ((y & ycs) & Y & M). apply bind_ok in M as (? & _ & M).
  apply bind_ok in M as (? & _ & M). injection M as <- <-. cbn [fst].
  assert (BC : built auto c) by (eapply built_child; [exact B|left; reflexivity]).
  pose proof (good_table _ _ _ _ BC HF T) as G.
  assert (TS : same_table (v_rows t1) (v_rows t)) by (eapply truncated_same; [exact SO|exact G|exact T1]).
  eexists y, _, s1. split; [exact S1|]. split; [reflexivity|]. split; [|split].
  - unfold visit_select in Y. apply bind_ok in Y as (d & _ & Y). apply bind_ok in Y as (? & _ & Y). injection Y as <- _.
    cbn [v_rows unwrap]. apply Permutation_map, TS.
  - intros N. destruct cols; [congruence|reflexivity].
  - intros ->. intros k. rewrite filter_In. unfold is_col. destruct (sc_id s1) as [i|]; cbn [negb].
    + rewrite negb_true_iff, String.eqb_neq. intuition congruence.
    + intuition congruence.
Qed.
Lemma rewrite_suppress c col th q' : rewrite auto (w_cond_ok W) mu cat (SuppressAggregates c col th) = Ok q' ->
  exists c', rewrite auto (w_cond_ok W) mu cat c = Ok c' /\ q' = SuppressAggregates c' col th.
Proof.
  unfold rewrite. intros H. apply bind_ok in H as (q1 & A & H). cbn [depth_first] in A. apply bind_ok in A as (c1 & C1 & A).
  apply bind_ok in A as (? & X1 & A). unfold remade in A. apply bind_ok in A as (p & P & A).
  cbn [post_init] in P. apply bind_ok in P as (? & _ & P). injection P as <-. injection A as <-.
  cbn [depth_first] in H. apply bind_ok in H as (c2 & C2 & H). apply bind_ok in H as (? & _ & H).
  unfold remade in H. apply bind_ok in H as (p & P & H). cbn [post_init] in P. apply bind_ok in P as (? & _ & P). injection P as <-. injection H as <-.
  exists c2. split; [|reflexivity]. rewrite C1. exact C2.
Qed.
(** Suppression is added to the measurement of the count, which costs what it cost. *)
Lemma compile_suppress b c col th meas : cmp b (SuppressAggregates c col th) = Ok meas ->
  exists m, cmp b c = Ok m /\ meas = MSuppress m col th.
Proof.
  unfold compile. intros H. apply bind_ok in H as (s & S & H). apply bind_ok in H as (q' & RW & H). apply bind_ok in H as ((m & adj) & M & H).
  apply bind_ok in H as ([] & X & H). injection H as <-. apply rewrite_suppress in RW as (c' & RC & ->).
  cbn [measure_query] in M. apply bind_ok in M as (s' & _ & M). apply bind_ok in M as ((m' & adj') & M & MM). injection MM as <- <-.
  exists m'. cbn [fst snd] in *. split; [|reflexivity]. change (sch (SuppressAggregates c col th)) with (sch c) in S.
  rewrite S. cbn [bind]. rewrite RC. cbn [bind]. rewrite M. cbn [bind fst snd]. 
  change (privacy_loss K (MSuppress m' col th)) with (privacy_loss K m') in X. rewrite X. reflexivity.
Qed.
End RowsUsed.
