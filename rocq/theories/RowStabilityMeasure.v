(** What the aggregations of two datasets read and count, when the tables are some rows apart. *)
From Coq Require Import String Bool Arith ZArith QArith Qcanon Lia Permutation List.
From Verif Require Import Prelude Budget Value Rows Constraints ConstraintsSpec ConstraintsProofs ConstraintsStab Schema SchemaProofs Query Rewrite RewriteSpec
  Transform TransformSpec TransformVisit QueryProofs Session Measure MeasureProofs MeasureCount BlindSpec Blind BlindMeasure Distance SensitivitySpec SensitivityReads Sensitivity SensitivityCounts
  StabilitySpec RowStability.
Import ListNotations.
Local Open Scope string_scope.
Local Open Scope nat_scope.

Lemma enforce_refused rO kO c a b x y : in_collection (t_place x) = false -> a = false -> enforce rO kO c a b x = Ok y -> False.
Proof. intros N -> H. destruct c; cbn [enforce] in H; destruct (t_place x); try discriminate N; discriminate H. Qed.

Section Measures.
Variables (Ro : rounding) (W : world) (K : core) (auto : bool) (so : list string -> list string) (mu : measure) (cat : catalog).
Variables (data data' : dict vtab) (d : string -> nat).
Hypothesis MADE : catalog_made cat.
Hypothesis SAME : hide_all data = hide_all data'.
Hypothesis APART : forall n t t', dget n data = Some t -> dget n data' = Some t' -> row_distance (v_rows t) (v_rows t') <= d n.

Lemma build_parts l2 dt c x cs : build_transformation W l2 cat dt c = Ok (x, cs) -> visit W l2 cat dt c = Ok (x, cs).
Proof. intros H. apply build_transformation_ok in H as (? & _ & V & _). exact V. Qed.
Lemma spread_prepared l2 c c' k : spread W l2 cat data d c k -> prepared c c' -> forall x cs, visit W l2 cat data c' = Ok (x, cs) -> spread W l2 cat data d c' k.
Proof.
  intros S P. induction P as [c|c c' m _ IH|c c' m _ IH|c c' m lo hi _ IH|c c' _ IH|c c' g _ IH]; intros x cs V; [exact S| | | | |];
    cbn [visit] in V; apply bind_ok in V as ((u, us) & E & V); pose proof (IH S _ _ E) as S'; try (constructor; exact S').
  all: exfalso; unfold visit_enforce in V; apply bind_ok in V as (y & EF & _); eapply enforce_refused; [|reflexivity|exact EF]; cbn [t_place]; exact (place_kept _ _ _ _ _ _ _ S' _ _ E).
Qed.
Lemma measure_stable b q m m' k : built auto q -> spread W (agg_gaussian mu q) cat data d (agg_child q) k ->
  compile Ro W K auto so mu cat data b q = Ok m -> compile Ro W K auto so mu cat data' b q = Ok m' ->
  row_distance (v_rows (table_of m)) (v_rows (table_of m')) <= k.
Proof.
  intros B S C C'.
  destruct (both_compile Ro W K auto so mu cat data data' MADE (fun _ _ => True)) with (b := b) (q := q) (m := m) (m' := m') as (c2 & x & x' & cs & y & y' & f & (P & _) & T & T' & Y & Y' & R & R' & _); try exact I; try assumption; [auto| |].
  { intros l2 c x cs x' cs' _ _ T T'. exact (proj2 (visit_hidden W l2 cat data data' SAME _ _ _ _ _ (build_parts _ _ _ _ _ T) (build_parts _ _ _ _ _ T'))). }
  apply build_parts in T. apply build_parts in T'. pose proof (spread_prepared _ _ _ _ S P _ _ T) as S2.
  pose proof (place_kept _ _ _ _ _ _ _ S2 _ _ T) as PL. pose proof (visit_hidden W _ cat data data' SAME _ _ _ _ _ T T') as (HX & _). apply hide_eqs in HX as (_ & _ & HP).
  assert (U : forall z u, in_collection (v_place z) = false -> truncated W so mu (agg_columns q) (z, cs) = Ok u -> v_rows u = v_rows z).
  { intros z u N H. unfold truncated, truncate_table in H. cbn [fst snd t_place] in H. destruct (v_place z); [discriminate N|injection H as <-; reflexivity..]. }
  rewrite R, R', (U _ _ PL Y). rewrite HP in PL. rewrite (U _ _ PL Y'). eapply Nat.le_trans; [apply distance_map|].
  eapply (visit_stable W _ cat data data' d SAME APART); eassumption.
Qed.
Lemma counts_stable b q m m' k total g total' g' keys : blind_core K -> built auto q -> spread W (agg_gaussian mu q) cat data d (agg_child q) k ->
  compile Ro W K auto so mu cat data b q = Ok m -> compile Ro W K auto so mu cat data' b q = Ok m' ->
  plan_of m = Some (total, g) -> plan_of m' = Some (total', g') -> distinct_keys (agg_columns q) keys ->
  list_sum (map (count_change g g') keys) <= k.
Proof.
  intros BK B S C C' P P' DK.
  assert (HM : hide_measurement m = hide_measurement m').
  { pose proof (compile_hide' Ro W K BK auto so mu cat data b q) as H1. pose proof (compile_hide' Ro W K BK auto so mu cat data' b q) as H2. rewrite C in H1. rewrite C', <- SAME, H1 in H2. cbn in H2. congruence. }
  destruct (hidden_plans _ _ _ _ _ _ HM P P') as (KE & AG & DO). pose proof (compiled_keys _ _ _ _ _ _ _ _ _ _ _ _ _ MADE B C P) as CK.
  pose proof (measure_stable _ _ _ _ _ B S C C') as D. rewrite (table_of_plan _ _ _ P), (table_of_plan _ _ _ P') in D.
  eapply Nat.le_trans; [|exact D]. eapply Nat.le_trans; [|apply (group_distances (agg_columns q) keys _ _ DK)]. apply list_sum_le. intros key _.
  rewrite <- CK. apply (change_rows g g' KE AG DO (fun r => r)); [now rewrite map_id|now rewrite map_id|reflexivity].
Qed.
End Measures.
