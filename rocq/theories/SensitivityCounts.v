(** From distances between tables to distances between counts; what a session gives the visitor. *)
From Coq Require Import String Bool Arith ZArith QArith Qcanon Lia Permutation List.
From Verif Require Import Prelude Budget Value Rows Constraints ConstraintsSpec ConstraintsProofs ConstraintsStab
  Schema SchemaProofs Query Rewrite RewriteSpec RewriteProofs RewriteRows Transform TransformSpec TransformVisit TransformConform TransformIds
  QueryProofs Session SessionSpec SessionTables SessionInv SessionViews Measure MeasureProofs MeasureCount MeasureRows QueryBuilderMeasure
  BlindSpec Blind BlindMeasure Distance SensitivitySpec SensitivityReads Sensitivity.
Import ListNotations.
Local Open Scope string_scope.
Local Open Scope nat_scope.

Lemma group_map cols key f t : (forall g r, In g cols -> getv g (f r) = getv g r) -> group cols key (map f t) = map f (group cols key t).
Proof.
  intros F. unfold group. induction t as [|r t IH]; [reflexivity|]. cbn. assert (M : matches cols key (f r) = matches cols key r).
  { unfold matches. clear IH. induction cols as [|c cols IH]; [reflexivity|]. cbn. rewrite F by (left; reflexivity). rewrite IH; [reflexivity|]. intros g r0 I. apply F. right. exact I. }
  rewrite M, IH. destruct (matches cols key r); reflexivity.
Qed.
(** How far two measurements are apart in the group of [key]. *)
Definition count_change (g g' : plan) (key : rec) : nat := absdiff (counted g key) (counted g' key).

Section Counts.
Variables g g' : plan.
Hypothesis KEYS : g_keys g' = g_keys g.
Hypothesis AGG : g_agg g' = g_agg g.
Hypothesis DOM : v_dom (g_table g') = v_dom (g_table g).
Notation gr := (keys_columns (g_keys g)).

Lemma change_rows f a a' key : v_rows (g_table g) = map f a -> v_rows (g_table g') = map f a' -> (forall c r, In c gr -> getv c (f r) = getv c r) ->
  count_change g g' key <= row_distance (group gr key a) (group gr key a').
Proof.
  intros A A' F. unfold count_change, counted. rewrite KEYS, AGG, DOM, A, A', !group_map by exact F.
  etransitivity; [|apply (distance_map f)]. destruct (g_agg g); first [apply distance_length|apply distance_distinct].
Qed.
Lemma change_none key : v_rows (g_table g) = v_rows (g_table g') -> count_change g g' key = 0.
Proof. intros E. unfold count_change, counted. rewrite KEYS, AGG, DOM, E. unfold absdiff. lia. Qed.
Lemma change_apart so mu n cs keys : apart_at_most so mu n gr cs (g_table g) (g_table g') -> distinct_keys gr keys ->
  exists tr, choose_trunc so mu gr cs = Some tr
    /\ list_sum (map (fun key => count_change g g' key * count_change g g' key) keys) <= n * n * stability_squared mu gr tr
    /\ (mu <> RhoZCDP -> list_sum (map (count_change g g') keys) * list_sum (map (count_change g g') keys) <= n * n * stability_squared mu gr tr).
Proof.
  intros (tr & place & a & a' & f & CT & D & PL & A & A' & F) DK. exists tr. split; [exact CT|].
  pose proof (fun key => change_rows f a a' key A A' F) as CH.
  assert (S1 : list_sum (map (count_change g g') keys) <= row_distance a a').
  { etransitivity; [|apply (group_distances gr keys a a' DK)]. apply list_sum_le. intros key _. apply CH. }
  assert (S2 : forall c, In c gr -> list_sum (map (fun key => count_change g g' key * count_change g g' key) keys) <= grouped_distance_squared c a a').
  { intros c I. etransitivity; [|apply (group_squares c gr keys a a' DK I)]. apply list_sum_le. intros key _. specialize (CH key). nia. }
  pose proof (squares_of_sum (count_change g g') keys) as SQ. split.
  - subst place. destruct tr as [m|c m1 m2]; cbn [distance_squared] in D; [nia|]. destruct mu; cbn [distance_squared] in D; try nia.
    destruct (smem c gr) eqn:SM; cbn [distance_squared] in D; [|nia]. etransitivity; [apply (S2 c); apply smem_In, SM|exact D].
  - intros NZ. subst place. destruct tr as [m|c m1 m2]; cbn [distance_squared] in D; [nia|]. destruct mu; cbn [distance_squared] in D; try nia. contradiction.
Qed.
End Counts.

(** ** Plans *)
Lemma table_of_plan m : forall total g, plan_of m = Some (total, g) -> table_of m = g_table g.
Proof. induction m as [u1 u2|u1 u2 u3|m IH u1 u2]; intros tot g H; cbn in *; [congruence|discriminate|exact (IH tot g H)]. Qed.
Lemma hidden_plans m : forall m' total g total' g', hide_measurement m = hide_measurement m' -> plan_of m = Some (total, g) -> plan_of m' = Some (total', g') ->
  g_keys g' = g_keys g /\ g_agg g' = g_agg g /\ v_dom (g_table g') = v_dom (g_table g).
Proof.
  induction m as [u p|u1 u2 u3|m IHm u1 u2]; intros m' total g total' g' H P P'; destruct m' as [u' p0|? ? ?|m' ? ?]; cbn in H, P, P'; try discriminate.
  - assert (G : hide_plan p = hide_plan p0) by congruence. assert (p = g /\ p0 = g') as (-> & ->) by (split; congruence).
    split; [symmetry; exact (f_equal g_keys G)|]. split; [symmetry; exact (f_equal g_agg G)|]. symmetry. exact (f_equal v_dom (f_equal g_table G)).
  - eapply (IHm m' total g total' g'); [congruence|exact P|exact P'].
Qed.
Lemma measured_keys Ro W K auto so mu cat data q : forall b m adj total g, measure_query Ro W K auto so mu cat data b q = Ok (m, adj) -> plan_of m = Some (total, g) ->
  keys_columns (g_keys g) = agg_columns q.
Proof.
  induction q; intros b0 m0 adj0 tot0 g H P;
    try (match type of H with measure_query _ _ _ _ _ _ _ _ _ ?q = _ => assert (AG : aggregation q) by exact I end;
         destruct (measure_plan _ _ _ _ _ _ _ _ _ _ _ _ H AG) as (g0 & -> & PL); cbn in P; injection P as <- <-; cbn in PL; destruct PL as (PL & _); cbn; rewrite PL; reflexivity);
    cbn [measure_query] in H; try discriminate.
  - unfold visit_groups in H. peel H. injection H as <- <-. discriminate.
  - apply bind_ok in H as (bs & _ & H). apply bind_ok in H as ((m2 & a2) & H & E). cbn [fst snd] in E. injection E as <- <-. cbn [plan_of] in P. cbn [agg_columns]. eapply IHq; eassumption.
Qed.
Lemma compiled_keys Ro W K auto so mu cat data b q m total g : catalog_made cat -> built auto q -> compile Ro W K auto so mu cat data b q = Ok m -> plan_of m = Some (total, g) ->
  keys_columns (g_keys g) = agg_columns q.
Proof.
  intros MADE B H P. apply compile_inv in H as (s & q' & adj & S & RW & H). destruct (rewrite_ok auto (w_cond_ok W) mu cat MADE _ _ _ B S RW) as (_ & _ & RR & _ & _).
  destruct (rewritten_agg W mu cat q q' RR (measured_table Ro W K auto so mu cat _ _ _ _ _ H)) as (_ & _ & C). rewrite <- C. eapply measured_keys; eassumption.
Qed.

(** ** Catalogs of sessions *)
Lemma made_schema cols g i sp s : mk_schema cols g i sp = Ok s -> made s.
Proof. intros H. apply mk_schema_ok in H as (A & B & C & ->). apply mk_schema_ok. cbn. auto. Qed.
