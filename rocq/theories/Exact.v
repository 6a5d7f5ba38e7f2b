(** Answers without noise: what a session with an unlimited budget returns. *)
From Coq Require Import String Bool Arith ZArith QArith Qcanon Lia Permutation List.
From Verif Require Import Prelude Budget BudgetProofs Value Rows Constraints ConstraintsSpec ConstraintsProofs
  Schema SchemaProofs Query Rewrite RewriteSpec RewriteProofs RewriteRows Transform TransformSpec TransformVisit TransformConform
  QueryProofs QueryAccept Session SessionSpec Measure MeasureProofs MeasureCount MeasureRows AnswerSchema AnswerKeys Props_Measure.
Import ListNotations.
Local Open Scope string_scope.
Local Open Scope nat_scope.

(** ** Specification *)

(** The aggregation a query of a measure column asks for. *)
Definition aggregation_of (q : query) : option agg :=
  match q with
  | GroupByBounded kd _ _ me lo hi _ _ _ => Some (ABounded kd me lo hi)
  | GroupByQuantile _ _ me qu lo hi _ => Some (AQuantile me qu lo hi)
  | GetBounds _ _ me _ _ => Some (ABounds me)
  | _ => None
  end.
(** The number of rows, or of different rows, of a group. *)
Definition count_of (g : plan) (rows : table) : nat :=
  match g_agg g with
  | ACountDistinct => distinct_count (dkeys (v_dom (g_table g))) rows
  | _ => length rows
  end.
(** tmlt.core when epsilon or rho is infinite.  It adds no noise: counts are the number of
    rows (as a whole number or as a float), other aggregations are some function [A] of the values in the group, whatever
    their order.  Partition selection finds each key that occurs, once. *)
Record exact_core (K : core) (A : agg -> table -> list value) : Prop := {
  ec_count : forall g key rows, loss (g_budget g) = XPInf -> g_agg g = ACount \/ g_agg g = ACountDistinct ->
               exists v, k_answer K g key rows = [v] /\ number v = Some (z_to_f (Z.of_nat (count_of g rows)));
  ec_other : forall g key rows, loss (g_budget g) = XPInf -> g_agg g <> ACount -> g_agg g <> ACountDistinct ->
               k_answer K g key rows = A (g_agg g) rows;
  ec_length : forall a rows, length (A a rows) = match a with ABounds _ => 2 | _ => 1 end;
  ec_bags : forall a rows rows', Permutation rows rows' -> A a rows = A a rows';
  ec_select : forall b t, loss b = XPInf -> NoDup (k_select K b t) /\ forall r, In r (k_select K b t) <-> In r t
}.

(** ** Proofs *)

Lemma getv_key c (key : rec) outs vs : ~ In c outs -> getv c (key ++ combine outs vs)%list = getv c key.
Proof.
  intros N. unfold getv. induction key as [|(x & v) key IH]; cbn [app dget fst].
  - assert (X : dget c (combine outs vs) = None); [|rewrite X; reflexivity].
    revert vs. induction outs as [|o outs IH]; intros [|v vs]; try reflexivity. cbn [combine dget fst].
    destruct (String.eqb_spec c o) as [->|]; [exfalso; apply N; left; reflexivity|]. apply IH. intros I. apply N. right. exact I.
  - destruct (String.eqb_spec c x); [reflexivity|exact IH].
Qed.
Lemma getv_outs (key : rec) : forall outs vs, NoDup outs -> (forall c, In c outs -> ~ In c (dkeys key)) -> length vs = length outs ->
  map (fun o => getv o (key ++ combine outs vs)%list) outs = vs.
Proof.
  intros outs vs ND DIS L. transitivity (map (fun o => getv o (combine outs vs)) outs); [|exact (getv_combine outs vs ND L)]. apply map_ext_in. intros c I. specialize (DIS c I).
  unfold getv. induction key as [|(x & v) key IH]; [reflexivity|]. cbn [app dget fst]. destruct (String.eqb_spec c x) as [->|N].
  - exfalso. apply DIS. left. reflexivity.
  - apply IH. intros J. apply DIS. right. exact J.
Qed.
Lemma group_same cols key key' t : (forall c, In c cols -> getv c key = getv c key') -> group cols key t = group cols key' t.
Proof.
  intros E. unfold group. apply filter_ext. intros r. unfold matches. induction cols as [|c cols IH]; [reflexivity|]. cbn [forallb].
  rewrite (E c (or_introl eq_refl)), IH; [reflexivity|]. intros x I. apply E. right. exact I.
Qed.
Lemma group_is_with_key cols key t : group cols key t = rows_with_key cols key t.
Proof. reflexivity. Qed.

(** The keys that were found, as they stand in the answer. *)
Lemma found_cells l (rows : table) keys outs (h : rec -> list value) : (forall c, In c outs -> ~ In c l) ->
  NoDup keys -> (forall key, In key keys <-> In key (map (select_row l) rows)) ->
  let t := map (fun key => (key ++ combine outs (h key))%list) keys in
  NoDup (cells_in l t) /\ forall vs, In vs (cells_in l t) <-> In vs (cells_in l rows).
Proof.
  intros DIS ND KEYS t. set (cl := fun r : rec => map (fun c => getv c r) l).
  assert (E : cells_in l t = map cl keys).
  { unfold cells_in, t. rewrite map_map. apply map_ext_in. intros key _. apply map_ext_in. intros c I. apply getv_key. intros J. exact (DIS c J I). }
  assert (SEL : forall r, cl (select_row l r) = cl r) by (intros r; apply map_ext_in; intros c I; apply getv_select, I).
  assert (INJ : forall k k', In k keys -> In k' keys -> cl k = cl k' -> k = k').
  { intros k k' I I' EQ. apply KEYS, in_map_iff in I as (r & <- & _). apply KEYS, in_map_iff in I' as (r' & <- & _). rewrite !SEL in EQ.
    unfold cl, select_row in *. clear - EQ. induction l as [|c l IH]; [reflexivity|]. cbn [map] in *. injection EQ as E1 E2. rewrite E1, (IH E2). reflexivity. }
  rewrite E. split.
  - clear - ND INJ. induction keys as [|k keys IH]; [constructor|]. inversion ND as [|? ? NI N']; subst. cbn [map]. constructor.
    + intros J. apply in_map_iff in J as (k' & EQ & J). apply NI. rewrite (INJ k k'); [exact J|left; reflexivity|right; exact J|symmetry; exact EQ].
    + apply IH; [exact N'|]. intros a b I J. apply INJ; right; assumption.
  - intros vs. unfold cells_in. fold cl. split; intros J; apply in_map_iff in J as (r & <- & I).
    + apply KEYS, in_map_iff in I as (r' & <- & I). rewrite SEL. apply in_map. exact I.
    + rewrite <- (SEL r). apply in_map, KEYS, in_map, I.
Qed.
(** A key occurs if some row has it. *)
Lemma occurs_with_key l (rows : table) (key : rec) : In (map (fun c => getv c key) l) (cells_in l rows) <-> rows_with_key l key rows <> [].
Proof.
  unfold cells_in, rows_with_key. rewrite in_map_iff. split.
  - intros (r & E & I) X. assert (J : In r (filter (fun r0 => forallb (fun c => value_eqb (getv c key) (getv c r0)) l) rows)); [|rewrite X in J; exact J].
    apply filter_In. split; [exact I|]. clear - E. induction l as [|c l IH]; [reflexivity|]. cbn [map forallb] in *. injection E as E1 E2.
    rewrite E1, value_eqb_refl. exact (IH E2).
  - intros N. destruct (filter _ rows) as [|r rest] eqn:F; [congruence|].
    assert (J : In r (filter (fun r0 => forallb (fun c => value_eqb (getv c key) (getv c r0)) l) rows)) by (rewrite F; left; reflexivity).
    apply filter_In in J as (I & M). exists r. split; [|exact I]. clear - M. induction l as [|c l IH]; [reflexivity|]. cbn [map forallb] in *.
    apply andb_true_iff in M as (M1 & M2). apply value_eqb_eq in M1. rewrite M1, (IH M2). reflexivity.
Qed.
Lemma same_counts_same_keys l (rows rows' : table) : (forall key, rows_with_key l key rows <> [] <-> rows_with_key l key rows' <> []) ->
  forall vs, In vs (cells_in l rows) <-> In vs (cells_in l rows').
Proof.
  intros E vs. split; intros I; pose proof I as J; unfold cells_in in J; apply in_map_iff in J as (r & <- & _); apply occurs_with_key, E, occurs_with_key, I.
Qed.

Section Run.
Variable R : rounding.
Variable W : world.
Variable K : core.
Variable auto : bool.
Variable so : list string -> list string.
Variable mu : measure.
Variable cat : catalog.
Variable data : dict vtab.
Hypothesis MADE : catalog_made cat.
Notation cmp := (compile R W K auto so mu cat data).
Notation mq := (measure_query R W K auto so mu cat data).

Lemma unlimited b q m total g : loss b = XPInf -> cmp b q = Ok m -> plan_of m = Some (total, g) -> loss (g_budget g) = XPInf /\ (forall l, g_keys g = KCols l -> loss (g_keys_budget g) = XPInf).
Proof.
  intros L C P. destruct (g_keys g) as [cols rows|l] eqn:GK.
  - destruct (C30_known_keys_cost_nothing R W K auto so mu cat data b q m total g cols rows C P GK) as (_ & _ & -> & -> & _). split; [exact L|discriminate].
  - destruct (C30_split_infinite R W K auto so mu cat data b q m total g l L C P GK) as (_ & _ & -> & ->). split; reflexivity.
Qed.

(** The rows of the answer, taken apart. *)
Lemma answer_rows A b q c k m t : exact_core K A -> built auto q -> grouped_by q = Some (c, k) -> keys_as_declared k ->
  loss b = XPInf -> cmp b q = Ok m -> run_measurement R K m = Ok t ->
  exists adj g, m = MGroupBy adj g /\ g_keys g = k /\ g_outs g = output_names q /\ loss (g_budget g) = XPInf
    /\ (forall r, In r t -> exists key, (forall n, In n (dkeys key) -> In n (keys_columns k))
          /\ r = (key ++ combine (output_names q) (k_answer K g key (group (keys_columns k) key (v_rows (g_table g)))))%list)
    /\ (forall l, k = KCols l -> exists keys, NoDup keys /\ (forall key, In key keys <-> In key (map (select_row l) (v_rows (g_table g))))
          /\ t = map (fun key => (key ++ combine (output_names q) (k_answer K g key (group (keys_columns k) key (v_rows (g_table g)))))%list) keys).
Proof.
  intros EC B G KD L C RUN. destruct (plan_keys R W K auto so mu cat data MADE b q c k m B G C) as (adj & g & -> & GK & GO).
  destruct (unlimited b q _ adj g L C eq_refl) as (U1 & U2). exists adj, g. do 4 (split; [auto|]).
  cbn [run_measurement] in RUN. unfold run_plan in RUN. apply bind_ok in RUN as (keys & FK & RUN).
  apply bind_ok in RUN as (? & _ & RUN). apply bind_ok in RUN as (? & _ & RUN). injection RUN as <-. rewrite GO, GK in *.
  unfold find_keys in FK. rewrite GK in FK.
  assert (F : forall key, In key keys -> forall n, In n (dkeys key) -> In n (keys_columns k)).
  { destruct k as [cols rows|l]; cbn [keys_columns].
    - apply bind_ok in FK as (? & _ & FK). injection FK as <-. destruct KD as (_ & KC). intros key I n J. destruct (dkeys cols) as [|c0 cl] eqn:DC.
      + destruct I as [<-|[]]. destruct J.
      + destruct (KC key I) as (_ & K2 & _). rewrite <- DC. apply K2, J.
    - destruct (g_keys_budget g) as [|e0 d0|] eqn:KB; try discriminate FK.
      apply bind_ok in FK as (? & _ & FK). apply bind_ok in FK as ((y & ycs) & Y & FK). apply bind_ok in FK as (? & _ & FK). injection FK as <-. cbn [fst].
      apply select_cols in Y as (Y & _). intros key I n J. apply (ec_select K A EC) in I; [|exact (U2 l eq_refl)].
      rewrite Y in I. apply in_map_iff in I as (r & <- & I). rewrite dkeys_select in J. exact J. }
  split.
  - intros r I. apply in_map_iff in I as (key & <- & I). exists key. split; [exact (F key I)|reflexivity].
  - intros l ->. exists keys. split; [|split; [|reflexivity]].
    + destruct (g_keys_budget g) as [|e0 d0|] eqn:KB; try discriminate FK.
      apply bind_ok in FK as (? & _ & FK). apply bind_ok in FK as ((y & ycs) & Y & FK). apply bind_ok in FK as (? & _ & FK). injection FK as <-.
      apply (ec_select K A EC). exact (U2 l eq_refl).
    + destruct (g_keys_budget g) as [|e0 d0|] eqn:KB; try discriminate FK.
      apply bind_ok in FK as (? & _ & FK). apply bind_ok in FK as ((y & ycs) & Y & FK). apply bind_ok in FK as (? & _ & FK). injection FK as <-. cbn [fst].
      apply select_cols in Y as (Y & _). rewrite <- Y. apply (ec_select K A EC). exact (U2 l eq_refl).
Qed.

Lemma rewritten_aggregation q q' a : rewritten (w_cond_ok W) cat q q' -> aggregation_of q = Some a -> aggregation_of q' = Some a.
Proof. intros H G. destruct H; cbn [aggregation_of] in *; try discriminate G; exact G. Qed.
Lemma measured_aggregation b q a m adj g : mq b q = Ok (m, adj) -> aggregation_of q = Some a -> plan_of m = Some (adj, g) -> g_agg g = a.
Proof.
  intros H G P. destruct q; cbn [aggregation_of] in G; try discriminate G; injection G as <-; cbn [measure_query] in H.
  - unfold visit_bounds in H. apply bind_ok in H as (bs & _ & H). apply bind_ok in H as ((t & cs) & T & H). apply bind_ok in H as (t1 & T1 & H).
    apply finish_inv in H as (kb & qb & -> & -> & _). injection P as <-. reflexivity.
  - unfold visit_quantile in H. apply bind_ok in H as (bs & _ & H). apply bind_ok in H as ((t & cs) & T & H). apply bind_ok in H as (t1 & T1 & H).
    apply finish_inv in H as (kb & qb & -> & -> & _). injection P as <-. reflexivity.
  - unfold visit_bounded in H. apply bind_ok in H as (bs & _ & H). apply bind_ok in H as (cm & _ & H). apply bind_ok in H as ((t & cs) & T & H). apply bind_ok in H as (t1 & T1 & H).
    apply finish_inv in H as (kb & qb & -> & -> & _). injection P as <-. reflexivity.
Qed.
Lemma plan_aggregation b q a m total g : built auto q -> aggregation_of q = Some a -> cmp b q = Ok m -> plan_of m = Some (total, g) -> g_agg g = a.
Proof.
  intros B G C P. apply compile_inv in C as (s & q' & adj & S & RW & M).
  destruct (rewrite_ok auto (w_cond_ok W) mu cat MADE _ _ _ B S RW) as (_ & _ & RR & _ & _).
  pose proof (rewritten_aggregation q q' a RR G) as G'.
  assert (total = adj) as ->.
  { destruct q'; cbn [aggregation_of] in G'; try discriminate G'; cbn [measure_query] in M.
    - unfold visit_bounds in M. apply bind_ok in M as (bs & _ & H). apply bind_ok in H as ((t & cs) & T & H). apply bind_ok in H as (t1 & T1 & H).
      apply finish_inv in H as (kb & qb & -> & -> & _). injection P as <-. reflexivity.
    - unfold visit_quantile in M. apply bind_ok in M as (bs & _ & H). apply bind_ok in H as ((t & cs) & T & H). apply bind_ok in H as (t1 & T1 & H).
      apply finish_inv in H as (kb & qb & -> & -> & _). injection P as <-. reflexivity.
    - unfold visit_bounded in M. apply bind_ok in M as (bs & _ & H). apply bind_ok in H as (cm & _ & H). apply bind_ok in H as ((t & cs) & T & H). apply bind_ok in H as (t1 & T1 & H).
      apply finish_inv in H as (kb & qb & -> & -> & _). injection P as <-. reflexivity. }
  exact (measured_aggregation b q' a m adj g M G' P).
Qed.
(** Counts ask tmlt.core for a number of rows or of different rows. *)
Definition asks_count (q : query) : Prop :=
  match q with GroupByCount _ _ _ _ _ | GroupByCountDistinct _ _ _ _ _ _ => True | _ => False end.
Lemma visit_count_agg b c k o m co r adj total g : visit_count R W K so mu cat data b c k o m co = Ok (r, adj) -> plan_of r = Some (total, g) -> g_agg g = ACount.
Proof.
  intros H P. unfold visit_count in H. apply bind_ok in H as (bs & _ & H). apply bind_ok in H as (cm & _ & H). apply bind_ok in H as (x & _ & H). apply bind_ok in H as (t & _ & H).
  apply finish_inv in H as (kb & qb & _ & -> & _). injection P as _ <-. reflexivity.
Qed.
Lemma plan_counts b q m total g : built auto q -> asks_count q -> cmp b q = Ok m -> plan_of m = Some (total, g) -> g_agg g = ACount \/ g_agg g = ACountDistinct.
Proof.
  intros B G C P. apply compile_inv in C as (s & q' & adj & S & RW & M).
  destruct (rewrite_ok auto (w_cond_ok W) mu cat MADE _ _ _ B S RW) as (_ & _ & RR & _ & _).
  assert (G' : asks_count q') by (destruct RR; cbn [asks_count] in *; try contradiction; exact Logic.I).
  destruct q'; cbn [asks_count] in G'; try contradiction; cbn [measure_query] in M.
  - left. exact (visit_count_agg _ _ _ _ _ _ _ _ _ _ M P).
  - unfold visit_count_distinct in M. apply bind_ok in M as (bs & _ & M). apply bind_ok in M as (cm & _ & M). apply bind_ok in M as (x & _ & M). apply bind_ok in M as (s' & _ & M).
    destruct (constrained_child q' keys columns s' (snd x)) as [c'|].
    + apply bind_ok in M as (? & _ & M). left. exact (visit_count_agg _ _ _ _ _ _ _ _ _ _ M P).
    + apply bind_ok in M as (t & _ & M). apply bind_ok in M as (t1 & _ & M). apply finish_inv in M as (kb & qb & _ & -> & _). injection P as _ <-. right. reflexivity.
Qed.
End Run.
