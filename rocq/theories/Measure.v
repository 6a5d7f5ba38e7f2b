(** Compiling an aggregation into a measurement and running it.  Models
    _query_expr_compiler/_base_measurement_visitor.py, _measurement_visitor.py and
    QueryExprCompiler.__call__ (_compiler.py 115-178).
    Simplifications, for the whole file:
    - tmlt.core's measurements are a record of what they are asked to do ([plan]); whether
      its constructors accept it, the keys that partition selection returns and the noisy
      answer for a group of rows are left open ([core]);
    - stabilities are not computed here (see C17, C18);
    - noise information, warnings and the conversion of clamping bounds to exact numbers
      (_get_query_bounds, 138-153) are not modelled. *)
From Coq Require Import String Bool Arith ZArith QArith Qcanon Lia Permutation List.
From Verif Require Import Prelude Budget Value Rows Constraints Schema Query Rewrite Transform Session.
Import ListNotations.
Local Open Scope string_scope.
Local Open Scope nat_scope.

(** What is computed for every group of rows. *)
Inductive agg : Type :=
| ACount
| ACountDistinct
| AQuantile (measure : string) (quantile : fnum) (low high : Query.pynum)
| ABounded (kind : bkind) (measure : string) (low high : Query.pynum)
| ABounds (measure : string).

(** A groupby aggregation handed to tmlt.core: the table, the keys and what each of the two
    parts (finding the keys, aggregating) may spend. *)
Record plan : Type := {
  g_table : vtab;
  g_keys : gkeys;
  g_keys_budget : budget;
  g_agg : agg;
  g_mech : coremech;
  g_budget : budget;
  g_outs : list string
}.

(** Measurements: adaptive composition of the two parts with a total budget
    (_build_adaptive_groupby_agg_and_noise_info), partition selection, postprocessing. *)
Inductive measurement : Type :=
| MGroupBy (total : budget) (g : plan)
| MGroups (t : vtab) (columns : list string) (b : budget)
| MSuppress (m : measurement) (column : string) (threshold : Query.pynum).

(** What is left open about tmlt.core. *)
Record core : Type := {
  (** the constructors called at 499-509 with a sample key *)
  k_builds : plan -> res unit;
  (** create_partition_selection_measurement, chained to the transformation before it, and
      its privacy loss *)
  k_groups_builds : vtab -> budget -> res unit;
  k_groups_loss : vtab -> budget -> budget;
  (** the keys it returns, given the rows *)
  k_select : budget -> table -> table;
  (** the values of the output columns for one key, given the rows with that key *)
  k_answer : plan -> rec -> table -> list value
}.

Section Measure.
Variable R : rounding.
Variable W : world.
Variable K : core.
(** auto_partition_selection *)
Variable auto : bool.
(** Python's order of iteration over a set (see Constraints.v) *)
Variable so : list string -> list string.
Variable mu : measure.
Variable cat : catalog.
Variable data : dict vtab.
Notation sch := (schema_of (w_cond_ok W) cat).

(** ** Budgets *)

Definition xhalf (x : xq) : xq := match x with XFin q => XFin (q * (1 # 2))%Q | _ => x end.
Definition zero : barg := ANum (Budget.PInt 0).

(** _split_auto_partition_budget, 343-364. *)
Definition split_budget (b : budget) : res (budget * budget) :=
  match b with
  | Approx e d =>
      if is_infinite b then
        let* x := mk_approx R (ANum (Budget.PFlt (FX XPInf))) (ANum (Budget.PInt 1)) in
        let* y := mk_approx R (ANum (Budget.PFlt (FX XPInf))) zero in Ok (x, y)
      else
        let* x := mk_approx R (AExact (xhalf e)) (AExact d) in
        let* y := mk_approx R (AExact (xhalf e)) zero in Ok (x, y)
  | _ => Err ValueError
  end.
(** _get_zero_budget, 390-398. *)
Definition zero_budget (b : budget) : res budget :=
  match b with
  | Pure _ => mk_pure R zero
  | Approx _ _ => mk_approx R zero zero
  | Zcdp _ => mk_zcdp R zero
  end.
(** _validate_approxDP_and_adjust_budget, 591-668; [m] is the mechanism of the query, if it
    has one. *)
Definition adjust (b : budget) (k : gkeys) (m : option mech) : res budget :=
  match b with
  | Approx e d =>
      match m with
      | Some MGaussian => Err NotImplementedError
      | _ =>
          match k, is_infinite b with
          | KCols _, false =>
              let* _ := raise_if (xleb e (XFin 0)) ValueError in
              let* _ := raise_if (xleb d (XFin 0)) ValueError in Ok b
          | _, _ => mk_approx R (AExact e) zero
          end
      end
  | _ => Ok b
  end.
(** The comparison of a privacy loss with a budget, 670-694 and _compiler.py 163-181. *)
Definition mismatch (loss b : budget) : bool :=
  match b with
  | Approx e d => match loss with Approx e' d' => xltb e e' || xltb d d' | _ => true end
  | _ => negb (budget_eqb loss b)
  end.
(** privacy_function: of an adaptive composition, the budget it was made with; postprocessing
    does not change it. *)
Fixpoint privacy_loss (m : measurement) : budget :=
  match m with
  | MGroupBy total _ => total
  | MGroups t _ b => k_groups_loss K t b
  | MSuppress m _ _ => privacy_loss m
  end.

(** ** The measurement visitor *)

Definition gaussian (c : coremech) : bool :=
  match c with CDiscreteGaussian | CGaussian => true | CLaplace | CGeometric => false end.
(** QueryExprCompiler.__init__, _compiler.py 77-85. *)
Definition default_mechanism : coremech := match mu with RhoZCDP => CDiscreteGaussian | _ => CLaplace end.
(** _get_core_mechanism, 120-135. *)
Definition core_mechanism (c : option coremech) : res coremech :=
  match c with Some c => Ok c | None => Err InternalError end.
(** _visit_child_transformation, _measurement_visitor.py 41-55. *)
Definition child_table (c : coremech) (q : query) : res (vtab * list constraint) :=
  build_transformation W (gaussian c) cat data q.
(** _truncate_table and get_table_from_ref. *)
Definition truncated (grouping : list string) (x : vtab * list constraint) : res vtab :=
  let t := fst x in
  let* y := truncate_table (w_row_order W) (w_key_order W) so mu grouping (snd x)
              {| t_place := v_place t; t_rows := v_rows t |} in
  Ok {| v_dom := v_dom t; v_coll := v_coll t; v_place := t_place y; v_rows := t_rows y |}.
(** UnwrapIfGroupedBy, when the metric is IfGroupedBy. *)
Definition unwrap (t : vtab) : vtab :=
  {| v_dom := v_dom t; v_coll := v_coll t; v_place := PSym; v_rows := v_rows t |}.

(** The beginning of every visit_groupby_*, e.g. 873-887: adjusted budget, budget for the
    keys, budget for the aggregation. *)
Definition budgets (b : budget) (q : query) (k : gkeys) (m : option mech) : res (budget * budget * budget) :=
  let* adj := adjust b k m in
  let* _ := sch q in
  match k with
  | KSet _ _ => let* z := zero_budget b in Ok (adj, z, adj)
  | KCols _ => let* p := split_budget adj in Ok (adj, fst p, snd p)
  end.
(** And the end, e.g. 889-929. *)
Definition finish (bs : budget * budget * budget) (k : gkeys) (c : coremech) (a : agg) (outs : list string) (t : vtab)
    : res (measurement * budget) :=
  let '(adj, kb, qb) := bs in
  let g := {| g_table := t; g_keys := k; g_keys_budget := kb; g_agg := a; g_mech := c; g_budget := qb; g_outs := outs |} in
  let* _ := k_builds K g in
  let* _ := raise_if (mismatch (privacy_loss (MGroupBy adj g)) adj) InternalError in
  Ok (MGroupBy adj g, adj).

(** visit_groupby_count, 871-929. *)
Definition visit_count (b : budget) (child : query) (k : gkeys) (out : string) (m : mech) (co : option coremech)
    : res (measurement * budget) :=
  let* bs := budgets b (GroupByCount child k out m co) k (Some m) in
  let* c := core_mechanism co in
  let* x := child_table c child in
  let* t := truncated (keys_columns k) x in
  finish bs k c ACount [out] t.

(** set(columns or schema.columns) == {id_column} *)
Definition counts_only (columns : list string) (s : schema) (i : string) : bool :=
  let l := match columns with [] => dkeys (sc_cols s) | _ => columns end in
  smem i l && forallb (String.eqb i) l.
(** _generate_constrained_count_distinct, 217-300; the new query's child and the parts of the
    query that are kept. *)
Definition constrained_child (child : query) (k : gkeys) (columns : list string) (s : schema) (cs : list constraint)
    : option query :=
  match sc_id s with
  | None => None
  | Some i =>
      if counts_only columns s i then
        match keys_columns k with
        | [] => Some (EnforceConstraint child (MaxRowsPerID 1))
        | [g] =>
            if existsb (fun c => match c with MaxGroupsPerID g' _ => String.eqb g' g | _ => false end) cs
            then Some (EnforceConstraint child (MaxRowsPerGroupPerID g 1)) else None
        | _ => None
        end
      else None
  end.
(** The columns kept when counting distinct values of some columns, 1000-1011.  A tuple of
    columns has no schema(). *)
Definition counted_columns (columns : list string) (k : gkeys) (t : vtab) : res vtab :=
  match columns with
  | [] => Ok t
  | _ => match k with
         | KCols _ => Err AttributeError
         | KSet cols _ => let* x := visit_select (nodup String.string_dec (columns ++ dkeys cols)%list) (t, []) in Ok (fst x)
         end
  end.
(** visit_groupby_count_distinct, 953-1044. *)
Definition visit_count_distinct (b : budget) (child : query) (k : gkeys) (columns : list string) (out : string)
    (m : mech) (co : option coremech) : res (measurement * budget) :=
  let* bs := budgets b (GroupByCountDistinct child k columns out m co) k (Some m) in
  let* c := core_mechanism co in
  let* x := child_table c child in
  let* s := sch child in
  match constrained_child child k columns s (snd x) with
  | Some child' =>
      let* q := post_init auto (GroupByCount child' k out m co) in
      visit_count b child' k out m co
  | None =>
      let* t := truncated (keys_columns k) x in
      let* t := counted_columns columns k t in
      finish bs k c ACountDistinct [out] t
  end.

(** visit_groupby_quantile, 1074-1138. *)
Definition visit_quantile (b : budget) (child : query) (k : gkeys) (measure : string) (qu : fnum)
    (lo hi : Query.pynum) (out : string) : res (measurement * budget) :=
  let* bs := budgets b (GroupByQuantile child k measure qu lo hi out) k None in
  let* x := child_table default_mechanism child in
  let* t := truncated (keys_columns k) x in
  finish bs k default_mechanism (AQuantile measure qu lo hi) [out] t.
(** visit_groupby_bounded_sum 1168-1233, _average 1263-1328, _variance 1358-1423 and _stdev
    1453-1518. *)
Definition visit_bounded (b : budget) (kd : bkind) (child : query) (k : gkeys) (measure : string)
    (lo hi : Query.pynum) (out : string) (m : mech) (co : option coremech) : res (measurement * budget) :=
  let* bs := budgets b (GroupByBounded kd child k measure lo hi out m co) k (Some m) in
  let* c := core_mechanism co in
  let* x := child_table c child in
  let* t := truncated (keys_columns k) x in
  finish bs k c (ABounded kd measure lo hi) [out] t.
(** visit_get_bounds, 1546-1638. *)
Definition visit_bounds (b : budget) (child : query) (k : gkeys) (measure lo hi : string) : res (measurement * budget) :=
  let* bs := budgets b (GetBounds child k measure lo hi) k None in
  let* x := child_table CGeometric child in
  let* t := truncated (keys_columns k) x in
  finish bs k default_mechanism (ABounds measure) [lo; hi] (unwrap t).
(** visit_get_groups, _measurement_visitor.py 67-151. *)
Definition visit_groups (b : budget) (child : query) (columns : list string) : res (measurement * budget) :=
  let* _ := raise_if (negb (is_approx b)) ValueError in
  let* s := sch child in
  let cols := match columns with
              | [] => filter (fun c => negb (is_col (sc_id s) c)) (dkeys (sc_cols s))
              | _ => columns end in
  let* _ := raise_if (match sc_id s with Some i => (length cols =? 0) || smem i cols | None => false end) RuntimeError in
  let* x := child_table CGeometric child in
  let* t := truncated [] x in
  let* y := visit_select cols (unwrap t, []) in
  let* _ := k_groups_builds K (fst y) b in
  let m := MGroups (fst y) cols b in
  let* _ := raise_if (mismatch (privacy_loss m) b) InternalError in
  Ok (m, b).

(** accept: what is not an aggregation is refused (696-755). *)
Fixpoint measure_query (b : budget) (q : query) : res (measurement * budget) :=
  match q with
  | GroupByCount c k out m co => visit_count b c k out m co
  | GroupByCountDistinct c k cols out m co => visit_count_distinct b c k cols out m co
  | GroupByQuantile c k me qu lo hi out => visit_quantile b c k me qu lo hi out
  | GroupByBounded kd c k me lo hi out m co => visit_bounded b kd c k me lo hi out m co
  | GetBounds c k me lo hi => visit_bounds b c k me lo hi
  | GetGroups c cols => visit_groups b c cols
  | SuppressAggregates c col th =>                                             (* 1640-1657 *)
      let* _ := sch q in
      let* x := measure_query b c in
      Ok (MSuppress (fst x) col th, snd x)
  | _ => Err NotImplementedError
  end.

(** QueryExprCompiler.__call__, _compiler.py 115-178. *)
Definition compile (b : budget) (q : query) : res measurement :=
  let* _ := sch q in
  let* q := rewrite auto (w_cond_ok W) mu cat q in
  let* x := measure_query b q in
  let* _ := raise_if (mismatch (privacy_loss (fst x)) (snd x)) InternalError in
  Ok (fst x).

(** ** Running *)

(** The rows with a key. *)
Definition group (cols : list string) (key : rec) (t : table) : table := filter (matches cols key) t.
(** budget.epsilon, budget.delta: an int or the nearest float. *)
Definition positive (x : xq) : bool := plt (Budget.PInt 0) (to_int_or_float R x).
Definition is_zero (x : xq) : bool :=
  match pynum_x (to_int_or_float R x) with Some y => xeqb y (XFin 0) | None => false end.
(** _build_get_keyset_measurement, 757-847, and its result: the keys. *)
Definition find_keys (g : plan) : res table :=
  match g_keys g with
  | KCols cols =>
      match g_keys_budget g with
      | Approx e d =>
          let* _ := raise_if (negb (positive e && positive d)) InternalError in
          let* y := visit_select cols (g_table g, []) in
          let* _ := k_groups_builds K (fst y) (g_keys_budget g) in
          Ok (k_select K (g_keys_budget g) (v_rows (fst y)))
      | _ => Err InternalError
      end
  | KSet cols rows =>
      let* _ := raise_if (negb (match g_keys_budget g with
                                | Pure e => is_zero e
                                | Approx e d => is_zero e && is_zero d
                                | Zcdp r => is_zero r end)) InternalError in
      (* a key set without columns stands for one group with all rows *)
      Ok (match dkeys cols with [] => [[]] | _ => rows end)
  end.
(** A query to the adaptive composition: refused when not enough is left (tmlt.core). *)
Definition ask (left b : budget) : res budget :=
  match spend left b with Some rest => Ok rest | None => Err RuntimeError end.
(** perform_groupby_agg, 460-480. *)
Definition run_plan (total : budget) (g : plan) : res table :=
  let* keys := find_keys g in
  let* left := ask total (g_keys_budget g) in
  let* _ := ask left (g_budget g) in
  Ok (map (fun key => (key ++ combine (g_outs g) (k_answer K g key (group (keys_columns (g_keys g)) key (v_rows (g_table g)))))%list) keys).
(** df[column] >= threshold in Spark, for numbers; null compares as null. *)
Definition at_least (th : Query.pynum) (v : value) : bool :=
  match v, th with
  | VInt z, Query.PInt n => (n <=? z)%Z
  | VInt z, Query.PFloat f => fnum_ge (z_to_f z) f
  | VFloat FNan, _ => true
  | VFloat x, _ => fnum_ge x (Query.to_float th)
  | _, _ => false
  end.
Fixpoint run_measurement (m : measurement) : res table :=
  match m with
  | MGroupBy total g => run_plan total g
  | MGroups t cols b => Ok (k_select K b (v_rows t))
  | MSuppress m col th => let* t := run_measurement m in Ok (filter (fun r => at_least th (getv col r)) t)
  end.

(** The number a count or count-distinct plan adds noise to, for one key.  Rows are distinct
    if they differ in some column of the table. *)
Definition cells (cols : list string) (r : rec) : list value := map (fun c => getv c r) cols.
Definition counted (g : plan) (key : rec) : nat :=
  let rows := group (keys_columns (g_keys g)) key (v_rows (g_table g)) in
  match g_agg g with
  | ACountDistinct => length (nodup (list_eq_dec value_eq_dec) (map (cells (dkeys (v_dom (g_table g)))) rows))
  | _ => length rows
  end.
End Measure.
