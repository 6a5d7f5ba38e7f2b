(** Specification vocabulary for how much one person can change what an aggregation reads. *)
From Coq Require Import String Bool Arith ZArith QArith Qcanon Lia Permutation List.
From Verif Require Import Prelude Budget Value Rows Constraints ConstraintsSpec ConstraintsStab Schema Query Transform TransformSpec Measure MeasureProofs MeasureCount.
Import ListNotations.
Local Open Scope string_scope.
Local Open Scope nat_scope.

(** All IDs but one. *)
Definition everyone_but (j : value) (v : value) : bool := negb (value_eqb v j).

(** ** The parts of an aggregation query *)
(** What is aggregated. *)
Fixpoint agg_child (q : query) : query :=
  match q with
  | GroupByCount c _ _ _ _ | GroupByCountDistinct c _ _ _ _ _ | GroupByQuantile c _ _ _ _ _ _ | GroupByBounded _ c _ _ _ _ _ _ _
  | GetBounds c _ _ _ _ | GetGroups c _ => c
  | SuppressAggregates c _ _ => agg_child c
  | _ => q
  end.
(** The columns it is grouped by. *)
Fixpoint agg_columns (q : query) : list string :=
  match q with
  | GroupByCount _ k _ _ _ | GroupByCountDistinct _ k _ _ _ _ | GroupByQuantile _ k _ _ _ _ _ | GroupByBounded _ _ k _ _ _ _ _ _
  | GetBounds _ k _ _ _ => keys_columns k
  | SuppressAggregates c _ _ => agg_columns c
  | _ => []
  end.
(** Whether Gaussian noise is asked for. *)
Fixpoint agg_gaussian (mu : measure) (q : query) : bool :=
  match q with
  | GroupByCount _ _ _ m _ | GroupByCountDistinct _ _ _ _ m _ | GroupByBounded _ _ _ _ _ _ _ m _ => asks_gaussian mu m
  | GroupByQuantile _ _ _ _ _ _ _ => match mu with RhoZCDP => true | _ => false end
  | SuppressAggregates c _ _ => agg_gaussian mu c
  | _ => false
  end.
(** The steps the library itself puts between an aggregation and its child: special values
    of the measure column, and the limit of one row per ID (in total, or in each group) of an
    optimised count of distinct IDs. *)
Inductive prepared : query -> query -> Prop :=
| PrSame c : prepared c c
| PrNull c c' m : prepared c c' -> prepared c (DropNullAndNan c' [m])
| PrInf c c' m : prepared c c' -> prepared c (DropInfinity c' [m])
| PrClamp c c' m lo hi : prepared c c' -> prepared c (ReplaceInfinity c' [(m, (lo, hi))])
| PrOne c c' : prepared c c' -> prepared c (EnforceConstraint c' (MaxRowsPerID 1))
| PrOneIn c c' g : prepared c c' -> prepared c (EnforceConstraint c' (MaxRowsPerGroupPerID g 1)).

(** ** The table a measurement reads *)
Fixpoint table_of (m : measurement) : vtab :=
  match m with MGroupBy _ g => g_table g | MGroups t _ _ => t | MSuppress m _ _ => table_of m end.

(** [t] and [t'] are read by two measurements of a query grouped by [gr]: they are obtained
    row by row, and without changing the grouping columns, from two truncated tables that
    are at most [n] times the stability of the truncation apart, in the metric the noise is
    calibrated to.  The truncation is the one chosen for the constraints [cs]. *)
Definition apart_at_most (so : list string -> list string) (mu : measure) (n : nat) (gr : list string) (cs : list constraint) (t t' : vtab) : Prop :=
  exists tr place a a' f, choose_trunc so mu gr cs = Some tr
    /\ distance_squared place a a' <= n * n * stability_squared mu gr tr
    /\ place = match tr with TRows _ => PSym | TGroups g _ _ => PGrouped g (match mu with RhoZCDP => smem g gr | _ => false end) end
    /\ v_rows t = map f a /\ v_rows t' = map f a' /\ forall g r, In g gr -> getv g (f r) = getv g r.
