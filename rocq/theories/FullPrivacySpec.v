(** Specification vocabulary for the privacy guarantee of a session over all protected
    changes: how far tables are apart, how queries multiply that, and what is tracked about
    the tables of a session. *)
From Coq Require Import String Bool Arith ZArith QArith Qcanon Lia Permutation List.
From Verif Require Import Prelude Budget BudgetProofs Value Rows Constraints ConstraintsSpec ConstraintsStab Schema SchemaProofs Query Transform TransformSpec StabilitySpec.
Import ListNotations.
Local Open Scope string_scope.
Local Open Scope nat_scope.

(** ** Distances of tables *)
(** Distances are counted in rows; under zCDP ([rho]) they are squared, so that the privacy
    loss of a fixed mechanism is proportional to the distance under every definition.  A table
    grouped under the L2 norm is measured by the sum over its groups of the squared numbers of
    rows. *)
Definition measured_distance (rho : bool) (p : place) (a b : table) : nat :=
  if rho then distance_squared p a b else row_distance a b.
Definition times (rho : bool) (k : nat) : nat := if rho then k * k else k.
(** Apart by no more than the share [f] of the distance [N]. *)
Definition portion (f : Q) (n N : nat) : Prop := (inject_Z (Z.of_nat n) <= f * inject_Z (Z.of_nat N))%Q.
Definition within (rho : bool) (f : Q) (N : nat) (p : place) (a b : table) : Prop :=
  portion f (measured_distance rho p a b) N.

(** ** How queries multiply distances *)
Section Reach.
Variable rho : bool.
Variables (W : world) (l2 : bool) (cat : catalog) (data : dict vtab).
(** The distance that is tracked for each private table. *)
Variable nm : string -> nat.

(** The largest number of rows made from one row by a public join. *)
Definition join_factor (c : query) (p : pubtable) (on : option (list string)) (how : string) : nat :=
  match (let* x := visit W l2 cat data c in
         let* f := public_frame cat p in
         let* pd := spark_schema_to_analytics_columns (sd_fields f) in
         Ok (public_stability (join_columns on (v_dom (fst x)) (map (fun e => (fst e, to_core (snd e))) pd)) (frame_rows f))) with
  | Ok k => if String.eqb how "left" then Nat.max 1 k else k
  | Err _ => 0
  end.
(** tmlt.core's stability functions of the transformations that the visitor (Transform.v)
    builds for tables without IDs.  Simplification: under zCDP core adds the distances of the
    two sides of a private join as roots; the root is rounded up to a whole number here. *)
Definition linear (n : nat) : nat := if rho then Nat.sqrt_up n else n.
Fixpoint reach (q : query) : nat :=
  match q with
  | PrivateSource n => nm n
  | FlatMap c _ new _ (Some z) =>
      (if rho && l2 && is_some (sc_group new) then Z.to_nat z else times rho (Z.to_nat z)) * reach c
  | JoinPrivate l r (Some sl) (Some sr) _ =>
      times rho (threshold sr * stability sl * linear (reach l) + threshold sl * stability sr * linear (reach r))
  | JoinPublic c p on how => times rho (join_factor c p on how) * reach c
  | Rename c _ | Filter c _ | Select c _ | MapQ c _ _ _ | ReplaceNullAndNan c _ | ReplaceInfinity c _
  | DropNullAndNan c _ | DropInfinity c _ | EnforceConstraint c _ => reach c
  | _ => 0
  end.
End Reach.

(** What users promise about grouping columns, under zCDP:
    - the rows that a grouping flat map makes from one row are in different groups (the
      documentation of QueryBuilder.flat_map asks for it, query_builder.py 1344-1348);
    - the grouping column holds no infinity where ReplaceInfinity is used without naming
      columns (it then replaces infinities in every float column). *)
Section Groups.
Variables (W : world) (l2 : bool) (cat : catalog) (data : dict vtab).
Fixpoint groups_kept (q : query) : Prop :=
  match q with
  | PrivateSource _ => True
  | FlatMap c f new aug mr =>
      groups_kept c
      /\ forall t cs g z r, l2 = true -> visit W l2 cat data c = Ok (t, cs) -> sc_group new = Some g -> mr = Some z -> In r (v_rows t) ->
           NoDup (map (getv g) (flat_map_row f new aug (Some (Z.to_nat z)) r))
  | ReplaceInfinity c rw =>
      groups_kept c
      /\ (rw = [] -> forall t cs g r, visit W l2 cat data c = Ok (t, cs) -> v_place t = PGrouped g true -> In r (v_rows t) ->
            is_inf (getv g r) = false)
  | JoinPrivate l r _ _ _ => groups_kept l /\ groups_kept r
  | GetGroups c _ | GetBounds c _ _ _ _ | Rename c _ | Filter c _ | Select c _ | MapQ c _ _ _
  | FlatMapByID c _ _ | JoinPublic c _ _ _ | ReplaceNullAndNan c _
  | DropNullAndNan c _ | DropInfinity c _ | EnforceConstraint c _
  | GroupByCount c _ _ _ _ | GroupByCountDistinct c _ _ _ _ _ | GroupByQuantile c _ _ _ _ _ _
  | GroupByBounded _ c _ _ _ _ _ _ _ | SuppressAggregates c _ _ => groups_kept c
  end.
End Groups.
