(** What rewriting may do to a query. *)
From Coq Require Import String Bool Arith ZArith QArith Qcanon Lia List.
From Verif Require Import Prelude Value Rows Constraints Schema Query Transform.
Import ListNotations.
Local Open Scope string_scope.
Local Open Scope nat_scope.

(** The queries directly below a query. *)
Definition below (q : query) : list query :=
  match q with
  | PrivateSource _ => []
  | JoinPrivate l r _ _ _ => [l; r]
  | GetGroups c _ | GetBounds c _ _ _ _ | Rename c _ | Filter c _ | Select c _ | MapQ c _ _ _
  | FlatMap c _ _ _ _ | FlatMapByID c _ _ | JoinPublic c _ _ _ | ReplaceNullAndNan c _
  | ReplaceInfinity c _ | DropNullAndNan c _ | DropInfinity c _ | EnforceConstraint c _
  | GroupByCount c _ _ _ _ | GroupByCountDistinct c _ _ _ _ _ | GroupByQuantile c _ _ _ _ _ _
  | GroupByBounded _ c _ _ _ _ _ _ _ | SuppressAggregates c _ _ => [c]
  end.
(** A property of every node of a query. *)
Inductive everywhere (P : query -> Prop) : query -> Prop :=
| Everywhere q : P q -> (forall c, In c (below q) -> everywhere P c) -> everywhere P q.

(** A schema that the Schema class accepts. *)
Definition made (s : schema) : Prop := mk_schema (sc_cols s) (sc_group s) (sc_id s) (sc_space s) = Ok s.
Definition catalog_made (cat : catalog) : Prop :=
  (forall n s cs, dget n (cat_private cat) = Some (s, cs) -> made s).

Section Spec.
Variable cond_ok : string -> list sfield -> bool.
Variable mu : measure.
Variable cat : catalog.
Notation sch := (schema_of cond_ok cat).

(** *** Special values *)
(** Steps put between an aggregation and its child: one that drops nulls and NaNs from the
    measure column if the child's schema says there may be some, then one that clamps
    infinities to the bounds (or drops them, for get_bounds, which has no bounds) if the
    schema says there may be some. *)
Definition may_be_missing (d : coldesc) : Prop := cd_null d = true \/ (cd_type d = DECIMAL /\ cd_nan d = true).
Definition may_be_infinite (d : coldesc) : Prop := cd_type d = DECIMAL /\ cd_inf d = true.
Definition without_infinities (m : string) (bounds : option (pynum * pynum)) (c : query) : query :=
  match bounds with
  | None => DropInfinity c [m]
  | Some (lo, hi) => ReplaceInfinity c [(m, (to_float lo, to_float hi))]
  end.
Definition cleaned (m : string) (bounds : option (pynum * pynum)) (c c' : query) : Prop :=
  exists s d c1, sch c = Ok s /\ dget m (sc_cols s) = Some d
    /\ (may_be_missing d /\ c1 = DropNullAndNan c [m] \/ ~ may_be_missing d /\ c1 = c)
    /\ (may_be_infinite d /\ c' = without_infinities m bounds c1 \/ ~ may_be_infinite d /\ c' = c1).

(** *** The same query, but for the concrete mechanisms and those steps *)
Inductive rewritten : query -> query -> Prop :=
| RwSource n : rewritten (PrivateSource n) (PrivateSource n)
| RwGetGroups c c' l : rewritten c c' -> rewritten (GetGroups c l) (GetGroups c' l)
| RwRename c c' m : rewritten c c' -> rewritten (Rename c m) (Rename c' m)
| RwFilter c c' s : rewritten c c' -> rewritten (Filter c s) (Filter c' s)
| RwSelect c c' l : rewritten c c' -> rewritten (Select c l) (Select c' l)
| RwMap c c' f n a : rewritten c c' -> rewritten (MapQ c f n a) (MapQ c' f n a)
| RwFlatMap c c' f n a mr : rewritten c c' -> rewritten (FlatMap c f n a mr) (FlatMap c' f n a mr)
| RwFlatMapByID c c' f n : rewritten c c' -> rewritten (FlatMapByID c f n) (FlatMapByID c' f n)
| RwJoinPublic c c' p on how : rewritten c c' -> rewritten (JoinPublic c p on how) (JoinPublic c' p on how)
| RwReplaceNull c c' rw : rewritten c c' -> rewritten (ReplaceNullAndNan c rw) (ReplaceNullAndNan c' rw)
| RwReplaceInf c c' rw : rewritten c c' -> rewritten (ReplaceInfinity c rw) (ReplaceInfinity c' rw)
| RwDropNull c c' l : rewritten c c' -> rewritten (DropNullAndNan c l) (DropNullAndNan c' l)
| RwDropInf c c' l : rewritten c c' -> rewritten (DropInfinity c l) (DropInfinity c' l)
| RwEnforce c c' k : rewritten c c' -> rewritten (EnforceConstraint c k) (EnforceConstraint c' k)
| RwSuppress c c' l t : rewritten c c' -> rewritten (SuppressAggregates c l t) (SuppressAggregates c' l t)
| RwJoinPrivate l l' r r' tl tr on : rewritten l l' -> rewritten r r' ->
    rewritten (JoinPrivate l r tl tr on) (JoinPrivate l' r' tl tr on)
| RwCount c c' k o m co co' : rewritten c c' -> rewritten (GroupByCount c k o m co) (GroupByCount c' k o m co')
| RwCountDistinct c c' k l o m co co' : rewritten c c' ->
    rewritten (GroupByCountDistinct c k l o m co) (GroupByCountDistinct c' k l o m co')
| RwGetBounds c c' c2 k m a b : rewritten c c' -> cleaned m None c' c2 ->
    rewritten (GetBounds c k m a b) (GetBounds c2 k m a b)
| RwQuantile c c' c2 k m qu lo hi o : rewritten c c' -> cleaned m (Some (lo, hi)) c' c2 ->
    rewritten (GroupByQuantile c k m qu lo hi o) (GroupByQuantile c2 k m qu lo hi o)
| RwBounded kd c c' c2 k m lo hi o me co co' : rewritten c c' -> cleaned m (Some (lo, hi)) c' c2 ->
    rewritten (GroupByBounded kd c k m lo hi o me co) (GroupByBounded kd c2 k m lo hi o me co').

(** *** Nothing left to do *)
(** The measure column of an aggregation, with the query it is a column of. *)
Definition measure_of (q : query) : option (query * string) :=
  match q with
  | GetBounds c _ m _ _ | GroupByQuantile c _ m _ _ _ _ | GroupByBounded _ c _ m _ _ _ _ _ => Some (c, m)
  | _ => None
  end.
(** If the node aggregates a measure column, that column has no special values according
    to the schema. *)
Definition clean_measure (q : query) : Prop :=
  forall c m, measure_of q = Some (c, m) ->
    exists s d, sch c = Ok s /\ dget m (sc_cols s) = Some d /\ ~ may_be_missing d /\ ~ may_be_infinite d.

(** The mechanism asked for and the concrete one, with the kind of numbers they are for. *)
Definition integer_noise (x : coremech) : Prop := x = CGeometric \/ x = CDiscreteGaussian.
Definition gaussian_noise (x : coremech) : Prop := x = CGaussian \/ x = CDiscreteGaussian.
(** - integer noise for integers, and only then;
    - Gaussian noise exactly when asked for, or by default under zCDP;
    - Gaussian noise only under zCDP. *)
Definition right_noise (asked : mech) (integers : Prop) (x : coremech) : Prop :=
  (integer_noise x <-> integers)
  /\ (gaussian_noise x <-> asked = MGaussian \/ (asked = MDefault /\ mu = RhoZCDP))
  /\ (gaussian_noise x -> mu = RhoZCDP).
Definition right_mechanism (q : query) : Prop :=
  match q with
  | GroupByCount _ _ _ m co | GroupByCountDistinct _ _ _ _ m co =>
      exists x, co = Some x /\ right_noise m True x
  | GroupByBounded _ c _ me _ _ _ m co =>
      exists x s d, co = Some x /\ sch c = Ok s /\ dget me (sc_cols s) = Some d
        /\ right_noise m (cd_type d = INTEGER) x
  | _ => True
  end.

(** *** When a query can be rewritten *)
Definition bounds_of (q : query) : option (pynum * pynum) :=
  match q with
  | GroupByQuantile _ _ _ _ lo hi _ | GroupByBounded _ _ _ _ lo hi _ _ _ => Some (lo, hi)
  | _ => None
  end.
Definition asked_mechanism (q : query) : option mech :=
  match q with
  | GroupByCount _ _ _ m _ | GroupByCountDistinct _ _ _ _ m _ | GroupByBounded _ _ _ _ _ _ _ m _ => Some m
  | _ => None
  end.
Definition finite_number (x : pynum) : Prop := match x with PInt _ => True | PFloat f => exists v, f = FFin v end.
(** Gaussian noise is asked for only under zCDP. *)
Definition noise_available (q : query) : Prop := asked_mechanism q = Some MGaussian -> mu = RhoZCDP.
(** Infinite values have somewhere to go. *)
Definition clampable (q : query) : Prop :=
  forall c m s d lo hi, measure_of q = Some (c, m) -> bounds_of q = Some (lo, hi) ->
    sch c = Ok s -> dget m (sc_cols s) = Some d -> may_be_infinite d -> finite_number lo /\ finite_number hi.
End Spec.

(** *** Rows *)
Definition is_missing (v : value) : Prop := v = VNull \/ v = VFloat FNan.
Definition is_infinite (v : value) : Prop := v = VFloat FPInf \/ v = VFloat FNInf.
(** A row before the aggregation: dropped if the measure is null or NaN; an infinite measure
    is moved to the nearest bound, or the row dropped if there are no bounds; otherwise it
    is left alone. *)
Definition set_cell (m : string) (v : value) (r : rec) : rec :=
  map (fun p => if String.eqb (fst p) m then (fst p, v) else p) r.
Definition clean_row (m : string) (bounds : option (pynum * pynum)) (r : rec) : list rec :=
  match getv m r with
  | VNull | VFloat FNan => []
  | VFloat FPInf => match bounds with Some (_, hi) => [set_cell m (VFloat (to_float hi)) r] | None => [] end
  | VFloat FNInf => match bounds with Some (lo, _) => [set_cell m (VFloat (to_float lo)) r] | None => [] end
  | _ => [r]
  end.
