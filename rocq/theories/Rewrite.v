(** Query rewriting before compilation.  Models
    _query_expr_compiler/_rewrite_rules.py. *)
From Coq Require Import String Bool Arith ZArith QArith Qcanon Lia List.
From Verif Require Import Prelude Value Rows Constraints Schema Query.
Import ListNotations.
Local Open Scope string_scope.
Local Open Scope nat_scope.

Section Rewrite.
(** The state of the auto_partition_selection feature flag, checked by the constructors. *)
Variable auto : bool.
Variable cond_ok : string -> list sfield -> bool.
(** CompilationInfo, 46-55. *)
Variable mu : measure.
Variable cat : catalog.
Notation sch := (schema_of cond_ok cat).

(** depth_first, 58-90.  [dataclasses.replace] runs the constructor's checks again. *)
Section DepthFirst.
Variable func : query -> res query.
Definition remade (q : query) : res query := let* q' := post_init auto q in func q'.
Fixpoint depth_first (q : query) : res query :=
  match q with
  | PrivateSource _ => func q
  | SuppressAggregates c l t =>
      let* c := depth_first c in
      let* _ := raise_if (negb (is_groupby_count c)) InternalError in
      remade (SuppressAggregates c l t)
  | GetGroups c l => let* c := depth_first c in remade (GetGroups c l)
  | GetBounds c k m a b => let* c := depth_first c in remade (GetBounds c k m a b)
  | Rename c m => let* c := depth_first c in remade (Rename c m)
  | Filter c s => let* c := depth_first c in remade (Filter c s)
  | Select c l => let* c := depth_first c in remade (Select c l)
  | MapQ c f n a => let* c := depth_first c in remade (MapQ c f n a)
  | FlatMap c f n a mr => let* c := depth_first c in remade (FlatMap c f n a mr)
  | FlatMapByID c f n => let* c := depth_first c in remade (FlatMapByID c f n)
  | JoinPublic c p on how => let* c := depth_first c in remade (JoinPublic c p on how)
  | ReplaceNullAndNan c rw => let* c := depth_first c in remade (ReplaceNullAndNan c rw)
  | ReplaceInfinity c rw => let* c := depth_first c in remade (ReplaceInfinity c rw)
  | DropNullAndNan c l => let* c := depth_first c in remade (DropNullAndNan c l)
  | DropInfinity c l => let* c := depth_first c in remade (DropInfinity c l)
  | EnforceConstraint c k => let* c := depth_first c in remade (EnforceConstraint c k)
  | GroupByCount c k o m co => let* c := depth_first c in remade (GroupByCount c k o m co)
  | GroupByCountDistinct c k l o m co => let* c := depth_first c in remade (GroupByCountDistinct c k l o m co)
  | GroupByQuantile c k m qu a b o => let* c := depth_first c in remade (GroupByQuantile c k m qu a b o)
  | GroupByBounded kd c k m a b o me co => let* c := depth_first c in remade (GroupByBounded kd c k m a b o me co)
  | JoinPrivate l r tl tr on =>
      let* l := depth_first l in let* r := depth_first r in remade (JoinPrivate l r tl tr on)
  end.
End DepthFirst.

(** select_noise_for_count, 96-125. *)
Definition count_noise (m : mech) : res coremech :=
  match m with
  | MDefault => Ok (match mu with PureDP | ApproxDP => CGeometric | RhoZCDP => CDiscreteGaussian end)
  | MLaplace => Ok CGeometric
  | MGaussian => match mu with RhoZCDP => Ok CDiscreteGaussian | _ => Err ValueError end
  end.
(** select_noise_for_non_count, 127-186; [t] is the type of the measure column. *)
Definition other_noise (m : mech) (t : ctype) : res coremech :=
  let* c := match m with
            | MDefault => Ok (match mu with PureDP | ApproxDP => CLaplace | RhoZCDP => CGaussian end)
            | MLaplace => Ok CLaplace
            | MGaussian => match mu with RhoZCDP => Ok CGaussian | _ => Err ValueError end
            end in
  Ok (if ctype_eqb t INTEGER then match c with CLaplace => CGeometric | _ => CDiscreteGaussian end else c).

(** select_noise, 188-205. *)
Definition select_noise (q : query) : res query :=
  match q with
  | GroupByCount c k o m _ => let* x := count_noise m in post_init auto (GroupByCount c k o m (Some x))
  | GroupByCountDistinct c k l o m _ =>
      let* x := count_noise m in post_init auto (GroupByCountDistinct c k l o m (Some x))
  | GroupByBounded kd c k me lo hi o m _ =>
      (* the mechanism is looked up first, then the schema (167-175) *)
      let* _ := other_noise m INTEGER in
      let* s := sch c in
      let* d := lookup_col (sc_cols s) me in
      let* x := other_noise m (cd_type d) in
      post_init auto (GroupByBounded kd c k me lo hi o m (Some x))
  | _ => Ok q
  end.

(** The measure column of an aggregation that has one, its child and, except for
    GetBounds, the clamping bounds. *)
Definition measured (q : query) : option (query * string * option (pynum * pynum)) :=
  match q with
  | GetBounds c _ m _ _ => Some (c, m, None)
  | GroupByQuantile c _ m _ lo hi _ => Some (c, m, Some (lo, hi))
  | GroupByBounded _ c _ m lo hi _ _ _ => Some (c, m, Some (lo, hi))
  | _ => None
  end.
(** replace(expr, child=c) on those. *)
Definition with_child (q c : query) : query :=
  match q with
  | GetBounds _ k m a b => GetBounds c k m a b
  | GroupByQuantile _ k m qu a b o => GroupByQuantile c k m qu a b o
  | GroupByBounded kd _ k m a b o me co => GroupByBounded kd c k m a b o me co
  | _ => q
  end.

(** handle_special_values, 221-264. *)
Definition handle_special_values (q : query) : res query :=
  match measured q with
  | None => Ok q
  | Some (c, m, bounds) =>
      let* s := sch c in
      let* d := lookup_col (sc_cols s) m in
      let drop := cd_null d || (is_decimal d && cd_nan d) in
      let* q1 := if drop
                 then let* c1 := post_init auto (DropNullAndNan c [m]) in post_init auto (with_child q c1)
                 else Ok q in
      let c1 := if drop then DropNullAndNan c [m] else c in
      if is_decimal d && cd_inf d then
        let* c2 := post_init auto
                     (match bounds with
                      | None => DropInfinity c1 [m]
                      | Some (lo, hi) => ReplaceInfinity c1 [(m, (to_float lo, to_float hi))]
                      end) in
        post_init auto (with_child q1 c2)
      else Ok q1
  end.

(** rewrite, 269-277. *)
Definition rewrite (q : query) : res query :=
  let* q1 := depth_first handle_special_values q in
  depth_first select_noise q1.
End Rewrite.
