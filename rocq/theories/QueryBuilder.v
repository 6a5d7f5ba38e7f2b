(** Building queries: QueryBuilder, GroupedQueryBuilder and Query objects, and what the
    calls on them do.  Models query_builder.py.

    Builders are mutable objects, so there is a state with all objects made so far; a call
    names objects by their position.  Query expressions are immutable (frozen dataclasses)
    and appear as values.  Not modelled: typeguard's checks of argument types, docstrings.
    config.features.auto_partition_selection is part of the state, as it can be switched at
    any time. *)
From Coq Require Import String Ascii Bool Arith ZArith QArith Qcanon Lia List.
From Verif Require Import Prelude Value Rows Constraints Schema Query QueryEq.
From Verif Require KeySet.
Import ListNotations.
Local Open Scope string_scope.
Local Open Scope nat_scope.

(** *** Arguments *)

(** columns: Optional[List[str] | str] (drop_null_and_nan 858-864, drop_infinity 950-954,
    get_groups 1781-1785, count_distinct 2961-2964); select (1132-1137) takes no None. *)
Inductive colsarg : Type := CNone | CStr (s : string) | CList (l : list string).
Definition columns_of (a : colsarg) : list string :=
  match a with CNone => [] | CStr s => [s] | CList l => l end.

(** join_columns: Optional[Sequence[str]].  tuple() of a string has its characters (457, 591). *)
Inductive seqarg : Type := SNone | SString (s : string) | SList (l : list string).
Definition characters (s : string) : list string := map (fun c => String c EmptyString) (list_ascii_of_string s).
Definition join_columns_of (a : seqarg) : option (list string) :=
  match a with SNone => None | SString s => Some (characters s) | SList l => Some l end.

(** mechanism: a member of the enumeration or its name (2879-2886, 2970-2977, 3381-3388,
    3488-3495, 3596-3603, 3703-3710); str.upper() on ASCII letters. *)
Inductive mecharg : Type := MechName (s : string) | Mech (m : mech).
Definition upper_char (c : ascii) : ascii :=
  let n := nat_of_ascii c in if (97 <=? n) && (n <=? 122) then ascii_of_nat (n - 32) else c.
Fixpoint upper (s : string) : string :=
  match s with EmptyString => EmptyString | String c r => String (upper_char c) (upper r) end.
Definition mech_of (a : mecharg) : res mech :=
  match a with
  | Mech m => Ok m
  | MechName s =>
      if String.eqb (upper s) "DEFAULT" then Ok MDefault
      else if String.eqb (upper s) "LAPLACE" then Ok MLaplace
      else if String.eqb (upper s) "GAUSSIAN" then Ok MGaussian
      else Err ValueError
  end.

(** "if name is None" (2877, 3059, 3379, ...) and "if not name" (1659, 2965, 3144, ...). *)
Definition if_none (name : option string) (default : string) : string :=
  match name with None => default | Some n => n end.
Definition if_not (name : option string) (default : string) : string :=
  match name with None | Some "" => default | Some n => n end.

(** What a builder uses of a BinningSpec: calling it, bins(), column_descriptor. *)
Record binning : Type := { bn_call : value -> value; bn_bins : list value; bn_desc : coldesc }.

(** by: Union[KeySet, List[str], str]; a KeySet is given by its schema and rows. *)
Inductive byarg : Type := BySet (cols : dict coldesc) (rows : table) | ByName (s : string) | ByList (l : list string).

(** *** Calls *)

(** Methods of QueryBuilder that return the builder itself. *)
Inductive change : Type :=
| ChJoinPublic (p : pubtable) (on : seqarg) (how : string)
| ChJoinPrivate (operand : nat + string) (tl tr : option strategy) (on : seqarg)
| ChReplaceNull (rw : option (dict value))
| ChReplaceInf (rw : option (dict (fnum * fnum)))
| ChDropNull (cols : colsarg)
| ChDropInf (cols : colsarg)
| ChRename (m : dict string)
| ChFilter (condition : string)
| ChSelect (cols : colsarg)
| ChMap (f : rec -> rec) (types : dict rawdesc) (augment : bool)
| ChFlatMap (f : rec -> list rec) (types : dict rawdesc) (augment grouping : bool) (max_rows : option Z)
| ChFlatMapByID (f : list rec -> list rec) (types : dict rawdesc)
| ChBin (column : string) (spec : binning) (name : option string)
| ChEnforce (c : constraint).

(** Aggregations, with the parameters they have both on QueryBuilder and GroupedQueryBuilder. *)
Inductive aggcall : Type :=
| UCount (name : option string) (m : mecharg)
| UCountDistinct (cols : colsarg) (name : option string) (m : mecharg)
| UQuantile (column : string) (quantile : pynum) (low high : pynum) (name : option string)
| UMin (column : string) (low high : pynum) (name : option string)
| UMax (column : string) (low high : pynum) (name : option string)
| UMedian (column : string) (low high : pynum) (name : option string)
| UBounded (kd : bkind) (column : string) (low high : pynum) (name : option string) (m : mecharg)
| UBounds (column : string) (lower upper : option string).

Inductive call : Type :=
| New (source : string)                                   (* QueryBuilder(source) *)
| Clone (b : nat)                                         (* b.clone() *)
| Change (b : nat) (c : change)
| GetGroupsOf (b : nat) (cols : colsarg)                  (* b.get_groups(cols) *)
| Total (b : nat) (a : aggcall)                           (* b.count(), b.sum(...), ... *)
| Histogram (b : nat) (column : string) (spec : res binning) (name : option string)
| GroupBy (b : nat) (keys : byarg)                        (* b.groupby(by) *)
| Aggregate (g : nat) (a : aggcall)                       (* g.count(), ... *)
| Suppress (q : nat) (threshold : pynum)                  (* q.suppress(threshold) *)
| SetAuto (on : bool).                                    (* config.features.auto_partition_selection *)

(** *** Objects *)
Record builder : Type := { bu_source : string; bu_expr : query }.
Record grouped : Type := { gr_source : string; gr_expr : query; gr_keys : gkeys }.
(** A Query; [q_suppress] if it is a GroupbyCountQuery, which has the method suppress. *)
Record queryobj : Type := { q_suppress : bool; q_expr : query }.
Record state : Type := {
  st_builders : list builder;
  st_groups : list grouped;
  st_queries : list queryobj;
  st_auto : bool
}.
Definition init (auto : bool) : state :=
  {| st_builders := []; st_groups := []; st_queries := []; st_auto := auto |}.

Definition with_builders (st : state) (l : list builder) : state :=
  {| st_builders := l; st_groups := st_groups st; st_queries := st_queries st; st_auto := st_auto st |}.
Definition add_group (st : state) (g : grouped) : state :=
  {| st_builders := st_builders st; st_groups := (st_groups st ++ [g])%list; st_queries := st_queries st; st_auto := st_auto st |}.
Definition add_query (st : state) (q : queryobj) : state :=
  {| st_builders := st_builders st; st_groups := st_groups st; st_queries := (st_queries st ++ [q])%list; st_auto := st_auto st |}.
Fixpoint replace {A} (l : list A) (i : nat) (x : A) : list A :=
  match l, i with
  | [], _ => []
  | _ :: r, O => x :: r
  | y :: r, S j => y :: replace r j x
  end.
(** An object that does not exist cannot be called. *)
Definition object {A} (l : list A) (i : nat) : res A :=
  match nth_error l i with Some x => Ok x | None => Err IndexError end.

Section Build.
(** The data frames behind KeySets; f"{x}" of a number. *)
Variable KW : KeySet.world.
Variable show : pynum -> string.

(** QueryBuilder.__init__, 283-290. *)
Definition new_builder (auto : bool) (s : string) : res builder :=
  let* e := post_init auto (PrivateSource s) in Ok {| bu_source := s; bu_expr := e |}.

(** Schema(dict(new_column_types), grouping_column, default_allow_...=True): map 1230-1236,
    flat_map 1367-1373, flat_map_by_id 1481-1486. *)
Definition new_columns_schema (types : dict rawdesc) (group : option string) : res schema :=
  Schema_init types group None None true true true.
(** map, 1227-1238. *)
Definition map_expr (auto : bool) (e : query) (f : rec -> rec) (types : dict rawdesc) (augment : bool) : res query :=
  let* s := new_columns_schema types None in post_init auto (MapQ e f s augment).
(** bin_column, 1581-1588: a map with the function row -> {name: spec(row[column])}.  (If
    there is no such column, reading the rows raises a KeyError; here the cell is null.) *)
Definition binning_fn (column : string) (spec : binning) (name : string) : rec -> rec :=
  fun row => [(name, bn_call spec (getv column row))].
Definition bin_expr (auto : bool) (e : query) (column : string) (spec : binning) (name : option string) : res query :=
  let n := if_none name (column ++ "_binned") in
  map_expr auto e (binning_fn column spec n) [(n, RDesc (bn_desc spec))] true.

(** The new expression of a builder with expression [e]. *)
Definition changed (st : state) (e : query) (c : change) : res query :=
  let auto := st_auto st in
  match c with
  | ChJoinPublic p on how => post_init auto (JoinPublic e p (join_columns_of on) how)          (* 454-459 *)
  | ChJoinPrivate operand tl tr on =>                                                            (* 584-592 *)
      let* r := match operand with
                | inl b => object (st_builders st) b
                | inr name => new_builder auto name
                end in
      post_init auto (JoinPrivate e (bu_expr r) tl tr (join_columns_of on))
  | ChReplaceNull rw => post_init auto (ReplaceNullAndNan e (match rw with None => [] | Some d => d end)) (* 674-682 *)
  | ChReplaceInf rw => post_init auto (ReplaceInfinity e (match rw with None => [] | Some d => d end))    (* 751-757 *)
  | ChDropNull cols => post_init auto (DropNullAndNan e (columns_of cols))                     (* 858-864 *)
  | ChDropInf cols => post_init auto (DropInfinity e (columns_of cols))                        (* 950-954 *)
  | ChRename m => post_init auto (Rename e m)                                                  (* 1010-1013 *)
  | ChFilter cond => post_init auto (Filter e cond)                                            (* 1082 *)
  | ChSelect cols => post_init auto (Select e (columns_of cols))                               (* 1132-1137 *)
  | ChMap f types augment => map_expr auto e f types augment
  | ChFlatMap f types augment grouping max_rows =>                                             (* 1353-1376 *)
      let* g := if grouping
                then match types with
                     | [(c, _)] => Ok (Some c)
                     | _ => Err ValueError
                     end
                else Ok None in
      let* s := new_columns_schema types g in
      post_init auto (FlatMap e f s augment max_rows)
  | ChFlatMapByID f types =>                                                                   (* 1478-1487 *)
      let* s := new_columns_schema types None in post_init auto (FlatMapByID e f s)
  | ChBin column spec name => bin_expr auto e column spec name
  | ChEnforce c => post_init auto (EnforceConstraint e c)                                      (* 1723 *)
  end.

(** groupby, 1989-2004. *)
Definition group_by (auto : bool) (b : builder) (keys : byarg) : res grouped :=
  let* _ := raise_if (match keys with BySet _ _ => false | _ => negb auto end) ValueError in
  Ok {| gr_source := bu_source b; gr_expr := bu_expr b;
        gr_keys := match keys with BySet c r => KSet c r | ByName s => KCols [s] | ByList l => KCols l end |}.

(** The aggregations of GroupedQueryBuilder; the bool tells a GroupbyCountQuery. *)
Definition quantile_expr (auto : bool) (g : grouped) (column : string) (quantile low high : pynum)
    (name : option string) : res query :=                                                      (* 3059-3071 *)
  post_init auto (GroupByQuantile (gr_expr g) (gr_keys g) column (to_float quantile)
    (PFloat (to_float low)) (PFloat (to_float high))
    (if_none name (column ++ "_quantile(" ++ show quantile ++ ")"))).
Definition bounded_suffix (kd : bkind) : string :=
  match kd with BSum => "_sum" | BAverage => "_average" | BVariance => "_variance" | BStdev => "_stdev" end.
Definition half : fnum := FFin (Q2Qc (1 # 2)).
Definition aggregate (auto : bool) (g : grouped) (a : aggcall) : res queryobj :=
  let plain (r : res query) := let* e := r in Ok {| q_suppress := false; q_expr := e |} in
  match a with
  | UCount name m =>                                                                           (* 2877-2893 *)
      let* m := mech_of m in
      let* e := post_init auto (GroupByCount (gr_expr g) (gr_keys g) (if_none name "count") m None) in
      Ok {| q_suppress := true; q_expr := e |}
  | UCountDistinct cols name m =>                                                              (* 2961-2985 *)
      let c := columns_of cols in
      let n := if_not name (match c with [] => "count_distinct"
                            | _ => "count_distinct(" ++ String.concat ", " c ++ ")" end) in
      let* m := mech_of m in
      plain (post_init auto (GroupByCountDistinct (gr_expr g) (gr_keys g) c n m None))
  | UQuantile column q low high name => plain (quantile_expr auto g column q low high name)
  | UMin column low high name =>                                                               (* 3144-3146 *)
      plain (quantile_expr auto g column (PInt 0) low high (Some (if_not name (column ++ "_min"))))
  | UMax column low high name =>                                                               (* 3218-3220 *)
      plain (quantile_expr auto g column (PInt 1) low high (Some (if_not name (column ++ "_max"))))
  | UMedian column low high name =>                                                            (* 3289-3291 *)
      plain (quantile_expr auto g column (PFloat half) low high (Some (if_not name (column ++ "_median"))))
  | UBounded kd column low high name m =>                        (* 3379-3398, 3486-3505, 3594-3613, 3701-3720 *)
      let* m := mech_of m in
      plain (post_init auto (GroupByBounded kd (gr_expr g) (gr_keys g) column low high
                               (if_none name (column ++ bounded_suffix kd)) m None))
  | UBounds column lower upper =>                                                              (* 3793-3804 *)
      plain (post_init auto (GetBounds (gr_expr g) (gr_keys g) column
                               (if_none lower (column ++ "_lower_bound")) (if_none upper (column ++ "_upper_bound"))))
  end.

(** KeySet.from_dict(d) as the argument of groupby. *)
Definition keys_from_dict (d : dict (list value)) : res byarg :=
  let* ks := KeySet.from_dict KW d in
  let* k := erase_keys KW (XSet ks) in
  match k with KSet c r => Ok (BySet c r) | KCols _ => Err InternalError end.

(** suppress, 216-226. *)
Definition suppress (auto : bool) (q : queryobj) (th : pynum) : res queryobj :=
  let* _ := raise_if (negb (q_suppress q)) AttributeError in
  match q_expr q with
  | GroupByCount _ _ out _ _ =>
      let* e := post_init auto (SuppressAggregates (q_expr q) out th) in
      Ok {| q_suppress := false; q_expr := e |}
  | _ => Err NotImplementedError
  end.

(** One call.  [self._query_expr = ...] is assigned after the right-hand side has been
    evaluated, so when that raises nothing has changed. *)
Definition set_expr (st : state) (i : nat) (b : builder) (e : query) : state :=
  with_builders st (replace (st_builders st) i {| bu_source := bu_source b; bu_expr := e |}).
Definition outcome (st : state) (r : res state) : state * res unit :=
  match r with Ok st' => (st', Ok tt) | Err e => (st, Err e) end.
Definition step (st : state) (c : call) : state * res unit :=
  let auto := st_auto st in
  match c with
  | New s => outcome st (let* b := new_builder auto s in Ok (with_builders st (st_builders st ++ [b])%list))
  | Clone i =>                                                                                 (* 292-297 *)
      outcome st (let* b := object (st_builders st) i in
                  let* n := new_builder auto (bu_source b) in
                  Ok (with_builders st (st_builders st ++ [{| bu_source := bu_source n; bu_expr := bu_expr b |}])%list))
  | Change i ch =>
      outcome st (let* b := object (st_builders st) i in
                  let* e := changed st (bu_expr b) ch in
                  Ok (set_expr st i b e))
  | GetGroupsOf i cols =>                                                                      (* 1781-1786 *)
      outcome st (let* b := object (st_builders st) i in
                  let* e := post_init auto (GetGroups (bu_expr b) (columns_of cols)) in
                  Ok (add_query st {| q_suppress := false; q_expr := e |}))
  | Total i a =>            (* 1857-1861, 2078, 2161-2163, 2236-2238, 2304-2306, ..., 2793-2795 *)
      outcome st (let* b := object (st_builders st) i in
                  let* k := keys_from_dict [] in
                  let* g := group_by auto b k in
                  let* q := aggregate auto g a in
                  Ok (add_query st q))
  | Histogram i column spec name =>                                                            (* 1655-1663 *)
      match (let* b := object (st_builders st) i in
             let* s := spec in
             let n := if_not name (column ++ "_binned") in
             let* k := keys_from_dict [(n, bn_bins s)] in
             let* e := bin_expr auto (bu_expr b) column s (Some n) in
             Ok (b, e, k))
      with
      | Err e => (st, Err e)
      | Ok (b, e, k) =>
          (* the builder has been changed by bin_column *)
          let st := set_expr st i b e in
          outcome st (let* g := group_by auto {| bu_source := bu_source b; bu_expr := e |} k in
                      let* q := aggregate auto g (UCount None (MechName "default")) in
                      Ok (add_query st q))
      end
  | GroupBy i keys =>
      outcome st (let* b := object (st_builders st) i in
                  let* g := group_by auto b keys in
                  Ok (add_group st g))
  | Aggregate i a =>
      outcome st (let* g := object (st_groups st) i in
                  let* q := aggregate auto g a in
                  Ok (add_query st q))
  | Suppress i th =>
      outcome st (let* q := object (st_queries st) i in
                  let* q' := suppress auto q th in
                  Ok (add_query st q'))
  | SetAuto on => ({| st_builders := st_builders st; st_groups := st_groups st; st_queries := st_queries st; st_auto := on |}, Ok tt)
  end.

(** Calls one after the other; the caller catches exceptions. *)
Fixpoint run (st : state) (l : list call) : state :=
  match l with
  | [] => st
  | c :: r => run (fst (step st c)) r
  end.
End Build.
