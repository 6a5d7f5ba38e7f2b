(** Query expressions: the expression tree, the checks made when a node is built, and
    the schema a query reports.  Models _query_expr.py, _catalog.py and the strategies of
    truncation_strategy.py. *)
From Coq Require Import String Ascii Bool Arith ZArith QArith Qcanon Lia List.
From Verif Require Import Prelude Value Rows Constraints Schema.
Import ListNotations.
Local Open Scope string_scope.
Local Open Scope nat_scope.

(** *** Small Python notions *)

(** str.isidentifier(), for ASCII strings (Python also accepts Unicode letters). *)
Definition is_letter (c : ascii) : bool :=
  let n := nat_of_ascii c in
  ((65 <=? n) && (n <=? 90)) || ((97 <=? n) && (n <=? 122)) || (n =? 95).
Definition is_digit (c : ascii) : bool :=
  let n := nat_of_ascii c in (48 <=? n) && (n <=? 57).
Fixpoint all_chars (p : ascii -> bool) (s : string) : bool :=
  match s with EmptyString => true | String c r => p c && all_chars p r end.
Definition is_identifier (s : string) : bool :=
  match s with
  | EmptyString => false
  | String c r => is_letter c && all_chars (fun x => is_letter x || is_digit x) r
  end.

(** A Python int or float. *)
Inductive pynum : Type := PInt (z : Z) | PFloat (f : fnum).
Definition z_to_f (z : Z) : fnum := FFin (Q2Qc (inject_Z z)).
(** float(x); the rounding of integers beyond 2^53 is not modelled. *)
Definition to_float (x : pynum) : fnum := match x with PInt z => z_to_f z | PFloat f => f end.
(** x >= y on floats: false when either is NaN. *)
Definition fnum_ge (x y : fnum) : bool :=
  match x, y with
  | FNan, _ | _, FNan => false
  | FPInf, _ => true
  | _, FNInf => true
  | FFin a, FFin b => match Qccompare a b with Lt => false | _ => true end
  | FFin _, FPInf => false
  | FNInf, _ => false
  end.

(** *** Catalog, _catalog.py 16-150 *)
Record catalog : Type := {
  cat_private : dict (schema * list constraint);
  cat_public : dict (schema * sframe)
}.

(** *** Expression trees *)

(** TruncationStrategy.DropExcess / DropNonUnique, truncation_strategy.py 34-107.  The
    bound given by the caller is an int; the constructor refuses less than one. *)
Inductive strategy : Type := DropExcess (max_rows : nat) | DropNonUnique.
Definition mk_drop_excess (z : Z) : res strategy :=
  let* _ := raise_if (z <? 1)%Z ValueError in Ok (DropExcess (Z.to_nat z)).

(** groupby_keys: a KeySet, given by its schema and its rows, or a tuple of columns. *)
Inductive gkeys : Type :=
| KSet (cols : dict coldesc) (rows : table)
| KCols (cols : list string).
Definition keys_columns (k : gkeys) : list string :=
  match k with KSet cols _ => dkeys cols | KCols l => l end.

(** CountMechanism, SumMechanism, ...: all have these three members, 51-172. *)
Inductive mech : Type := MDefault | MLaplace | MGaussian.
(** tmlt.core NoiseMechanism. *)
Inductive coremech : Type := CLaplace | CGeometric | CDiscreteGaussian | CGaussian.

Inductive pubtable : Type := PubName (name : string) | PubFrame (f : sframe).

(** GroupByBoundedSum / Average / Variance / Stdev: four dataclasses with the same fields
    and the same checks, 1796-2037. *)
Inductive bkind : Type := BSum | BAverage | BVariance | BStdev.

Inductive query : Type :=
| PrivateSource (source_id : string)
| GetGroups (child : query) (columns : list string)
| GetBounds (child : query) (keys : gkeys) (measure lower_column upper_column : string)
| Rename (child : query) (mapper : dict string)
| Filter (child : query) (condition : string)
| Select (child : query) (columns : list string)
| MapQ (child : query) (f : rec -> rec) (new : schema) (augment : bool)
| FlatMap (child : query) (f : rec -> list rec) (new : schema) (augment : bool) (max_rows : option Z)
| FlatMapByID (child : query) (f : list rec -> list rec) (new : schema)
| JoinPrivate (left right : query) (tl tr : option strategy) (on : option (list string))
| JoinPublic (child : query) (public : pubtable) (on : option (list string)) (how : string)
| ReplaceNullAndNan (child : query) (replace_with : dict value)
| ReplaceInfinity (child : query) (replace_with : dict (fnum * fnum))
| DropNullAndNan (child : query) (columns : list string)
| DropInfinity (child : query) (columns : list string)
| EnforceConstraint (child : query) (c : constraint)
| GroupByCount (child : query) (keys : gkeys) (out : string) (m : mech) (core : option coremech)
| GroupByCountDistinct (child : query) (keys : gkeys) (columns : list string) (out : string)
    (m : mech) (core : option coremech)
| GroupByQuantile (child : query) (keys : gkeys) (measure : string) (quantile : fnum) (low high : pynum)
    (out : string)
| GroupByBounded (kind : bkind) (child : query) (keys : gkeys) (measure : string) (low high : pynum)
    (out : string) (m : mech) (core : option coremech)
| SuppressAggregates (child : query) (column : string) (threshold : pynum).

(** *** Checks made by the constructors (__post_init__).  typeguard's check_type calls are
    not modelled: the type of [query] already says what they check. *)

(** len(l) != len(set(l)) *)
Definition has_dup (l : list string) : bool := negb (length (nodup String.string_dec l) =? length l).

(** config.features.auto_partition_selection.raise_if_disabled(), e.g. 305-306. *)
Definition check_keys (auto : bool) (k : gkeys) : res unit :=
  match k with KCols _ => raise_if (negb auto) RuntimeError | KSet _ _ => Ok tt end.

(** 883-887, 953-957 *)
Definition check_on (on : option (list string)) : res unit :=
  match on with
  | None => Ok tt
  | Some l => let* _ := raise_if (length l =? 0) ValueError in raise_if (has_dup l) ValueError
  end.

(** _valid_replacement_value, 1074-1078 *)
Definition valid_replacement (v : value) : bool :=
  match v with VNull | VFloat FPInf | VFloat FNInf | VFloat FNan => false | _ => true end.
Definition finite_f (f : fnum) : bool := match f with FFin _ => true | _ => false end.

(** 1773-1782, 1834-1843, ...: cast both bounds to float when only one is an int, then
    refuse low >= high. *)
Definition check_bounds (low high : pynum) : res (pynum * pynum) :=
  match low, high with
  | PInt a, PInt b => let* _ := raise_if (b <=? a)%Z ValueError in Ok (low, high)
  | _, _ => let* _ := raise_if (fnum_ge (to_float low) (to_float high)) ValueError in
            Ok (PFloat (to_float low), PFloat (to_float high))
  end.

Definition is_groupby_count (q : query) : bool :=
  match q with GroupByCount _ _ _ _ _ => true | _ => false end.

(** One node; the result is the stored node (JoinPublic coerces its frame, 959-964;
    bounds may be cast). *)
Definition post_init (auto : bool) (q : query) : res query :=
  match q with
  | PrivateSource s => let* _ := raise_if (negb (is_identifier s)) ValueError in Ok q          (* 214-223 *)
  | GetGroups _ _ => Ok q                                                                      (* 255-258 *)
  | GetBounds _ k _ _ _ => let* _ := check_keys auto k in Ok q                                 (* 302-310 *)
  | Rename _ m => let* _ := raise_if (existsb (fun p => String.eqb (snd p) "") m) ValueError in Ok q (* 335-345 *)
  | Filter _ _ => Ok q
  | Select _ cols => let* _ := raise_if (has_dup cols) ValueError in Ok q                      (* 433-438 *)
  | MapQ _ _ new _ => let* _ := raise_if (match sc_group new with Some _ => true | None => false end) ValueError in Ok q (* 490-497 *)
  | FlatMap _ _ new _ mr =>                                                                    (* 584-603 *)
      let* _ := raise_if (match mr with Some z => (z <? 0)%Z | None => false end) ValueError in
      let* _ := raise_if (match sc_group new with Some _ => negb (length (sc_cols new) =? 1) | None => false end) ValueError in
      Ok q
  | FlatMapByID _ _ new =>                                                                     (* 699-707 *)
      let* _ := raise_if (match sc_group new, sc_id new with None, None => false | _, _ => true end) InternalError in Ok q
  | JoinPrivate _ _ _ _ on => let* _ := check_on on in Ok q                                    (* 869-887 *)
  | JoinPublic c p on how =>                                                                   (* 947-968 *)
      let* _ := check_on on in
      let* p' := match p with
                 | PubName _ => Ok p
                 | PubFrame f => let* f' := coerce_spark_schema_or_fail f in Ok (PubFrame f')
                 end in
      let* _ := raise_if (negb (smem how ["inner"; "left"])) ValueError in
      Ok (JoinPublic c p' on how)
  | ReplaceNullAndNan _ rw =>                                                                  (* 1100-1109 *)
      let* _ := raise_if (existsb (fun p => negb (valid_replacement (snd p))) rw) ValueError in Ok q
  | ReplaceInfinity _ rw =>                                                                    (* 1196-1223 *)
      let* _ := raise_if (existsb (fun p => negb (finite_f (fst (snd p)) && finite_f (snd (snd p)))) rw) ValueError in Ok q
  | DropNullAndNan _ _ | DropInfinity _ _ | EnforceConstraint _ _ => Ok q
  | GroupByCount _ k _ _ _ => let* _ := check_keys auto k in Ok q                              (* 1668-1675 *)
  | GroupByCountDistinct _ k _ _ _ _ => let* _ := check_keys auto k in Ok q                    (* 1709-1717 *)
  | GroupByQuantile c k m qu low high out =>                                                   (* 1757-1782 *)
      let* _ := check_keys auto k in
      let* _ := raise_if (negb (fnum_ge qu (z_to_f 0) && fnum_ge (z_to_f 1) qu)) ValueError in
      let* b := check_bounds low high in
      Ok (GroupByQuantile c k m qu (fst b) (snd b) out)
  | GroupByBounded kd c k m low high out me co =>                                              (* 1822-1843, 1883-1904, 1944-1965, 2005-2027 *)
      let* _ := check_keys auto k in
      let* b := check_bounds low high in
      Ok (GroupByBounded kd c k m (fst b) (snd b) out me co)
  | SuppressAggregates c _ _ => let* _ := raise_if (negb (is_groupby_count c)) TypeError in Ok q (* 2056-2065 *)
  end.

(** Building a whole tree, children first. *)
Fixpoint build (auto : bool) (q : query) : res query :=
  match q with
  | PrivateSource _ => post_init auto q
  | GetGroups c l => let* c := build auto c in post_init auto (GetGroups c l)
  | GetBounds c k m a b => let* c := build auto c in post_init auto (GetBounds c k m a b)
  | Rename c m => let* c := build auto c in post_init auto (Rename c m)
  | Filter c s => let* c := build auto c in post_init auto (Filter c s)
  | Select c l => let* c := build auto c in post_init auto (Select c l)
  | MapQ c f n a => let* c := build auto c in post_init auto (MapQ c f n a)
  | FlatMap c f n a mr => let* c := build auto c in post_init auto (FlatMap c f n a mr)
  | FlatMapByID c f n => let* c := build auto c in post_init auto (FlatMapByID c f n)
  | JoinPrivate l r tl tr on =>
      let* l := build auto l in let* r := build auto r in post_init auto (JoinPrivate l r tl tr on)
  | JoinPublic c p on how => let* c := build auto c in post_init auto (JoinPublic c p on how)
  | ReplaceNullAndNan c rw => let* c := build auto c in post_init auto (ReplaceNullAndNan c rw)
  | ReplaceInfinity c rw => let* c := build auto c in post_init auto (ReplaceInfinity c rw)
  | DropNullAndNan c l => let* c := build auto c in post_init auto (DropNullAndNan c l)
  | DropInfinity c l => let* c := build auto c in post_init auto (DropInfinity c l)
  | EnforceConstraint c k => let* c := build auto c in post_init auto (EnforceConstraint c k)
  | GroupByCount c k o m co => let* c := build auto c in post_init auto (GroupByCount c k o m co)
  | GroupByCountDistinct c k l o m co =>
      let* c := build auto c in post_init auto (GroupByCountDistinct c k l o m co)
  | GroupByQuantile c k m qu a b o =>
      let* c := build auto c in post_init auto (GroupByQuantile c k m qu a b o)
  | GroupByBounded kd c k m a b o me co =>
      let* c := build auto c in post_init auto (GroupByBounded kd c k m a b o me co)
  | SuppressAggregates c l t => let* c := build auto c in post_init auto (SuppressAggregates c l t)
  end.

(** *** Schemas *)
Section Schemas.
(** Spark's verdict on a filter condition against an empty table with the given fields
    (404-413). *)
Variable cond_ok : string -> list sfield -> bool.

(** set(cols) - set(schema) is not empty *)
Definition missing (cols : list string) (d : dict coldesc) : bool :=
  existsb (fun c => negb (dmem c d)) cols.
Definition is_some {A} (o : option A) : bool := match o with Some _ => true | None => false end.
(** [name] is the column [o], when there is one. *)
Definition is_col (o : option string) (name : string) : bool :=
  match o with Some c => String.eqb name c | None => false end.
Definition opt_in (o : option string) (l : list string) : bool :=
  match o with Some c => smem c l | None => false end.

(** PrivateSource._validate and schema, 225-238. *)
Definition source_schema (cat : catalog) (s : string) : res schema :=
  let* _ := raise_if (dmem s (cat_public cat)) ValueError in
  match dget s (cat_private cat) with
  | None => Err ValueError
  | Some (sch, _) => Ok sch
  end.

(** schema[c] *)
Definition lookup_col (d : dict coldesc) (c : string) : res coldesc :=
  match dget c d with Some x => Ok x | None => Err KeyError end.
(** {c: schema[c] for c in cols} *)
Definition pick (d : dict coldesc) (cols : list string) : res (dict coldesc) :=
  let* l := mapM (fun c => let* x := lookup_col d c in Ok (c, x)) cols in Ok (dict_of l).

(** mapper.get(c, c) *)
Definition renamed (m : dict string) (c : string) : string :=
  match dget c m with Some n => n | None => c end.

(** Rename, 347-381. *)
Definition rename_schema (m : dict string) (s : schema) : res schema :=
  let cols := sc_cols s in
  let* _ := raise_if (missing (dkeys m) cols) ValueError in
  let* _ := raise_if (existsb (fun p => dmem (snd p) cols && negb (String.eqb (snd p) (fst p))) m) ValueError in
  mk_schema (dict_of (map (fun p => (renamed m (fst p), snd p)) cols))
    (option_map (renamed m) (sc_group s)) (option_map (renamed m) (sc_id s)) (sc_space s).

(** Filter, 404-419. *)
Definition filter_schema (cond : string) (s : schema) : res schema :=
  let* _ := raise_if (negb (cond_ok cond (analytics_to_spark_schema s))) ValueError in Ok s.

(** Select, 440-468. *)
Definition select_schema (columns : list string) (s : schema) : res schema :=
  let* _ := raise_if (is_some (sc_group s) && negb (opt_in (sc_group s) columns)) ValueError in
  let* _ := raise_if (is_some (sc_id s) && negb (opt_in (sc_id s) columns)) ValueError in
  let* _ := raise_if (missing columns (sc_cols s)) ValueError in
  let* cols := pick (sc_cols s) columns in
  mk_schema cols (sc_group s) (sc_id s) (sc_space s).

(** dataclasses.replace(desc, allow_null=True) over the new columns, 526-529, 650-653. *)
Definition nullable (d : coldesc) : coldesc :=
  {| cd_type := cd_type d; cd_null := true; cd_nan := cd_nan d; cd_inf := cd_inf d |}.
Definition new_columns (new : schema) : dict coldesc :=
  map (fun p => (fst p, nullable (snd p))) (sc_cols new).

(** Map, 499-539. *)
Definition map_schema (new : schema) (augment : bool) (s : schema) : res schema :=
  if augment then
    let* _ := raise_if (existsb (fun c => dmem c (sc_cols new)) (dkeys (sc_cols s))) ValueError in
    mk_schema (merge (sc_cols s) (new_columns new)) (sc_group s) (sc_id s) (sc_space s)
  else
    let* _ := raise_if (is_some (sc_group s)) ValueError in
    let* _ := raise_if (is_some (sc_id s)) ValueError in
    mk_schema (new_columns new) None None None.

(** FlatMap, 605-663. *)
Definition flat_map_schema (new : schema) (augment : bool) (s : schema) : res schema :=
  let* _ := raise_if (is_some (sc_group new) && is_some (sc_group s)) ValueError in
  let* _ := raise_if (is_some (sc_group new) && is_some (sc_id s)) ValueError in
  if augment then
    let* _ := raise_if (existsb (fun c => dmem c (sc_cols new)) (dkeys (sc_cols s))) ValueError in
    mk_schema (merge (sc_cols s) (new_columns new))
      (match sc_group new with Some g => Some g | None => sc_group s end) (sc_id s) (sc_space s)
  else
    let* _ := raise_if (is_some (sc_group s)) ValueError in
    let* _ := raise_if (is_some (sc_id s)) ValueError in
    mk_schema (new_columns new) None None None.

(** FlatMapByID, 713-742. *)
Definition flat_map_by_id_schema (new : schema) (s : schema) : res schema :=
  match sc_id s with
  | None => Err ValueError
  | Some i =>
      let* _ := raise_if (is_some (sc_group s)) InternalError in
      let* _ := raise_if (dmem i (sc_cols new)) ValueError in
      let* d := lookup_col (sc_cols s) i in
      mk_schema (merge [(i, d)] (new_columns new)) None (Some i) (sc_space s)
  end.

(** set(a) & set(b), in the order of [a]; (825) sorts it that way. *)
Definition common_columns {A B} (a : dict A) (b : dict B) : list string :=
  filter (fun c => dmem c b) (dkeys a).

(** _validate_join, 760-798. *)
Definition validate_join (l r : schema) (on : option (list string)) : res unit :=
  let* _ := raise_if (match sc_group l, sc_group r with
                      | Some a, Some b => negb (String.eqb a b) | _, _ => false end) ValueError in
  let* _ := raise_if (match on with Some [] => true | _ => false end) InternalError in
  let common := common_columns (sc_cols l) (sc_cols r) in
  let* _ := raise_if (match on with None => (length common =? 0) | Some _ => false end) ValueError in
  let cols := match on with Some c => c | None => common end in
  let* _ := raise_if (existsb (fun c => negb (smem c common)) cols) ValueError in
  let* _ := mapM (fun c =>
    let* a := lookup_col (sc_cols l) c in
    let* b := lookup_col (sc_cols r) c in
    raise_if (negb (ctype_eqb (cd_type a) (cd_type b))) ValueError) cols in
  Ok tt.
End Schemas.

(** *** tmlt.core.utils.join.domain_after_join (trusted).  The join columns appear once;
    a column of one side that is also a column of the other side but not joined on gets
    a suffix; a name clash is refused.  In an inner join a join column may hold a special
    value only if both sides may; in a left join it is as on the left and the columns of
    the right side may be null. *)
Definition core_and (a b : coredesc) : coredesc :=
  match a, b with
  | CFloat n x i, CFloat n' x' i' => CFloat (n && n') (x && x') (i && i')
  | CInt n, CInt n' => CInt (n && n')
  | CString n, CString n' => CString (n && n')
  | CDate n, CDate n' => CDate (n && n')
  | CTimestamp n, CTimestamp n' => CTimestamp (n && n')
  | _, _ => a
  end.
Definition core_nullable (a : coredesc) : coredesc :=
  match a with
  | CFloat _ x i => CFloat true x i
  | CInt _ => CInt true | CString _ => CString true | CDate _ => CDate true | CTimestamp _ => CTimestamp true
  end.
Definition core_same_type (a b : coredesc) : bool :=
  match a, b with
  | CFloat _ _ _, CFloat _ _ _ | CInt _, CInt _ | CString _, CString _ | CDate _, CDate _
  | CTimestamp _, CTimestamp _ => true
  | _, _ => false
  end.
(** The output name of a column that is not joined on. *)
Definition suffixed {B} (other : dict B) (suffix c : string) : string :=
  if dmem c other then String.append c suffix else c.

Definition join_domain (on : list string) (left_join : bool) (l r : dict coredesc) : res (dict coredesc) :=
  let* _ := raise_if (length on =? 0) ValueError in
  let* joined := mapM (fun c =>
    match dget c l, dget c r with
    | Some a, Some b =>
        let* _ := raise_if (negb (core_same_type a b)) ValueError in
        Ok (c, if left_join then a else core_and a b)
    | _, _ => Err ValueError
    end) on in
  let rest_l := filter (fun p => negb (smem (fst p) on)) l in
  let rest_r := filter (fun p => negb (smem (fst p) on)) r in
  let out := (joined
              ++ map (fun p => (suffixed r "_left" (fst p), snd p)) rest_l
              ++ map (fun p => (suffixed l "_right" (fst p),
                                if left_join then core_nullable (snd p) else snd p)) rest_r)%list in
  let* _ := raise_if (has_dup (dkeys out)) ValueError in
  Ok out.

Section Schemas2.
Variable cond_ok : string -> list sfield -> bool.

(** _schema_for_join, 801-845. *)
Definition schema_for_join (l r : schema) (on : option (list string)) (space : option string) (how : string)
  : res schema :=
  let cols := match on with Some c => c | None => common_columns (sc_cols l) (sc_cols r) end in
  let* dom := join_domain cols (String.eqb how "left") (analytics_to_core l) (analytics_to_core r) in
  let* d := core_to_analytics dom in
  mk_schema d (match sc_group l with Some g => Some g | None => sc_group r end) (sc_id l) space.

(** JoinPrivate, 889-929. *)
Definition join_private_schema (l r : schema) (on : option (list string)) : res schema :=
  let* _ := raise_if (negb (option_eqb String.eqb (sc_id l) (sc_id r))) ValueError in
  let* _ := raise_if (negb (option_eqb String.eqb (sc_space l) (sc_space r))) ValueError in
  let* _ := validate_join l r on in
  schema_for_join l r on (sc_space l) "inner".

(** JoinPublic, 970-999. *)
Definition public_schema (cat : catalog) (p : pubtable) : res schema :=
  match p with
  | PubName n => match dget n (cat_public cat) with Some (s, _) => Ok s | None => Err ValueError end
  | PubFrame f => let* d := spark_schema_to_analytics_columns (sd_fields f) in mk_schema d None None None
  end.
Definition join_public_schema (cat : catalog) (l : schema) (p : pubtable) (on : option (list string)) (how : string)
  : res schema :=
  let* r := public_schema cat p in
  let* _ := validate_join l r on in
  schema_for_join l r on (sc_space l) how.

(** isinstance(val, pytypes[col]) or int for float, 1133-1147; datetime is a subclass of
    date. *)
Definition value_fits (v : value) (t : ctype) : bool :=
  match v, t with
  | VInt _, INTEGER | VInt _, DECIMAL | VFloat _, DECIMAL | VStr _, VARCHAR | VDate _, DATE
  | VTime _, DATE | VTime _, TIMESTAMP => true
  | _, _ => false
  end.

(** Rebuild the descriptors of a schema column by column, keeping the rest. *)
Definition rebuild (f : string -> coldesc -> coldesc) (s : schema) : res schema :=
  mk_schema (map (fun p => (fst p, f (fst p) (snd p))) (sc_cols s)) (sc_group s) (sc_id s) (sc_space s).
Definition not_special (s : schema) (c : string) : bool :=
  negb (is_col (sc_group s) c) && negb (is_col (sc_id s) c).

(** ReplaceNullAndNan, 1111-1175 *)
Definition replace_null_schema (rw : dict value) (s : schema) : res schema :=
  let* _ := raise_if (opt_in (sc_group s) (dkeys rw)) ValueError in
  let* _ := raise_if (opt_in (sc_id s) (dkeys rw)) ValueError in
  let* _ := mapM (fun p => match dget (fst p) (sc_cols s) with
                           | None => Err ValueError
                           | Some d => raise_if (negb (value_fits (snd p) (cd_type d))) ValueError
                           end) rw in
  let change := match dkeys rw with
                | [] => dkeys (filter (fun p => (cd_null (snd p) || cd_nan (snd p)) && not_special s (fst p)) (sc_cols s))
                | l => l end in
  rebuild (fun c d => {| cd_type := cd_type d; cd_null := cd_null d && negb (smem c change);
                         cd_nan := cd_nan d && negb (smem c change); cd_inf := cd_inf d |}) s.

Definition is_decimal (d : coldesc) : bool := ctype_eqb (cd_type d) DECIMAL.
(** 1241-1253, 1404-1417 *)
Definition check_decimal (cols : list string) (s : schema) : res unit :=
  let* _ := mapM (fun c => match dget c (sc_cols s) with
                           | None => Err ValueError
                           | Some d => raise_if (negb (is_decimal d)) ValueError
                           end) cols in Ok tt.
Definition default_infinity (s : schema) (cols : list string) : list string :=
  match cols with
  | [] => dkeys (filter (fun p => is_decimal (snd p) && cd_inf (snd p) && not_special s (fst p)) (sc_cols s))
  | l => l end.
Definition no_infinity (change : list string) (s : schema) : res schema :=
  rebuild (fun c d => {| cd_type := cd_type d; cd_null := cd_null d; cd_nan := cd_nan d;
                         cd_inf := cd_inf d && negb (smem c change) |}) s.

(** ReplaceInfinity, 1225-1282. *)
Definition replace_inf_schema (rw : dict (fnum * fnum)) (s : schema) : res schema :=
  let* _ := raise_if (opt_in (sc_group s) (dkeys rw)) ValueError in
  let* _ := raise_if (opt_in (sc_id s) (dkeys rw)) ValueError in
  let* _ := check_decimal (dkeys rw) s in
  no_infinity (default_infinity s (dkeys rw)) s.

(** DropNullAndNan, 1311-1366. *)
Definition drop_null_schema (cols : list string) (s : schema) : res schema :=
  let* _ := raise_if (opt_in (sc_group s) cols) ValueError in
  let* _ := raise_if (opt_in (sc_id s) cols) ValueError in
  let* _ := raise_if (missing cols (sc_cols s)) ValueError in
  let change := match cols with
                | [] => dkeys (filter (fun p => (cd_null (snd p) || cd_nan (snd p)) && not_special s (fst p)) (sc_cols s))
                | l => l end in
  rebuild (fun c d => {| cd_type := cd_type d; cd_null := cd_null d && negb (smem c change);
                         cd_nan := cd_nan d && negb (smem c change); cd_inf := cd_inf d |}) s.

(** DropInfinity, 1388-1447. *)
Definition drop_inf_schema (cols : list string) (s : schema) : res schema :=
  let* _ := raise_if (opt_in (sc_group s) cols) ValueError in
  let* _ := raise_if (opt_in (sc_id s) cols) ValueError in
  let* _ := check_decimal cols s in
  no_infinity (default_infinity s cols) s.

(** EnforceConstraint, 1461-1486. *)
Definition enforce_schema (c : constraint) (s : schema) : res schema :=
  match sc_id s with
  | None => Err ValueError
  | Some i =>
      match c with
      | MaxRowsPerID _ => Ok s
      | MaxGroupsPerID g _ | MaxRowsPerGroupPerID g _ =>
          let* _ := raise_if (negb (dmem g (sc_cols s))) ValueError in
          let* _ := raise_if (String.eqb g i) ValueError in Ok s
      end
  end.

(** GetGroups, 260-282. *)
Definition get_groups_schema (cols : list string) (s : schema) : res schema :=
  match cols with
  | [] => mk_schema (filter (fun p => negb (is_col (sc_id s) (fst p))) (sc_cols s)) None None None
  | _ => let* _ := raise_if (missing cols (sc_cols s)) ValueError in
         let* d := pick (sc_cols s) cols in mk_schema d None None None
  end.

(** _validate_groupby, 1493-1586; [measure] is the measure column of the aggregations
    that have one. *)
Definition validate_groupby (k : gkeys) (measure : option string) (s : schema) : res unit :=
  let* _ := match k with
            | KSet cols _ =>
                let* _ := mapM (fun p => let* d := lookup_col (sc_cols s) (fst p) in
                                 raise_if (negb (ctype_eqb (cd_type (snd p)) (cd_type d))) ValueError) cols in Ok tt
            | KCols l => raise_if (missing l (sc_cols s)) ValueError
            end in
  let* _ := raise_if (is_some (sc_group s) && negb (opt_in (sc_group s) (keys_columns k))) ValueError in
  match measure with
  | None => Ok tt
  | Some m =>
      let* _ := raise_if (smem m (keys_columns k)) ValueError in
      match dget m (sc_cols s) with
      | None => Err ValueError
      | Some d =>
          let* _ := raise_if (negb (ctype_eqb (cd_type d) INTEGER || is_decimal d)) ValueError in
          raise_if (is_col (sc_id s) m) ValueError
      end
  end.

(** ColumnDescriptor(t, allow_null=False) *)
Definition plain (t : ctype) : coldesc := {| cd_type := t; cd_null := false; cd_nan := false; cd_inf := false |}.

(** _schema_for_groupby, 1589-1648; [outs] are the output columns with their types. *)
Definition schema_for_groupby (k : gkeys) (outs : list (string * ctype)) (s : schema) : res schema :=
  let* d := pick (sc_cols s) (keys_columns k) in
  mk_schema (merge d (dict_of (map (fun p => (fst p, plain (snd p))) outs))) None None None.

Definition groupby_schema (k : gkeys) (measure : option string) (outs : ctype -> list (string * ctype)) (s : schema)
  : res schema :=
  let* _ := validate_groupby k measure s in
  let t := match measure with
           | Some m => match dget m (sc_cols s) with Some d => cd_type d | None => INTEGER end
           | None => INTEGER end in
  schema_for_groupby k (outs t) s.

(** Type of the output column of a bounded aggregation, 1609-1624. *)
Definition bounded_type (kd : bkind) (t : ctype) : ctype := match kd with BSum => t | _ => DECIMAL end.

(** QueryExpr.schema, one clause per class. *)
Fixpoint schema_of (cat : catalog) (q : query) : res schema :=
  match q with
  | PrivateSource s => source_schema cat s
  | GetGroups c cols => let* s := schema_of cat c in get_groups_schema cols s
  | GetBounds c k m lo hi => let* s := schema_of cat c in
      groupby_schema k (Some m) (fun t => [(lo, t); (hi, t)]) s
  | Rename c m => let* s := schema_of cat c in rename_schema m s
  | Filter c cond => let* s := schema_of cat c in filter_schema cond_ok cond s
  | Select c cols => let* s := schema_of cat c in select_schema cols s
  | MapQ c _ new aug => let* s := schema_of cat c in map_schema new aug s
  | FlatMap c _ new aug _ => let* s := schema_of cat c in flat_map_schema new aug s
  | FlatMapByID c _ new => let* s := schema_of cat c in flat_map_by_id_schema new s
  | JoinPrivate l r _ _ on =>
      let* sl := schema_of cat l in let* sr := schema_of cat r in join_private_schema sl sr on
  | JoinPublic c p on how => let* s := schema_of cat c in join_public_schema cat s p on how
  | ReplaceNullAndNan c rw => let* s := schema_of cat c in replace_null_schema rw s
  | ReplaceInfinity c rw => let* s := schema_of cat c in replace_inf_schema rw s
  | DropNullAndNan c cols => let* s := schema_of cat c in drop_null_schema cols s
  | DropInfinity c cols => let* s := schema_of cat c in drop_inf_schema cols s
  | EnforceConstraint c k => let* s := schema_of cat c in enforce_schema k s
  | GroupByCount c k out _ _ => let* s := schema_of cat c in
      groupby_schema k None (fun _ => [(out, INTEGER)]) s
  | GroupByCountDistinct c k _ out _ _ => let* s := schema_of cat c in
      groupby_schema k None (fun _ => [(out, INTEGER)]) s
  | GroupByQuantile c k m _ _ _ out => let* s := schema_of cat c in
      groupby_schema k (Some m) (fun _ => [(out, DECIMAL)]) s
  | GroupByBounded kd c k m _ _ out _ _ => let* s := schema_of cat c in
      groupby_schema k (Some m) (fun t => [(out, bounded_type kd t)]) s
  | SuppressAggregates c _ _ => schema_of cat c
  end.
End Schemas2.
