(** Turning query expressions into tables: the transformation visitor, constraint
    propagation and the check of the result against the reported schema.  Models
    _query_expr_compiler/_base_transformation_visitor.py,
    _query_expr_compiler/_constraint_propagation.py and
    _query_expr_compiler/_compiler.py 180-226. *)
From Coq Require Import String Bool Arith ZArith QArith Qcanon Lia Permutation List.
From Verif Require Import Prelude Value Rows Constraints Schema Query.
Import ListNotations.
Local Open Scope string_scope.
Local Open Scope nat_scope.

(** What is left open about Spark and tmlt.core: which filter conditions are valid and
    which rows they keep, and the total orders used when rows are dropped. *)
Record world : Type := {
  w_cond_ok : string -> list sfield -> bool;
  w_cond_holds : string -> rec -> bool;
  w_row_order : order rec;
  w_key_order : value -> order value
}.

(** ** Row-level meaning of the tmlt.core transformations (trusted) *)

Definition rename_row (m : dict string) (r : rec) : rec := map (fun p => (renamed m (fst p), snd p)) r.
Definition select_row (cols : list string) (r : rec) : rec := map (fun c => (c, getv c r)) cols.
(** The declared columns of what the user's function returned. *)
Definition new_cells (new : schema) (r : rec) : rec := select_row (dkeys (sc_cols new)) r.
Definition map_row (f : rec -> rec) (new : schema) (augment : bool) (r : rec) : rec :=
  if augment then merge r (new_cells new (f r)) else new_cells new (f r).
Definition flat_map_row (f : rec -> list rec) (new : schema) (augment : bool) (limit : option nat) (r : rec) : table :=
  map (fun o => if augment then merge r (new_cells new o) else new_cells new o)
      (match limit with Some n => firstn n (f r) | None => f r end).
(** Rows of each ID handed to the user's function, in the order of [row_order] (Spark's
    order within a group is not specified); the ID is added to each row returned. *)
Definition flat_map_by_id_rows (O : order rec) (idc : string) (f : list rec -> list rec) (new : schema) (t : table) : table :=
  flat_map (fun i => map (fun o => (idc, i) :: new_cells new o)
                         (f (isort (ole O) (filter (has_value idc i) t))))
           (nodup value_eq_dec (map (getv idc) t)).

(** Two rows agree on the columns [on]; nulls are equal (join_on_nulls=True). *)
Definition matches (on : list string) (r s : rec) : bool :=
  forallb (fun c => value_eqb (getv c r) (getv c s)) on.
(** One output row of a join; [s] is the matching row, if any.  [lc] and [rc] are the
    column names of the two sides. *)
Definition others (on cols : list string) : list string := filter (fun c => negb (smem c on)) cols.
Definition suffixed_name (other : list string) (suffix c : string) : string :=
  if smem c other then String.append c suffix else c.
Definition join_row (on lc rc : list string) (r : rec) (s : option rec) : rec :=
  (map (fun c => (c, getv c r)) on
   ++ map (fun c => (suffixed_name rc "_left" c, getv c r)) (others on lc)
   ++ map (fun c => (suffixed_name lc "_right" c, match s with Some s => getv c s | None => VNull end)) (others on rc))%list.
Definition inner_join (on lc rc : list string) (l r : table) : table :=
  flat_map (fun x => map (fun y => join_row on lc rc x (Some y)) (filter (matches on x) r)) l.
Definition left_join (on lc rc : list string) (l r : table) : table :=
  flat_map (fun x => match filter (matches on x) r with
                     | [] => [join_row on lc rc x None]
                     | ys => map (fun y => join_row on lc rc x (Some y)) ys end) l.

(** tmlt.core truncate_large_groups / drop_large_groups, called by PrivateJoin. *)
Definition join_key (on : list string) (r : rec) : list value := map (fun c => getv c r) on.
Definition truncate_side (O : order rec) (s : strategy) (on : list string) (t : table) : table :=
  match s with
  | DropExcess n => keep_first (list_eq_dec value_eq_dec) (join_key on) n [] (isort (ole O) t)
  | DropNonUnique => filter (fun r => length (filter (matches on r) t) <=? 1) t
  end.

Definition replace_nulls (m : dict value) (r : rec) : rec :=
  map (fun p => match snd p, dget (fst p) m with VNull, Some v => (fst p, v) | _, _ => p end) r.
Definition replace_nans (m : dict value) (r : rec) : rec :=
  map (fun p => match snd p, dget (fst p) m with VFloat FNan, Some v => (fst p, v) | _, _ => p end) r.
Definition replace_infs (m : dict (fnum * fnum)) (r : rec) : rec :=
  map (fun p => match snd p, dget (fst p) m with
                | VFloat FNInf, Some b => (fst p, VFloat (fst b))
                | VFloat FPInf, Some b => (fst p, VFloat (snd b))
                | _, _ => p end) r.
Definition is_null (v : value) : bool := match v with VNull => true | _ => false end.
Definition is_nan (v : value) : bool := match v with VFloat FNan => true | _ => false end.
Definition is_inf (v : value) : bool := match v with VFloat FPInf | VFloat FNInf => true | _ => false end.
Definition drop_rows (p : value -> bool) (cols : list string) (t : table) : table :=
  filter (fun r => negb (existsb (fun c => p (getv c r)) cols)) t.

(** Column descriptors after them. *)
Definition core_not_null (d : coredesc) : coredesc :=
  match d with
  | CFloat _ x i => CFloat false x i
  | CInt _ => CInt false | CString _ => CString false | CDate _ => CDate false | CTimestamp _ => CTimestamp false
  end.
Definition core_not_nan (d : coredesc) : coredesc := match d with CFloat n _ i => CFloat n false i | _ => d end.
Definition core_not_inf (d : coredesc) : coredesc := match d with CFloat n x _ => CFloat n x false | _ => d end.
Definition at_columns (cols : list string) (f : coredesc -> coredesc) (d : dict coredesc) : dict coredesc :=
  map (fun p => (fst p, if smem (fst p) cols then f (snd p) else snd p)) d.
Definition coredesc_eqb (a b : coredesc) : bool :=
  match a, b with
  | CFloat n x i, CFloat n' x' i' => Bool.eqb n n' && Bool.eqb x x' && Bool.eqb i i'
  | CInt n, CInt n' | CString n, CString n' | CDate n, CDate n' | CTimestamp n, CTimestamp n' => Bool.eqb n n'
  | _, _ => false
  end.

(** A data frame as a table of named rows. *)
Definition frame_rows (f : sframe) : table := map (fun r => combine (map sf_name (sd_fields f)) r) (sd_rows f).

(** ** Constraint propagation, _constraint_propagation.py *)

(** propagate_replace 41-55; [cols] are the keys of expr.replace_with. *)
Definition propagate_replace (cols : list string) (cs : list constraint) : list constraint :=
  filter (fun c => match c with MaxRowsPerGroupPerID g _ => negb (smem g cols) | _ => true end) cs.
(** propagate_rename 58-74 *)
Definition propagate_rename (m : dict string) (cs : list constraint) : list constraint :=
  map (fun c => match c with
                | MaxRowsPerID n => MaxRowsPerID n
                | MaxGroupsPerID g n => MaxGroupsPerID (renamed m g) n
                | MaxRowsPerGroupPerID g n => MaxRowsPerGroupPerID (renamed m g) n
                end) cs.
(** propagate_select 77-83 *)
Definition propagate_select (cols : list string) (cs : list constraint) : list constraint :=
  filter (fun c => match c with
                   | MaxGroupsPerID g _ | MaxRowsPerGroupPerID g _ => smem g cols
                   | MaxRowsPerID _ => true end) cs.
(** propagate_map 86-94 *)
Definition propagate_map (augment : bool) (cs : list constraint) : res (list constraint) :=
  let* _ := raise_if (negb augment && negb (length cs =? 0)) InternalError in Ok cs.
(** propagate_flat_map 97-109 *)
Definition propagate_flat_map (augment : bool) (cs : list constraint) : res (list constraint) :=
  let* _ := raise_if (negb augment && negb (length cs =? 0)) InternalError in
  Ok (filter (fun c => match c with MaxGroupsPerID _ _ => true | _ => false end) cs).
(** _propagate_join_by_stability 112-144; None and 0 are both falsy. *)
Definition by_stability (stab : option nat) (overlapping : list string) (suffix : string) (c : constraint)
  : list constraint :=
  let col g := if smem g overlapping then String.append g suffix else g in
  match c with
  | MaxRowsPerID m => match stab with Some (S k) => [MaxRowsPerID (m * S k)] | _ => [] end
  | MaxGroupsPerID g m => [MaxGroupsPerID (col g) m]
  | MaxRowsPerGroupPerID g m =>
      match stab with Some (S k) => [MaxRowsPerGroupPerID (col g) (m * S k)] | _ => [] end
  end.
(** max_join_stability 155-172 *)
Definition group_bounds (join_cols : list string) (cs : list constraint) : list nat :=
  flat_map (fun c => match c with MaxGroupsPerID g m => if smem g join_cols then [m] else [] | _ => [] end) cs.
Definition max_join_stability (join_cols : list string) (cs : list constraint) : option nat :=
  match ((match find_rows cs with Some m => [m] | None => [] end) ++ group_bounds join_cols cs)%list with
  | [] => None
  | m :: l => Some (list_min m l)
  end.
(** propagate_join_private 147-189 *)
Definition propagate_join_private (join_cols overlapping : list string) (lcs rcs : list constraint) : list constraint :=
  (flat_map (by_stability (max_join_stability join_cols rcs) overlapping "_left") lcs
   ++ flat_map (by_stability (max_join_stability join_cols lcs) overlapping "_right") rcs)%list.
(** propagate_join_public 192-217: the largest number of public rows with one join key,
    0 for an empty table. *)
Definition public_stability (join_cols : list string) (pub : table) : nat :=
  list_max (map (fun r => length (filter (matches join_cols r) pub)) pub).
Definition propagate_join_public (join_cols overlapping : list string) (pub : table) (cs : list constraint)
  : list constraint :=
  flat_map (by_stability (Some (public_stability join_cols pub)) overlapping "_left") cs.

(** ** The visitor *)

(** A table as the visitor sees it: domain, the collection it lives in (None: the top
    level), metric and data.  The library keeps these in nested dictionaries; see
    Tables.v for the lookups. *)
Record vtab : Type := {
  v_dom : dict coredesc;
  v_coll : option string;
  v_place : place;
  v_rows : table
}.

Section Visit.
Variable W : world.
(** inner_metric() 244-261 is RootSumOfSquared (true under zCDP) or SumOf. *)
Variable l2 : bool.
Variable cat : catalog.
Variable data : dict vtab.

(** visit_private_source, 325-348. *)
Definition visit_source (s : string) : res (vtab * list constraint) :=
  match dget s data with
  | None => Err ValueError
  | Some t => match dget s (cat_private cat) with
              | None => Err InternalError
              | Some (_, cs) => Ok (t, cs)
              end
  end.

Definition rename_place (m : dict string) (p : place) : place :=
  match p with
  | PKeys i => PKeys (renamed m i)
  | PSym => PSym
  | PGroupedIds g b i => PGroupedIds (renamed m g) b (renamed m i)
  | PGrouped g b => PGrouped (renamed m g) b
  end.
(** The column named by the metric that lookup_metric returns for the table: IfGroupedBy
    the ID column for tables in collections, else the grouping column if any. *)
Definition metric_column (p : place) : option string :=
  match p with PKeys i => Some i | PSym => None | PGroupedIds g _ _ | PGrouped g _ => Some g end.
Definition in_collection (p : place) : bool := match p with PKeys _ => true | _ => false end.

(** visit_rename, 350-400. *)
Definition visit_rename (m : dict string) (x : vtab * list constraint) : res (vtab * list constraint) :=
  let '(t, cs) := x in
  let* _ := raise_if (existsb (fun c => negb (dmem c (v_dom t))) (dkeys m)) ValueError in
  Ok ({| v_dom := dict_of (map (fun p => (renamed m (fst p), snd p)) (v_dom t));
         v_coll := v_coll t; v_place := rename_place m (v_place t);
         v_rows := map (rename_row m) (v_rows t) |},
      simplify (propagate_rename m cs)).

(** visit_filter, 402-445. *)
Definition visit_filter (cond : string) (x : vtab * list constraint) : res (vtab * list constraint) :=
  let '(t, cs) := x in
  Ok ({| v_dom := v_dom t; v_coll := v_coll t; v_place := v_place t;
         v_rows := filter (w_cond_holds W cond) (v_rows t) |}, simplify cs).

(** visit_select, 447-498.  tmlt.core's Select refuses to drop the column of the metric. *)
Definition visit_select (cols : list string) (x : vtab * list constraint) : res (vtab * list constraint) :=
  let '(t, cs) := x in
  let* d := mapM (fun c => match dget c (v_dom t) with Some k => Ok (c, k) | None => Err ValueError end) cols in
  let* _ := raise_if (match metric_column (v_place t) with Some c => negb (smem c cols) | None => false end) ValueError in
  Ok ({| v_dom := dict_of d; v_coll := v_coll t; v_place := v_place t;
         v_rows := map (select_row cols) (v_rows t) |}, simplify (propagate_select cols cs)).

Definition new_core (new : schema) : dict coredesc :=
  map (fun p => (fst p, core_nullable (to_core (snd p)))) (sc_cols new).
Definition mapped_domain (new : schema) (augment : bool) (d : dict coredesc) : dict coredesc :=
  if augment then merge d (new_core new) else new_core new.

(** visit_map, 500-581. *)
Definition visit_map (f : rec -> rec) (new : schema) (augment : bool) (x : vtab * list constraint)
  : res (vtab * list constraint) :=
  let '(t, cs) := x in
  let* _ := raise_if (in_collection (v_place t) && negb augment) ValueError in
  let* cs' := propagate_map augment cs in
  Ok ({| v_dom := mapped_domain new augment (v_dom t); v_coll := v_coll t; v_place := v_place t;
         v_rows := map (map_row f new augment) (v_rows t) |}, simplify cs').

(** visit_flat_map, 611-724.  tmlt.core's GroupingFlatMap takes tables with metric
    SymmetricDifference only. *)
Definition visit_flat_map (f : rec -> list rec) (new : schema) (augment : bool) (max_rows : option Z)
    (x : vtab * list constraint) : res (vtab * list constraint) :=
  let '(t, cs) := x in
  let* y :=
    if in_collection (v_place t) then
      let* _ := raise_if (negb augment) ValueError in
      let* _ := raise_if (is_some (sc_group new)) ValueError in
      Ok (v_place t, None)
    else
      match max_rows with
      | None => Err ValueError
      | Some z =>
          match sc_group new with
          | Some g => match v_place t with
                      | PSym => Ok (PGrouped g l2, Some (Z.to_nat z))
                      | _ => Err ValueError end
          | None => Ok (v_place t, Some (Z.to_nat z))
          end
      end in
  let* cs' := propagate_flat_map augment cs in
  Ok ({| v_dom := mapped_domain new augment (v_dom t); v_coll := v_coll t; v_place := fst y;
         v_rows := flat_map (flat_map_row f new augment (snd y)) (v_rows t) |}, simplify cs').

(** visit_flat_map_by_id, 726-776.  tmlt.core's FlatMapByKey refuses a function whose
    output has the key column. *)
Definition visit_flat_map_by_id (f : list rec -> list rec) (new : schema) (x : vtab * list constraint)
  : res (vtab * list constraint) :=
  let '(t, _) := x in
  match v_place t with
  | PKeys i =>
      match dget i (v_dom t) with
      | None => Err ValueError
      | Some d =>
          let* _ := raise_if (dmem i (sc_cols new)) ValueError in
          Ok ({| v_dom := merge [(i, d)] (new_core new); v_coll := v_coll t; v_place := PKeys i;
                 v_rows := flat_map_by_id_rows (w_row_order W) i f new (v_rows t) |}, [])
      end
  | _ => Err ValueError
  end.

(** The join columns: the ones given, or all common ones. *)
Definition join_columns (on : option (list string)) (l r : dict coredesc) : list string :=
  match on with Some c => c | None => common_columns l r end.
Definition overlapping (on : list string) (l r : dict coredesc) : list string :=
  filter (fun c => negb (smem c on)) (common_columns l r).

(** visit_join_private, 803-922.  tmlt.core's PrivateJoin takes two tables with metric
    SymmetricDifference; PrivateJoinOnKey needs the ID columns to have the same name and
    to be joined on. *)
Definition visit_join_private (tl tr : option strategy) (on : option (list string))
    (x y : vtab * list constraint) : res (vtab * list constraint) :=
  let '(l, lcs) := x in
  let '(r, rcs) := y in
  let* _ := raise_if (negb (option_eqb String.eqb (v_coll l) (v_coll r))) ValueError in
  let cols := join_columns on (v_dom l) (v_dom r) in
  let cs := propagate_join_private cols (overlapping cols (v_dom l) (v_dom r)) lcs rcs in
  let* z :=
    match v_place l, v_place r with
    | PSym, PSym =>
        match tl, tr with
        | Some sl, Some sr => Ok (PSym, truncate_side (w_row_order W) sl cols (v_rows l),
                                  truncate_side (w_row_order W) sr cols (v_rows r))
        | _, _ => Err ValueError
        end
    | PKeys i, PKeys j =>
        let* _ := raise_if (negb (String.eqb i j)) ValueError in
        let* _ := raise_if (negb (smem i cols)) ValueError in
        Ok (PKeys i, v_rows l, v_rows r)
    | _, _ => Err ValueError
    end in
  let '(p, lrows, rrows) := z in
  let* d := join_domain cols false (v_dom l) (v_dom r) in
  Ok ({| v_dom := d; v_coll := v_coll l; v_place := p;
         v_rows := inner_join cols (dkeys (v_dom l)) (dkeys (v_dom r)) lrows rrows |},
      simplify cs).

(** visit_join_public, 924-1010.  On tables with IDs "how" is not passed on (974-986),
    and tmlt.core's default is an inner join.  tmlt.core's PublicJoin refuses to rename
    the column of the metric. *)
Definition public_frame (p : pubtable) : res sframe :=
  match p with
  | PubName n => match dget n (cat_public cat) with Some (_, f) => Ok f | None => Err ValueError end
  | PubFrame f => Ok f
  end.
Definition visit_join_public (p : pubtable) (on : option (list string)) (how : string)
    (x : vtab * list constraint) : res (vtab * list constraint) :=
  let '(t, cs) := x in
  let* f := public_frame p in
  let* pd := spark_schema_to_analytics_columns (sd_fields f) in
  let* ps := mk_schema pd None None None in
  let dom := analytics_to_core ps in
  let cols := join_columns on (v_dom t) dom in
  let left := negb (in_collection (v_place t)) && String.eqb how "left" in
  let* d := join_domain cols left (v_dom t) dom in
  let* _ := raise_if (match metric_column (v_place t) with Some c => smem c (overlapping cols (v_dom t) dom) | None => false end) ValueError in
  Ok ({| v_dom := d; v_coll := v_coll t; v_place := v_place t;
         v_rows := (if left then left_join else inner_join) cols (dkeys (v_dom t)) (dkeys dom) (v_rows t) (frame_rows f) |},
      simplify (propagate_join_public cols (overlapping cols (v_dom t) dom) (frame_rows f) cs)).

(** AnalyticsDefault, _query_expr.py 1053-1071 (dates in UTC). *)
Definition default_value (t : ctype) : value :=
  match t with
  | INTEGER => VInt 0 | DECIMAL => VFloat (z_to_f 0) | VARCHAR => VStr "" | DATE => VDate 0 | TIMESTAMP => VTime 0
  end.
(** float(x) of a replacement value *)
Definition float_value (v : value) : res value :=
  match v with VInt z => Ok (VFloat (z_to_f z)) | VFloat _ => Ok v | VStr _ => Err ValueError | _ => Err TypeError end.

(** _get_replace_with, 1012-1059. *)
Definition get_replace_with (rw : dict value) (an : dict coldesc) (g : option string) : res (dict value) :=
  match rw with
  | [] => let* _ := mk_schema an None None None in
          Ok (map (fun p => (fst p, default_value (cd_type (snd p))))
                  (filter (fun p => negb (is_col g (fst p)) && (cd_null (snd p) || cd_nan (snd p))) an))
  | _ => let* _ := raise_if (missing (dkeys rw) an) ValueError in
         mapM (fun p => match dget (fst p) an with
                        | Some d => if is_decimal d then let* v := float_value (snd p) in Ok (fst p, v) else Ok p
                        | None => Err KeyError end) rw
  end.

(** visit_replace_null_and_nan, 1061-1233. *)
Definition visit_replace_null (rw : dict value) (x : vtab * list constraint) : res (vtab * list constraint) :=
  let '(t, cs) := x in
  let g := metric_column (v_place t) in
  let* _ := raise_if (opt_in g (dkeys rw)) ValueError in
  let* an := core_to_analytics (v_dom t) in
  let* m := get_replace_with rw an g in
  let nulls := filter (fun p => match dget (fst p) an with Some d => cd_null d | None => false end) m in
  let nans := filter (fun p => match dget (fst p) an with Some d => is_decimal d && cd_nan d | None => false end) m in
  Ok ({| v_dom := at_columns (dkeys nans) core_not_nan (at_columns (dkeys nulls) core_not_null (v_dom t));
         v_coll := v_coll t; v_place := v_place t;
         v_rows := map (fun r => replace_nans nans (replace_nulls nulls r)) (v_rows t) |},
      simplify (propagate_replace (dkeys rw) cs)).

(** visit_replace_infinity, 1235-1297: by default every DECIMAL column. tmlt.core takes
    float columns only. *)
Definition visit_replace_inf (rw : dict (fnum * fnum)) (x : vtab * list constraint) : res (vtab * list constraint) :=
  let '(t, cs) := x in
  let* an := core_to_analytics (v_dom t) in
  let* _ := mk_schema an None None None in
  let m := match rw with
           | [] => map (fun p => (fst p, (z_to_f 0, z_to_f 0))) (filter (fun p => is_decimal (snd p)) an)
           | _ => rw end in
  let* _ := raise_if (existsb (fun c => match dget c an with Some d => negb (is_decimal d) | None => true end) (dkeys m)) ValueError in
  Ok ({| v_dom := at_columns (dkeys m) core_not_inf (v_dom t); v_coll := v_coll t; v_place := v_place t;
         v_rows := map (replace_infs m) (v_rows t) |}, simplify (propagate_replace (dkeys rw) cs)).

(** visit_drop_infinity, 1299-1366. *)
Definition visit_drop_inf (cols : list string) (x : vtab * list constraint) : res (vtab * list constraint) :=
  let '(t, cs) := x in
  let* an := core_to_analytics (v_dom t) in
  let* _ := mk_schema an None None None in
  let* columns :=
    match cols with
    | [] => Ok (dkeys (filter (fun p => is_decimal (snd p) && cd_inf (snd p)) an))
    | _ => let* _ := mapM (fun c => let* d := lookup_col an c in raise_if (negb (is_decimal d)) ValueError) cols in Ok cols
    end in
  Ok ({| v_dom := at_columns columns core_not_inf (v_dom t); v_coll := v_coll t; v_place := v_place t;
         v_rows := drop_rows is_inf columns (v_rows t) |}, simplify cs).

(** visit_drop_null_and_nan, 1368-1517. *)
Definition visit_drop_null (cols : list string) (x : vtab * list constraint) : res (vtab * list constraint) :=
  let '(t, cs) := x in
  let g := metric_column (v_place t) in
  let* an := core_to_analytics (v_dom t) in
  let* _ := mk_schema an None None None in
  let* _ := raise_if (opt_in g cols) ValueError in
  let columns := match cols with
                 | [] => dkeys (filter (fun p => (cd_null (snd p) || cd_nan (snd p)) && negb (is_col g (fst p))) an)
                 | _ => cols end in
  let* _ := raise_if (missing columns an) KeyError in
  let nulls := filter (fun c => match dget c an with Some d => cd_null d | None => false end) columns in
  let nans := filter (fun c => match dget c an with Some d => cd_nan d | None => false end) columns in
  Ok ({| v_dom := at_columns nans core_not_nan (at_columns nulls core_not_null (v_dom t));
         v_coll := v_coll t; v_place := v_place t;
         v_rows := drop_rows is_nan nans (drop_rows is_null nulls (v_rows t)) |}, simplify cs).

(** visit_enforce_constraint, 1520-1536. *)
Definition visit_enforce (c : constraint) (x : vtab * list constraint) : res (vtab * list constraint) :=
  let '(t, cs) := x in
  let* y := enforce (w_row_order W) (w_key_order W) c false false {| t_place := v_place t; t_rows := v_rows t |} in
  Ok ({| v_dom := v_dom t; v_coll := v_coll t; v_place := t_place y; v_rows := t_rows y |},
      simplify (cs ++ [c])%list).

(** accept: one clause per class.  Aggregations are not transformations (1539-1577). *)
Fixpoint visit (q : query) : res (vtab * list constraint) :=
  match q with
  | PrivateSource s => visit_source s
  | Rename c m => let* x := visit c in visit_rename m x
  | Filter c cond => let* x := visit c in visit_filter cond x
  | Select c cols => let* x := visit c in visit_select cols x
  | MapQ c f new aug => let* x := visit c in visit_map f new aug x
  | FlatMap c f new aug mr => let* x := visit c in visit_flat_map f new aug mr x
  | FlatMapByID c f new => let* x := visit c in visit_flat_map_by_id f new x
  | JoinPrivate l r tl tr on => let* x := visit l in let* y := visit r in visit_join_private tl tr on x y
  | JoinPublic c p on how => let* x := visit c in visit_join_public p on how x
  | ReplaceNullAndNan c rw => let* x := visit c in visit_replace_null rw x
  | ReplaceInfinity c rw => let* x := visit c in visit_replace_inf rw x
  | DropNullAndNan c cols => let* x := visit c in visit_drop_null cols x
  | DropInfinity c cols => let* x := visit c in visit_drop_inf cols x
  | EnforceConstraint c k => let* x := visit c in visit_enforce k x
  | GetGroups _ _ | GetBounds _ _ _ _ _ | GroupByCount _ _ _ _ _ | GroupByCountDistinct _ _ _ _ _ _
  | GroupByQuantile _ _ _ _ _ _ _ | GroupByBounded _ _ _ _ _ _ _ _ _ | SuppressAggregates _ _ _ =>
      Err NotImplementedError
  end.

Definition place_eqb (a b : place) : bool :=
  match a, b with
  | PKeys i, PKeys j => String.eqb i j
  | PSym, PSym => true
  | PGrouped g b, PGrouped g' b' => String.eqb g g' && Bool.eqb b b'
  | PGroupedIds g b i, PGroupedIds g' b' i' => String.eqb g g' && Bool.eqb b b' && String.eqb i i'
  | _, _ => false
  end.
(** The metric expected for a schema, 207-225. *)
Definition expected_place (s : schema) : res place :=
  match sc_group s, sc_id s with
  | Some _, Some _ => Err InternalError
  | Some g, None => Ok (PGrouped g l2)
  | None, Some i => Ok (PKeys i)
  | None, None => Ok PSym
  end.
(** validate_transformation, 194-242.  SparkDataFrameDomains are compared as dicts. *)
Definition validate (s : schema) (t : vtab) : res unit :=
  let* p := expected_place s in
  let* _ := raise_if (negb (dict_eqb coredesc_eqb (v_dom t) (analytics_to_core s))) InternalError in
  raise_if (negb (place_eqb (v_place t) p)) InternalError.

(** QueryExprCompiler.build_transformation, _compiler.py 180-226. *)
Definition build_transformation (q : query) : res (vtab * list constraint) :=
  let* s := schema_of (w_cond_ok W) cat q in
  let* x := visit q in
  let* _ := validate s (fst x) in
  Ok x.
End Visit.
