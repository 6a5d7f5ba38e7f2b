(** Model of src/tmlt/analytics/keyset: the operation trees (_ops/*.py), their rewrite
    rules (_ops/_rules.py) and the public KeySet / KeySetPlan classes (_keyset.py).

    Simplifications, for the whole file:
    - Python sets of column names are duplicate-free lists compared as sets; set
      iteration order is one arbitrary choice, nothing observable depends on it.
    - Spark is modelled by the frame operations of Value.v; partition management
      (repartition, coalesce, numSlices) and caching have no effect on contents.
    - isinstance checks on arguments (a KeySetOp is a KeySetOp) are typing.
    - Error messages are dropped. *)
From Coq Require Import String Bool Arith ZArith Lia List.
From Verif Require Import Prelude Value.
Import ListNotations.

(** A filter condition: a SQL string, or a pyspark Column object (by identity).
    Comparing two distinct Column objects with == yields a Column whose bool() raises
    ValueError, and Column is unhashable. *)
Inductive cond : Type := CondStr (s : string) | CondCol (id : nat).

(** Operation trees.  FromDF holds the identity of a Spark logical plan; its rows are
    looked up in the [world].  [CrossJoin true] is InMemoryCrossJoin. *)
Inductive op : Type :=
| FromTuples (tuples : list row) (descs : dict coldesc)   (* _from_tuples.py 23-28 *)
| FromDF (plan : nat) (descs : dict coldesc)              (* _from_dataframe.py 18-22 *)
| Detect (cols : list string)                             (* _detect.py 20-24 *)
| CrossJoin (in_memory : bool) (factors : list op)        (* _cross_join.py 24-32, 147-156 *)
| Join (l r : op)                                         (* _join.py 18-27 *)
| Project (c : op) (cols : list string)                   (* _project.py 19-24 *)
| Filter (c : op) (cnd : cond)                            (* _filter.py 18-23 *)
| Subtract (l r : op)                                     (* _subtract.py 18-27 *)
| Union (l r : op).                                       (* _union.py 17-28 *)

(** What the environment supplies: the contents of Spark dataframes, the evaluation of
    filter conditions on a row (null counts as false), and Python's hash. *)
Record world : Type := {
  content : nat -> list row;
  holds : cond -> valuation -> bool;
  holds_ext : forall c g h, (forall x, g x = h x) -> holds c g = holds c h;
  hval : op -> Z
}.

(** ** Sets of column names *)
Definition subset (a b : list string) : bool := forallb (fun c => smem c b) a.
Definition set_eqb (a b : list string) : bool := subset a b && subset b a.
Definition union_cols (a b : list string) : list string :=
  a ++ filter (fun c => negb (smem c a)) b.
Definition diff_cols (a b : list string) : list string := filter (fun c => negb (smem c b)) a.
Definition is_nil {A} (l : list A) : bool := match l with [] => true | _ => false end.

(** columns(): _from_tuples.py 40-42, _from_dataframe.py 30-32, _detect.py 34-36,
    _cross_join.py 53-55, _join.py 52-54, _project.py 57-59, _filter.py 36-38,
    _subtract.py 43-45, _union.py 59-61. *)
Fixpoint columns (o : op) : list string :=
  match o with
  | FromTuples _ d => dkeys d
  | FromDF _ d => dkeys d
  | Detect cs => cs
  | CrossJoin _ fs => fold_right (fun f acc => union_cols (columns f) acc) [] fs
  | Join l r => union_cols (columns l) (columns r)
  | Project _ cs => cs
  | Filter c _ => columns c
  | Subtract l _ => columns l
  | Union l _ => columns l
  end.

(** is_plan(): _base.py 51-53 and the overrides. *)
Fixpoint is_plan (o : op) : bool :=
  match o with
  | FromTuples _ _ | FromDF _ _ => false
  | Detect _ => true
  | CrossJoin _ fs => existsb is_plan fs
  | Join l r => is_plan l || is_plan r
  | Project c _ => is_plan c
  | Filter c _ => is_plan c
  | Subtract l _ => is_plan l
  | Union l r => is_plan l || is_plan r
  end.

(** join_columns(): _join.py 48-50. *)
Definition join_columns (l r : op) : list string := common (columns l) (columns r).

(** d[c], KeyError if absent. *)
Definition dget_res {V} (c : string) (d : dict V) : res V :=
  match dget c d with Some v => Ok v | None => Err KeyError end.

(** dict | dict *)
Definition dmerge {V} (a b : dict V) : dict V :=
  fold_left (fun d p => dset (fst p) (snd p) d) b a.

Definition desc_and (a b : coldesc) : coldesc :=
  {| cd_type := cd_type a; cd_null := cd_null a && cd_null b;
     cd_nan := cd_nan a && cd_nan b; cd_inf := cd_inf a && cd_inf b |}.
Definition desc_or (a b : coldesc) : coldesc :=
  {| cd_type := cd_type a; cd_null := cd_null a || cd_null b;
     cd_nan := cd_nan a || cd_nan b; cd_inf := cd_inf a || cd_inf b |}.

(** Join.schema's loop (_join.py 56-74). *)
Definition join_schema (on : list string) (left right : dict coldesc) : res (dict coldesc) :=
  fold_left (fun acc p =>
      let* s := acc in
      let '(c, desc) := p in
      if smem c on then
        let* d := dget_res c s in Ok (dset c (desc_and d desc) s)
      else Ok (dset c desc s)) right (Ok left).

(** schema(): _from_tuples.py 44-46, _from_dataframe.py 34-36, _detect.py 38-44,
    _cross_join.py 57-59, _join.py 56-74, _project.py 61-64, _filter.py 40-42,
    _subtract.py 47-49, _union.py 63-75. *)
Fixpoint schema (o : op) : res (dict coldesc) :=
  match o with
  | FromTuples _ d => Ok d
  | FromDF _ d => Ok d
  | Detect _ => Err InternalError
  | CrossJoin _ fs =>
      let* ss := mapM schema fs in Ok (fold_left dmerge ss [])
  | Join l r =>
      let* sl := schema l in
      let* sr := schema r in
      join_schema (join_columns l r) sl sr
  | Project c cs =>
      let* s := schema c in
      let* ds := mapM (fun x => let* d := dget_res x s in Ok (x, d)) cs in
      Ok (dict_of ds)
  | Filter c _ => schema c
  | Subtract l _ => schema l
  | Union l r =>
      let* sl := schema l in
      let* sr := schema r in
      let* ds := mapM (fun p => let* d := dget_res (fst p) sr in
                                Ok (fst p, desc_or (snd p) d)) sl in
      Ok (dict_of ds)
  end.

(** ** Constructors: __post_init__ validation. *)

(** validate_column_names (_utils.py 14-22); names are strings by typing. *)
Definition validate_column_names (cs : list string) : res unit :=
  raise_if (smem EmptyString cs) ValueError.
(** validate_schema (_utils.py 25-34). *)
Definition keyset_type (t : ctype) : bool :=
  match t with INTEGER | DATE | VARCHAR => true | _ => false end.
Definition validate_schema (d : dict coldesc) : res unit :=
  let* _ := validate_column_names (dkeys d) in
  raise_if (existsb (fun p => negb (keyset_type (cd_type (snd p)))) d) ValueError.

(** FromTuples.__post_init__ (_from_tuples.py 30-38). *)
Definition mkFromTuples (ts : list row) (d : dict coldesc) : res op :=
  let* _ := validate_schema d in
  let* _ := raise_if (is_nil d && negb (is_nil ts)) ValueError in
  Ok (FromTuples ts d).
(** FromSparkDataFrame.__post_init__ (_from_dataframe.py 24-28). *)
Definition mkFromDF (W : world) (p : nat) (d : dict coldesc) : res op :=
  let* _ := validate_schema d in
  let* _ := raise_if (is_nil d && negb (is_nil (content W p))) ValueError in
  Ok (FromDF p d).
(** Detect.__post_init__ (_detect.py 26-32). *)
Definition mkDetect (cs : list string) : res op :=
  let* _ := raise_if (is_nil cs) ValueError in
  let* _ := validate_column_names cs in
  Ok (Detect cs).

(** Some column occurs in two factors (_cross_join.py 39-46). *)
Fixpoint overlapping (fs : list op) : bool :=
  match fs with
  | [] => false
  | f :: r => existsb (fun g => negb (is_nil (common (columns f) (columns g)))) r || overlapping r
  end.
Definition in_memory_factor (f : op) : bool :=
  match f with FromTuples _ _ => true | CrossJoin true _ => true | _ => false end.
(** CrossJoin.__post_init__ (_cross_join.py 34-51) and InMemoryCrossJoin.__post_init__
    (158-171). *)
Definition mkCrossJoin (im : bool) (fs : list op) : res op :=
  let* _ := raise_if (is_nil fs) InternalError in
  let* _ := raise_if (overlapping fs) ValueError in
  let* _ := raise_if (im && negb (forallb in_memory_factor fs)) InternalError in
  let* _ := raise_if (im && existsb (fun f => is_nil (columns f)) fs) InternalError in
  Ok (CrossJoin im fs).

(** The column types of [on] agree in the two schemas, KeyError if one is missing. *)
Definition types_match (on : list string) (sl sr : dict coldesc) : res bool :=
  let* bs := mapM (fun c => let* a := dget_res c sl in
                            let* b := dget_res c sr in
                            Ok (ctype_eqb (cd_type a) (cd_type b))) on in
  Ok (forallb (fun b => b) bs).
(** Join.__post_init__ (_join.py 29-46). *)
Definition mkJoin (l r : op) : res op :=
  let* _ := raise_if (is_nil (join_columns l r)) ValueError in
  if is_plan (Join l r) then Ok (Join l r)
  else
    let* sl := schema l in
    let* sr := schema r in
    let* b := types_match (join_columns l r) sl sr in
    let* _ := raise_if (negb b) ValueError in
    Ok (Join l r).
(** Project.__post_init__ (_project.py 26-55). *)
Definition mkProject (c : op) (cs : list string) : res op :=
  let* _ := validate_column_names cs in
  let* _ := raise_if (is_nil cs) ValueError in
  let* _ := raise_if (negb (is_nil (diff_cols cs (columns c)))) ValueError in
  Ok (Project c cs).
(** Filter.__post_init__ (_filter.py 25-34). *)
Definition mkFilter (c : op) (cnd : cond) : res op :=
  let* _ := raise_if (match cnd with CondStr "" => true | _ => false end) ValueError in
  Ok (Filter c cnd).
(** Subtract.__post_init__ (_subtract.py 29-41). *)
Definition mkSubtract (l r : op) : res op :=
  let* _ := raise_if (is_plan r) ValueError in
  let* _ := raise_if (negb (is_nil (diff_cols (columns r) (columns l)))) ValueError in
  Ok (Subtract l r).
(** Union.__post_init__ (_union.py 30-57). *)
Definition mkUnion (l r : op) : res op :=
  let* _ := raise_if (negb (set_eqb (columns l) (columns r))) ValueError in
  if is_plan l || is_plan r then Ok (Union l r)
  else
    let* sl := schema l in
    let* sr := schema r in
    let* b := types_match (columns l) sl sr in
    let* _ := raise_if (negb b) ValueError in
    Ok (Union l r).

(** ** Materializing *)
Section Materialize.
Variable W : world.

Definition descs_of (o : op) : res (dict coldesc) :=
  match o with FromTuples _ d => Ok d | _ => Err AttributeError end.
Definition tuples_of (o : op) : list row :=
  match o with FromTuples ts _ => ts | _ => [] end.

(** InMemoryCrossJoin.dataframe / __iter__ (_cross_join.py 173-203): itertools.product
    of the factors' tuples, concatenated.  A factor that is not FromTuples has no
    attribute column_descriptors. *)
Definition in_memory_product (fs : list op) : res frame :=
  let* ds := mapM descs_of fs in
  Ok {| fcols := dkeys (fold_left dmerge ds []);
        frows := fold_right (fun f acc => flat_map (fun r => map (fun s => r ++ s) acc) (tuples_of f))
                            [[]] fs |}.

(** reduce(f, l) without an initial value. *)
Definition reduce1 {A} (f : A -> A -> A) (l : list A) : option A :=
  match l with [] => None | x :: r => Some (fold_left f r x) end.

(** dataframe(): _from_tuples.py 48-66, _from_dataframe.py 38-44 (type coercion does not
    change values), _detect.py 46-54, _cross_join.py 61-100 (partitioning dropped),
    _join.py 76-87, _project.py 66-72, _filter.py 44-50, _subtract.py 51-63,
    _union.py 77-85.  tmlt.core's join refuses an empty list of join columns. *)
Fixpoint dataframe (o : op) : res frame :=
  match o with
  | FromTuples ts d => Ok {| fcols := dkeys d; frows := ts |}
  | FromDF p d => Ok (fdistinct {| fcols := dkeys d; frows := content W p |})
  | Detect _ => Err InternalError
  | CrossJoin true fs => in_memory_product fs
  | CrossJoin false fs =>
      let* dfs := mapM (fun f => if is_nil (columns f) then Ok None
                                 else let* d := dataframe f in Ok (Some d)) fs in
      let nonempty := flat_map (fun x => match x with Some d => [d] | None => [] end) dfs in
      match reduce1 fcross nonempty with
      | Some d => Ok d
      | None => match fs with f :: _ => dataframe f | [] => Err IndexError end
      end
  | Join l r =>
      let* dl := dataframe l in
      let* dr := dataframe r in
      Ok (fjoin (join_columns l r) dl dr)
  | Project c cs => let* d := dataframe c in Ok (fdistinct (fselect cs d))
  | Filter c cnd => let* d := dataframe c in Ok (ffilter (holds W cnd) d)
  | Subtract l r =>
      let* dl := dataframe l in
      let* dr := dataframe r in
      let* _ := raise_if (is_nil (columns r)) ValueError in
      Ok (fanti (columns r) dl dr)
  | Union l r =>
      let* dl := dataframe l in
      let* dr := dataframe r in
      Ok (fdistinct (funion dl dr))
  end.

Definition count (o : op) : res Z := let* d := dataframe o in Ok (Z.of_nat (length (frows d))).
Definition df_is_empty (o : op) : res bool := let* d := dataframe o in Ok (is_nil (frows d)).

(** all elements present *)
Fixpoint all_some {A} (l : list (option A)) : option (list A) :=
  match l with
  | [] => Some []
  | Some a :: r => match all_some r with Some t => Some (a :: t) | None => None end
  | None :: _ => None
  end.

(** size(fast): _from_tuples.py 85-89, _from_dataframe.py 63-69, _detect.py 77-83,
    _cross_join.py 119-124, _join.py 106-110, _project.py 91-95, _filter.py 72-76,
    _subtract.py 85-92, _union.py 107-112.  [None] is the fast answer "unknown". *)
Fixpoint size (fast : bool) (o : op) : res (option Z) :=
  let slow (o : op) := if fast then Ok None else let* n := count o in Ok (Some n) in
  match o with
  | FromTuples ts d => Ok (Some (if is_nil d then 1 else Z.of_nat (length ts))%Z)
  | FromDF p d => if is_nil d then Ok (Some 1%Z) else slow o
  | Detect _ => Err InternalError
  | CrossJoin _ fs =>
      let* ss := mapM (size fast) fs in
      match all_some ss with
      | Some l => match reduce1 Z.mul l with Some n => Ok (Some n) | None => Err TypeError end
      | None => if fast then Ok None else Err TypeError
      end
  | _ => slow o
  end.

(** is_empty(): _from_tuples.py 68-70, _from_dataframe.py 46-48, _detect.py 56-62,
    _cross_join.py 102-104 (any() stops at the first True), _join.py 89-91,
    _project.py 74-76, _filter.py 52-57, _subtract.py 65-70, _union.py 87-92. *)
Fixpoint is_empty (o : op) : res bool :=
  match o with
  | FromTuples ts d => Ok (negb (is_nil d) && is_nil ts)
  | FromDF p d => Ok (is_nil (content W p))
  | Detect _ => Err InternalError
  | CrossJoin _ fs =>
      fold_right (fun f acc => let* b := is_empty f in if b then Ok true else acc) (Ok false) fs
  | Join _ _ => df_is_empty o
  | Project c _ => is_empty c
  | Filter _ _ => df_is_empty o
  | Subtract l _ => let* b := is_empty l in if b then Ok true else df_is_empty o
  | Union l r => let* b := is_empty l in if b then is_empty r else Ok false
  end.

End Materialize.

(** decompose(): _base.py 71-79 (default), _detect.py 89-97, _cross_join.py 132-144,
    _join.py 121-134, _subtract.py 103-125, _union.py 123-131. *)
Fixpoint decompose (split : list string) (o : op) : res (list op * list op) :=
  match o with
  | Detect _ => Err InternalError
  | CrossJoin _ fs =>
      let* ds := mapM (decompose split) fs in
      Ok (flat_map fst ds, flat_map snd ds)
  | Join l r =>
      if subset (join_columns l r) split then
        let* dl := decompose split l in
        let* dr := decompose split r in
        Ok (fst dl ++ fst dr, snd dl ++ snd dr)
      else Ok ([o], [])
  | Subtract l r =>
      let* dl := decompose split l in
      let absorbs f := subset (columns r) (columns f) in
      let* fs := mapM (fun f => if absorbs f then mkSubtract f r else Ok f) (fst dl) in
      if existsb absorbs (fst dl) then Ok (fs, snd dl) else Ok (fs, snd dl ++ [r])
  | _ => Ok ([o], [])
  end.

(** ** Rewrite rules, _rules.py *)

(** depth_first (36-68). *)
Fixpoint depth_first (func : op -> res op) (o : op) : res op :=
  match o with
  | FromTuples _ _ | FromDF _ _ | Detect _ => func o
  | CrossJoin im fs =>
      let* fs' := mapM (depth_first func) fs in
      let* o' := mkCrossJoin im fs' in func o'
  | Join l r =>
      let* l' := depth_first func l in
      let* r' := depth_first func r in
      let* o' := mkJoin l' r' in func o'
  | Project c cs =>
      let* c' := depth_first func c in
      let* o' := mkProject c' cs in func o'
  | Filter c cnd =>
      let* c' := depth_first func c in
      let* o' := mkFilter c' cnd in func o'
  | Subtract l r =>
      let* l' := depth_first func l in
      let* r' := depth_first func r in
      let* o' := mkSubtract l' r' in func o'
  | Union l r =>
      let* l' := depth_first func l in
      let* r' := depth_first func r in
      let* o' := mkUnion l' r' in func o'
  end.

(** project_across_crossjoin's body (126-137).  [None] means "returned op unchanged";
    an applied rule always returns a different tree (KeySetTotalRules.project_step_changes),
    so this is the test [new_op != op] of breadth_first. *)
Definition project_step (o : op) : res (option op) :=
  match o with
  | Project (CrossJoin _ fs) cs =>
      let* included :=
        mapM (fun f => mkProject f (common (columns f) cs))
             (filter (fun f => negb (is_nil (common (columns f) cs))) fs) in
      match included with
      | [f] => Ok (Some f)
      | _ => let* o' := mkCrossJoin false included in Ok (Some o')
      end
  | _ => Ok None
  end.

(** breadth_first (71-110).  [n] bounds the recursion depth; [weight o] suffices
    (KeySetTotal.breadth_first_fuel). *)
Fixpoint breadth_first (step : op -> res (option op)) (n : nat) (o : op) : res op :=
  match n with
  | O => Err RuntimeError
  | S n' =>
      let go := breadth_first step n' in
      let* new := step o in
      match new with
      | Some o' => go o'
      | None =>
          match o with
          | FromTuples _ _ | FromDF _ _ | Detect _ => Ok o
          | CrossJoin im fs => let* fs' := mapM go fs in mkCrossJoin im fs'
          | Join l r => let* l' := go l in let* r' := go r in mkJoin l' r'
          | Project c cs => let* c' := go c in mkProject c' cs
          | Filter c cnd => let* c' := go c in mkFilter c' cnd
          | Subtract l r => let* l' := go l in let* r' := go r in mkSubtract l' r'
          | Union l r => let* l' := go l in let* r' := go r in mkUnion l' r'
          end
      end
  end.

(** A bound on breadth_first's recursion depth. *)
Fixpoint weight (o : op) : nat :=
  match o with
  | FromTuples _ _ | FromDF _ _ | Detect _ => 1
  | CrossJoin _ fs => S (fold_right (fun f acc => weight f + acc) 0 fs)
  | Join l r | Subtract l r | Union l r => S (weight l + weight r)
  | Project c _ => 2 * weight c
  | Filter c _ => S (weight c)
  end.

Definition project_across_crossjoin (o : op) : res op :=
  breadth_first project_step (S (weight o)) o.

(** collapse_nested_projections (140-150). *)
Definition collapse_nested_projections (o : op) : res op :=
  match o with
  | Project (Project c _) cs => mkProject c cs
  | _ => Ok o
  end.

(** remove_noop_projections (153-163). *)
Definition remove_noop_projections (o : op) : res op :=
  match o with
  | Project c cs => if set_eqb cs (columns c) then Ok c else Ok o
  | _ => Ok o
  end.

(** op.factors if it is a CrossJoin, else (op,). *)
Definition factors_of (o : op) : list op :=
  match o with CrossJoin _ fs => fs | _ => [o] end.
Definition touches (cs : list string) (f : op) : bool := negb (is_nil (common (columns f) cs)).
(** CrossJoin(fs) if len(fs) > 1 else fs[0]. *)
Definition cross_or_first (fs : list op) : res op :=
  match fs with
  | [] => Err IndexError
  | [f] => Ok f
  | _ => mkCrossJoin false fs
  end.

(** extract_crossjoin_from_join (166-210). *)
Definition extract_crossjoin_from_join (o : op) : res op :=
  match o with
  | Join l r =>
      let jc := join_columns l r in
      let lf := factors_of l in
      let rf := factors_of r in
      let final_left := filter (touches jc) lf in
      let final_right := filter (touches jc) rf in
      let extracted := filter (fun f => negb (touches jc f)) lf
                    ++ filter (fun f => negb (touches jc f)) rf in
      if is_nil extracted then Ok o
      else
        let* jl := cross_or_first final_left in
        let* jr := cross_or_first final_right in
        let* j := mkJoin jl jr in
        mkCrossJoin false (extracted ++ [j])
  | _ => Ok o
  end.

(** extract_crossjoin_from_subtract (213-236). *)
Definition extract_crossjoin_from_subtract (o : op) : res op :=
  match o with
  | Subtract (CrossJoin im fs) r =>
      let left_factors := filter (touches (columns r)) fs in
      let extracted := filter (fun f => negb (touches (columns r) f)) fs in
      if is_nil extracted then Ok o
      else
        let* sl := cross_or_first left_factors in
        let* s := mkSubtract sl r in
        mkCrossJoin false (extracted ++ [s])
  | _ => Ok o
  end.

(** compose of the two (474-479). *)
Definition extract_crossjoins (o : op) : res op :=
  let* o1 := extract_crossjoin_from_join o in extract_crossjoin_from_subtract o1.

(** merge_cross_joins (239-269). *)
Definition merge_cross_joins (o : op) : res op :=
  match o with
  | CrossJoin _ fs =>
      let factors := flat_map factors_of fs in
      let non_total := filter (fun f => negb (is_nil (columns f))) factors in
      match non_total with
      | [] => match factors with f :: _ => Ok f | [] => Err IndexError end
      | [f] => Ok f
      | _ => mkCrossJoin false non_total
      end
  | _ => Ok o
  end.

(** *** Sorting *)
(** list.sort is a stable sort; insertion sort stands in for it. *)
Fixpoint insert {A} (le : A -> A -> bool) (x : A) (l : list A) : list A :=
  match l with
  | [] => [x]
  | y :: r => if le x y then x :: l else y :: insert le x r
  end.
Fixpoint isort {A} (le : A -> A -> bool) (l : list A) : list A :=
  match l with [] => [] | x :: r => insert le x (isort le r) end.
(** sort(reverse=True) keeps equal elements in their original order. *)
Definition isort_rev {A} (le : A -> A -> bool) (l : list A) : list A := rev (isort le (rev l)).

Fixpoint strs_compare (a b : list string) : comparison :=
  match a, b with
  | [], [] => Eq
  | [], _ => Lt
  | _, [] => Gt
  | x :: a', y :: b' => match String.compare x y with Eq => strs_compare a' b' | c => c end
  end.
Definition sorted_columns (o : op) : list string := isort String.leb (columns o).
Definition columns_le (a b : op) : bool :=
  match strs_compare (sorted_columns a) (sorted_columns b) with Gt => false | _ => true end.
(** key (tuple(sorted(columns)), hash) *)
Definition key_le (a b : op * Z) : bool :=
  match strs_compare (sorted_columns (fst a)) (sorted_columns (fst b)) with
  | Lt => true | Gt => false | Eq => (snd a <=? snd b)%Z
  end.

(** order_cross_joins (272-278). *)
Definition order_cross_joins (o : op) : res op :=
  match o with
  | CrossJoin im fs => mkCrossJoin im (isort columns_le fs)
  | _ => Ok o
  end.

Section Rules.
Variable W : world.

(** _IN_MEMORY_CROSS_JOIN_THRESHOLD (23). *)
Definition threshold : Z := (2 ^ 20)%Z.

(** the inner while of apply_cross_joins_in_memory (331-337): consumes small factors *)
Fixpoint take_group (sz : Z) (group : list op) (q : list (Z * op)) : list op * list (Z * op) :=
  match q with
  | (n, f) :: r =>
      if (n * sz <? threshold)%Z then take_group (sz * n)%Z (group ++ [f]) r else (group, q)
  | [] => (group, [])
  end.
(** the outer while (328-342); [n] is at least the queue's length *)
Fixpoint pack (n : nat) (q : list (Z * op)) (acc : list op) : res (list op) :=
  match n with
  | O => Ok acc
  | S n' =>
      match rev q with
      | [] => Ok acc
      | (sz, large) :: rq =>
          let '(group, rest) := take_group sz [large] (rev rq) in
          match group with
          | [f] => pack n' rest (acc ++ [f])
          | _ => let* g := mkCrossJoin true group in pack n' rest (acc ++ [g])
          end
      end
  end.

Definition small_factor (f : op) : res (option Z) :=
  let* s := size W true f in
  Ok (match f, s with
      | FromTuples _ _, Some n => if (n <? threshold / 2)%Z then Some n else None
      | _, _ => None
      end).

(** apply_cross_joins_in_memory (281-346). *)
Definition apply_cross_joins_in_memory (o : op) : res op :=
  match o with
  | CrossJoin false fs =>
      if is_plan o then Ok o
      else
        let* tagged := mapM (fun f => let* s := small_factor f in Ok (s, f)) fs in
        let large := flat_map (fun p => match fst p with None => [snd p] | Some _ => [] end) tagged in
        let small := flat_map (fun p => match fst p with Some n => [(n, snd p)] | None => [] end) tagged in
        if (length small <? 2)%nat then Ok o
        else
          let q := isort (fun a b => (fst a <=? fst b)%Z) small in
          let* all := pack (length q) q large in
          match all with
          | [f] => Ok f
          | _ => mkCrossJoin false all
          end
  | _ => Ok o
  end.

(** hash(op): the dataclass hash, TypeError if some filter condition is a Column. *)
Fixpoint hashable (o : op) : bool :=
  match o with
  | FromTuples _ _ | FromDF _ _ | Detect _ => true
  | CrossJoin _ fs => forallb hashable fs
  | Join l r | Subtract l r | Union l r => hashable l && hashable r
  | Project c _ => hashable c
  | Filter c cnd => match cnd with CondStr _ => hashable c | CondCol _ => false end
  end.
Definition hash (o : op) : res Z := if hashable o then Ok (hval W o) else Err TypeError.
Definition with_hash (l : list op) : res (list (op * Z)) :=
  mapM (fun f => let* h := hash f in Ok (f, h)) l.

(** reduce(lambda r, l: F(l, r), leaves) *)
Fixpoint fold_mk (mk : op -> op -> res op) (acc : op) (l : list op) : res op :=
  match l with
  | [] => Ok acc
  | x :: r => let* a := mk acc x in fold_mk mk a r
  end.
Definition reduce_mk (mk : op -> op -> res op) (l : list op) : res op :=
  match l with [] => Err TypeError | x :: r => fold_mk mk x r end.

(** The leaves of a tree of joins, in the order the loop of normalize_joins visits them
    (380-388): children of a node first, then the right subtree, then the left. *)
Fixpoint join_leaves (o : op) : list op :=
  match o with
  | Join l r =>
      (match l with Join _ _ => [] | _ => [l] end) ++ (match r with Join _ _ => [] | _ => [r] end)
      ++ (match r with Join _ _ => join_leaves r | _ => [] end)
      ++ (match l with Join _ _ => join_leaves l | _ => [] end)
  | _ => []
  end.
(** normalize_joins (349-397). *)
Definition normalize_joins (o : op) : res op :=
  match o with
  | Join _ _ =>
      let* hs := with_hash (join_leaves o) in
      reduce_mk (fun r l => mkJoin l r) (map fst (isort_rev key_le hs))
  | _ => Ok o
  end.

(** normalize_unions (400-438). *)
Fixpoint union_leaves (o : op) : list op :=
  match o with
  | Union l r =>
      (match l with Union _ _ => [] | _ => [l] end) ++ (match r with Union _ _ => [] | _ => [r] end)
      ++ (match r with Union _ _ => union_leaves r | _ => [] end)
      ++ (match l with Union _ _ => union_leaves l | _ => [] end)
  | _ => []
  end.
Definition normalize_unions (o : op) : res op :=
  match o with
  | Union _ _ =>
      let* hs := with_hash (union_leaves o) in
      reduce_mk (fun r l => mkUnion l r) (map fst (isort (fun a b => (snd a <=? snd b)%Z) hs))
  | _ => Ok o
  end.

(** normalize_subtracts (441-463). *)
Fixpoint subtract_spine (o : op) : op * list op :=
  match o with
  | Subtract l r => let '(b, rs) := subtract_spine l in (b, r :: rs)
  | _ => (o, [])
  end.
Definition normalize_subtracts (o : op) : res op :=
  match o with
  | Subtract _ _ =>
      let '(base, rs) := subtract_spine o in
      let* hs := with_hash rs in
      fold_mk mkSubtract base (map fst (isort key_le hs))
  | _ => Ok o
  end.

(** _REWRITE_RULES (466-490) and rewrite (500-504). *)
Definition rules : list (op -> res op) :=
  [ project_across_crossjoin;
    depth_first collapse_nested_projections;
    depth_first remove_noop_projections;
    depth_first merge_cross_joins;
    depth_first extract_crossjoins;
    depth_first merge_cross_joins;
    depth_first order_cross_joins;
    depth_first apply_cross_joins_in_memory;
    depth_first normalize_joins;
    depth_first normalize_subtracts;
    depth_first normalize_unions ].
Definition rewrite (o : op) : res op :=
  fold_left (fun acc r => let* x := acc in r x) rules (Ok o).

(** ** The public classes, _keyset.py *)

(** KeySet / KeySetPlan: an optimized tree and ordered columns. *)
Record keyset : Type := { ks_tree : op; ks_cols : list string }.

Fixpoint has_dup (l : list string) : bool :=
  match l with [] => false | c :: r => smem c r || has_dup r end.

(** KeySet.__init__ (45-74) and KeySetPlan.__init__ (634-657). *)
Definition mkKeySet (o : op) (cs : list string) : res keyset :=
  let* _ := raise_if (is_plan o) InternalError in
  let* _ := raise_if (has_dup cs) InternalError in
  let* _ := raise_if (negb (set_eqb (columns o) cs)) InternalError in
  let* t := rewrite o in
  Ok {| ks_tree := t; ks_cols := cs |}.
Definition mkKeySetPlan (o : op) (cs : list string) : res keyset :=
  let* _ := raise_if (negb (is_plan o)) InternalError in
  let* _ := raise_if (negb (set_eqb (columns o) cs)) InternalError in
  let* t := rewrite o in
  let* _ := raise_if (negb (is_plan t)) InternalError in
  Ok {| ks_tree := t; ks_cols := cs |}.
(** Which of the two classes an operation on a KeySet or KeySetPlan builds: a plan iff
    an operand is one (212-244, 321-353, 405-438, 663-681, 737-759, 784-807). *)
Definition mkEither (plan : bool) (o : op) (cs : list string) : res keyset :=
  if plan then mkKeySetPlan o cs else mkKeySet o cs.
Definition ks_plan (k : keyset) : bool := is_plan (ks_tree k).

(** Types of Python values, for from_tuples. *)
Definition value_type (v : value) : option ctype :=
  match v with
  | VNull => None
  | VInt _ => Some INTEGER
  | VFloat _ => Some DECIMAL
  | VStr _ => Some VARCHAR
  | VDate _ => Some DATE
  | VTime _ => Some TIMESTAMP
  end.
(** The descriptor of one column of from_tuples (128-155), given its values. *)
Definition infer_column (vs : list value) : res coldesc :=
  let typed := flat_map (fun v => match value_type v with Some t => [t] | None => [] end) vs in
  match typed with
  | [] => Err ValueError
  | t :: ts =>
      if forallb (ctype_eqb t) ts then
        Ok {| cd_type := t; cd_null := existsb (fun v => match v with VNull => true | _ => false end) vs;
              cd_nan := false; cd_inf := false |}
      else Err ValueError
  end.

Definition column_at (i : nat) (ts : list row) : list value := map (fun t => nth i t VNull) ts.

(** KeySet.from_tuples (92-159).  [tuples] is deduplicated (113).  With repeated column
    names the code merges the value types first; both raise in the end.  Python also merges
    tuples that are equal across types, such as (1,) and (1.0,), before it looks at types. *)
Definition from_tuples (tuples : list row) (cs : list string) : res keyset :=
  let ts := nodup row_eq_dec tuples in
  let* _ := raise_if (negb (forallb (fun t => length t =? length cs)%nat ts)) ValueError in
  let* ds := mapM (fun p => let* d := infer_column (column_at (fst p) ts) in Ok (snd p, d))
                  (combine (seq 0 (length cs)) cs) in
  let* o := mkFromTuples ts (dict_of ds) in
  mkKeySet o cs.

(** KeySet.from_dataframe (76-90). *)
Definition from_dataframe (p : nat) (d : dict coldesc) : res keyset :=
  let* o := mkFromDF W p d in mkKeySet o (dkeys d).

(** KeySet._detect (201-204). *)
Definition detect (cs : list string) : res keyset :=
  let* o := mkDetect (nodup string_dec cs) in mkKeySetPlan o cs.

(** KeySet.__mul__ (212-244), KeySetPlan.__mul__ (663-681). *)
Definition ks_mul (a b : keyset) : res keyset :=
  let* o := mkCrossJoin false [ks_tree a; ks_tree b] in
  mkEither (ks_plan a || ks_plan b) o (ks_cols a ++ ks_cols b).

(** reduce(lambda l, r: l * r, ...) *)
Fixpoint mul_all (acc : keyset) (l : list (res keyset)) : res keyset :=
  match l with
  | [] => Ok acc
  | x :: r => let* k := x in let* a := ks_mul acc k in mul_all a r
  end.
(** KeySet.from_dict (161-197). *)
Definition from_dict (domains : dict (list value)) : res keyset :=
  match map (fun p => from_tuples (map (fun v => [v]) (snd p)) [fst p]) domains with
  | [] => from_tuples [] []
  | x :: r => let* k := x in mul_all k r
  end.

(** KeySet.__sub__ (246-263), KeySetPlan.__sub__ (683-699). *)
Definition ks_sub (a b : keyset) : res keyset :=
  let* o := mkSubtract (ks_tree a) (ks_tree b) in mkEither (ks_plan a) o (ks_cols a).

(** KeySet.__getitem__ (265-313), KeySetPlan.__getitem__ (701-735). *)
Definition ks_project (a : keyset) (cs : list string) : res keyset :=
  let* _ := raise_if (has_dup cs) ValueError in
  let* o := mkProject (ks_tree a) cs in
  if ks_plan a then
    let* t := rewrite o in
    mkEither (is_plan t) t cs
  else mkKeySet o cs.

(** list(dict.fromkeys(l)) *)
Definition first_occurrences (l : list string) : list string := rev (nodup string_dec (rev l)).

(** join (321-353, 737-759). *)
Definition ks_join (a b : keyset) : res keyset :=
  let* o := mkJoin (ks_tree a) (ks_tree b) in
  mkEither (ks_plan a || ks_plan b) o (first_occurrences (ks_cols a ++ ks_cols b)).

(** filter (355-397, 761-782). *)
Definition ks_filter (a : keyset) (cnd : cond) : res keyset :=
  let* o := mkFilter (ks_tree a) cnd in mkEither (ks_plan a) o (ks_cols a).

(** union (405-438, 784-807). *)
Definition ks_union (a b : keyset) : res keyset :=
  let* o := mkUnion (ks_tree a) (ks_tree b) in
  mkEither (ks_plan a || ks_plan b) o (ks_cols a).

(** KeySet.dataframe (461-479; memoization dropped). *)
Definition ks_dataframe (a : keyset) : res frame :=
  let* d := dataframe W (ks_tree a) in
  let* _ := raise_if (negb (set_eqb (fcols d) (ks_cols a))) InternalError in
  Ok (fselect (ks_cols a) d).

(** KeySet.schema (444-459). *)
Definition ks_schema (a : keyset) : res (dict coldesc) :=
  let* s := schema (ks_tree a) in
  let* ds := mapM (fun c => let* d := dget_res c s in Ok (c, d)) (ks_cols a) in
  Ok (dict_of ds).

(** KeySet.size (481-489). *)
Definition ks_size (a : keyset) : res Z :=
  let* n := size W false (ks_tree a) in
  match n with Some z => Ok z | None => Err TypeError end.

(** *** Equality *)
(** Condition ==: two distinct Columns, or a Column and a string, give a Column, whose
    truth value raises ValueError.  Identical objects are equal without calling ==. *)
Definition cond_eq (a b : cond) : res bool :=
  match a, b with
  | CondStr x, CondStr y => Ok (String.eqb x y)
  | CondCol i, CondCol j => if Nat.eqb i j then Ok true else Err ValueError
  | _, _ => Err ValueError
  end.

Definition and_then (a : res bool) (b : res bool) : res bool :=
  let* x := a in if x then b else Ok false.
Definition dict_eqb (a b : dict coldesc) : bool :=
  list_eqb (fun p q => String.eqb (fst p) (fst q) && coldesc_eqb (snd p) (snd q)) a b.
Definition rowset_eqb (a b : list row) : bool :=
  forallb (fun r => row_mem r b) a && forallb (fun r => row_mem r a) b.

(** The dataclasses' __eq__ on operation trees (fields compared in order; different
    classes are unequal); FromSparkDataFrame.__eq__ (_from_dataframe.py 71-76), where
    sameSemantics is equality of the plan. *)
Fixpoint op_eq (a b : op) : res bool :=
  match a, b with
  | FromTuples t d, FromTuples t' d' => Ok (rowset_eqb t t' && dict_eqb d d')
  | FromDF p d, FromDF p' d' => Ok (dict_eqb d d' && Nat.eqb p p')
  | Detect c, Detect c' => Ok (set_eqb c c')
  | CrossJoin i fs, CrossJoin i' fs' =>
      if Bool.eqb i i' then
        (fix go l l' := match l, l' with
                        | [], [] => Ok true
                        | x :: r, y :: r' => and_then (op_eq x y) (go r r')
                        | _, _ => Ok false
                        end) fs fs'
      else Ok false
  | Join l r, Join l' r' => and_then (op_eq l l') (op_eq r r')
  | Project c cs, Project c' cs' => and_then (op_eq c c') (Ok (set_eqb cs cs'))
  | Filter c k, Filter c' k' => and_then (op_eq c c') (cond_eq k k')
  | Subtract l r, Subtract l' r' => and_then (op_eq l l') (op_eq r r')
  | Union l r, Union l' r' => and_then (op_eq l l') (op_eq r r')
  | _, _ => Ok false
  end.

(** {c: d.column_type for c, d in schema.items()} compared as unordered dicts *)
Definition types_dict (s : dict coldesc) : dict ctype := map (fun p => (fst p, cd_type (snd p))) s.
Definition types_dict_eqb (a b : dict ctype) : bool :=
  forallb (fun p => match dget (fst p) b with Some t => ctype_eqb (snd p) t | None => false end) a
  && forallb (fun p => dmem (fst p) a) b.

(** KeySet.is_equivalent (506-533) and KeySetPlan.is_equivalent (809-835). *)
Definition ks_is_equivalent (a b : keyset) : res (option bool) :=
  if negb (Bool.eqb (ks_plan a) (ks_plan b)) then Ok (Some false)
  else
    let* e := op_eq (ks_tree a) (ks_tree b) in
    if e then Ok (Some true)
    else if ks_plan a then
      if list_eqb String.eqb (ks_cols a) (ks_cols b) then Ok None else Ok (Some false)
    else
      let* sa := ks_schema a in
      let* sb := ks_schema b in
      if types_dict_eqb (types_dict sa) (types_dict sb) then Ok None else Ok (Some false).

(** a.exceptAll(b): multiset difference *)
Fixpoint remove_one (r : row) (l : list row) : list row :=
  match l with
  | [] => []
  | x :: t => if row_eqb r x then t else x :: remove_one r t
  end.
Definition except_all (a b : list row) : list row := fold_left (fun l r => remove_one r l) b a.

(** KeySet.__eq__ (535-570), KeySetPlan.__eq__ (837-848). *)
Definition ks_eq (a b : keyset) : res bool :=
  if negb (Bool.eqb (ks_plan a) (ks_plan b)) then Ok false
  else
    let* e := ks_is_equivalent a b in
    match e with
    | Some v => Ok v
    | None =>
        if ks_plan a then Ok false
        else
          let* da := ks_dataframe a in
          let* db := ks_dataframe b in
          let sa := fselect (ks_cols a) da in
          let sb := fselect (ks_cols a) db in
          if negb (is_nil (except_all (frows sa) (frows sb))) then Ok false
          else if negb (is_nil (except_all (frows sb) (frows sa))) then Ok false
          else Ok true
    end.

(** KeySet.__hash__ (572-574): what is hashed, namely the ordered schema. *)
Definition ks_hash_key (a : keyset) : res (dict coldesc) := ks_schema a.

(** KeySet._decompose (576-619). *)
Definition ks_decompose (a : keyset) (split : list string) : res (list keyset * list keyset) :=
  let as_keyset (o : op) := mkKeySet o (filter (fun c => smem c (columns o)) (ks_cols a)) in
  let* d := decompose split (ks_tree a) in
  let* fs := mapM as_keyset (fst d) in
  let* ss := mapM as_keyset (snd d) in
  Ok (fs, ss).

End Rules.
