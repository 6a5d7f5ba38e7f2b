(** What it means for a table to conform to a schema, for the inputs of a query to be
    what they claim to be, and for the user's own functions to keep their promises. *)
From Coq Require Import String Bool Arith ZArith Lia Permutation List.
From Verif Require Import Prelude Value Rows Constraints ConstraintsSpec Schema SchemaProofs Query Transform.
Import ListNotations.
Local Open Scope string_scope.
Local Open Scope nat_scope.

(** A row has exactly the columns of the schema, each once, and each cell has the
    column's type and is null, NaN or infinite only where the column allows it. *)
Definition row_conforms (cols : dict coldesc) (r : rec) : Prop :=
  NoDup (dkeys r)
  /\ (forall c, In c (dkeys r) <-> In c (dkeys cols))
  /\ (forall c d, dget c cols = Some d -> cell_ok d (getv c r) = true).
Definition conforms (cols : dict coldesc) (t : table) : Prop := forall r, In r t -> row_conforms cols r.

(** The same for the column descriptors of tmlt.core. *)
Definition core_cell_ok (d : coredesc) (v : value) : bool :=
  match v, d with
  | VNull, _ => core_null d
  | VInt _, CInt _ => true
  | VFloat FNan, CFloat _ x _ => x
  | VFloat FPInf, CFloat _ _ i | VFloat FNInf, CFloat _ _ i => i
  | VFloat (FFin _), CFloat _ _ _ => true
  | VStr _, CString _ | VDate _, CDate _ | VTime _, CTimestamp _ => true
  | _, _ => false
  end.
Definition row_in_domain (d : dict coredesc) (r : rec) : Prop :=
  NoDup (dkeys r)
  /\ (forall c, In c (dkeys r) <-> In c (dkeys d))
  /\ (forall c k, dget c d = Some k -> core_cell_ok k (getv c r) = true).
Definition in_domain (d : dict coredesc) (t : table) : Prop := forall r, In r t -> row_in_domain d r.

(** Two dictionaries with the same entries, in whatever order. *)
Definition same_entries {V} (a b : dict V) : Prop := forall k, dget k a = dget k b.

(** ** Inputs *)

(** The metric a table must have for its schema: grouped by the grouping column, or the
    ID column, or neither. *)
Definition metric_for (l2 : bool) (s : schema) (p : place) : Prop :=
  match sc_group s, sc_id s with
  | Some g, None => p = PGrouped g l2
  | None, Some i => p = PKeys i
  | None, None => p = PSym
  | Some _, Some _ => False
  end.

(** A data frame is what its own schema says. *)
Definition frame_conforms (f : sframe) : Prop :=
  NoDup (map sf_name (sd_fields f))
  /\ forall cols, spark_schema_to_analytics_columns (sd_fields f) = Ok cols -> conforms cols (frame_rows f).

(** Every private table of the session has a schema in the catalog that it conforms to;
    public tables are what their schemas say. *)
Definition inputs_ok (l2 : bool) (cat : catalog) (data : dict vtab) : Prop :=
  (forall name t, dget name data = Some t ->
     exists s cs, dget name (cat_private cat) = Some (s, cs)
       /\ NoDup (dkeys (sc_cols s)) /\ NoDup (dkeys (v_dom t))
       /\ (forall c, sc_group s = Some c \/ sc_id s = Some c -> In c (dkeys (sc_cols s)))
       /\ same_entries (v_dom t) (analytics_to_core s)
       /\ metric_for l2 s (v_place t)
       /\ conforms (sc_cols s) (v_rows t))
  /\ (forall name s f, dget name (cat_public cat) = Some (s, f) ->
        frame_conforms f
        /\ NoDup (dkeys (sc_cols s)) /\ sc_group s = None /\ sc_id s = None
        /\ exists d, spark_schema_to_analytics_columns (sd_fields f) = Ok d
                     /\ same_entries (analytics_to_core s) (map (fun p => (fst p, to_core (snd p))) d)).

(** ** Queries as the constructors leave them, and promises made by the user *)

(** Every node of the tree is one the constructors of the expression classes accept. *)
Fixpoint built (auto : bool) (q : query) : Prop :=
  post_init auto q = Ok q
  /\ match q with
     | PrivateSource _ => True
     | GetGroups c _ | GetBounds c _ _ _ _ | Rename c _ | Filter c _ | Select c _ | MapQ c _ _ _
     | FlatMap c _ _ _ _ | FlatMapByID c _ _ | JoinPublic c _ _ _ | ReplaceNullAndNan c _
     | ReplaceInfinity c _ | DropNullAndNan c _ | DropInfinity c _ | EnforceConstraint c _
     | GroupByCount c _ _ _ _ | GroupByCountDistinct c _ _ _ _ _ | GroupByQuantile c _ _ _ _ _ _
     | GroupByBounded _ c _ _ _ _ _ _ _ | SuppressAggregates c _ _ => built auto c
     | JoinPrivate l r _ _ _ => built auto l /\ built auto r
     end.

(** What the user's function returned has the declared types; nulls are always allowed. *)
Definition returns (new : schema) (o : rec) : Prop :=
  forall c d, dget c (sc_cols new) = Some d -> cell_ok (nullable d) (getv c o) = true.
(** A replacement value for a column: of the column's type, or an int for a float column. *)
Definition fits (v : value) (d : coredesc) : Prop :=
  match v, d with
  | VInt _, CInt _ | VInt _, CFloat _ _ _ | VFloat _, CFloat _ _ _ | VStr _, CString _ | VDate _, CDate _
  | VTime _, CTimestamp _ => True
  | _, _ => False
  end.

Section Promises.
Variables (W : world) (l2 : bool) (cat : catalog) (data : dict vtab).

(** - user functions return what they declared, on the rows they are given;
    - Rename does not give two columns the same name;
    - replacement values have the type of their column;
    - public data frames are what their schemas say;
    - dictionaries given as arguments are dictionaries. *)
Fixpoint promises (q : query) : Prop :=
  match q with
  | PrivateSource _ => True
  | Rename c m =>
      promises c /\ forall t cs, visit W l2 cat data c = Ok (t, cs) -> NoDup (map (renamed m) (dkeys (v_dom t)))
  | Filter c _ | Select c _ | DropNullAndNan c _ | DropInfinity c _ | EnforceConstraint c _ => promises c
  | MapQ c f new _ =>
      promises c /\ NoDup (dkeys (sc_cols new))
      /\ forall t cs r, visit W l2 cat data c = Ok (t, cs) -> In r (v_rows t) -> returns new (f r)
  | FlatMap c f new _ _ =>
      promises c /\ NoDup (dkeys (sc_cols new))
      /\ forall t cs r o, visit W l2 cat data c = Ok (t, cs) -> In r (v_rows t) -> In o (f r) -> returns new o
  | FlatMapByID c f new =>
      promises c /\ NoDup (dkeys (sc_cols new))
      /\ forall t cs rows o, visit W l2 cat data c = Ok (t, cs) -> incl rows (v_rows t) -> In o (f rows) -> returns new o
  | JoinPrivate l r _ _ _ => promises l /\ promises r
  | JoinPublic c p _ _ => promises c /\ match p with PubName _ => True | PubFrame f => frame_conforms f end
  | ReplaceNullAndNan c rw =>
      promises c /\ NoDup (dkeys rw)
      /\ forall t cs k v d, visit W l2 cat data c = Ok (t, cs) -> In (k, v) rw ->
           dget k (v_dom t) = Some d -> fits v d
  | ReplaceInfinity c rw => promises c /\ NoDup (dkeys rw)
  | GetGroups c _ | GetBounds c _ _ _ _ | GroupByCount c _ _ _ _ | GroupByCountDistinct c _ _ _ _ _
  | GroupByQuantile c _ _ _ _ _ _ | GroupByBounded _ c _ _ _ _ _ _ _ | SuppressAggregates c _ _ => promises c
  end.

(** No privacy ID is infinite where ReplaceInfinity is used without naming columns (it then
    replaces infinities in every float column, see C24_ids_merged). *)
Fixpoint finite_ids (q : query) : Prop :=
  match q with
  | PrivateSource _ => True
  | ReplaceInfinity c rw =>
      finite_ids c
      /\ (rw = [] -> forall t cs i r, visit W l2 cat data c = Ok (t, cs) -> v_place t = PKeys i -> In r (v_rows t) ->
            is_inf (getv i r) = false)
  | JoinPrivate l r _ _ _ => finite_ids l /\ finite_ids r
  | GetGroups c _ | GetBounds c _ _ _ _ | Rename c _ | Filter c _ | Select c _ | MapQ c _ _ _
  | FlatMap c _ _ _ _ | FlatMapByID c _ _ | JoinPublic c _ _ _ | ReplaceNullAndNan c _
  | DropNullAndNan c _ | DropInfinity c _ | EnforceConstraint c _
  | GroupByCount c _ _ _ _ | GroupByCountDistinct c _ _ _ _ _ | GroupByQuantile c _ _ _ _ _ _
  | GroupByBounded _ c _ _ _ _ _ _ _ | SuppressAggregates c _ _ => finite_ids c
  end.

(** Where the recorded constraints can be trusted (see C15_default_replacement_refuted and
    C15_private_join_refuted for what happens elsewhere):
    - replacing nulls, NaNs or infinities without naming columns must not change a column
      that a MaxRowsPerGroupPerID constraint groups by;
    - in a private join, a MaxGroupsPerID constraint on a join column comes with a
      MaxRowsPerID constraint that is at least as strong. *)
Definition rows_bounded (join_cols : list string) (cs : list constraint) : Prop :=
  forall g m, In (MaxGroupsPerID g m) cs -> In g join_cols ->
    exists n, find_rows cs = Some n /\ n <= m.
Fixpoint trackable (q : query) : Prop :=
  match q with
  | PrivateSource _ => True
  | ReplaceNullAndNan c rw =>
      trackable c
      /\ (rw = [] -> forall t cs g m r, visit W l2 cat data c = Ok (t, cs) -> In (MaxRowsPerGroupPerID g m) cs ->
            In r (v_rows t) -> is_null (getv g r) = false /\ is_nan (getv g r) = false)
  | ReplaceInfinity c rw =>
      trackable c
      /\ (rw = [] -> forall t cs g m r, visit W l2 cat data c = Ok (t, cs) -> In (MaxRowsPerGroupPerID g m) cs ->
            In r (v_rows t) -> is_inf (getv g r) = false)
  | JoinPrivate l r _ _ on =>
      trackable l /\ trackable r
      /\ forall tl lcs tr rcs, visit W l2 cat data l = Ok (tl, lcs) -> visit W l2 cat data r = Ok (tr, rcs) ->
           rows_bounded (join_columns on (v_dom tl) (v_dom tr)) lcs
           /\ rows_bounded (join_columns on (v_dom tl) (v_dom tr)) rcs
  | GetGroups c _ | GetBounds c _ _ _ _ | Rename c _ | Filter c _ | Select c _ | MapQ c _ _ _
  | FlatMap c _ _ _ _ | FlatMapByID c _ _ | JoinPublic c _ _ _
  | DropNullAndNan c _ | DropInfinity c _ | EnforceConstraint c _
  | GroupByCount c _ _ _ _ | GroupByCountDistinct c _ _ _ _ _ | GroupByQuantile c _ _ _ _ _ _
  | GroupByBounded _ c _ _ _ _ _ _ _ | SuppressAggregates c _ _ => trackable c
  end.

(** The column a constraint groups by. *)
Definition grouping (c : constraint) : option string :=
  match c with MaxRowsPerID _ => None | MaxGroupsPerID g _ | MaxRowsPerGroupPerID g _ => Some g end.
(** The constraints recorded for the session's own tables hold. *)
Definition constraints_hold : Prop :=
  forall name t s cs i, dget name data = Some t -> dget name (cat_private cat) = Some (s, cs) -> v_place t = PKeys i ->
    satisfies_all i cs (v_rows t) /\ forall c g, In c cs -> grouping c = Some g -> In g (dkeys (v_dom t)).
End Promises.

(** ** Privacy IDs *)

(** Keep only the rows of the IDs chosen by [keep], in the tables of collection [k]. *)
Definition restrict (k : option string) (keep : value -> bool) (t : vtab) : vtab :=
  match v_place t with
  | PKeys i =>
      if option_eqb String.eqb (v_coll t) k
      then {| v_dom := v_dom t; v_coll := v_coll t; v_place := v_place t;
              v_rows := filter (fun r => keep (getv i r)) (v_rows t) |}
      else t
  | _ => t
  end.
Definition restrict_all (k : option string) (keep : value -> bool) (data : dict vtab) : dict vtab :=
  map (fun p => (fst p, restrict k keep (snd p))) data.

(** The private tables a query reads. *)
Fixpoint sources (q : query) : list string :=
  match q with
  | PrivateSource n => [n]
  | JoinPrivate l r _ _ _ => (sources l ++ sources r)%list
  | GetGroups c _ | GetBounds c _ _ _ _ | Rename c _ | Filter c _ | Select c _ | MapQ c _ _ _
  | FlatMap c _ _ _ _ | FlatMapByID c _ _ | JoinPublic c _ _ _ | ReplaceNullAndNan c _
  | ReplaceInfinity c _ | DropNullAndNan c _ | DropInfinity c _ | EnforceConstraint c _
  | GroupByCount c _ _ _ _ | GroupByCountDistinct c _ _ _ _ _ | GroupByQuantile c _ _ _ _ _ _
  | GroupByBounded _ c _ _ _ _ _ _ _ | SuppressAggregates c _ _ => sources c
  end.
(** Queries that are tables, not statistics. *)
Fixpoint is_table (q : query) : Prop :=
  match q with
  | PrivateSource _ => True
  | JoinPrivate l r _ _ _ => is_table l /\ is_table r
  | Rename c _ | Filter c _ | Select c _ | MapQ c _ _ _
  | FlatMap c _ _ _ _ | FlatMapByID c _ _ | JoinPublic c _ _ _ | ReplaceNullAndNan c _
  | ReplaceInfinity c _ | DropNullAndNan c _ | DropInfinity c _ | EnforceConstraint c _ => is_table c
  | _ => False
  end.
(** A derived schema has an ID column exactly when the original has one; it is then an
    existing column, of the same ID space. *)
Definition keeps_id (s s' : schema) : Prop :=
  (sc_id s = None <-> sc_id s' = None)
  /\ (sc_id s <> None -> sc_space s' = sc_space s /\ exists i, sc_id s' = Some i /\ In i (dkeys (sc_cols s'))).


(** ** Joins *)

(** The join columns: those asked for, or all common ones. *)
Definition chosen (l r : schema) (on : option (list string)) : list string :=
  match on with Some c => c | None => common_columns (sc_cols l) (sc_cols r) end.
(** Output name of a column not joined on. *)
Definition out_name (other : list string) (suffix c : string) : string :=
  if in_dec string_dec c other then String.append c suffix else c.
(** Column names of a join on [J] of tables with columns [L] and [R]. *)
Definition join_names (J L R : list string) : list string :=
  (J ++ map (out_name R "_left") (filter (fun c => negb (smem c J)) L)
     ++ map (out_name L "_right") (filter (fun c => negb (smem c J)) R))%list.

