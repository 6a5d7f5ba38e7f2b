(** Sessions: evaluating queries, views, public tables, partitions and stopping.  Models
    session.py 476-538, 737-1751 and _catalog.py 46-131.
    Simplifications, for the whole file:
    - a session is the accountant it belongs to: its place in the tree of accountants.
      All sessions of a tree share one dictionary of public tables, because
      partition_and_create passes the dictionary itself on (1652);
    - what a query returns is not modelled (measurements are tmlt.core's), nor are the
      d_in of the accountants; whether a query compiles ([e_compiles]) and whether the
      compiled measurement has the privacy loss asked for ([e_relation]) is left open;
    - running a measurement or a transformation does not raise;
    - warnings and messages are not modelled. *)
From Coq Require Import String Bool Arith ZArith QArith Lia Permutation List.
From Verif Require Import Prelude Budget Value Rows Constraints Schema Query Transform Tables Accountant.
Import ListNotations.
Local Open Scope string_scope.
Local Open Scope nat_scope.

(** ** State *)

(** What an accountant was charged for, oldest first (nothing in the library records
    this; it is here for the statements). *)
Inductive charge : Type := Measured (b : budget) | Split (b : budget).
(** One session: the accountant's privacy_budget when it was made and now, the data with
    its domain and metric, and _table_constraints (328-332, keys are always NamedTables). *)
Record sess : Type := {
  s_initial : budget;
  s_left : budget;
  s_log : list charge;
  s_tree : tree;
  s_cons : dict (list constraint)
}.
Record state : Type := { st_root : acct sess; st_public : dict sframe }.

(** What is left open about Spark, tmlt.core and Python. *)
Record env : Type := {
  e_world : world;
  e_round : rounding;
  (** ExactNumber.to_float(round_up=False) *)
  e_down : Q -> Q;
  e_down_ok : forall q, (0 <= q)%Q -> (0 <= e_down q)%Q /\ (e_down q <= q)%Q;
  (** str.isidentifier, assert_is_identifier *)
  e_identifier : string -> bool;
  e_compiles : catalog -> tree -> query -> budget -> res unit;
  e_relation : tree -> query -> budget -> bool;
  (** intermediate tables made by a transformation, and the collections they are in *)
  e_temps : tree -> query -> list (option string * vtab);
  e_shuffle : list (ident * tree) -> list (ident * tree);
  e_shuffle_ok : forall l, Permutation (e_shuffle l) l;
  e_empty_ok : bool;
  e_retires_waiting : bool
}.

Section Session.
Variable E : env.
Notation W := (e_world E).
Notation R := (e_round E).

(** ** Tables of a session *)

(** private_sources, 476-484. *)
Definition ident_name (k : ident) : list string := match k with NamedTable n => [n] | _ => [] end.
Definition private_sources (x : tree) : res (list string) :=
  let* refs := find_named_tables (domain_of x) in
  let* ks := mapM ref_identifier refs in
  Ok (flat_map ident_name ks).
(** public_sources, 486-489. *)
Definition public_sources (pub : dict sframe) : list string := dkeys pub.

Definition leaf (x : tree) : res vtab := match x with TLeaf t => Ok t | TDict _ _ => Err InternalError end.
(** The table with a name: find_reference and what is there. *)
Definition table_named (x : tree) (name : string) : res vtab :=
  match find_reference name (domain_of x) with
  | None => Err KeyError
  | Some r => let* y := get_at x r in leaf y
  end.

(** get_schema, 776-799. *)
Definition get_schema (x : tree) (pub : dict sframe) (name : string) : res (dict coldesc) :=
  match find_reference name (domain_of x) with
  | Some r => let* d := lookup_domain (domain_of x) r in
              match d with DFrame cols => core_to_analytics cols | DDict _ => Err AttributeError end
  | None => match dget name pub with
            | Some f => spark_schema_to_analytics_columns (sd_fields f)
            | None => Err KeyError
            end
  end.
Definition private_ref (x : tree) (pub : dict sframe) (name : string) : res ref :=
  match find_reference name (domain_of x) with
  | Some r => Ok r
  | None => if dmem name pub then Err ValueError else Err KeyError
  end.
(** get_grouping_column, 809-836. *)
Definition get_grouping_column (x : tree) (pub : dict sframe) (name : string) : res (option string) :=
  let* r := private_ref x pub name in
  let* m := lookup_metric (metric_of x) r in
  Ok (match m with MTable (PGrouped g _) | MTable (PGroupedIds g _ _) => Some g | _ => None end).
(** get_id_column, 838-861. *)
Definition get_id_column (x : tree) (pub : dict sframe) (name : string) : res (option string) :=
  let* r := private_ref x pub name in
  let* m := lookup_metric (metric_of x) r in
  Ok (match m with MTable (PKeys i) => Some i | _ => None end).
(** get_id_space, 863-892. *)
Definition get_id_space (x : tree) (pub : dict sframe) (name : string) : res (option string) :=
  let* r := private_ref x pub name in
  let* p := ref_parent r in
  match p with
  | [] => Ok None
  | _ => let* k := ref_identifier p in
         match k with TableCollection n => Ok (Some n) | _ => Err InternalError end
  end.

(** _catalog, 894-913, with Catalog.add_private_table 60-98 and add_public_table 100-121. *)
Fixpoint catalog_private (x : tree) (pub : dict sframe) (cons : dict (list constraint)) (names : list string)
    (acc : dict (schema * list constraint)) : res (dict (schema * list constraint)) :=
  match names with
  | [] => Ok acc
  | n :: names =>
      let* cols := get_schema x pub n in
      let* cs := match dget n cons with Some cs => Ok cs | None => Err KeyError end in
      let* g := get_grouping_column x pub n in
      let* i := get_id_column x pub n in
      let* sp := get_id_space x pub n in
      let* _ := raise_if (dmem n acc) ValueError in
      let* s := mk_schema cols g i sp in
      catalog_private x pub cons names (acc ++ [(n, (s, cs))])%list
  end.
Definition catalog_public (pub : dict sframe) : res (dict (schema * sframe)) :=
  mapM (fun p => let* cols := spark_schema_to_analytics_columns (sd_fields (snd p)) in
                 let* s := mk_schema cols None None None in
                 Ok (fst p, (s, snd p))) pub.
Definition catalog_of (x : tree) (pub : dict sframe) (cons : dict (list constraint)) : res catalog :=
  let* names := private_sources x in
  let* priv := catalog_private x pub cons names [] in
  let* publ := catalog_public pub in
  Ok {| cat_private := priv; cat_public := publ |}.
(** The private tables by name, as the visitor looks them up. *)
Definition data_of (x : tree) : res (dict vtab) :=
  let* names := private_sources x in
  mapM (fun n => let* t := table_named x n in Ok (n, t)) names.

(** ** Budgets *)

(** remaining_privacy_budget, 496-516. *)
Definition remaining_privacy_budget (s : sess) : budget := s_left s.

Definition is_approx (b : budget) : bool := match b with Approx _ _ => true | _ => false end.
(** A PureDPBudget in an ApproxDP session, 979-983 and 1569-1571. *)
Definition lift_pure (left b : budget) : res budget :=
  match b with
  | Pure e => if is_approx left then mk_approx R (AExact e) (ANum (Budget.PInt 0)) else Ok b
  | _ => Ok b
  end.
(** _validate_budget_type_matches_session, 1705-1727. *)
Definition validate_type (left b : budget) : res unit :=
  match left, b with
  | Pure _, Pure _ | Approx _ _, Approx _ _ | Zcdp _, Zcdp _ => Ok tt
  | _, _ => Err ValueError
  end.
Definition down (x : xq) : barg :=
  ANum (Budget.PFlt (FX (match x with XFin q => XFin (e_down E q) | _ => x end))).
(** _process_requested_budget, 1655-1703. *)
Definition process_budget (left b : budget) : res budget :=
  match b with
  | Pure _ =>
      match left with
      | Pure e => let* rem := mk_pure R (down e) in adjusted_budget R b rem
      | Zcdp e => let* rem := mk_pure R (down e) in adjusted_budget R b rem
      | Approx _ _ => Err InternalError
      end
  | Approx e d =>
      if is_infinite b then mk_approx R (ANum (Budget.PFlt (FX XPInf))) (ANum (Budget.PInt 1))
      else match left with
           | Approx le ld =>
               let* req := mk_approx R (AExact e) (AExact d) in
               let* rem := mk_approx R (down le) (down ld) in
               adjusted_budget R req rem
           | _ => Err InternalError
           end
  | Zcdp _ =>
      match left with
      | Pure e => let* rem := mk_zcdp R (down e) in adjusted_budget R b rem
      | Zcdp e => let* rem := mk_zcdp R (down e) in adjusted_budget R b rem
      | Approx _ _ => Err InternalError
      end
  end.
(** The accountant's own check and subtraction (tmlt.core): an infinite budget can be spent
    forever, a finite one in every component up to what is left. *)
Definition xminus (x y : xq) : xq :=
  match x, y with XFin a, XFin b => XFin (a - b)%Q | _, _ => x end.
Definition spend (left b : budget) : option budget :=
  if is_infinite left then Some left
  else match left, b with
       | Pure x, Pure y => if xleb y x then Some (Pure (xminus x y)) else None
       | Approx x d, Approx y d' => if xleb y x && xleb d' d then Some (Approx (xminus x y) (xminus d d')) else None
       | Zcdp x, Zcdp y => if xleb y x then Some (Zcdp (xminus x y)) else None
       | _, _ => None
       end.
Definition zero_budgets : list budget := [Pure (XFin 0); Approx (XFin 0) (XFin 0); Zcdp (XFin 0)].
Definition is_rho (b : budget) : bool := match b with Zcdp _ => true | _ => false end.

(** ** Operations *)

Definition charged (s : sess) (left : budget) (c : charge) : sess :=
  {| s_initial := s_initial s; s_left := left; s_log := (s_log s ++ [c])%list; s_tree := s_tree s; s_cons := s_cons s |}.
Definition with_tables (s : sess) (x : tree) (cons : dict (list constraint)) : sess :=
  {| s_initial := s_initial s; s_left := s_left s; s_log := s_log s; s_tree := x; s_cons := cons |}.
Definition set_root (st : state) (t : acct sess) : state := {| st_root := t; st_public := st_public st |}.

(** _activate_accountant, 1729-1747. *)
Definition activate (p : path) (t : acct sess) : acct sess * res unit :=
  match option_map a_state (find p t) with
  | None => (t, Err KeyError)
  | Some ACTIVE => (t, Ok tt)
  | Some RETIRED => (t, Err RuntimeError)
  | Some _ => (force_activate p t, Ok tt)
  end.
(** What follows an operation's checks and the activation. *)
Definition activated {A} (p : path) (st : state) (k : state -> state * res A) : state * res A :=
  match activate p (st_root st) with
  | (t, Err e) => (set_root st t, Err e)
  | (t, Ok _) => k (set_root st t)
  end.
Definition fails {A} (st : state) (e : exn) : state * res A := (st, Err e).
(** "let x = r in k", where an exception leaves the state alone. *)
Definition attempt {A B} (st : state) (r : res A) (k : A -> state * res B) : state * res B :=
  match r with Ok a => k a | Err e => fails st e end.
Definition session_at (st : state) (p : path) : res sess :=
  match find p (st_root st) with Some c => Ok (a_data c) | None => Err KeyError end.

(** _compile_and_get_info, 970-999. *)
Definition compile_and_get_info (s : sess) (pub : dict sframe) (q : query) (b : budget) : res budget :=
  let* b := lift_pure (s_left s) b in
  let* _ := validate_type (s_left s) b in
  let* _ := raise_if (existsb (budget_eqb b) zero_budgets) ValueError in
  let* adj := process_budget (s_left s) b in
  let* cat := catalog_of (s_tree s) pub (s_cons s) in
  let* _ := schema_of (w_cond_ok W) cat q in
  let* _ := e_compiles E cat (s_tree s) q adj in
  Ok adj.
(** What is raised when [left] does not suffice: RuntimeError with a message, or what
    making the message raises (_format_insufficient_budget_msg, 146-237; its text is in
    Message.v).  The message is made for the budget [b] that the caller gave (1136-1140);
    partition_and_create has replaced a PureDPBudget by then (1570-1571). *)
Definition refusal (left b : budget) : exn :=
  match b, left with
  | Approx _ _, Approx _ _ | Pure _, Pure _ | Pure _, Zcdp _ | Zcdp _, Pure _ | Zcdp _, Zcdp _ => RuntimeError
  | _, _ => InternalError
  end.
(** Session.evaluate, 1050-1151.  The check of 1113-1121 cannot fail: the types were
    compared before. *)
Definition evaluate (st : state) (p : path) (q : query) (b : budget) : state * res unit :=
  attempt st (session_at st p) (fun s =>
  attempt st (compile_and_get_info s (st_public st) q b) (fun adj =>
  activated p st (fun st =>
  if negb (e_relation E (s_tree s) q adj) then fails st InternalError
  else match spend (s_left s) adj with
       | None => fails st (refusal (s_left s) b)
       | Some rest => (set_root st (change p (set_data (charged s rest (Measured adj))) (st_root st)), Ok tt)
       end))).
(** _spend_budget_without_executing, 737-774: no privacy relation to check. *)
Definition spend_without_executing (st : state) (p : path) (q : query) (b : budget) : state * res unit :=
  attempt st (session_at st p) (fun s =>
  attempt st (compile_and_get_info s (st_public st) q b) (fun adj =>
  activated p st (fun st =>
  match spend (s_left s) adj with
  | None => fails st (refusal (s_left s) b)
  | Some rest => (set_root st (change p (set_data (charged s rest (Measured adj))) (st_root st)), Ok tt)
  end))).

(** add_public_dataframe, 915-968: no activation; the dictionary is shared. *)
Definition add_public_dataframe (st : state) (p : path) (name : string) (f : sframe) : state * res unit :=
  attempt st (session_at st p) (fun s =>
  attempt st (raise_if (negb (e_identifier E name)) ValueError) (fun _ =>
  attempt st (private_sources (s_tree s)) (fun names =>
  attempt st (raise_if (dmem name (st_public st) || smem name names) ValueError) (fun _ =>
  attempt st (coerce_spark_schema_or_fail f) (fun f =>
  ({| st_root := st_root st; st_public := (st_public st ++ [(name, f)])%list |}, Ok tt)))))).

(** Identifiers that do not occur yet: TemporaryTable() makes a new one. *)
Fixpoint temp_ids (x : tree) : list nat :=
  match x with
  | TLeaf _ => []
  | TDict _ kids => flat_map (fun p => (match fst p with TemporaryTable n => [n] | _ => [] end ++ temp_ids (snd p))%list) kids
  end.
Definition fresh (x : tree) : ident := TemporaryTable (S (list_max (temp_ids x))).
Definition collection_ref (c : option string) : ref := match c with Some c => [TableCollection c] | None => [] end.
Definition add_temp (e : option string * vtab) (x : tree) : res tree :=
  update_at (collection_ref (fst e)) (add_entry (fresh x) (TLeaf (snd e))) x.
Fixpoint add_temps (l : list (option string * vtab)) (x : tree) : res tree :=
  match l with [] => Ok x | e :: l => let* x := add_temp e x in add_temps l x end.
(** The table a transformation computes, as a temporary table, and its reference. *)
Definition add_result (t : vtab) (x : tree) : res (tree * ref) :=
  let* y := add_temp (v_coll t, t) x in Ok (y, (collection_ref (v_coll t) ++ [fresh x])%list).
(** create_view, 1153-1246. *)
Definition create_view (st : state) (p : path) (q : query) (name : string) (cache : bool) : state * res unit :=
  attempt st (session_at st p) (fun s =>
  attempt st (raise_if (negb (e_identifier E name)) ValueError) (fun _ =>
  activated p st (fun st =>
  attempt st (private_sources (s_tree s)) (fun names =>
  attempt st (raise_if (smem name names || dmem name (st_public st)) ValueError) (fun _ =>
  attempt st (catalog_of (s_tree s) (st_public st) (s_cons s)) (fun cat =>
  attempt st (data_of (s_tree s)) (fun data =>
  attempt st (build_transformation W (is_rho (s_left s)) cat data q) (fun y =>
  attempt st (add_temps (e_temps E (s_tree s) q) (s_tree s)) (fun x1 =>
  attempt st (add_result (fst y) x1) (fun z =>
  attempt st (if cache then let* x3 := rename_table (fst z) (snd z) (fresh (fst z)) in
                            let* par := ref_parent (snd z) in Ok (x3, (par ++ [fresh (fst z)])%list)
              else Ok z) (fun z' =>
  attempt st (rename_table (fst z') (snd z') (NamedTable name)) (fun x4 =>
  (set_root st (change p (set_data (with_tables s x4 (dset name (snd y) (s_cons s)))) (st_root st)), Ok tt))))))))))))).
(** delete_view, 1248-1282. *)
Definition delete_view (st : state) (p : path) (name : string) : state * res unit :=
  attempt st (session_at st p) (fun s =>
  activated p st (fun st =>
  match find_reference name (domain_of (s_tree s)) with
  | None => fails st KeyError
  | Some r =>
      attempt st (lookup_domain (domain_of (s_tree s)) r) (fun d =>
      attempt st (raise_if (match d with DFrame _ => false | DDict _ => true end) InternalError) (fun _ =>
      attempt st (rename_table (s_tree s) r (fresh (s_tree s))) (fun x1 =>
      attempt st (delete_table (e_empty_ok E) (e_shuffle E) x1 r) (fun x2 =>
      (set_root st (change p (set_data (with_tables s x2 (ddel name (s_cons s)))) (st_root st)), Ok tt)))))
  end)).

(** ** Partitions *)

(** The constraint used on a table with privacy IDs, 1390-1418. *)
Definition partition_constraint (column : string) (cs : list constraint) : option constraint :=
  match List.find (fun c => match c with MaxGroupsPerID g _ => String.eqb g column | _ => false end) cs with
  | Some c => Some c
  | None => List.find (fun c => match c with MaxRowsPerID _ => true | _ => false end) cs
  end.
(** valid_py_value (tmlt.core) for str and int values; the range of 32-bit columns is not
    modelled. *)
Definition valid_py_value (d : coredesc) (v : value) : bool :=
  match d, v with CString _, VStr _ | CInt _, VInt _ => true | _, _ => false end.
(** tmlt.core's PartitionByKeys on one column: refuses no or repeated values, and tables
    grouped by another column; each part has the rows with its value. *)
Definition partition_place (l2 : bool) (column : string) (p : place) : res place :=
  match p with
  | PSym => Ok PSym
  | PGrouped g b => if String.eqb g column && Bool.eqb b l2 then Ok PSym else Err ValueError
  | PGroupedIds g b i => if String.eqb g column && Bool.eqb b l2 then Ok (PKeys i) else Err ValueError
  | PKeys _ => Err ValueError
  end.
Definition partition_by_keys (l2 : bool) (column : string) (values : list value) (t : tbl) : res (list tbl) :=
  let* _ := raise_if (length values =? 0) ValueError in
  let* _ := raise_if (negb (if list_eq_dec value_eq_dec (nodup value_eq_dec values) values then true else false)) ValueError in
  let* p := partition_place l2 column (t_place t) in
  Ok (map (fun v => {| t_place := p; t_rows := filter (has_value column v) (t_rows t) |}) values).
(** _create_partition_transformation, 1315-1463: the domain of the table and the parts. *)
Definition create_partition_transformation (s : sess) (pub : dict sframe) (source column : string) (splits : dict value)
    : res (dict coredesc * list tbl) :=
  let l2 := is_rho (s_left s) in
  let* r := private_ref (s_tree s) pub source in
  let* m := lookup_metric (metric_of (s_tree s)) r in
  let* y := get_at (s_tree s) r in
  let* t := leaf y in
  let* t1 :=
    match m with
    | MTable (PKeys _) =>
        match partition_constraint column (match dget source (s_cons s) with Some cs => cs | None => [] end) with
        | None => Err ValueError
        | Some c => enforce (w_row_order W) (w_key_order W) c true l2 {| t_place := v_place t; t_rows := v_rows t |}
        end
    | _ => Ok {| t_place := v_place t; t_rows := v_rows t |}
    end in
  let* d := match dget column (v_dom t) with Some d => Ok d | None => Err KeyError end in
  let* _ := raise_if (existsb (fun v => negb (valid_py_value d v)) (map snd splits)) TypeError in
  let* parts := partition_by_keys l2 column (map snd splits) t1 in
  Ok (v_dom t, parts).
(** The data of a new session, 1618-1652. *)
Definition part_tree (space : option string) (dom : dict coredesc) (name : string) (t : tbl) : tree :=
  match space, t_place t with
  | Some sp, PKeys i =>
      TDict false [(TableCollection sp, TDict true [(NamedTable name, TLeaf {| v_dom := dom; v_coll := Some sp; v_place := t_place t; v_rows := t_rows t |})])]
  | _, _ => TDict false [(NamedTable name, TLeaf {| v_dom := dom; v_coll := None; v_place := t_place t; v_rows := t_rows t |})]
  end.
Definition part_session (b : budget) (space : option string) (dom : dict coredesc) (name : string) (t : tbl) : sess :=
  {| s_initial := b; s_left := b; s_log := []; s_tree := part_tree space dom name t; s_cons := [(name, [])] |}.
(** partition_and_create, 1465-1653.  The names and places of the new sessions are
    returned. *)
Definition partition_and_create (st : state) (p : path) (source : string) (b : budget) (column : string) (splits : dict value)
    : state * res (list (string * path)) :=
  attempt st (session_at st p) (fun s =>
  attempt st (lift_pure (s_left s) b) (fun b =>
  attempt st (validate_type (s_left s) b) (fun _ =>
  attempt st (raise_if (existsb (fun n => negb (e_identifier E n)) (dkeys splits)) ValueError) (fun _ =>
  attempt st (process_budget (s_left s) b) (fun adj =>
  attempt st (create_partition_transformation s (st_public st) source column splits) (fun y =>
  activated p st (fun st =>
  match spend (s_left s) adj with
  | None => fails st (refusal (s_left s) b)
  | Some rest =>
      let kids space := map (fun x => part_session adj space (fst y) (fst x) (snd x)) (combine (dkeys splits) (snd y)) in
      let after space := set_root st (change p (split_at (charged s rest (Split adj)) (kids space)) (st_root st)) in
      let n := match find p (st_root st) with Some c => length (a_parts c) | None => 0 end in
      match get_id_space (s_tree s) (st_public st) source with
      | Err e => (after None, Err e)
      | Ok space => (after space, Ok (combine (dkeys splits) (map (fun i => (p ++ [(n, i)])%list) (seq 0 (length (kids space))))))
      end
  end))))))).

(** stop, 1749-1751. *)
Definition stop (st : state) (p : path) : state * res unit :=
  let '(t, r) := retire (e_retires_waiting E) p (st_root st) in (set_root st t, r).

(** ** Histories *)

Inductive op : Type :=
| Evaluate (p : path) (q : query) (b : budget)
| SpendOnly (p : path) (q : query) (b : budget)
| AddPublic (p : path) (name : string) (f : sframe)
| CreateView (p : path) (q : query) (name : string) (cache : bool)
| DeleteView (p : path) (name : string)
| Partition (p : path) (source : string) (b : budget) (column : string) (splits : dict value)
| Stop (p : path).
(** The session an operation is called on. *)
Definition target (o : op) : path :=
  match o with
  | Evaluate p _ _ | SpendOnly p _ _ | AddPublic p _ _ | CreateView p _ _ _ | DeleteView p _
  | Partition p _ _ _ _ | Stop p => p
  end.
Definition step (st : state) (o : op) : state * res unit :=
  match o with
  | Evaluate p q b => evaluate st p q b
  | SpendOnly p q b => spend_without_executing st p q b
  | AddPublic p n f => add_public_dataframe st p n f
  | CreateView p q n c => create_view st p q n c
  | DeleteView p n => delete_view st p n
  | Partition p s b c l => let '(st, r) := partition_and_create st p s b c l in (st, let* _ := r in Ok tt)
  | Stop p => stop st p
  end.
(** The library is used by any sequence of calls; a call that raises is just a call. *)
Fixpoint run (st : state) (l : list op) : state :=
  match l with [] => st | o :: l => run (fst (step st o)) l end.

(** A new session, 455-474 and 297-332. *)
Definition new_session (b : budget) (x : tree) : res state :=
  let* names := private_sources x in
  Ok {| st_root := Acct ACTIVE {| s_initial := b; s_left := b; s_log := []; s_tree := x;
                                  s_cons := dict_of (map (fun n => (n, [])) names) |} [];
        st_public := [] |}.
End Session.
