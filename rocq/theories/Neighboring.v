(** Protected changes, neighbouring relations and what a session starts from.  Models
    protected_change.py, _neighboring_relation.py, _neighboring_relation_visitor.py and
    session.py 113-143.  typeguard's checks of argument types are not modelled. *)
From Coq Require Import String Bool Arith ZArith Lia List.
From Verif Require Import Prelude Value Rows Constraints Schema Query Transform Tables.
Import ListNotations.
Local Open Scope string_scope.
Local Open Scope nat_scope.

(** ** Protected changes, protected_change.py 23-133 *)

(** AddOneRow() is AddMaxRows(1), 42-53. *)
Inductive change : Type :=
| AddMaxRows (max_rows : Z)
| AddMaxRowsInMaxGroups (grouping_column : string) (max_groups max_rows_per_group : Z)
| AddRowsWithID (id_column id_space : string).
(** The __post_init__ methods, 35-39, 94-102 and 125-132. *)
Definition check_change (c : change) : res unit :=
  match c with
  | AddMaxRows n => raise_if (n <? 1)%Z ValueError
  | AddMaxRowsInMaxGroups _ k m => let* _ := raise_if (k <? 1)%Z ValueError in raise_if (m <? 1)%Z ValueError
  | AddRowsWithID c s => let* _ := raise_if (String.eqb s "") ValueError in raise_if (String.eqb c "") ValueError
  end.

(** ** Neighbouring relations, _neighboring_relation.py *)

(** The four classes, 49-62, 106-125, 195-214, 300-309. *)
Inductive relation : Type :=
| AddRemoveRows (name : string) (n : Z)
| AddRemoveRowsAcrossGroups (name : string) (grouping_column : string) (max_groups per_group : Z)
| AddRemoveKeys (id_space : string) (table_to_key_column : dict string) (max_keys : Z)
| Conjunction (children : list relation).

(** AddRemoveKeys.__post_init__, 216-226. *)
Definition mk_keys (space : string) (d : dict string) (n : Z) : res relation :=
  let* _ := raise_if (String.eqb space "") ValueError in
  let* _ := raise_if (length d =? 0) ValueError in
  let* _ := raise_if (n <? 1)%Z ValueError in
  Ok (AddRemoveKeys space d n).

(** _flatten, 373-381, of one element of a list and of the list. *)
Fixpoint flatten_one (r : relation) : list relation :=
  match r with
  | Conjunction l => (fix go (l : list relation) : list relation :=
                        match l with [] => [] | x :: l => (flatten_one x ++ go l)%list end) l
  | _ => [r]
  end.
Fixpoint flatten (l : list relation) : list relation :=
  match l with [] => [] | x :: l => (flatten_one x ++ flatten l)%list end.
(** An argument of Conjunction(...): a relation or a list of them. *)
Inductive conj_arg : Type := CRel (r : relation) | CList (l : list relation).
(** Conjunction.__init__, 311-325: no argument at all is an IndexError; a list among later
    arguments does not pass the type check of __post_init__. *)
Definition mk_conjunction (args : list conj_arg) : res relation :=
  match args with
  | [] => Err IndexError
  | CList l :: _ => Ok (Conjunction (flatten l))
  | CRel _ :: _ =>
      let* l := mapM (fun a => match a with CRel r => Ok r | CList _ => Err TypeError end) args in
      Ok (Conjunction (flatten l))
  end.

(** allowed_types, 174 and 253. *)
Definition allowed (t : sparktype) : bool := match t with LongT | StringT | DateT => true | _ => false end.
Definition sparktype_eqb (a b : sparktype) : bool :=
  match a, b with
  | IntegerT, IntegerT | LongT, LongT | FloatT, FloatT | DoubleT, DoubleT | StringT, StringT | DateT, DateT
  | TimestampT, TimestampT => true
  | OtherT n, OtherT m => n =? m
  | _, _ => false
  end.
Definition columns (f : sframe) : list string := map sf_name (sd_fields f).
(** The loop over the fields of one table, 266-291: the key type found so far goes in and
    comes out. *)
Fixpoint key_fields (key : string) (fs : list sfield) (seen : option sparktype) : res (option sparktype) :=
  match fs with
  | [] => Ok seen
  | f :: fs =>
      if negb (String.eqb (sf_name f) key) then key_fields key fs seen
      else let* _ := raise_if (negb (allowed (sf_type f))) ValueError in
           match seen with
           | None => key_fields key fs (Some (sf_type f))
           | Some t => let* _ := raise_if (negb (sparktype_eqb (sf_type f) t)) ValueError in key_fields key fs seen
           end
  end.
(** The loop over the tables, 255-291. *)
Fixpoint key_tables (d : dict string) (dfs : dict sframe) (seen : option sparktype) : res unit :=
  match dfs with
  | [] => Ok tt
  | (name, f) :: dfs =>
      match dget name d with
      | None => key_tables d dfs seen
      | Some key =>
          let* _ := raise_if (negb (smem key (columns f))) ValueError in
          let* f := coerce_spark_schema_or_fail f in
          let* seen := key_fields key (sd_fields f) seen in
          key_tables d dfs seen
      end
  end.
(** The _validate methods, 83-99, 153-188, 236-293 and 364-371 (a Conjunction gives None,
    of which no set can be made). *)
Definition validate_one (dfs : dict sframe) (r : relation) : res (list string) :=
  match r with
  | AddRemoveRows t _ =>
      match dget t dfs with
      | None => Err KeyError
      | Some f => let* _ := coerce_spark_schema_or_fail f in Ok [t]
      end
  | AddRemoveRowsAcrossGroups t g _ _ =>
      match dget t dfs with
      | None => Err KeyError
      | Some f =>
          let* _ := raise_if (negb (smem g (columns f))) ValueError in
          let* f := coerce_spark_schema_or_fail f in
          let* _ := raise_if (existsb (fun x => String.eqb (sf_name x) g && negb (allowed (sf_type x))) (sd_fields f)) ValueError in
          Ok [t]
      end
  | AddRemoveKeys _ d _ =>
      let* _ := raise_if (existsb (fun t => negb (dmem t dfs)) (dkeys d)) ValueError in
      let* _ := key_tables d dfs None in
      Ok (dkeys d)
  | Conjunction _ => Err TypeError
  end.
(** The loop of Conjunction.validate_input, 334-346. *)
Fixpoint covered_tables (dfs : dict sframe) (l : list relation) (covered : list string) : res (list string) :=
  match l with
  | [] => Ok covered
  | r :: l =>
      let* names := validate_one dfs r in
      let* _ := raise_if (existsb (fun n => smem n covered) names) ValueError in
      covered_tables dfs l (covered ++ names)%list
  end.
(** validate_input, 69-81, 134-151, 228-234 and 327-358. *)
Definition validate_input (r : relation) (dfs : dict sframe) : res unit :=
  match r with
  | AddRemoveRows _ _ | AddRemoveRowsAcrossGroups _ _ _ _ =>
      let* _ := raise_if (1 <? length dfs) ValueError in
      let* _ := validate_one dfs r in Ok tt
  | AddRemoveKeys _ _ _ => let* _ := validate_one dfs r in Ok tt
  | Conjunction l =>
      let* covered := covered_tables dfs l [] in
      raise_if (existsb (fun n => negb (smem n covered)) (dkeys dfs) || existsb (fun n => negb (dmem n dfs)) covered) ValueError
  end.

(** ** What a session starts from, _neighboring_relation_visitor.py *)

(** ExactNumber(n), and n times the square root of m. *)
Inductive distance : Type := DExact (n : Z) | DRoot (n m : Z).

(** SparkDataFrameDomain.from_spark_schema (tmlt.core): all special values are allowed in
    float columns.  32-bit columns do not occur, frames are coerced before. *)
Definition core_field (f : sfield) : res coredesc :=
  match sf_type f with
  | LongT | IntegerT => Ok (CInt (sf_nullable f))
  | DoubleT | FloatT => Ok (CFloat (sf_nullable f) true true)
  | StringT => Ok (CString (sf_nullable f))
  | DateT => Ok (CDate (sf_nullable f))
  | TimestampT => Ok (CTimestamp (sf_nullable f))
  | OtherT _ => Err ValueError
  end.
Definition from_spark_schema (fs : list sfield) : res (dict coredesc) :=
  let* l := mapM (fun f => let* d := core_field f in Ok (sf_name f, d)) fs in Ok (dict_of l).
(** dataclasses.replace(..., allow_null=True) *)
Definition core_nullable (d : coredesc) : coredesc :=
  match d with
  | CFloat _ x i => CFloat true x i
  | CInt _ => CInt true | CString _ => CString true | CDate _ => CDate true | CTimestamp _ => CTimestamp true
  end.
(** One table of an ID space: name, key column, domain, rows. *)
Record keyed : Type := { k_name : string; k_key : string; k_dom : dict coredesc; k_rows : table }.
(** _ensure_valid_schema_ark, 36-57. *)
Definition key_desc (k : keyed) : res coredesc :=
  match dget (k_key k) (k_dom k) with Some d => Ok d | None => Err KeyError end.
Definition ensure_valid_schema_ark (l : list keyed) : res (list keyed) :=
  let* ds := mapM key_desc l in
  Ok (if existsb core_null ds
      then map (fun k => {| k_name := k_name k; k_key := k_key k;
                            k_dom := match dget (k_key k) (k_dom k) with Some d => dset (k_key k) (core_nullable d) (k_dom k) | None => k_dom k end;
                            k_rows := k_rows k |}) l
      else l).

(** _RelationIDVisitor, 60-87. *)
Definition relation_id (r : relation) : res ident :=
  match r with
  | AddRemoveRows t _ | AddRemoveRowsAcrossGroups t _ _ _ => Ok (NamedTable t)
  | AddRemoveKeys s _ _ => Ok (TableCollection s)
  | Conjunction _ => Err AssertionError
  end.
(** d[k] = a for dictionaries of identifiers. *)
Fixpoint iput {A} (k : ident) (a : A) (d : list (ident * A)) : list (ident * A) :=
  match d with [] => [(k, a)] | (k', a') :: d => if ident_eqb k k' then (k', a) :: d else (k', a') :: iput k a d end.

Section Visitor.
(** is the output measure RhoZCDP *)
Variable l2 : bool.
Variable tables : dict sframe.

Definition table_of (name : string) : res (dict coredesc * table) :=
  match dget name tables with
  | None => Err KeyError
  | Some f => let* d := from_spark_schema (sd_fields f) in Ok (d, frame_rows f)
  end.
(** visit_add_remove_rows 110-116, visit_add_remove_rows_across_groups 118-140,
    visit_add_remove_keys 142-157: domain, metric and data as a tree, and the distance.
    The relations in a Conjunction are never Conjunctions (proved). *)
Definition visit_one (r : relation) : res (tree * distance) :=
  match r with
  | AddRemoveRows t n =>
      let* x := table_of t in
      Ok (TLeaf {| v_dom := fst x; v_coll := None; v_place := PSym; v_rows := snd x |}, DExact n)
  | AddRemoveRowsAcrossGroups t g k m =>
      let* x := table_of t in
      Ok (TLeaf {| v_dom := fst x; v_coll := None; v_place := PGrouped g l2; v_rows := snd x |},
          if l2 then DRoot m k else DExact (m * k))
  | AddRemoveKeys s d n =>
      let* l := mapM (fun p => let* x := table_of (fst p) in
                               Ok {| k_name := fst p; k_key := snd p; k_dom := fst x; k_rows := snd x |}) d in
      let* l := ensure_valid_schema_ark l in
      Ok (TDict true (map (fun k => (NamedTable (k_name k),
                                     TLeaf {| v_dom := k_dom k; v_coll := Some s; v_place := PKeys (k_key k); v_rows := k_rows k |})) l),
          DExact n)
  | Conjunction _ => Err AssertionError
  end.
(** visit_conjunction, 159-177. *)
Fixpoint visit_children (l : list relation) (acc : list (ident * (tree * distance))) : res (list (ident * (tree * distance))) :=
  match l with
  | [] => Ok acc
  | r :: l =>
      let* k := relation_id r in
      let* x := visit_one r in
      visit_children l (iput k x acc)
  end.
(** Conjunction(relation).accept(visitor), session.py 441-443. *)
Definition visit_relation (r : relation) : res (tree * list (ident * distance)) :=
  let* l := visit_children (flatten [r]) [] in
  Ok (TDict false (map (fun p => (fst p, fst (snd p))) l), map (fun p => (fst p, snd (snd p))) l).
End Visitor.

(** ** From protected changes to relations, session.py 113-143 *)

(** One round of the loop, 119-140: relations so far, and the ID spaces with their tables. *)
Definition relation_step (acc : list relation * dict (dict string)) (p : string * change) : list relation * dict (dict string) :=
  match snd p with
  | AddMaxRows n => ((fst acc ++ [AddRemoveRows (fst p) n])%list, snd acc)
  | AddMaxRowsInMaxGroups g k m => ((fst acc ++ [AddRemoveRowsAcrossGroups (fst p) g k m])%list, snd acc)
  | AddRowsWithID c s =>
      (fst acc, dset s (dset (fst p) c (match dget s (snd acc) with Some d => d | None => [] end)) (snd acc))
  end.
Definition generate_neighboring_relation (sources : list (string * change)) : res relation :=
  let acc := fold_left relation_step sources ([], []) in
  let* keys := mapM (fun p => mk_keys (fst p) (snd p) 1) (snd acc) in
  mk_conjunction [CList (fst acc ++ keys)%list].
