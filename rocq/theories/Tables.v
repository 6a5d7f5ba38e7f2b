(** Nested collections of tables.  Models _table_identifier.py, _table_reference.py and the
    parts of _transformation_utils.py that create, rename and delete tables. *)
From Coq Require Import String Bool Arith ZArith Lia List.
From Verif Require Import Prelude Value Rows Constraints Schema Query Transform.
Import ListNotations.
Local Open Scope string_scope.
Local Open Scope nat_scope.

(** ** Identifiers, _table_identifier.py 9-60 *)

(** A TemporaryTable is equal only to itself: its id is a number. *)
Inductive ident : Type := NamedTable (name : string) | TableCollection (name : string) | TemporaryTable (id : nat).
Definition ident_eqb (a b : ident) : bool :=
  match a, b with
  | NamedTable x, NamedTable y | TableCollection x, TableCollection y => String.eqb x y
  | TemporaryTable x, TemporaryTable y => Nat.eqb x y
  | _, _ => false
  end.
(** d[k] for a Python dict with identifiers as keys. *)
Fixpoint iget {A} (k : ident) (d : list (ident * A)) : option A :=
  match d with [] => None | (k', a) :: d => if ident_eqb k k' then Some a else iget k d end.
Definition ikeys {A} (d : list (ident * A)) : list ident := map fst d.

(** ** Domains and metrics (tmlt.core) *)

(** SparkDataFrameDomain, given by its columns, and DictDomain. *)
Inductive domain : Type := DFrame (cols : dict coredesc) | DDict (kids : list (ident * domain)).
(** The metric of one table; DictMetric; AddRemoveKeys, which has a key column for every
    table.  [MTable (PKeys i)] is IfGroupedBy(i, SymmetricDifference()). *)
Inductive metric : Type :=
| MTable (p : place)
| MDict (kids : list (ident * metric))
| MKeys (keys : list (ident * string)).

(** TableReference.path; identifier 26-31, parent 33-38. *)
Notation ref := (list ident).
Definition ref_identifier (r : ref) : res ident :=
  match rev r with [] => Err IndexError | x :: _ => Ok x end.
Definition ref_parent (r : ref) : res ref :=
  match rev r with [] => Err IndexError | _ :: l => Ok (rev l) end.

(** lookup_domain, 55-65. *)
Fixpoint lookup_domain (d : domain) (r : ref) : res domain :=
  match r with
  | [] => Ok d
  | k :: r => match d with
              | DDict kids => match iget k kids with Some d => lookup_domain d r | None => Err KeyError end
              | DFrame _ => Err ValueError
              end
  end.
(** lookup_metric, 68-82. *)
Fixpoint lookup_metric (m : metric) (r : ref) : res metric :=
  match r with
  | [] => Ok m
  | k :: r => match m with
              | MDict kids => match iget k kids with Some m => lookup_metric m r | None => Err KeyError end
              | MKeys keys => match iget k keys with Some c => lookup_metric (MTable (PKeys c)) r | None => Err KeyError end
              | MTable _ => Err ValueError
              end
  end.
(** find_children, 85-92. *)
Definition find_children (d : domain) (r : ref) : res (option (list ref)) :=
  let* x := lookup_domain d r in
  Ok (match x with DDict kids => Some (map (fun k => (r ++ [k])%list) (ikeys kids)) | DFrame _ => None end).

(** find_named_tables, 95-106: the loop, with the list [pending] used as a stack whose top
    is its last element (here: its head), and [fuel] rounds at most. *)
Fixpoint named_loop (fuel : nat) (d : domain) (pending tables : list ref) : option (res (list ref)) :=
  match pending with
  | [] => Some (Ok tables)
  | r :: pending =>
      match fuel with
      | O => None
      | S fuel =>
          match find_children d r with
          | Err e => Some (Err e)
          | Ok None => named_loop fuel d pending (tables ++ [r])%list
          | Ok (Some l) => named_loop fuel d (rev l ++ pending)%list tables
          end
      end
  end.
(** Number of nodes: enough rounds (proved). *)
Fixpoint nodes (d : domain) : nat :=
  match d with
  | DFrame _ => 1
  | DDict kids => S (list_sum (map (fun p => nodes (snd p)) kids))
  end.
Definition is_named (k : ident) : bool := match k with NamedTable _ => true | _ => false end.
Definition find_named_tables (d : domain) : res (list ref) :=
  match named_loop (nodes d) d [[]] [] with
  | None => Err InternalError
  | Some x =>
      let* tables := x in
      let* l := mapM (fun r => let* k := ref_identifier r in Ok (r, is_named k)) tables in
      Ok (map fst (filter snd l))
  end.
(** find_reference, 109-118. *)
Fixpoint find_reference (name : string) (d : domain) : option ref :=
  match d with
  | DFrame _ => None
  | DDict kids =>
      (fix go (kids : list (ident * domain)) : option ref :=
         match kids with
         | [] => None
         | (k, d) :: kids =>
             if ident_eqb k (NamedTable name) then Some [k]
             else match find_reference name d with
                  | Some r => Some (k :: r)
                  | None => go kids
                  end
         end) kids
  end.

(** ** Data *)

(** The data of a session with the domain and metric of every part; [ark] says that the
    metric of the dictionary is AddRemoveKeys instead of DictMetric. *)
Inductive tree : Type := TLeaf (t : vtab) | TDict (ark : bool) (kids : list (ident * tree)).
Fixpoint domain_of (x : tree) : domain :=
  match x with
  | TLeaf t => DFrame (v_dom t)
  | TDict _ kids => DDict (map (fun p => (fst p, domain_of (snd p))) kids)
  end.
Definition key_column (x : tree) : string :=
  match x with TLeaf t => match v_place t with PKeys i => i | _ => "" end | TDict _ _ => "" end.
Fixpoint metric_of (x : tree) : metric :=
  match x with
  | TLeaf t => MTable (v_place t)
  | TDict true kids => MKeys (map (fun p => (fst p, key_column (snd p))) kids)
  | TDict false kids => MDict (map (fun p => (fst p, metric_of (snd p))) kids)
  end.
(** The part of the data at a reference: get_table_from_ref, _transformation_utils.py
    299-316. *)
Fixpoint get_at (x : tree) (r : ref) : res tree :=
  match r with
  | [] => Ok x
  | k :: r => match x with
              | TDict _ kids => match iget k kids with Some x => get_at x r | None => Err KeyError end
              | TLeaf _ => Err InternalError
              end
  end.

(** generate_nested_transformation, _transformation_utils.py 35-95: apply [f] to the
    dictionary at [r]; every dictionary above it must have a DictMetric.  tmlt.core's
    create_transform_value keeps the other entries; the position of the changed entry in
    the dictionary's order is not modelled (it is kept). *)
Fixpoint iset {A} (k : ident) (a : A) (d : list (ident * A)) : list (ident * A) :=
  match d with [] => [] | (k', a') :: d => if ident_eqb k k' then (k', a) :: d else (k', a') :: iset k a d end.
Fixpoint update_at (r : ref) (f : tree -> res tree) (x : tree) : res tree :=
  match r with
  | [] => f x
  | k :: r => match x with
              | TDict ark kids =>
                  match iget k kids with
                  | None => Err KeyError
                  | Some y => let* y := update_at r f y in
                              let* _ := raise_if ark ValueError in
                              Ok (TDict ark (iset k y kids))
                  end
              | TLeaf _ => Err ValueError
              end
  end.
(** Adding an entry to a dictionary; tmlt.core refuses a key that exists, and in a
    dictionary with metric AddRemoveKeys a table without a key column. *)
Definition has_key (y : tree) : bool :=
  match y with TLeaf t => in_collection (v_place t) | TDict _ _ => false end.
Definition add_entry (k : ident) (y : tree) (x : tree) : res tree :=
  match x with
  | TLeaf _ => Err ValueError
  | TDict ark kids =>
      let* _ := raise_if (existsb (ident_eqb k) (ikeys kids)) ValueError in
      let* _ := raise_if (ark && negb (has_key y)) ValueError in
      Ok (TDict ark (kids ++ [(k, y)])%list)
  end.
(** rename_table, 98-150 (and persist_table 199-241, unpersist_table 244-296, which differ in
    the caching of the copy only): a copy of the table under a new identifier. *)
Definition rename_table (x : tree) (r : ref) (new : ident) : res tree :=
  let* k := ref_identifier r in
  let* p := ref_parent r in
  let* y := get_at x r in
  update_at p (add_entry new y) x.
(** delete_table, 153-196: keeps everything in the parent but temporary tables and the
    table itself.  [list(set(...))] has no particular order: [shuffle] gives it.  Whether
    tmlt.core's Subset accepts an empty set of keys is left open ([empty_ok]). *)
Definition is_temporary (k : ident) : bool := match k with TemporaryTable _ => true | _ => false end.
Definition delete_table (empty_ok : bool) (shuffle : list (ident * tree) -> list (ident * tree)) (x : tree) (r : ref) : res tree :=
  let* k := ref_identifier r in
  let* p := ref_parent r in
  update_at p (fun x => match x with
                        | TLeaf _ => Err ValueError
                        | TDict ark kids =>
                            let l := filter (fun e => negb (is_temporary (fst e)) && negb (ident_eqb k (fst e))) kids in
                            let* _ := raise_if (negb empty_ok && (length l =? 0)) ValueError in
                            Ok (TDict ark (shuffle l))
                        end) x.
