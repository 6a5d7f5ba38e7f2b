(** What Session.describe prints.  Models session.py 550-735 and 1754-1815.
    Simplifications: the text is modelled by its parts, in the order they are printed; how
    tabulate lays out a table, and how budgets and constraints are written, is not modelled. *)
From Coq Require Import String Bool Arith ZArith QArith Lia Permutation List.
From Verif Require Import Prelude Budget Value Rows Constraints Schema Query Transform Tables Accountant Session.
Import ListNotations.
Local Open Scope string_scope.
Local Open Scope nat_scope.

(** ** Tables *)

(** What tabulate is given: the headers and the rows. *)
Definition grid : Type := (list string * list (list string))%type.

Definition truthy (c : option string) : bool := match c with Some x => negb (String.eqb x "") | None => false end.
Definition names_column (o : option string) (c : string) : bool := match o with Some x => String.eqb c x | None => false end.
Definition yes_no (b : bool) : string := if b then "True" else "False".
Definition is_decimal (d : coldesc) : bool := match cd_type d with DECIMAL => true | _ => false end.
(** 1759-1783. *)
Definition headers (s : schema) : list string :=
  (["Column Name"; "Column Type"]
   ++ (if truthy (sc_id s) then ["ID Col"; "ID Space"] else [])
   ++ (if truthy (sc_group s) then ["Grouping Column"] else [])
   ++ ["Nullable"]
   ++ (if existsb (fun p => is_decimal (snd p)) (sc_cols s) then ["NaN Allowed"; "Infinity Allowed"] else []))%list.
(** 1786-1813; tabulate prints None as the empty string. *)
Definition column_row (s : schema) (p : string * coldesc) : list string :=
  ([fst p; ctype_name (cd_type (snd p))]
   ++ (if truthy (sc_id s)
       then if names_column (sc_id s) (fst p) then ["True"; match sc_space s with Some x => x | None => "" end] else ["False"; ""]
       else [])
   ++ (if truthy (sc_group s) then [yes_no (names_column (sc_group s) (fst p))] else [])
   ++ [yes_no (cd_null (snd p))]
   ++ (if existsb (fun p => is_decimal (snd p)) (sc_cols s)
       then if is_decimal (snd p) then [yes_no (cd_nan (snd p)); yes_no (cd_inf (snd p))] else [""; ""]
       else []))%list.
(** _describe_schema, 1754-1815. *)
Definition describe_schema (s : schema) : grid := (headers s, map (column_row s) (sc_cols s)).

(** ** Sessions and queries *)

(** The text for a session: the line about its state (none if it is active), the budget,
    the private tables with their constraints, the public tables. *)
Record session_text : Type := {
  tx_state : option astate;
  tx_budget : budget;
  tx_private : dict (grid * list constraint);
  tx_public : dict grid
}.
(** The text for a query: columns, constraints, and the columns it is grouped on with, for
    a KeySet, the number of groups. *)
Record query_text : Type := {
  qx_grid : grid;
  qx_cons : list constraint;
  qx_groups : option (list string * option nat)
}.

Section Describe.
Variable E : env.
Notation W := (e_world E).

(** _describe_self, 637-699. *)
Definition describe_self (st : state) (p : path) : res session_text :=
  match find p (st_root st) with
  | None => Err KeyError
  | Some c =>
      let s := a_data c in
      let* cat := catalog_of (s_tree s) (st_public st) (s_cons s) in
      let public := map (fun x => (fst x, describe_schema (fst (snd x)))) (cat_public cat) in
      let private := map (fun x => (fst x, (describe_schema (fst (snd x)),
                                            match dget (fst x) (s_cons s) with Some cs => cs | None => [] end))) (cat_private cat) in
      let* _ := raise_if (length private =? 0) InternalError in
      Ok {| tx_state := match a_state c with ACTIVE => None | x => Some x end;
            tx_budget := remaining_privacy_budget s; tx_private := private; tx_public := public |}
  end.
(** 727-734; the rows of a KeySet are distinct. *)
Definition describe_groups (k : option gkeys) : option (list string * option nat) :=
  match k with
  | None => None
  | Some (KCols cols) => Some (cols, None)
  | Some (KSet cols rows) => if 0 <? length cols then Some (dkeys cols, Some (length rows)) else None
  end.
(** _describe_query_obj, 701-735. *)
Definition describe_query_obj (st : state) (p : path) (q : query) (k : option gkeys) : res query_text :=
  let* s := session_at st p in
  let* cat := catalog_of (s_tree s) (st_public st) (s_cons s) in
  let* sc := schema_of (w_cond_ok W) cat q in
  let* data := data_of (s_tree s) in
  let* cs := match build_transformation W (is_rho (s_left s)) cat data q with
             | Ok y => Ok (snd y)
             | Err NotImplementedError => Ok []
             | Err e => Err e
             end in
  Ok {| qx_grid := describe_schema sc; qx_cons := cs; qx_groups := describe_groups k |}.
(** describe with a string, 632-633; QueryBuilder(obj) refuses what is not an identifier
    (_query_expr.py 214-223). *)
Definition describe_name (st : state) (p : path) (name : string) : res query_text :=
  let* _ := raise_if (negb (is_identifier name)) ValueError in
  describe_query_obj st p (PrivateSource name) None.
End Describe.
