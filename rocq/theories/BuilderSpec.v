(** What building a session promises, independently of the code. *)
From Coq Require Import String Bool Arith ZArith QArith Lia Permutation List.
From Verif Require Import Prelude Budget Value Rows Constraints Schema Query Transform Tables Accountant Session SessionTables Neighboring NeighboringSpec NeighboringDistance Builder BuilderProofs BuilderCalls.
Import ListNotations.
Local Open Scope string_scope.
Local Open Scope nat_scope.

(** ** Calls *)

(** A protected change that makes sense. *)
Definition sensible (c : change) : Prop :=
  match c with
  | AddMaxRows n => (1 <= n)%Z
  | AddMaxRowsInMaxGroups _ k m => (1 <= k)%Z /\ (1 <= m)%Z
  | AddRowsWithID i s => i <> "" /\ s <> ""
  end.
(** A frame Spark and the library can work with. *)
Definition readable (f : sframe) : Prop := exists f', coerce_spark_schema_or_fail f = Ok f'.
(** The calls from which a session can be built.  [stored] widens 32-bit columns; [fits]
    says that the ID or grouping column exists and holds integers, strings or dates;
    [same_ids] that ID columns of one ID space have one type. *)
Record buildable (E : env) (l : list bcall) : Prop := {
  by_budget : exists x, budgets l = [x];
  by_private : privates l <> [];
  by_names : NoDup (map fst (privates l) ++ map fst (publics l));
  by_identifiers : forall n, In n (map fst (privates l)) \/ In n (map fst (publics l)) \/ In n (spaces l) -> e_identifier E n = true;
  by_spaces : NoDup (spaces l);
  by_frames : forall n f c, In (n, (f, c)) (privates l) -> sensible c /\ readable f /\ fits (stored f) c;
  by_publics : forall n f, In (n, f) (publics l) -> readable f;
  by_ids : same_ids (stored_private (privates l));
  by_declared : forall n f i s, In (n, (f, AddRowsWithID i s)) (privates l) ->
                In s (spaces l) \/ (length (privates l) = 1 /\ e_identifier E s = true)
}.

(** ** Sessions *)

(** The private tables and budget of a session that was just built. *)
Definition root (o : opened) : sess := a_data (st_root (o_state o)).

(** ** Neighbouring datasets *)

(** The same tables with other rows. *)
Definition alike (l l' : dict (sframe * change)) : Prop :=
  map (fun p => (fst p, (sd_fields (fst (snd p)), snd (snd p)))) l = map (fun p => (fst p, (sd_fields (fst (snd p)), snd (snd p)))) l'.
(** The tables of an ID space in both datasets, with their ID columns. *)
Definition in_space_of (s : string) (l l' : dict (sframe * change)) : list (string * (table * table)) :=
  flat_map (fun p => match snd (snd (fst p)) with
                     | AddRowsWithID i s' => if String.eqb s s' then [(i, (frame_rows (fst (snd (fst p))), frame_rows (fst (snd (snd p)))))] else []
                     | _ => []
                     end) (combine l l').
(** Every table is changed no more than its protected change says: rows and groups table
    by table, IDs in all tables of an ID space at once. *)
Definition neighbours (l l' : dict (sframe * change)) : Prop :=
  alike l l'
  /\ (forall n f f' c c', In (n, (f, c)) l -> In (n, (f', c')) l' ->
        match c with
        | AddMaxRows k => rows_changed (Z.to_nat k) (frame_rows f) (frame_rows f')
        | AddMaxRowsInMaxGroups g k m => groups_changed g (Z.to_nat k) (Z.to_nat m) (frame_rows f) (frame_rows f')
        | AddRowsWithID _ _ => True
        end)
  /\ (forall s, id_changed (in_space_of s l l')).
(** Every table is changed as much as its protected change allows. *)
Definition far_neighbours (l l' : dict (sframe * change)) : Prop :=
  alike l l'
  /\ (forall n f f' c c', In (n, (f, c)) l -> In (n, (f', c')) l' ->
        match c with
        | AddMaxRows k => exists y, Permutation (frame_rows f') (frame_rows f ++ y) /\ length y = Z.to_nat k
        | AddMaxRowsInMaxGroups g k m => groups_added g (Z.to_nat k) (Z.to_nat m) (frame_rows f) (frame_rows f')
        | AddRowsWithID _ s => id_added (in_space_of s l l')
        end).
(** The tables of a collection of the session, in both datasets. *)
Definition in_collection (s : string) (x x' : tree) : list (string * (table * table)) :=
  flat_map (fun p => match v_coll (snd p), v_place (snd p), dget (fst p) (named x') with
                     | Some s', PKeys i, Some t' => if String.eqb s s' then [(i, (v_rows (snd p), v_rows t'))] else []
                     | _, _, _ => []
                     end) (named x).
(** The square of the distance between two datasets in one entry of the domain. *)
Definition entry_apart (k : ident) (x x' : tree) (n : nat) : Prop :=
  match k with
  | NamedTable m => exists t t', dget m (named x) = Some t /\ dget m (named x') = Some t' /\ v_place t' = v_place t
                               /\ n = apart_squared (v_place t) (v_rows t) (v_rows t')
  | TableCollection s => n = keys_distance (in_collection s x x') * keys_distance (in_collection s x x')
  | TemporaryTable _ => False
  end.
