(** What constraints and distances mean, independently of the code. *)
From Coq Require Import String Bool Arith Lia Permutation List.
From Verif Require Import Prelude Value Rows Constraints.
Import ListNotations.
Local Open Scope nat_scope.

(** The rows of one privacy ID. *)
Definition rows_of (idc : string) (i : value) (t : table) : table := filter (has_value idc i) t.

(** A table with privacy ID column [idc] satisfies a constraint (user documentation of
    MaxRowsPerID, MaxGroupsPerID, MaxRowsPerGroupPerID). *)
Definition satisfies (idc : string) (c : constraint) (t : table) : Prop :=
  match c with
  | MaxRowsPerID m => forall i, length (rows_of idc i t) <= m
  | MaxGroupsPerID g m =>
      forall i (vs : list value), NoDup vs ->
        (forall v, In v vs -> exists r, In r (rows_of idc i t) /\ getv g r = v) -> length vs <= m
  | MaxRowsPerGroupPerID g m =>
      forall i v, length (filter (has_value g v) (rows_of idc i t)) <= m
  end.
Definition satisfies_all (idc : string) (cs : list constraint) (t : table) : Prop :=
  forall c, In c cs -> satisfies idc c t.

(** Same kind and same grouping column. *)
Definition same_subject (a b : constraint) : bool :=
  match a, b with
  | MaxRowsPerID _, MaxRowsPerID _ => true
  | MaxGroupsPerID g _, MaxGroupsPerID g' _ => String.eqb g g'
  | MaxRowsPerGroupPerID g _, MaxRowsPerGroupPerID g' _ => String.eqb g g'
  | _, _ => false
  end.

(** One table is the other without the rows of one privacy ID. *)
Definition one_id_apart (idc : string) (a b : table) : Prop :=
  exists i, same_table b (filter (fun r => negb (has_value idc i r)) a)
         \/ same_table a (filter (fun r => negb (has_value idc i r)) b).
(** [k] privacy IDs are added or removed. *)
Inductive ids_apart (idc : string) : nat -> table -> table -> Prop :=
| ids_same a b : same_table a b -> ids_apart idc 0 a b
| ids_step k a b c : ids_apart idc k a b -> one_id_apart idc b c -> ids_apart idc (S k) a c.

(** Square of the L2 norm of the vector of per-group row distances. *)
Definition grouped_distance_squared (g : string) (a b : table) : nat :=
  list_sum (map (fun v => let d := row_distance (filter (has_value g v) a) (filter (has_value g v) b) in d * d)
                (nodup value_eq_dec (map (getv g) (a ++ b)))).
