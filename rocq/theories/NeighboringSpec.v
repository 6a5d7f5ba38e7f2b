(** What protected changes promise, independently of the code. *)
From Coq Require Import String Bool Arith ZArith Lia Permutation List.
From Verif Require Import Prelude Value Rows Constraints ConstraintsSpec Schema Query Transform Tables Neighboring.
Import ListNotations.
Local Open Scope string_scope.
Local Open Scope nat_scope.

(** ** Relations *)

(** The tables a relation mentions, with repetitions. *)
Fixpoint tables_of (r : relation) : list string :=
  match r with
  | AddRemoveRows t _ | AddRemoveRowsAcrossGroups t _ _ _ => [t]
  | AddRemoveKeys _ d _ => dkeys d
  | Conjunction l => flat_map tables_of l
  end.
Definition is_conjunction (r : relation) : Prop := match r with Conjunction _ => True | _ => False end.
(** [x] is one of the parts, not itself a conjunction, that [r] is put together from. *)
Inductive part_of (x : relation) : relation -> Prop :=
| part_self : ~ is_conjunction x -> part_of x x
| part_nested l r : In r l -> part_of x r -> part_of x (Conjunction l).
(** The relation a protected change stands for, for one table. *)
Definition protects (name : string) (c : change) (r : relation) : Prop :=
  match c, r with
  | AddMaxRows n, AddRemoveRows t m => t = name /\ m = n
  | AddMaxRowsInMaxGroups g k m, AddRemoveRowsAcrossGroups t g' k' m' => t = name /\ g' = g /\ k' = k /\ m' = m
  | AddRowsWithID col s, AddRemoveKeys s' d n => s' = s /\ dget name d = Some col /\ n = 1%Z
  | _, _ => False
  end.

(** ** Changes of one table *)

(** [b] is [a] with some rows removed and others added. *)
Definition altered (a b removed added : table) : Prop :=
  exists common, Permutation a (common ++ removed) /\ Permutation b (common ++ added).
(** At most [n] rows are added or removed. *)
Definition rows_changed (n : nat) (a b : table) : Prop :=
  exists x y, altered a b x y /\ length (x ++ y) <= n.
(** Rows are added or removed in at most [k] groups, at most [m] in each. *)
Definition groups_changed (g : string) (k m : nat) (a b : table) : Prop :=
  exists x y vs, altered a b x y /\ length vs <= k
    /\ (forall r, In r (x ++ y) -> In (getv g r) vs)
    /\ (forall v, length (filter (has_value g v) (x ++ y)) <= m).
(** All rows of one ID are added, or all are removed, in all tables of an ID space; each
    table comes with its ID column, before and after. *)
Definition without (idc : string) (i : value) (t : table) : table := filter (fun r => negb (has_value idc i r)) t.
Definition id_changed (l : list (string * (table * table))) : Prop :=
  exists i, (forall c a b, In (c, (a, b)) l -> Permutation b (without c i a))
         \/ (forall c a b, In (c, (a, b)) l -> Permutation a (without c i b)).

(** ** Distances of tmlt.core *)

(** SumOf(SymmetricDifference()) over the groups. *)
Definition grouped_distance (g : string) (a b : table) : nat :=
  list_sum (map (fun v => row_distance (filter (has_value g v) a) (filter (has_value g v) b))
                (nodup value_eq_dec (map (getv g) (a ++ b)))).
(** The square of the distance between two tables with the same metric; for AddRemoveKeys
    see below. *)
Definition apart_squared (p : place) (a b : table) : nat :=
  match p with
  | PGrouped g true => grouped_distance_squared g a b
  | PGrouped g false => grouped_distance g a b * grouped_distance g a b
  | _ => row_distance a b * row_distance a b
  end.
(** AddRemoveKeys: an ID that is in one dataset only counts once, an ID whose rows differ
    counts twice. *)
Definition same_bag (a b : table) : bool := row_distance a b =? 0.
Definition key_cost (l : list (string * (table * table))) (i : value) : nat :=
  if forallb (fun p => same_bag (rows_of (fst p) i (fst (snd p))) (rows_of (fst p) i (snd (snd p)))) l then 0
  else if forallb (fun p => length (rows_of (fst p) i (fst (snd p))) =? 0) l
       || forallb (fun p => length (rows_of (fst p) i (snd (snd p))) =? 0) l then 1
  else 2.
Definition keys_of (l : list (string * (table * table))) : list value :=
  nodup value_eq_dec (flat_map (fun p => map (getv (fst p)) (fst (snd p) ++ snd (snd p))%list) l).
Definition keys_distance (l : list (string * (table * table))) : nat := list_sum (map (key_cost l) (keys_of l)).

(** The square of a distance. *)
Definition squared (d : distance) : Z := match d with DExact n => n * n | DRoot n m => n * n * m end%Z.
(** [d] is not negative and [n] squared is at most [d] squared. *)
Definition bounds_squared (n : nat) (d : distance) : Prop :=
  (Z.of_nat n <= squared d)%Z /\ match d with DExact x | DRoot x _ => (0 <= x)%Z end.
