(** Specification vocabulary for the stability of queries on tables without privacy IDs: how
    many rows of the result can change when rows of the private tables change. *)
From Coq Require Import String Bool Arith ZArith QArith Qcanon Lia Permutation List.
From Verif Require Import Prelude Value Rows Constraints Schema Query Transform TransformSpec.
Import ListNotations.
Local Open Scope string_scope.
Local Open Scope nat_scope.

(** truncation_strategy.py 17-34: the threshold is the number of rows kept per join key, 1 for
    DropNonUnique; the stability is 2 for DropExcess and 1 for DropNonUnique. *)
Definition threshold (s : strategy) : nat := match s with DropExcess n => n | DropNonUnique => 1 end.
Definition stability (s : strategy) : nat := match s with DropExcess _ => 2 | DropNonUnique => 1 end.

(** No combination of values in the columns [on] occurs in more than [m] rows. *)
Definition at_most (m : nat) (on : list string) (t : table) : Prop :=
  forall p key, (forall r, p r = true <-> map (fun c => getv c r) on = key) -> length (filter p t) <= m.

(** The columns joined on: the ones given, or all common ones, in any order. *)
Definition joins_on (given : option (list string)) (lc rc on : list string) : Prop :=
  match given with Some cols => on = cols | None => forall c, In c on <-> In c lc /\ In c rc end.

Section Spread.
Variables (W : world) (l2 : bool) (cat : catalog) (data : dict vtab).
(** [d n]: how many rows of the private table [n] change. *)
Variable d : string -> nat.
(** [spread q k]: at most [k] rows of the query's result change.  Operations that treat every
    row alone do not add changes, except flat maps and public joins, which multiply them by the
    largest number of rows made from one row.  A private join multiplies the changes of each
    table by the stability of its own truncation and the threshold of the other one's. *)
Inductive spread : query -> nat -> Prop :=
| sp_source n t : dget n data = Some t -> in_collection (v_place t) = false -> spread (PrivateSource n) (d n)
| sp_rename c m k : spread c k -> spread (Rename c m) k
| sp_filter c cond k : spread c k -> spread (Filter c cond) k
| sp_select c cols k : spread c k -> spread (Select c cols) k
| sp_map c f new aug k : spread c k -> spread (MapQ c f new aug) k
| sp_flat_map c f new aug z k : spread c k -> spread (FlatMap c f new aug (Some z)) (Z.to_nat z * k)
| sp_join_private l r sl sr on kl kr : spread l kl -> spread r kr ->
    spread (JoinPrivate l r (Some sl) (Some sr) on) (threshold sr * stability sl * kl + threshold sl * stability sr * kr)
| sp_join_public c p on how k m f : spread c k -> public_frame cat p = Ok f -> (how = "left" -> 1 <= m) ->
    (forall t cs cols, visit W l2 cat data c = Ok (t, cs) -> joins_on on (dkeys (v_dom t)) (map sf_name (sd_fields f)) cols -> at_most m cols (frame_rows f)) ->
    spread (JoinPublic c p on how) (m * k)
| sp_replace_null c rw k : spread c k -> spread (ReplaceNullAndNan c rw) k
| sp_replace_inf c rw k : spread c k -> spread (ReplaceInfinity c rw) k
| sp_drop_null c cols k : spread c k -> spread (DropNullAndNan c cols) k
| sp_drop_inf c cols k : spread c k -> spread (DropInfinity c cols) k.
End Spread.

(** truncation_strategy.py 17-20: the sensitivity of a private join that users are told, for
    the strategies [sl] and [sr] and the numbers of rows [ml] and [mr] that can be added to or
    removed from the left and the right table. *)
Definition documented_sensitivity (sl sr : strategy) (ml mr : nat) : nat :=
  threshold sl * stability sr * ml + threshold sr * stability sl * mr.
