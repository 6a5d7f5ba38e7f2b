(** Truncation constraints: constructors, simplification, enforcement and the choice of
    the truncation applied before an aggregation.  Models constraints/_truncation.py,
    constraints/_simplify.py and part of _query_expr_compiler/_base_measurement_visitor.py. *)
From Coq Require Import String Bool Arith ZArith Lia Permutation List.
From Verif Require Import Prelude Value Rows.
Import ListNotations.
Local Open Scope nat_scope.

(** The three dataclasses, _truncation.py 83-95, 161-175, 274-286.  No other subclass of
    Constraint exists in the repository, so the "else" branch of the simplification loop
    (69) has no counterpart. *)
Inductive constraint : Type :=
| MaxRowsPerID (max : nat)
| MaxGroupsPerID (grouping_column : string) (max : nat)
| MaxRowsPerGroupPerID (grouping_column : string) (max : nat).

(** __post_init__, _truncation.py 97-101, 177-184, 288-295.  [z] is the Python int given
    by the caller; the stored bound is a positive number. *)
Definition mk_max_rows_per_id (z : Z) : res constraint :=
  let* _ := raise_if (z <? 1)%Z ValueError in Ok (MaxRowsPerID (Z.to_nat z)).
Definition mk_max_groups_per_id (g : string) (z : Z) : res constraint :=
  let* _ := raise_if (String.eqb g "") ValueError in
  let* _ := raise_if (z <? 1)%Z ValueError in Ok (MaxGroupsPerID g (Z.to_nat z)).
Definition mk_max_rows_per_group_per_id (g : string) (z : Z) : res constraint :=
  let* _ := raise_if (z <? 1)%Z ValueError in
  let* _ := raise_if (String.eqb g "") ValueError in Ok (MaxRowsPerGroupPerID g (Z.to_nat z)).

(** The three accumulators of the simplification loop. *)
Record simp : Type := { s_rows : list nat; s_groups : dict nat; s_rpg : dict nat }.

(** _truncation.py 59-62 and 64-67: set when absent, lower when larger. *)
Definition lower (g : string) (m : nat) (d : dict nat) : dict nat :=
  match dget g d with
  | None => dset g m d
  | Some old => if m <? old then dset g m d else d
  end.

(** Loop body, _truncation.py 55-69. *)
Definition simp_step (s : simp) (c : constraint) : simp :=
  match c with
  | MaxRowsPerID m => {| s_rows := s_rows s ++ [m]; s_groups := s_groups s; s_rpg := s_rpg s |}
  | MaxGroupsPerID g m => {| s_rows := s_rows s; s_groups := lower g m (s_groups s); s_rpg := s_rpg s |}
  | MaxRowsPerGroupPerID g m => {| s_rows := s_rows s; s_groups := s_groups s; s_rpg := lower g m (s_rpg s) |}
  end.

(** min(...) of a non-empty list. *)
Definition list_min (m : nat) (l : list nat) : nat := fold_left Nat.min l m.

(** simplify_truncation_constraints, _truncation.py 50-80, called by
    simplify_constraints, _simplify.py 11-21. *)
Definition simplify (cs : list constraint) : list constraint :=
  let s := fold_left simp_step cs {| s_rows := []; s_groups := []; s_rpg := [] |} in
  (match s_rows s with [] => [] | m :: l => [MaxRowsPerID (list_min m l)] end)
  ++ map (fun p => MaxGroupsPerID (fst p) (snd p)) (s_groups s)
  ++ map (fun p => MaxRowsPerGroupPerID (fst p) (snd p)) (s_rpg s).

(** ** Enforcement *)
Section Enforce.
(** tmlt.core orders the rows of a group by a hash of the row and then by the row, and
    the keys of a group by a hash of (group, key) and then by the key.  Both are total
    orders that depend on nothing else; which ones is left open. *)
Variable row_order : order rec.
Variable key_order : value -> order value.

(** Keep a row when fewer than [m] rows with the same key came before it. *)
Fixpoint keep_first {K} (eqd : forall a b : K, {a = b} + {a <> b}) (key : rec -> K) (m : nat)
    (seen : list K) (t : table) : table :=
  match t with
  | [] => []
  | r :: t' =>
      let rest := keep_first eqd key m (key r :: seen) t' in
      if count_occ eqd seen (key r) <? m then r :: rest else rest
  end.

Definition pair_eq_dec (a b : value * value) : {a = b} + {a <> b}.
Proof.
  destruct a as [x y], b as [x' y'].
  destruct (value_eq_dec x x'); [|right; congruence].
  destruct (value_eq_dec y y'); [left|right]; congruence.
Defined.

(** tmlt.core LimitRowsPerGroup / LimitRowsPerGroupValue: at most [m] rows per ID. *)
Definition limit_rows (idc : string) (m : nat) (t : table) : table :=
  keep_first value_eq_dec (getv idc) m [] (isort (ole row_order) t).

(** tmlt.core LimitRowsPerKeyPerGroup(Value): at most [m] rows per (ID, key). *)
Definition limit_rows_per_key (idc g : string) (m : nat) (t : table) : table :=
  keep_first pair_eq_dec (fun r => (getv idc r, getv g r)) m [] (isort (ole row_order) t).

(** The distinct values of column [g] on the rows of ID [i]. *)
Definition keys_of (idc g : string) (t : table) (i : value) : list value :=
  nodup value_eq_dec (map (getv g) (filter (has_value idc i) t)).
(** The ones that survive. *)
Definition kept_keys (idc g : string) (m : nat) (t : table) (i : value) : list value :=
  firstn m (isort (ole (key_order i)) (keys_of idc g t i)).
Definition vmem (v : value) (l : list value) : bool := existsb (value_eqb v) l.

(** tmlt.core LimitKeysPerGroup(Value): at most [m] distinct keys per ID. *)
Definition limit_keys (idc g : string) (m : nat) (t : table) : table :=
  filter (fun r => vmem (getv g r) (kept_keys idc g m t (getv idc r))) t.

(** The rows after enforcing a constraint on a table whose ID column is [idc]. *)
Definition enforce_rows (idc : string) (c : constraint) (t : table) : table :=
  match c with
  | MaxRowsPerID m => limit_rows idc m t
  | MaxGroupsPerID g m => limit_keys idc g m t
  | MaxRowsPerGroupPerID g m => limit_rows_per_key idc g m t
  end.

(** How a table sits in the session's data, as far as enforcement looks at it:
    in a collection with metric AddRemoveKeys (ID column given); at top level with metric
    SymmetricDifference; IfGroupedBy(g, SumOf/RootSumOfSquared(IfGroupedBy(id,
    SymmetricDifference))); or IfGroupedBy(g, SumOf/RootSumOfSquared(SymmetricDifference)).
    The boolean says RootSumOfSquared (L2). *)
Inductive place : Type :=
| PKeys (idc : string)
| PSym
| PGroupedIds (g : string) (l2 : bool) (idc : string)
| PGrouped (g : string) (l2 : bool).

Record tbl : Type := { t_place : place; t_rows : table }.

(** _enforce, _truncation.py 103-158, 186-271, 297-375.  tmlt.core refuses
    LimitRowsPerKeyPerGroup when the metric groups by another column than the key. *)
Definition enforce (c : constraint) (update_metric use_l2 : bool) (x : tbl) : res tbl :=
  match c with
  | MaxRowsPerID m =>
      match t_place x with
      | PKeys idc =>
          if update_metric then Ok {| t_place := PSym; t_rows := limit_rows idc m (t_rows x) |}
          else Ok {| t_place := PKeys idc; t_rows := limit_rows idc m (t_rows x) |}
      | _ => Err ValueError                                   (* 112-116 *)
      end
  | MaxGroupsPerID g m =>
      match t_place x with
      | PKeys idc =>
          if update_metric
          then Ok {| t_place := PGroupedIds g use_l2 idc; t_rows := limit_keys idc g m (t_rows x) |}
          else Ok {| t_place := PKeys idc; t_rows := limit_keys idc g m (t_rows x) |}
      | _ => Err ValueError               (* 197-201; _transformation_utils.py 66-72 *)
      end
  | MaxRowsPerGroupPerID g m =>
      if update_metric then
        match t_place x with
        | PGroupedIds g' l2 idc =>
            if String.eqb g g'
            then Ok {| t_place := PGrouped g l2; t_rows := limit_rows_per_key idc g m (t_rows x) |}
            else Err ValueError
        | PKeys _ | PSym | PGrouped _ _ => Err InternalError      (* 311-332 *)
        end
      else
        match t_place x with
        | PKeys idc => Ok {| t_place := PKeys idc; t_rows := limit_rows_per_key idc g m (t_rows x) |}
        | _ => Err ValueError                                 (* 355-359 *)
        end
  end.

(** ** Choosing the truncation before an aggregation *)

(** Output measures: PureDP, ApproxDP, RhoZCDP. *)
Inductive measure : Type := PureDP | ApproxDP | RhoZCDP.

Fixpoint find_rows (cs : list constraint) : option nat :=
  match cs with
  | [] => None
  | MaxRowsPerID m :: _ => Some m
  | _ :: r => find_rows r
  end.
(** The two dict comprehensions, _base_measurement_visitor.py 166-171. *)
Definition groups_dict (cs : list constraint) : dict nat :=
  dict_of (flat_map (fun c => match c with MaxGroupsPerID g m => [(g, m)] | _ => [] end) cs).
Definition rpg_dict (cs : list constraint) : dict nat :=
  dict_of (flat_map (fun c => match c with MaxRowsPerGroupPerID g m => [(g, m)] | _ => [] end) cs).

(** Python iterates over the intersection of two sets in an unspecified order. *)
Variable set_order : list string -> list string.

(** A usable truncation: one row bound, or a group bound with a row-per-group bound. *)
Inductive trunc : Type :=
| TRows (m : nat)
| TGroups (g : string) (groups rows : nat).

(** _get_truncatable_constraints, _base_measurement_visitor.py 156-179. *)
Definition truncatable (cs : list constraint) : list trunc :=
  let gd := groups_dict cs in
  let rd := rpg_dict cs in
  flat_map (fun g => match dget g gd, dget g rd with
                     | Some a, Some b => [TGroups g a b]
                     | _, _ => [] end)
           (set_order (filter (fun g => smem g (dkeys rd)) (dkeys gd)))
  ++ match find_rows cs with Some m => [TRows m] | None => [] end.

(** _constraint_stability, _base_measurement_visitor.py 182-214.  The Python function
    returns max, groups*rows or the float sqrt(groups)*rows; the model returns the exact
    square of it, which orders candidates the same way up to float rounding. *)
Definition stability_squared (mu : measure) (grouping : list string) (t : trunc) : nat :=
  match t with
  | TRows m => m * m
  | TGroups g a b =>
      match mu with
      | RhoZCDP => if smem g grouping then a * (b * b) else (a * b) * (a * b)
      | _ => (a * b) * (a * b)
      end
  end.

Definition trunc_le mu grouping (a b : trunc) : bool :=
  stability_squared mu grouping a <=? stability_squared mu grouping b.

(** The constraints of a truncation, in the order they are enforced. *)
Definition trunc_constraints (t : trunc) : list constraint :=
  match t with
  | TRows m => [MaxRowsPerID m]
  | TGroups g a b => [MaxGroupsPerID g a; MaxRowsPerGroupPerID g b]
  end.

(** use_l2, _base_measurement_visitor.py 571-574. *)
Definition use_l2 (mu : measure) (grouping : list string) (c : constraint) : bool :=
  match c, mu with
  | MaxGroupsPerID g _, RhoZCDP => smem g grouping
  | _, _ => false
  end.

Fixpoint enforce_all (mu : measure) (grouping : list string) (cs : list constraint) (x : tbl) : res tbl :=
  match cs with
  | [] => Ok x
  | c :: r => let* y := enforce c true (use_l2 mu grouping c) x in enforce_all mu grouping r y
  end.

(** _truncate_table, _base_measurement_visitor.py 534-589. *)
Definition choose_trunc (mu : measure) (grouping : list string) (cs : list constraint) : option trunc :=
  match isort (trunc_le mu grouping) (truncatable cs) with
  | [] => None
  | t :: _ => Some t
  end.

Definition truncate_table (mu : measure) (grouping : list string) (cs : list constraint) (x : tbl) : res tbl :=
  match t_place x with
  | PKeys _ =>
      match choose_trunc mu grouping cs with
      | None => Err RuntimeError                               (* 553-557 *)
      | Some t => enforce_all mu grouping (trunc_constraints t) x
      end
  | _ => Ok x                                                  (* 587-589 *)
  end.
End Enforce.
