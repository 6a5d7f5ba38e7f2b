(** What the documentation of QueryBuilder says its methods do to a table, row by row.
    [s] is the schema of the table before the call, [rows] its rows and [rows'] the rows
    afterwards. *)
From Coq Require Import String Bool Arith ZArith QArith Qcanon Lia Permutation List.
From Verif Require Import Prelude Value Rows Constraints ConstraintsSpec Schema Query Transform.
Import ListNotations.
Local Open Scope string_scope.
Local Open Scope nat_scope.

Definition column (s : schema) (c : string) : Prop := In c (dkeys (sc_cols s)).
Definition float_column (s : schema) (c : string) : Prop :=
  exists d, dget c (sc_cols s) = Some d /\ cd_type d = DECIMAL.
(** The ID column, or the column made by a grouping flat map. *)
Definition key_column (s : schema) (c : string) : Prop := sc_id s = Some c \/ sc_group s = Some c.

Definition missing_cell (v : value) : Prop := v = VNull \/ v = VFloat FNan.
Definition infinite_cell (v : value) : Prop := v = VFloat FPInf \/ v = VFloat FNInf.

(** filter *)
Definition filtered (keep : rec -> bool) (rows rows' : table) : Prop := rows' = filter keep rows.

(** select: one row per row, with the chosen columns in the order given *)
Definition selected (cols : list string) (rows rows' : table) : Prop :=
  Forall2 (fun r r' => dkeys r' = cols /\ forall c, In c cols -> In c (dkeys r) /\ getv c r' = getv c r) rows rows'.

(** rename: the cell of column [c] is now in the column it was renamed to *)
Definition new_name (m : dict string) (c : string) : string :=
  match dget c m with Some n => n | None => c end.
Definition columns_renamed (m : dict string) (rows rows' : table) : Prop :=
  Forall2 (fun r r' => dkeys r' = map (new_name m) (dkeys r)
                       /\ forall c, In c (dkeys r) -> getv (new_name m c) r' = getv c r) rows rows'.

(** drop_null_and_nan, drop_infinity: exactly the rows with no such cell in the columns looked
    at.  Without columns, all of them are, except that nulls and NaNs in the ID or grouping
    column are left alone. *)
Definition kept (bad : value -> Prop) (looked : string -> Prop) (rows rows' : table) : Prop :=
  forall keep, (forall r, In r rows -> (keep r = true <-> forall c, looked c -> ~ bad (getv c r))) ->
    rows' = filter keep rows.
Definition looked_for_missing (s : schema) (cols : list string) (c : string) : Prop :=
  match cols with [] => column s c /\ ~ key_column s c | _ => In c cols end.
Definition looked_for_infinite (s : schema) (cols : list string) (c : string) : Prop :=
  match cols with [] => column s c | _ => In c cols end.

(** replace_null_and_nan, replace_infinity: one row per row with the same columns; a cell of a
    column is replaced if it is null or NaN (infinite) and there is a value for the column *)
Definition cells_replaced (s : schema) (new : string -> value -> value -> Prop) (rows rows' : table) : Prop :=
  Forall2 (fun r r' => dkeys r' = dkeys r /\ forall c, column s c -> new c (getv c r) (getv c r')) rows rows'.
(** The defaults (AnalyticsDefault): 0, 0.0, "", 1970-01-01 *)
Definition default_for (t : ctype) : value :=
  match t with
  | INTEGER => VInt 0 | DECIMAL => VFloat (FFin (Q2Qc 0)) | VARCHAR => VStr "" | DATE => VDate 0 | TIMESTAMP => VTime 0
  end.
(** A replacement given as an int for a float column is that number as a float. *)
Definition as_cell (d : coldesc) (v w : value) : Prop :=
  match v, cd_type d with VInt z, DECIMAL => w = VFloat (z_to_f z) | _, _ => w = v end.
Definition replaces_missing (s : schema) (rw : dict value) (c : string) (old new : value) : Prop :=
  (~ missing_cell old -> new = old)
  /\ (missing_cell old ->
      match rw with
      | [] => (key_column s c -> new = old)
              /\ (~ key_column s c -> exists d, dget c (sc_cols s) = Some d /\ new = default_for (cd_type d))
      | _ => match dget c rw with
             | None => new = old
             | Some v => exists d, dget c (sc_cols s) = Some d /\ as_cell d v new
             end
      end).
Definition replaces_infinite (rw : dict (fnum * fnum)) (c : string) (old new : value) : Prop :=
  (~ infinite_cell old -> new = old)
  /\ (infinite_cell old ->
      match rw with
      | [] => new = VFloat (FFin (Q2Qc 0))
      | _ => match dget c rw with
             | None => new = old
             | Some (low, high) => (old = VFloat FNInf -> new = VFloat low) /\ (old = VFloat FPInf -> new = VFloat high)
             end
      end).

(** map, flat_map: the row made from the row [r] and an output [o] of the function with the
    declared columns [new] *)
Definition extends (augment : bool) (new : list string) (r o r' : rec) : Prop :=
  (forall c, In c (dkeys r') <-> In c new \/ (augment = true /\ In c (dkeys r)))
  /\ (forall c, In c new -> getv c r' = getv c o)
  /\ (augment = true -> forall c, In c (dkeys r) -> getv c r' = getv c r).
Definition mapped (f : rec -> rec) (augment : bool) (new : list string) (rows rows' : table) : Prop :=
  Forall2 (fun r r' => extends augment new r (f r) r') rows rows'.
(** Each row becomes the rows made from the outputs of the function on it, or from the first
    [limit] of them. *)
Definition flat_mapped (f : rec -> list rec) (augment : bool) (new : list string) (limit : option nat) (rows rows' : table) : Prop :=
  exists parts, rows' = concat parts
    /\ Forall2 (fun r part => Forall2 (fun o r' => extends augment new r o r')
                                      (match limit with Some n => firstn n (f r) | None => f r end) part) rows parts.
(** flat_map_by_id: the function gets all rows of an ID, in some order *)
Definition flat_mapped_by_id (id : string) (f : list rec -> list rec) (new : list string) (rows rows' : table) : Prop :=
  forall i, exists given, Permutation given (rows_of id i rows)
    /\ Forall2 (fun o r' => dkeys r' = id :: new /\ getv id r' = i /\ forall c, In c new -> getv c r' = getv c o)
               (match given with [] => [] | _ => f given end) (rows_of id i rows').

(** Joins.  [lc] and [rc] are the columns of the two tables.  A column of one table that is not
    joined on keeps its name unless the other table has a column of that name. *)
Definition out_name (others : list string) (suffix c : string) : string :=
  if in_dec string_dec c others then c ++ suffix else c.
Definition glued (on lc rc : list string) (x : rec) (y : option rec) (r' : rec) : Prop :=
  (forall n, In n (dkeys r') <-> In n on \/ (exists c, In c lc /\ ~ In c on /\ n = out_name rc "_left" c)
                                \/ (exists c, In c rc /\ ~ In c on /\ n = out_name lc "_right" c))
  /\ (forall c, In c on -> getv c r' = getv c x)
  /\ (forall c, In c lc -> ~ In c on -> getv (out_name rc "_left" c) r' = getv c x)
  /\ (forall c, In c rc -> ~ In c on ->
        getv (out_name lc "_right" c) r' = match y with Some y => getv c y | None => VNull end).
Definition same_key (on : list string) (x y : rec) : Prop := forall c, In c on -> getv c x = getv c y.
(** An inner join has one row for each pair of rows that agree on the join columns. *)
Definition inner_joined (on lc rc : list string) (l r rows' : table) : Prop :=
  forall p, (forall x y, p (x, y) = true <-> same_key on x y) ->
    Forall2 (fun xy r' => glued on lc rc (fst xy) (Some (snd xy)) r') (filter p (list_prod l r)) rows'.
(** A left join has those and one row, padded with nulls, for each row without partner. *)
Definition left_joined (on lc rc : list string) (l r rows' : table) : Prop :=
  exists pairs alone, Permutation rows' (pairs ++ alone)%list
    /\ inner_joined on lc rc l r pairs
    /\ forall p, (forall x, p x = true <-> forall y, In y r -> ~ same_key on x y) ->
         Forall2 (fun x r' => glued on lc rc x None r') (filter p l) alone.
(** The join columns: the ones given, or all common ones. *)
Definition joined_on (given : option (list string)) (lc rc on : list string) : Prop :=
  match given with
  | Some cols => on = cols
  | None => NoDup on /\ forall c, In c on <-> In c lc /\ In c rc
  end.
(** Truncation before a private join, per join key: the first strategy keeps that many rows,
    the second keeps rows that are alone. *)
Definition number_kept (s : strategy) (n : nat) : nat :=
  match s with DropExcess m => min m n | DropNonUnique => if n =? 1 then 1 else 0 end.
Definition truncated (s : strategy) (on : list string) (rows rows' : table) : Prop :=
  sub_table rows' rows
  /\ forall p key, (forall r, p r = true <-> map (fun c => getv c r) on = key) ->
       length (filter p rows') = number_kept s (length (filter p rows)).

(** enforce *)
Definition enforced (id : string) (c : constraint) (rows rows' : table) : Prop :=
  sub_table rows' rows /\ satisfies id c rows' /\ (satisfies id c rows -> same_table rows' rows).

(** join_private: both tables are truncated first, unless they have IDs. *)
Definition private_joined (given : option (list string)) (tl tr : option strategy) (sl sr : schema) (l r rows' : table) : Prop :=
  exists on l' r', joined_on given (dkeys (sc_cols sl)) (dkeys (sc_cols sr)) on
    /\ inner_joined on (dkeys (sc_cols sl)) (dkeys (sc_cols sr)) l' r' rows'
    /\ (sc_id sl <> None -> l' = l /\ r' = r)
    /\ (sc_id sl = None -> exists a b, tl = Some a /\ tr = Some b /\ truncated a on l l' /\ truncated b on r r').
(** join_public with a table with columns [rc] and rows [pub]; see C43 for "left" on tables
    with IDs. *)
Definition public_joined (given : option (list string)) (how : string) (s : schema) (rc : list string) (l pub rows' : table) : Prop :=
  exists on, joined_on given (dkeys (sc_cols s)) rc on
    /\ (if (String.eqb how "left" && negb (is_some (sc_id s)))%bool then left_joined on (dkeys (sc_cols s)) rc l pub rows'
        else inner_joined on (dkeys (sc_cols s)) rc l pub rows').
