(** Model of src/tmlt/analytics/binning_spec.py.

    Simplifications, for the whole file:
    - Bin edges live in an arbitrary Python type whose comparison operators obey the
      laws in [pyorder] (int, float with NaN, str, date, datetime all do).
    - tmlt.core's get_element_type and ColumnType(...) are one oracle
      [element_type], which returns the common type of a sequence or raises.
    - numpy arrays are lists ([tolist]); dataclass plumbing, __repr__, __hash__ omitted. *)
From Coq Require Import String Bool Arith ZArith Lia DecimalString List.
From Verif Require Import Prelude.
Import ListNotations.

(** Python's comparison operators on one column type. *)
Record pyorder (E : Type) : Type := {
  po_lt : E -> E -> bool;
  po_le : E -> E -> bool;
  po_eq : E -> E -> bool;
  po_nan : E -> bool;                      (* isinstance(v, float) and math.isnan(v) *)
  po_irrefl : forall a, po_lt a a = false;
  po_trans : forall a b c, po_lt a b = true -> po_lt b c = true -> po_lt a c = true;
  po_tri : forall a b, po_nan a = false -> po_nan b = false ->
           po_lt a b = true \/ po_eq a b = true \/ po_lt b a = true;
  po_eq_lt : forall a b c, po_eq a b = true -> po_lt a c = po_lt b c /\ po_lt c a = po_lt c b;
  po_eq_sym : forall a b, po_eq a b = true -> po_eq b a = true;
  po_le_def : forall a b, po_le a b = po_lt a b || po_eq a b;
  po_nan_l : forall a b, po_nan a = true -> po_lt a b = false /\ po_eq a b = false;
  po_nan_r : forall a b, po_nan b = true -> po_lt a b = false /\ po_eq a b = false
}.
Arguments po_lt {E}. Arguments po_le {E}. Arguments po_eq {E}. Arguments po_nan {E}.

(** l[i] with Python's negative indices. *)
Definition py_nth {A} (l : list A) (i : Z) : res A :=
  let n := Z.of_nat (length l) in
  let j := if (i <? 0)%Z then (i + n)%Z else i in
  if (j <? 0)%Z then Err IndexError
  else match nth_error l (Z.to_nat j) with Some a => Ok a | None => Err IndexError end.

Section Model.
Variables E N T : Type.
Variable P : pyorder E.
Variable N_eqb : N -> N -> bool.          (* == on bin names, used by dict.fromkeys *)
Variable T_eqb : T -> T -> bool.

(** bisect.bisect_left / bisect_right of the standard library: the binary search loop
    on a[lo:hi]; [n] is the loop's fuel, [length + 1] suffices (proved). *)
Fixpoint bisect (go_right : E -> bool) (a : list E) (n lo hi : nat) : nat :=
  match n with
  | O => lo
  | S n' =>
      if lo <? hi then
        let mid := Nat.div2 (lo + hi) in
        match nth_error a mid with
        | Some y => if go_right y then bisect go_right a n' (S mid) hi
                    else bisect go_right a n' lo mid
        | None => lo
        end
      else lo
  end.
Definition bisect_left (a : list E) (x : E) : nat :=
  bisect (fun y => po_lt P y x) a (S (length a)) 0 (length a).
Definition bisect_right (a : list E) (x : E) : nat :=
  bisect (fun y => negb (po_lt P x y)) a (S (length a)) 0 (length a).

(** BinningSpec's fields (154-160). *)
Record spec : Type := {
  bin_edges : list E;
  names : list (option N);
  right : bool;
  include_both : bool;
  nan_bin : option N;
  input_type : T;
  name_type : T
}.

(** The oracle for [ColumnType(get_element_type(xs, allow_none=False))]. *)
Variable edge_type : list E -> res T.
Variable names_type : list (option N) -> res T.
Variable type_of : N -> T.                (* type(nan_bin) as a column type *)

(** all(bin_edges[i] < bin_edges[i + 1] for i in range(num_bins)) (202). *)
Fixpoint ascending (l : list E) : bool :=
  match l with
  | x :: ((y :: _) as r) => po_lt P x y && ascending r
  | _ => true
  end.

(** BinningSpec.__init__ (162-245).  [default_names] is _default_bin_names (93-118),
    modelled below for strings. *)
Definition mk_spec (default_names : list E -> bool -> bool -> res (list (option N)))
    (edges : list E) (nms : option (list (option N))) (rgt both : bool)
    (nb : option N) : res spec :=
  let* _ := raise_if (Nat.pred (length edges) <? 1) ValueError in
  let* it := match edge_type edges with Ok t => Ok t | Err _ => Err ValueError end in
  let* _ := raise_if (negb (ascending edges)) ValueError in
  let* nm := match nms with
             | None => default_names edges rgt both
             | Some nm => if length nm =? Nat.pred (length edges) then Ok nm else Err ValueError
             end in
  let* nt := match names_type nm with Ok t => Ok t | Err _ => Err ValueError end in
  let* _ := raise_if (match nb with
                      | Some b => negb (T_eqb (type_of b) nt)
                      | None => false end) ValueError in
  Ok {| bin_edges := edges; names := nm; right := rgt; include_both := both;
        nan_bin := nb; input_type := it; name_type := nt |}.

(** list(dict.fromkeys(xs)): keep first occurrences. *)
Fixpoint dedup_aux {A} (eqb : A -> A -> bool) (seen l : list A) : list A :=
  match l with
  | [] => []
  | x :: r => if existsb (eqb x) seen then dedup_aux eqb seen r
              else x :: dedup_aux eqb (x :: seen) r
  end.
Definition fromkeys {A} (eqb : A -> A -> bool) (l : list A) : list A := dedup_aux eqb [] l.

(** bins (290-305). *)
Definition bins (s : spec) (include_null : bool) : list (option N) :=
  let l := names s in
  let l := match nan_bin s with Some _ => l ++ [nan_bin s] | None => l end in
  let l := if include_null then l ++ [None] else l in
  fromkeys (option_eqb N_eqb) l.

(** __call__ (307-336). *)
Definition call (s : spec) (val : option E) : res (option N) :=
  match val with
  | None => Ok None
  | Some v =>
      if po_nan P v then Ok (nan_bin s)
      else if right s then
        let* first := py_nth (bin_edges s) 0 in
        if include_both s && po_eq P v first then py_nth (names s) 0
        else
          let* last := py_nth (bin_edges s) (-1) in
          if po_le P v first || po_lt P last v then Ok None
          else py_nth (names s) (Z.of_nat (bisect_left (bin_edges s) v) - 1)
      else
        let* last := py_nth (bin_edges s) (-1) in
        if include_both s && po_eq P v last then py_nth (names s) (-1)
        else
          let* first := py_nth (bin_edges s) 0 in
          if po_lt P v first || po_le P last v then Ok None
          else py_nth (names s) (Z.of_nat (bisect_right (bin_edges s) v) - 1)
  end.

(** _get_column_descriptor (21-52): (allow_null, allow_nan, allow_inf) of the column
    binning produces.  [n_nan]/[n_inf] are "is a float NaN" / "== +-inf" on bin names.
    The column type is [name_type]. *)
Definition column_descriptor (n_nan n_inf : N -> bool) (bin_names : list (option N))
    (nan_bin : option N) : bool * bool * bool :=
  let all_bin_names := match nan_bin with Some _ => bin_names ++ [nan_bin] | None => bin_names end in
  let on_names (f : N -> bool) := existsb (fun o => match o with Some n => f n | None => false end) in
  (true, on_names n_nan all_bin_names, on_names n_inf all_bin_names).

End Model.

Arguments bin_edges {E N T}. Arguments names {E N T}. Arguments right {E N T}.
Arguments include_both {E N T}. Arguments nan_bin {E N T}.
Arguments input_type {E N T}. Arguments name_type {E N T}.

(** _default_bin_names (93-118), given the edge strings of _edges_as_str. *)
Local Open Scope string_scope.
Definition interval (l a b r : string) : string := l ++ a ++ ", " ++ b ++ r.

Fixpoint pairs_named (l r : string) (es : list string) : list string :=
  match es with
  | a :: ((b :: _) as rest) => interval l a b r :: pairs_named l r rest
  | _ => []
  end.

Definition default_bin_names (es : list string) (rgt both : bool) : list string :=
  if rgt then
    if both then
      match es with
      | a :: b :: _ => interval "[" a b "]" :: pairs_named "(" "]" (List.tl es)
      | _ => []
      end
    else pairs_named "(" "]" es
  else if both then
    pairs_named "[" ")" (List.removelast es) ++
      match rev es with
      | b :: a :: _ => [interval "[" a b "]"]
      | _ => []
      end
  else pairs_named "[" ")" es.

(** _edges_as_str (55-67) for float edges: the first precision in 2..16 that makes the
    formatted edges pairwise distinct, otherwise RuntimeError.  [fmt p e] is f"{e:.{p}f}". *)
Definition edges_as_str_float {E} (fmt : nat -> E -> string) (edges : list E) : res (list string) :=
  let distinct l := Nat.eqb (length (fromkeys String.eqb l)) (length l) in
  let try_p := fun acc p =>
    match acc with
    | Some _ => acc
    | None => let l := map (fmt p) edges in if distinct l then Some l else None
    end in
  match fold_left try_p (seq 2 15) None with
  | Some l => Ok l
  | None => Err RuntimeError
  end.

(** f"{e:.{p}f}" for a non-negative e = z * 10^-20 (half-up rounding; enough to exhibit
    edges that no precision up to 16 tells apart). *)
Definition fmt20 (p : nat) (z : Z) : string :=
  let n := ((z + 5 * 10 ^ (19 - Z.of_nat p)) / 10 ^ (20 - Z.of_nat p))%Z in
  let digits (m : Z) := DecimalString.NilZero.string_of_uint (N.to_uint (Z.to_N m)) in
  let frac := digits (n mod 10 ^ (Z.of_nat p))%Z in
  let pad := String.concat "" (repeat "0" (p - String.length frac)) in
  digits (n / 10 ^ (Z.of_nat p))%Z ++ "." ++ pad ++ frac.

(** _default_bin_names as used by the constructor (205-212): edge strings, then names.
    [embed] injects strings into the type of bin names. *)
Definition default_names_of {E N} (embed : string -> N) (edges_as_str : list E -> res (list string))
    (edges : list E) (rgt both : bool) : res (list (option N)) :=
  let* es := edges_as_str edges in
  Ok (map (fun s => Some (embed s)) (default_bin_names es rgt both)).
