(** Model of the bin edges of src/tmlt/analytics/binning_spec.py: the five kinds of edges,
    their comparison, how they are written (_edges_as_str, 55-90), and the equality and hash
    of specs (247-271).

    Simplifications, for the whole file:
    - Datetimes are naive (no time zone) and dates and times are their fields.
    - A float is a rational, an infinity or NaN; -0.0 is 0.0.
    - Characters are Latin-1; whether those from U+0080 on are printable (str.isprintable)
      is an arbitrary function. *)
From Coq Require Import String Ascii Bool Arith ZArith QArith Qabs Lia DecimalString List.
From Verif Require Import Prelude Budget Binning Message.
Import ListNotations.
Local Open Scope string_scope.
Local Open Scope nat_scope.

(** A bin edge: int, float, str, datetime.date or datetime.datetime. *)
Inductive edge : Type :=
| EInt (z : Z)
| EFloat (f : flt)
| EStr (s : string)
| EDate (y m d : Z)
| ETime (y m d h mi s us : Z).

(** type(e). *)
Inductive kind : Type := KInt | KFloat | KStr | KDate | KTime.
Definition kind_of (e : edge) : kind :=
  match e with EInt _ => KInt | EFloat _ => KFloat | EStr _ => KStr | EDate _ _ _ => KDate
             | ETime _ _ _ _ _ _ _ => KTime end.
Definition kind_eqb (a b : kind) : bool :=
  match a, b with
  | KInt, KInt | KFloat, KFloat | KStr, KStr | KDate, KDate | KTime, KTime => true
  | _, _ => false
  end.

(** ** Comparison.  int and float compare by value, exactly; NaN compares to nothing.
    Strings compare by code points, dates and datetimes field by field.  Values of
    different kinds, which Python refuses to order with a TypeError, are ordered by kind
    here; __init__ never compares such edges (194-199 comes before 202). *)
Definition number (e : edge) : option xq :=
  match e with
  | EInt z => Some (XFin (inject_Z z))
  | EFloat (FX x) => Some x
  | _ => None
  end.
Definition is_number (e : edge) : bool := match e with EInt _ | EFloat _ => true | _ => false end.
Definition is_nan (e : edge) : bool := match e with EFloat FNaN => true | _ => false end.
Fixpoint str_codes (s : string) : list Z :=
  match s with EmptyString => [] | String c r => Z.of_nat (nat_of_ascii c) :: str_codes r end.
Definition fields (e : edge) : list Z :=
  match e with
  | EStr s => 1%Z :: str_codes s
  | EDate y m d => [2; y; m; d]%Z
  | ETime y m d h mi s us => [3; y; m; d; h; mi; s; us]%Z
  | _ => [0%Z]
  end.
Fixpoint lex_lt (a b : list Z) : bool :=
  match a, b with
  | _, [] => false
  | [], _ :: _ => true
  | x :: a', y :: b' => ((x <? y) || ((x =? y) && lex_lt a' b'))%Z%bool
  end.
Definition edge_lt (a b : edge) : bool :=
  if is_number a && is_number b then
    match number a, number b with Some x, Some y => xltb x y | _, _ => false end
  else negb (is_nan a) && negb (is_nan b) && lex_lt (fields a) (fields b).
Definition edge_eq (a b : edge) : bool :=
  if is_number a && is_number b then
    match number a, number b with Some x, Some y => xeqb x y | _, _ => false end
  else negb (is_nan a) && negb (is_nan b) && list_eqb Z.eqb (fields a) (fields b).
Definition edge_le (a b : edge) : bool := edge_lt a b || edge_eq a b.

(** ** Writing edges. *)
(** str(n) for an int. *)
Definition int_str (z : Z) : string := NilZero.string_of_int (Z.to_int z).
(** The last [w] decimal digits of [n]. *)
Fixpoint pad (w : nat) (n : Z) : string :=
  match w with
  | O => EmptyString
  | S w' => pad w' (n / 10)%Z ++ String (ascii_of_nat (48 + Z.to_nat (n mod 10))) EmptyString
  end.
(** f"{f:.{p}f}". *)
Definition float_str (p : nat) (f : flt) : string :=
  match f with
  | FNaN => "nan"
  | FX XPInf => "inf"
  | FX XNInf => "-inf"
  | FX (XFin q) =>
      let t := (10 ^ Z.of_nat p)%Z in
      let n := nearest (Qabs q * inject_Z t)%Q in
      (if Qlt_le_dec q 0 then "-" else "") ++ int_str (n / t)%Z ++ "." ++ pad p (n mod t)%Z
  end.

(** date.isoformat() and datetime.isoformat(sep=" ", timespec). *)
Inductive timespec : Type := Microseconds | Milliseconds | Seconds | Minutes.
Definition date_str (y m d : Z) : string := pad 4 y ++ "-" ++ pad 2 m ++ "-" ++ pad 2 d.
Definition clock_str (ts : timespec) (h mi s us : Z) : string :=
  pad 2 h ++ ":" ++ pad 2 mi ++
  match ts with
  | Minutes => ""
  | Seconds => ":" ++ pad 2 s
  | Milliseconds => ":" ++ pad 2 s ++ "." ++ pad 3 (us / 1000)%Z
  | Microseconds => ":" ++ pad 2 s ++ "." ++ pad 6 us
  end.
Definition time_str (ts : timespec) (e : edge) : string :=
  match e with
  | ETime y m d h mi s us => date_str y m d ++ " " ++ clock_str ts h mi s us
  | _ => ""                               (* not a datetime: unreachable *)
  end.
(** The choice of timespec (77-84). *)
Definition us_of (e : edge) : Z := match e with ETime _ _ _ _ _ _ us => us | _ => 0%Z end.
Definition s_of (e : edge) : Z := match e with ETime _ _ _ _ _ s _ => s | _ => 0%Z end.
Definition timespec_of (l : list edge) : timespec :=
  if existsb (fun e => negb (us_of e mod 1000 =? 0)%Z) l then Microseconds
  else if existsb (fun e => negb (us_of e =? 0)%Z) l then Milliseconds
  else if existsb (fun e => negb (s_of e =? 0)%Z) l then Seconds
  else Minutes.

(** repr(s) for a string. *)
Definition squote : ascii := "039"%char.
Definition dquote : ascii := "034"%char.
Definition backslash : ascii := "092"%char.
Fixpoint contains (c : ascii) (s : string) : bool :=
  match s with EmptyString => false | String a r => Ascii.eqb a c || contains c r end.
Definition quote_of (s : string) : ascii :=
  if contains squote s && negb (contains dquote s) then dquote else squote.
Definition hex (n : nat) : ascii := ascii_of_nat (if n <? 10 then 48 + n else 87 + n).

Section Repr.
Variable printable : ascii -> bool.
Definition escape (q c : ascii) : string :=
  let n := nat_of_ascii c in
  if Ascii.eqb c q || Ascii.eqb c backslash then String backslash (String c EmptyString)
  else if n =? 9 then String backslash "t"
  else if n =? 10 then String backslash "n"
  else if n =? 13 then String backslash "r"
  else if (n <? 32) || (n =? 127) || ((127 <? n) && negb (printable c)) then
    String backslash (String "x" (String (hex (n / 16)) (String (hex (n mod 16)) EmptyString)))
  else String c EmptyString.
Fixpoint escaped (q : ascii) (s : string) : string :=
  match s with EmptyString => EmptyString | String c r => escape q c ++ escaped q r end.
Definition repr (s : string) : string :=
  let q := quote_of s in String q (escaped q s ++ String q EmptyString).

(** _edges_as_str (55-90). *)
Definition as_float (e : edge) : flt :=
  match e with EFloat f => f | EInt z => FX (XFin (inject_Z z)) | _ => FNaN (* unreachable *) end.
Definition as_str (e : edge) : string :=
  match e with EStr s => s | _ => "" (* unreachable *) end.
Definition plain_str (e : edge) : string :=
  match e with EInt z => int_str z | EDate y m d => date_str y m d | _ => "" (* unreachable *) end.
Definition edges_as_str (l : list edge) : res (list string) :=
  match l with
  | [] => Err IndexError
  | EFloat _ :: _ => edges_as_str_float (fun p e => float_str p (as_float e)) l
  | ETime _ _ _ _ _ _ _ :: _ => Ok (map (time_str (timespec_of l)) l)
  | EStr _ :: _ => Ok (map (fun e => repr (as_str e)) l)
  | _ => Ok (map plain_str l)
  end.
End Repr.

(** get_element_type (tmlt.core): the one type of all elements, otherwise ValueError. *)
Definition edge_kind (l : list edge) : res kind :=
  match l with
  | [] => Err ValueError
  | e :: r => if forallb (fun x => kind_eqb (kind_of x) (kind_of e)) r then Ok (kind_of e)
              else Err ValueError
  end.

(** ** Equality and hash of specs (247-271). *)
Section Equality.
Variables E N T O : Type.
Variable P : pyorder E.
Variable N_eqb : N -> N -> bool.
(** What a spec is compared with: another spec or anything else. *)
Inductive pyobj : Type := ASpec (s : spec E N T) | AnotherObject (o : O).
(** == of tuples: same length, element by element. *)
Definition tuple_eq {A} (eqb : A -> A -> bool) : list A -> list A -> bool := list_eqb eqb.
(** __eq__ (247-257). *)
Definition spec_eq (s : spec E N T) (other : pyobj) : res bool :=
  match other with
  | AnotherObject _ => Err TypeError
  | ASpec s' =>
      Ok (tuple_eq (po_eq P) (bin_edges s) (bin_edges s')
          && tuple_eq (option_eqb N_eqb) (names s) (names s')
          && Bool.eqb (right s) (right s')
          && Bool.eqb (include_both s) (include_both s')
          && option_eqb N_eqb (nan_bin s) (nan_bin s'))
  end.
(** __hash__ (259-269): a hash of the tuple of attributes. *)
Variable tuple_hash : list Z -> list Z -> bool -> bool -> Z -> Z.
Variable hash_E : E -> Z.
Variable hash_N : option N -> Z.
Definition spec_hash (s : spec E N T) : Z :=
  tuple_hash (map hash_E (bin_edges s)) (map hash_N (names s)) (right s) (include_both s)
    (hash_N (nan_bin s)).
End Equality.
Arguments ASpec {E N T O}. Arguments AnotherObject {E N T O}.
