(** What a refused call says about budgets.  Models _format_insufficient_budget_msg,
    session.py 146-237.
    Simplifications: the text is modelled by the numbers in it, each with its symbol and
    the way it is written; the words around them are the same in every message. *)
From Coq Require Import String Bool Arith ZArith QArith Qround List.
From Verif Require Import Prelude Budget.
Import ListNotations.
Local Open Scope string_scope.

(** [q] to three decimals, the nearest multiple of 1/1000, an even one if there are two. *)
Definition nearest (q : Q) : Z :=
  let n := Qfloor q in
  match Qcompare (q - inject_Z n) (1 # 2) with
  | Lt => n
  | Gt => (n + 1)%Z
  | Eq => if Z.even n then n else (n + 1)%Z
  end.
Definition to_3_decimals (x : xq) : xq := match x with XFin q => XFin (inject_Z (nearest (q * 1000)) / 1000) | _ => x end.
Definition xabs (x : xq) : xq := match x with XFin q => XFin (Qabs.Qabs q) | _ => XPInf end.

(** f"{x:.3f}" or f"{x:.3e}".  Numbers are given as they can be read off: in the second
    form only numbers below 0.1 with at most three decimals are written, which is exact. *)
Inductive written : Type := Fixed (x : xq) | Scientific (x : xq).
Record message : Type := {
  requested : list (string * written);
  remaining : list (string * written);
  difference : list (string * written)
}.

Section Message.
Variable R : rounding.
(** ExactNumber.to_float(round_up=True) *)
Variable up : Q -> Q.

Definition to_float_up (x : xq) : xq := match x with XFin q => XFin (up q) | _ => x end.
(** The difference of two floats; it is only computed of numbers that are not both infinite. *)
Definition float_minus (x y : xq) : xq :=
  match x, y with
  | XFin a, XFin b => rnd R (a - b)
  | XFin _, XPInf => XNInf
  | XFin _, XNInf => XPInf
  | _, _ => x
  end.
(** round(abs(a - b), 3) *)
Definition rounded_difference (a b : xq) : xq := to_3_decimals (xabs (float_minus a b)).
Definition fixed (x : xq) : written := Fixed (to_3_decimals x).
(** format_threshold, 153. *)
Definition at_least_threshold (x : xq) : bool := xleb (XFin (1 # 10)) x.
Definition write_difference (x : xq) : written := if at_least_threshold x then Fixed x else Scientific x.

(** 146-237.  [req] and [rem] are the values in the exception: numbers or pairs. *)
Definition insufficient_budget_msg (req rem b : budget) : res message :=
  match b with
  | Approx _ _ =>                                                                              (* 155-203 *)
      match req, rem with
      | Approx qe qd, Approx re rd =>
          let re := to_float_up re in
          let qe := to_float_up qe in
          let qd := to_float_up qd in
          let rd := to_float_up rd in
          let lacks_epsilon := xltb re qe in
          let lacks_delta := xltb rd qd in
          let diff :=
            if lacks_epsilon && lacks_delta then
              let e := rounded_difference re qe in
              let d := rounded_difference rd qd in
              if at_least_threshold e && at_least_threshold d then [("ε", Fixed e); ("δ", Fixed d)]
              else if negb (at_least_threshold e) then [("ε", Scientific e); ("δ", fixed d)]
              else [("ε", Fixed e); ("δ", Scientific d)]
            else if lacks_epsilon then [("ε", write_difference (rounded_difference re qe))]
            else if lacks_delta then [("δ", write_difference (rounded_difference rd qd))]
            else [] in
          Ok {| requested := [("ε", fixed qe); ("δ", fixed qd)]; remaining := [("ε", fixed re); ("δ", fixed rd)];
                difference := diff |}
      | _, _ => Err InternalError
      end
  | Pure _ | Zcdp _ =>                                                                         (* 204-231 *)
      match req, rem with
      | (Pure q | Zcdp q), (Pure r | Zcdp r) =>
          let symbol := match b with Pure _ => "ε" | _ => "𝝆" end in
          let r := to_float_up r in
          let q := to_float_up q in
          Ok {| requested := [(symbol, fixed q)]; remaining := [(symbol, fixed r)];
                difference := [(symbol, write_difference (rounded_difference r q))] |}
      | _, _ => Err InternalError
      end
  end.
End Message.
