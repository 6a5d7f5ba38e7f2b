(** Model of src/tmlt/analytics/privacy_budget.py.

    Simplifications, for the whole file:
    - [ExactNumber] (tmlt.core, a sympy expression) is an exact rational or an
      infinity; irrational expressions such as sqrt(2) are not represented.
    - A Python float is a rational, an infinity or NaN; signed zeros are not
      distinguished.  Rounding is an arbitrary function [rnd] with the laws in
      [rounding]; IEEE round-to-nearest satisfies them.
    - [bool] arguments (a subclass of int) and [@typechecked] are not modelled. *)
From Coq Require Import String Bool ZArith QArith Qabs List.
From Verif Require Import Prelude.
Import ListNotations.
Local Open Scope Q_scope.

(** Exact numbers with infinities (tmlt.core's ExactNumber). *)
Inductive xq : Type := XFin (q : Q) | XPInf | XNInf.

Definition xle (a b : xq) : Prop :=
  match a, b with
  | XNInf, _ => True
  | _, XPInf => True
  | XFin x, XFin y => x <= y
  | _, _ => False
  end.

Definition xleb (a b : xq) : bool :=
  match a, b with
  | XNInf, _ => true
  | _, XPInf => true
  | XFin x, XFin y => Qle_bool x y
  | _, _ => false
  end.

Definition xltb (a b : xq) : bool := negb (xleb b a).

Definition xeqb (a b : xq) : bool :=
  match a, b with
  | XFin x, XFin y => Qeq_bool x y
  | XPInf, XPInf => true
  | XNInf, XNInf => true
  | _, _ => false
  end.

Definition xeq (a b : xq) : Prop :=
  match a, b with
  | XFin x, XFin y => x == y
  | XPInf, XPInf => True
  | XNInf, XNInf => True
  | _, _ => False
  end.

(** What the model assumes of float rounding ([rnd], the real-to-float
    conversion used by every float operation) and of
    ExactNumber.from_float(., round_up=False) ([ffrom]). *)
Record rounding : Type := {
  rnd : Q -> xq;
  rnd_mono : forall x y, x <= y -> xle (rnd x) (rnd y);
  rnd_zero : xeq (rnd 0) (XFin 0);
  rnd_one : xeq (rnd 1) (XFin 1);
  rnd_idem : forall x y, rnd x = XFin y -> xeq (rnd y) (XFin y);
  (** gradual underflow: the difference of two distinct floats does not round to zero *)
  rnd_sub_neg : forall x y, xeq (rnd x) (XFin x) -> xeq (rnd y) (XFin y) -> x < y ->
                ~ xle (XFin 0) (rnd (x - y));
  ffrom : Q -> Q;
  ffrom_mono : forall x y, x <= y -> ffrom x <= ffrom y;
  ffrom_le : forall x, ffrom x <= x;
  ffrom_zero : ffrom 0 == 0;
  ffrom_one : ffrom 1 == 1
}.

(** Python floats and numbers. *)
Inductive flt : Type := FX (x : xq) | FNaN.
Inductive pynum : Type := PInt (z : Z) | PFlt (f : flt).

(** An argument of a budget constructor: Union[int, float, ExactNumber]. *)
Inductive barg : Type := ANum (n : pynum) | AExact (x : xq).

(** PureDPBudget (105-224), ApproxDPBudget (227-391), RhoZCDPBudget (394-506). *)
Inductive budget : Type :=
| Pure (eps : xq)
| Approx (eps delta : xq)
| Zcdp (rho : xq).

Section Model.
Variable R : rounding.

Definition z2q (z : Z) : Q := inject_Z z.

(** float(int): raises OverflowError when out of range. *)
Definition int_to_float (z : Z) : res flt :=
  match rnd R (z2q z) with
  | XFin q => Ok (FX (XFin q))
  | _ => Err OverflowError
  end.

Definition to_float (n : pynum) : res flt :=
  match n with PInt z => int_to_float z | PFlt f => Ok f end.

Definition xneg (a : xq) : xq :=
  match a with XFin q => XFin (- q) | XPInf => XNInf | XNInf => XPInf end.

(** IEEE addition, multiplication and division on non-NaN operands. *)
Definition fadd (a b : flt) : flt :=
  match a, b with
  | FX (XFin x), FX (XFin y) => FX (rnd R (x + y))
  | FX XPInf, FX XNInf | FX XNInf, FX XPInf => FNaN
  | FX XPInf, FX _ | FX _, FX XPInf => FX XPInf
  | FX XNInf, FX _ | FX _, FX XNInf => FX XNInf
  | _, _ => FNaN
  end.

Definition fneg (a : flt) : flt :=
  match a with FX x => FX (xneg x) | FNaN => FNaN end.

Definition fsub (a b : flt) : flt := fadd a (fneg b).

Definition inf_times (pos : bool) (y : Q) : flt :=
  if Qeq_bool y 0 then FNaN
  else if Bool.eqb pos (Qle_bool 0 y) then FX XPInf else FX XNInf.

Definition fmul (a b : flt) : flt :=
  match a, b with
  | FX (XFin x), FX (XFin y) => FX (rnd R (x * y))
  | FX XPInf, FX (XFin y) | FX (XFin y), FX XPInf => inf_times true y
  | FX XNInf, FX (XFin y) | FX (XFin y), FX XNInf => inf_times false y
  | FX XPInf, FX XPInf | FX XNInf, FX XNInf => FX XPInf
  | FX XPInf, FX XNInf | FX XNInf, FX XPInf => FX XNInf
  | _, _ => FNaN
  end.

(** Division; the divisor is a finite positive number wherever the code divides. *)
Definition fdiv (a b : flt) : res flt :=
  match a, b with
  | _, FX (XFin y) =>
      if Qeq_bool y 0 then Err ZeroDivisionError
      else match a with
           | FX (XFin x) => Ok (FX (rnd R (x / y)))
           | FX XPInf => Ok (inf_times true y)
           | FX XNInf => Ok (inf_times false y)
           | FNaN => Ok FNaN
           end
  | FX (XFin _), FX _ => Ok (FX (XFin 0))
  | _, _ => Ok FNaN
  end.

Definition lift2 (fi : Z -> Z -> Z) (ff : flt -> flt -> flt) (a b : pynum) : res pynum :=
  match a, b with
  | PInt x, PInt y => Ok (PInt (fi x y))
  | _, _ => let* x := to_float a in let* y := to_float b in Ok (PFlt (ff x y))
  end.

Definition padd := lift2 Z.add fadd.
Definition psub := lift2 Z.sub fsub.
Definition pmul := lift2 Z.mul fmul.

(** Python's [/]: int/int is the correctly rounded quotient. *)
Definition pdiv (a b : pynum) : res pynum :=
  match a, b with
  | PInt x, PInt y =>
      if Z.eqb y 0 then Err ZeroDivisionError
      else match rnd R (z2q x / z2q y) with
           | XFin q => Ok (PFlt (FX (XFin q)))
           | _ => Err OverflowError
           end
  | _, _ => let* x := to_float a in let* y := to_float b in
            let* r := fdiv x y in Ok (PFlt r)
  end.

(** Comparisons are exact in Python, also between int and float. *)
Definition pynum_x (n : pynum) : option xq :=
  match n with
  | PInt z => Some (XFin (z2q z))
  | PFlt (FX x) => Some x
  | PFlt FNaN => None
  end.

Definition plt (a b : pynum) : bool :=
  match pynum_x a, pynum_x b with Some x, Some y => xltb x y | _, _ => false end.
Definition ple (a b : pynum) : bool :=
  match pynum_x a, pynum_x b with Some x, Some y => xleb x y | _, _ => false end.

(** math.isnan / math.isinf convert ints to float first. *)
Definition isnan (n : pynum) : res bool :=
  let* f := to_float n in Ok (match f with FNaN => true | _ => false end).
Definition isinf (n : pynum) : res bool :=
  let* f := to_float n in
  Ok (match f with FX XPInf | FX XNInf => true | _ => false end).

(** min(a, 1.0): Python returns the first argument unless the second is smaller. *)
Definition pmin1 (a : pynum) : pynum :=
  let one := PFlt (FX (XFin 1)) in if plt one a then one else a.

(** _is_exact_number_from_integer (20-22). *)
Definition is_integer (q : Q) : bool :=
  Z.eqb (Qnum q mod Z.pos (Qden q)) 0.

(** _to_int_or_float (25-30). *)
Definition to_int_or_float (x : xq) : pynum :=
  match x with
  | XFin q => if is_integer q then PInt (Qnum q / Z.pos (Qden q))
              else PFlt (FX (rnd R q))
  | _ => PFlt (FX x)
  end.

(** _to_exact_number (33-44).  The NaN case does not occur: constructors reject it first. *)
Definition to_exact_number (a : barg) : res xq :=
  match a with
  | AExact x => Ok x
  | ANum (PInt z) => Ok (XFin (z2q z))
  | ANum (PFlt (FX (XFin q))) => Ok (XFin (ffrom R q))
  | ANum (PFlt (FX x)) => Ok x
  | ANum (PFlt FNaN) => Err ValueError
  end.

(** [not isinstance(x, ExactNumber) and math.isnan(x)]. *)
Definition arg_isnan (a : barg) : res bool :=
  match a with AExact _ => Ok false | ANum n => isnan n end.

Definition arg_lt_int (a : barg) (k : Z) : bool :=
  match a with
  | AExact x => xltb x (XFin (z2q k))
  | ANum n => plt n (PInt k)
  end.
Definition arg_gt_int (a : barg) (k : Z) : bool :=
  match a with
  | AExact x => xltb (XFin (z2q k)) x
  | ANum n => plt (PInt k) n
  end.

(** PureDPBudget.__init__ (117-133). *)
Definition mk_pure (eps : barg) : res budget :=
  let* n := arg_isnan eps in
  let* _ := raise_if n ValueError in
  let* _ := raise_if (arg_lt_int eps 0) ValueError in
  let* e := to_exact_number eps in Ok (Pure e).

(** ApproxDPBudget.__init__ (240-270). *)
Definition mk_approx (eps delta : barg) : res budget :=
  let* n := arg_isnan eps in
  let* _ := raise_if n ValueError in
  let* n := arg_isnan delta in
  let* _ := raise_if n ValueError in
  let* _ := raise_if (arg_lt_int eps 0) ValueError in
  let* _ := raise_if (arg_lt_int delta 0 || arg_gt_int delta 1) ValueError in
  let* e := to_exact_number eps in
  let* d := to_exact_number delta in Ok (Approx e d).

(** RhoZCDPBudget.__init__ (405-421). *)
Definition mk_zcdp (rho : barg) : res budget :=
  let* n := arg_isnan rho in
  let* _ := raise_if n ValueError in
  let* _ := raise_if (arg_lt_int rho 0) ValueError in
  let* r := to_exact_number rho in Ok (Zcdp r).

(** PureDPBudget.inf (222-224), ApproxDPBudget.inf (389-391), RhoZCDPBudget.inf (504-506). *)
Definition pure_inf : res budget := mk_pure (AExact XPInf).
Definition approx_inf : res budget := mk_approx (AExact XPInf) (ANum (PInt 0)).
Definition zcdp_inf : res budget := mk_zcdp (AExact XPInf).

(** is_infinite (154-156, 300-302, 442-444). *)
Definition is_infinite (b : budget) : bool :=
  match b with
  | Pure e => xeqb e XPInf
  | Approx e d => xeqb e XPInf || xeqb d (XFin 1)
  | Zcdp r => xeqb r XPInf
  end.

(** ApproxDPBudget.__eq__ (308-315); dataclass equality for the other two. *)
Definition budget_eqb (a b : budget) : bool :=
  match a, b with
  | Pure x, Pure y => xeqb x y
  | Zcdp x, Zcdp y => xeqb x y
  | Approx e d, Approx e' d' =>
      if is_infinite a && is_infinite b then true else xeqb e e' && xeqb d d'
  | _, _ => false
  end.

(** The tuple that __hash__ (162-164, 317-321, 450-452) passes to hash():
    a type tag and numbers.  hash() maps numerically equal numbers to equal values. *)
Inductive hkey : Type := HPure (n : pynum) | HApprox (e d : xq) | HZcdp (n : pynum).
Definition hash_key (b : budget) : hkey :=
  match b with
  | Pure e => HPure (to_int_or_float e)
  | Approx e d => if is_infinite b then HApprox XPInf XPInf else HApprox e d
  | Zcdp r => HZcdp (to_int_or_float r)
  end.

(** The check shared by the three __truediv__ (166-175, 323-332, 454-463). *)
Definition check_divisor (o : pynum) : res unit :=
  if ple o (PInt 0) then Err ValueError
  else let* n := isnan o in
       if n then Err ValueError
       else let* i := isinf o in if i then Err ValueError else Ok tt.

(** The check shared by the three __mul__ (177-186, 334-343, 465-474). *)
Definition check_factor (o : pynum) : res unit :=
  if plt o (PInt 0) then Err ValueError
  else let* n := isnan o in
       if n then Err ValueError
       else let* i := isinf o in if i then Err ValueError else Ok tt.

(** __truediv__. *)
Definition bdiv (b : budget) (o : pynum) : res budget :=
  let* _ := check_divisor o in
  match b with
  | Pure e => let* x := pdiv (to_int_or_float e) o in mk_pure (ANum x)
  | Approx e d =>
      let* x := pdiv (to_int_or_float e) o in
      let* y := pdiv (to_int_or_float d) o in mk_approx (ANum x) (ANum y)
  | Zcdp r => let* x := pdiv (to_int_or_float r) o in mk_zcdp (ANum x)
  end.

(** __mul__. *)
Definition bmul (b : budget) (o : pynum) : res budget :=
  let* _ := check_factor o in
  match b with
  | Pure e => let* x := pmul (to_int_or_float e) o in mk_pure (ANum x)
  | Approx e d =>
      let* x := pmul (to_int_or_float e) o in
      let* y := pmul (to_int_or_float d) o in mk_approx (ANum x) (ANum (pmin1 y))
  | Zcdp r => let* x := pmul (to_int_or_float r) o in mk_zcdp (ANum x)
  end.

(** ApproxDPBudget.__add__ (345-364) for two ApproxDPBudgets. *)
Definition approx_add (a b : budget) : res budget :=
  match a, b with
  | Approx e d, Approx e' d' =>
      if is_infinite a then Ok a
      else if is_infinite b then Ok b
      else
        let* x := padd (to_int_or_float e) (to_int_or_float e') in
        let* y := padd (to_int_or_float d) (to_int_or_float d') in
        mk_approx (ANum x) (ANum (pmin1 y))
  | _, _ => Err TypeError
  end.

(** __add__ (188-202, 345-364, 476-487). *)
Definition badd (a b : budget) : res budget :=
  match a, b with
  | Pure e, Approx _ _ =>
      let* a' := mk_approx (ANum (to_int_or_float e)) (ANum (PInt 0)) in approx_add a' b
  | Approx _ _, Pure e =>
      let* b' := mk_approx (ANum (to_int_or_float e)) (ANum (PInt 0)) in approx_add a b'
  | Approx _ _, Approx _ _ => approx_add a b
  | Pure e, Pure e' =>
      if is_infinite a then Ok a
      else if is_infinite b then Ok b
      else let* x := padd (to_int_or_float e) (to_int_or_float e') in mk_pure (ANum x)
  | Zcdp r, Zcdp r' =>
      if is_infinite a then Ok a
      else if is_infinite b then Ok b
      else let* x := padd (to_int_or_float r) (to_int_or_float r') in mk_zcdp (ANum x)
  | _, _ => Err TypeError
  end.

(** Exact subtraction; only used with a finite minuend. *)
Definition xsub (x : Q) (y : xq) : xq :=
  match y with XFin y => XFin (x - y) | XPInf => XNInf | XNInf => XPInf end.

Definition xabs (x : xq) : xq :=
  match x with XFin q => XFin (Qabs q) | _ => XPInf end.

(** _BUDGET_RELATIVE_TOLERANCE (509). *)
Definition tolerance : Q := inject_Z (10 ^ 9).

(** _requested_budget_is_slightly_higher_than_remaining (512-530). *)
Definition slightly_higher (requested remaining : xq) : bool :=
  match remaining with
  | XFin r =>
      let diff := xsub r requested in
      if xleb (XFin 0) diff then false
      else xleb (xabs diff) (XFin (r / tolerance))
  | _ => false
  end.

(** _get_adjusted_budget_number (534-554). *)
Definition adjusted_number (requested remaining : xq) : xq :=
  if slightly_higher requested remaining then remaining else requested.

(** _get_adjusted_budget (558-602). *)
Definition adjusted_budget (requested remaining : budget) : res budget :=
  match requested, remaining with
  | Pure e, Pure e' => mk_pure (AExact (adjusted_number e e'))
  | Approx e d, Approx e' d' =>
      mk_approx (AExact (adjusted_number e e')) (AExact (adjusted_number d d'))
  | Zcdp r, Zcdp r' => mk_zcdp (AExact (adjusted_number r r'))
  | _, _ => Err ValueError
  end.

(** ApproxDPBudget.__sub__ (366-386) for two ApproxDPBudgets. *)
Definition approx_sub (a b : budget) : res budget :=
  match a with
  | Approx e d =>
      if is_infinite a then Ok a
      else let* adj := adjusted_budget b a in
           match adj with
           | Approx e' d' =>
               let* x := psub (to_int_or_float e) (to_int_or_float e') in
               let* y := psub (to_int_or_float d) (to_int_or_float d') in
               mk_approx (ANum x) (ANum y)
           | _ => Err AssertionError
           end
  | _ => Err TypeError
  end.

(** __sub__ (204-219, 366-386, 489-501). *)
Definition bsub (a b : budget) : res budget :=
  match a, b with
  | Pure e, Pure _ =>
      if is_infinite a then Ok a
      else let* adj := adjusted_budget b a in
           match adj with
           | Pure e' =>
               let* x := psub (to_int_or_float e) (to_int_or_float e') in mk_pure (ANum x)
           | _ => Err AssertionError
           end
  | Zcdp r, Zcdp _ =>
      if is_infinite a then Ok a
      else let* adj := adjusted_budget b a in
           match adj with
           | Zcdp r' =>
               let* x := psub (to_int_or_float r) (to_int_or_float r') in mk_zcdp (ANum x)
           | _ => Err AssertionError
           end
  | Approx _ _, Pure e =>
      let* b' := mk_approx (ANum (to_int_or_float e)) (ANum (PInt 0)) in approx_sub a b'
  | Approx _ _, Approx _ _ => approx_sub a b
  | _, _ => Err TypeError
  end.

End Model.
