(** Specification vocabulary for sessions: what was spent, and what a session can reach. *)
From Coq Require Import String Bool Arith ZArith QArith Lia Permutation List.
From Verif Require Import Prelude Budget BudgetProofs Value Rows Constraints Schema Query Transform Tables TablesProofs
  Accountant AccountantProofs Session.
Import ListNotations.
Local Open Scope string_scope.
Local Open Scope nat_scope.

(** ** Amounts *)

(** The two numbers of a budget: epsilon or rho, and delta. *)
Definition loss (b : budget) : xq := match b with Pure e | Approx e _ => e | Zcdp r => r end.
Definition delta (b : budget) : xq := match b with Approx _ d => d | _ => XFin 0 end.
Definition xadd (a b : xq) : xq :=
  match a, b with
  | XFin x, XFin y => XFin (x + y)
  | XNInf, _ | _, XNInf => XNInf
  | _, _ => XPInf
  end.
Definition xsum (l : list xq) : xq := fold_right xadd (XFin 0) l.
Definition xmax (a b : xq) : xq := if xleb a b then b else a.
Definition xmaximum (l : list xq) : xq := fold_right xmax (XFin 0) l.

(** ** What was spent *)

Definition amount (c : charge) : budget := match c with Measured b | Split b => b end.
Definition measured (l : list charge) : list budget := flat_map (fun c => match c with Measured b => [b] | Split _ => [] end) l.
Definition splits_of (l : list charge) : list budget := flat_map (fun c => match c with Split b => [b] | Measured _ => [] end) l.
(** Everything a session was charged. *)
Definition charges (f : budget -> xq) (s : sess) : xq := xsum (map (fun c => f (amount c)) (s_log s)).
(** The privacy loss of everything computed with a session and its descendants: sequential
    composition of the queries and the partitions, parallel composition of the parts. *)
Fixpoint spent (f : budget -> xq) (d : dtree sess) : xq :=
  let 'DNode s parts := d in
  xadd (xsum (map f (measured (s_log s))))
       (xsum (map (fun part => xmaximum (map (spent f) part)) parts)).
(** A session in a state. *)
Definition session (st : state) (p : path) (s : sess) : Prop := data_at (st_root st) p s.
Definition spent_at (f : budget -> xq) (st : state) (p : path) : xq :=
  match dfind p (payload (st_root st)) with Some d => spent f d | None => XFin 0 end.

(** All data of a state: every session's budget, history, tables and constraints, and the
    public tables. *)
Definition contents (st : state) : dtree sess * dict sframe := (payload (st_root st), st_public st).
