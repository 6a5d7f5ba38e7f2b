(** Specification vocabulary for what the outcome of calls may depend on: sessions with the
    rows of all private tables removed. *)
From Coq Require Import String Bool Arith ZArith QArith Lia Permutation List.
From Verif Require Import Prelude Budget Value Rows Constraints Schema Query Transform Tables Accountant Session.
Import ListNotations.
Local Open Scope string_scope.
Local Open Scope nat_scope.

(** A private table without its rows: columns, place in the data and metric are left. *)
Definition hide (t : vtab) : vtab :=
  {| v_dom := v_dom t; v_coll := v_coll t; v_place := v_place t; v_rows := [] |}.
Definition hide_all (data : dict vtab) : dict vtab := map (fun p => (fst p, hide (snd p))) data.
Fixpoint hide_tree (x : tree) : tree :=
  match x with
  | TLeaf t => TLeaf (hide t)
  | TDict ark kids => TDict ark (map (fun p => (fst p, hide_tree (snd p))) kids)
  end.
Definition hide_sess (s : sess) : sess :=
  {| s_initial := s_initial s; s_left := s_left s; s_log := s_log s; s_tree := hide_tree (s_tree s); s_cons := s_cons s |}.
Fixpoint amap {A B} (f : A -> B) (t : acct A) : acct B :=
  let 'Acct st s parts := t in Acct st (f s) (map (map (amap f)) parts).
Definition hide_state (st : state) : state := {| st_root := amap hide_sess (st_root st); st_public := st_public st |}.

(** Two trees of sessions with the same budgets, charges, tables, columns, constraints and
    public tables, but possibly with other rows in the private tables. *)
Definition same_but_rows (st st' : state) : Prop := hide_state st = hide_state st'.

(** tmlt.core, Spark and the measurements built from a query look at domains and metrics
    only: whether something is accepted does not depend on rows. *)
Record blind (E : env) : Prop := {
  bl_compiles : forall cat x q b, e_compiles E cat (hide_tree x) q b = e_compiles E cat x q b;
  bl_relation : forall x q b, e_relation E (hide_tree x) q b = e_relation E x q b;
  bl_temps : forall x q, e_temps E (hide_tree x) q = map (fun e => (fst e, hide (snd e))) (e_temps E x q);
  bl_shuffle : forall l, e_shuffle E (map (fun p => (fst p, hide_tree (snd p))) l)
                         = map (fun p => (fst p, hide_tree (snd p))) (e_shuffle E l)
}.

(** The answers of a sequence of calls: success, or which exception. *)
Fixpoint answers (E : env) (st : state) (l : list op) : list (res unit) :=
  match l with [] => [] | o :: l => snd (step E st o) :: answers E (fst (step E st o)) l end.
