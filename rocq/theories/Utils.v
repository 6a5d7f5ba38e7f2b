(** Helpers: validate_collection of _utils.py and ParameterMixin of _base_builder.py. *)
From Coq Require Import String Bool Arith Lia List.
From Verif Require Import Prelude.
Import ListNotations.
Local Open Scope string_scope.
Local Open Scope nat_scope.

(** ** validate_collection, _utils.py 58-139 *)

Section Collection.
Context {A : Type}.
(** Python's ==, which agrees with hash(), and whether sorted() accepts the elements. *)
Variable eqb : A -> A -> bool.
Variable sortable : list A -> bool.
Definition has (x : A) (l : list A) : bool := existsb (eqb x) l.
(** set difference; a set is a list in which repetitions do not matter *)
Definition minus (a b : list A) : list A := filter (fun x => negb (has x b)) a.
(** The message is made before the exception is raised, and making it sorts. *)
Definition complain (bad required optional : list A) (err : exn) : res unit :=
  if sortable bad && sortable required && sortable optional then Err err else Err TypeError.
Definition validate_collection (test required optional : list A) (err : exn) : res unit :=
  let allowed := (required ++ optional)%list in
  let missing := minus required test in
  if negb (length missing =? 0) then complain missing required optional err
  else let unexpected := minus test allowed in
       if negb (length unexpected =? 0) then complain unexpected required optional err else Ok tt.
End Collection.

(** ** ParameterMixin, _base_builder.py 178-202 *)

Section Parameters.
Context {V : Type}.
(** __init__, 183-189. *)
Definition no_parameters : dict V := [].
(** with_parameter, 191-198: the builder is changed in place. *)
Definition with_parameter (d : dict V) (name : string) (v : V) : dict V * res unit :=
  if dmem name d then (d, Err ValueError) else ((d ++ [(name, v)])%list, Ok tt).
(** Any sequence of calls; a call that raises is just a call. *)
Fixpoint with_parameters (d : dict V) (calls : list (string * V)) : dict V :=
  match calls with [] => d | (n, v) :: calls => with_parameters (fst (with_parameter d n v)) calls end.
End Parameters.
