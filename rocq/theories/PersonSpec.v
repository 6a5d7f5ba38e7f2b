(** Specification vocabulary for what the rows of some people can change. *)
From Coq Require Import String Bool Arith ZArith QArith Lia Permutation List.
From Verif Require Import Prelude Budget Value Rows Constraints Schema Query Transform TransformSpec Tables Accountant Session SessionSpec SessionTables SessionInv
  Neighboring Builder.
Import ListNotations.
Local Open Scope string_scope.
Local Open Scope nat_scope.

Section Person.
(** An ID space, and the IDs whose rows are the same on both sides. *)
Variable k : string.
Variable keep : value -> bool.

(** The tables of two sessions are the same, up to the rows that IDs outside [keep] have in
    the tables of the ID space [k]. *)
Definition like (s s' : sess) : Prop :=
  forall n, option_map (restrict (Some k) keep) (dget n (named (s_tree s))) = option_map (restrict (Some k) keep) (dget n (named (s_tree s'))).
(** A session without tables of the ID space. *)
Definition without (s : sess) : Prop := forall n t, dget n (named (s_tree s)) = Some t -> v_coll t <> Some k.
Definition follows (st st' : state) : Prop := forall p s s', session st p s -> session st' p s' -> like s s' \/ (p <> [] /\ without s).

(** The same calls on a builder, with other rows of IDs outside [keep] in private tables of
    the ID space [k]. *)
Definition same_call_for (c c' : bcall) : Prop :=
  match c, c' with
  | WithPrivate n f x, WithPrivate n' f' x' =>
      n = n' /\ x = x' /\ sd_fields f = sd_fields f'
      /\ match x with
         | AddRowsWithID i s =>
             if String.eqb s k then filter (fun r => keep (getv i r)) (frame_rows f) = filter (fun r => keep (getv i r)) (frame_rows f') else f = f'
         | _ => f = f'
         end
  | _, _ => c = c'
  end.
End Person.
