(** Building sessions.  Models _base_builder.py 28-177 and session.py 251-333, 392-474.
    ParameterMixin (not used by Session.Builder) is not modelled. *)
From Coq Require Import String Bool Arith ZArith QArith Lia List.
From Verif Require Import Prelude Budget Value Rows Constraints Schema Query Transform Tables Accountant Session Neighboring.
Import ListNotations.
Local Open Scope string_scope.
Local Open Scope nat_scope.

(** The fields of PrivacyBudgetMixin and DataFrameMixin, 28-38 and 63-78. *)
Record builder : Type := {
  b_budget : option budget;
  b_private : dict (sframe * change);
  b_public : dict sframe;
  b_spaces : list string
}.
Definition empty_builder : builder := {| b_budget := None; b_private := []; b_public := []; b_spaces := [] |}.

Section Builder.
Variable E : env.

(** with_privacy_budget, 40-47. *)
Definition with_privacy_budget (b : builder) (x : budget) : res builder :=
  let* _ := raise_if (match b_budget b with Some _ => true | None => false end) ValueError in
  Ok {| b_budget := Some x; b_private := b_private b; b_public := b_public b; b_spaces := b_spaces b |}.
(** with_private_dataframe, 80-113, with the construction of the protected change. *)
Definition with_private_dataframe (b : builder) (name : string) (f : sframe) (c : change) : res builder :=
  let* _ := check_change c in
  let* _ := raise_if (negb (e_identifier E name)) ValueError in
  let* _ := raise_if (dmem name (b_private b) || dmem name (b_public b)) ValueError in
  let* f := coerce_spark_schema_or_fail f in
  Ok {| b_budget := b_budget b; b_private := dset name (f, c) (b_private b); b_public := b_public b; b_spaces := b_spaces b |}.
(** with_public_dataframe, 115-127. *)
Definition with_public_dataframe (b : builder) (name : string) (f : sframe) : res builder :=
  let* _ := raise_if (negb (e_identifier E name)) ValueError in
  let* _ := raise_if (dmem name (b_private b) || dmem name (b_public b)) ValueError in
  let* f := coerce_spark_schema_or_fail f in
  Ok {| b_budget := b_budget b; b_private := b_private b; b_public := dset name f (b_public b); b_spaces := b_spaces b |}.
(** with_id_space, 129-142; the set of spaces is a list without repetitions. *)
Definition with_id_space (b : builder) (s : string) : res builder :=
  let* _ := raise_if (negb (e_identifier E s)) ValueError in
  let* _ := raise_if (smem s (b_spaces b)) ValueError in
  Ok {| b_budget := b_budget b; b_private := b_private b; b_public := b_public b; b_spaces := (b_spaces b ++ [s])%list |}.
(** _add_id_space_if_one_private_df, 144-163. *)
Definition add_id_space_if_one_private_df (b : builder) : res builder :=
  match b_private b with
  | [(_, (_, AddRowsWithID _ s))] => if smem s (b_spaces b) then Ok b else with_id_space b s
  | _ => Ok b
  end.

(** The budget of the accountant, session.py 413-434. *)
Definition accountant_budget (b : budget) : budget :=
  match b with Approx _ _ => if is_infinite b then Approx XPInf (XFin 1) else b | _ => b end.
(** A built session: the state of its accountant, and d_in. *)
Record opened : Type := { o_state : state; o_din : list (ident * distance) }.
(** _create_accountant_from_neighboring_relation 403-453, _from_neighboring_relation
    455-474 and __init__ 297-332.  tmlt.core's constructors do not raise. *)
Definition from_neighboring_relation (b : budget) (dfs : dict sframe) (r : relation) : res opened :=
  let* _ := validate_input r dfs in
  let* x := visit_relation (is_rho b) dfs r in
  let* st := new_session (accountant_budget b) (fst x) in
  Ok {| o_state := st; o_din := snd x |}.
(** The check of the ID spaces, 282-290. *)
Definition undeclared (spaces : list string) (r : relation) : bool :=
  match r with AddRemoveKeys s _ _ => negb (smem s spaces) | _ => false end.
Definition relation_children (r : relation) : res (list relation) :=
  match r with Conjunction l => Ok l | _ => Err InternalError end.
(** Adding the public tables, 292-293. *)
Fixpoint add_public (st : state) (l : dict sframe) : res state :=
  match l with
  | [] => Ok st
  | (n, f) :: l => match add_public_dataframe E st [] n f with
                   | (st, Ok _) => add_public st l
                   | (_, Err e) => Err e
                   end
  end.
(** build, 258-295: the builder afterwards, and the session. *)
Definition build_session (b : builder) : res opened :=
  match b_budget b with
  | None => Err ValueError
  | Some x =>
      let* r := generate_neighboring_relation (map (fun p => (fst p, snd (snd p))) (b_private b)) in
      let* o := from_neighboring_relation x (map (fun p => (fst p, fst (snd p))) (b_private b)) r in
      let* l := relation_children r in
      let* _ := raise_if (existsb (undeclared (b_spaces b)) l) ValueError in
      let* st := add_public (o_state o) (b_public b) in
      Ok {| o_state := st; o_din := o_din o |}
  end.
Definition build (b : builder) : builder * res opened :=
  match b_budget b, b_private b with
  | None, _ | _, [] => (b, Err ValueError)
  | Some _, _ :: _ =>
      match add_id_space_if_one_private_df b with
      | Err e => (b, Err e)
      | Ok b => (b, build_session b)
      end
  end.

(** ** Histories of a builder *)

Inductive bcall : Type :=
| WithBudget (b : budget)
| WithPrivate (name : string) (f : sframe) (c : change)
| WithPublic (name : string) (f : sframe)
| WithIdSpace (s : string)
| Build.
(** A call that raises leaves the builder as it was; build() may declare an ID space. *)
Definition bcall_result (b : builder) (c : bcall) : res builder :=
  match c with
  | WithBudget x => with_privacy_budget b x
  | WithPrivate n f c => with_private_dataframe b n f c
  | WithPublic n f => with_public_dataframe b n f
  | WithIdSpace s => with_id_space b s
  | Build => let '(b, r) := build b in let* _ := r in Ok b
  end.
Definition bstep (b : builder) (c : bcall) : builder :=
  match c with
  | Build => fst (build b)
  | _ => match bcall_result b c with Ok b => b | Err _ => b end
  end.
Fixpoint brun (b : builder) (l : list bcall) : builder :=
  match l with [] => b | c :: l => brun (bstep b c) l end.
(** Session.from_dataframe, 334-401. *)
Definition from_dataframe (x : budget) (name : string) (f : sframe) (c : change) : res opened :=
  let* _ := check_change c in
  let* b := with_privacy_budget empty_builder x in
  let* b := with_private_dataframe b name f c in
  snd (build b).
End Builder.
