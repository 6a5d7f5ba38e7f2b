(** Specification vocabulary for the privacy guarantee of a session: an analyst who chooses
    every call from the answers so far, and distributions of answers being close. *)
From Coq Require Import String Bool Arith ZArith QArith Qcanon Lia Permutation List.
From Verif Require Import Prelude Budget BudgetProofs Value Rows Constraints Schema Query Transform TransformSpec Tables Accountant Session SessionSpec SessionTables SessionInv SessionSound
  Measure MeasureProofs BlindSpec BlindMeasure SensitivitySpec Props_Measure.
Import ListNotations.
Local Open Scope string_scope.
Local Open Scope nat_scope.

(** ** Closeness *)
(** Distributions, and what it means for two of them to be within a privacy budget.  Any
    definition with these laws will do (pure, approximate and zero-concentrated differential
    privacy are meant): equal distributions are within any budget, larger budgets
    promise less, and budgets add up when the second
    distribution is chosen from the outcome of the first. *)
Record closeness : Type := {
  dist : Type -> Type;
  ret : forall {A}, A -> dist A;
  dbind : forall {A B}, dist A -> (A -> dist B) -> dist B;
  close : budget -> forall {A}, dist A -> dist A -> Prop;
  close_same : forall b A (d : dist A), valid b -> close b d d;
  close_more : forall b c A (d d' : dist A), ble b c -> close b d d' -> close c d d';
  close_after : forall b A B (d : dist A) (f f' : A -> dist B), valid b -> (forall a, close b (f a) (f' a)) -> close b (dbind d f) (dbind d f');
  close_bind : forall left b rest A B (d d' : dist A) (f f' : A -> dist B),
    valid left -> valid b -> spend left b = Some rest -> close b d d' -> (forall a, close rest (f a) (f' a)) -> close left (dbind d f) (dbind d' f')
}.
Arguments ret _ {A}. Arguments dbind _ {A B}. Arguments close _ _ {A}.

(** ** Interaction *)
Inductive reply : Type := Answer (t : table) | Done (r : res unit).
Definition analyst : Type := list reply -> option op.

Section Privacy.
Variable E : env.
Variable K : core.
Variable auto : bool.
Variable so : list string -> list string.
Variable C : closeness.
(** What running a measurement answers. *)
Variable noisy : measurement -> dist C table.

(** The measurement that Session.evaluate makes. *)
Definition measurement_of (st : state) (p : path) (q : query) (b : budget) : res measurement :=
  let* s := session_at st p in
  let* adj := compile_and_get_info E s (st_public st) q b in
  let* cat := catalog_of (s_tree s) (st_public st) (s_cons s) in
  let* data := data_of (s_tree s) in
  compile (e_round E) (e_world E) K auto so (measure_for adj) cat data adj q.
(** The distribution of all replies, for at most [n] calls. *)
Fixpoint play (n : nat) (a : analyst) (hist : list reply) (st : state) : dist C (list reply) :=
  match n with
  | 0 => ret C hist
  | S n =>
      match a hist with
      | None => ret C hist
      | Some o =>
          match o, snd (step E st o) with
          | Evaluate p q b, Ok _ =>
              match measurement_of st p q b with
              | Ok m => dbind C (noisy m) (fun t => play n a (hist ++ [Answer t])%list (fst (step E st o)))
              | Err e => play n a (hist ++ [Done (Err e)])%list (fst (step E st o))
              end
          | _, r => play n a (hist ++ [Done r])%list (fst (step E st o))
          end
      end
  end.

(** Calls that keep to what users promise (C49, C53), and partition only tables outside of
    the ID space [sp]. *)
Definition fair_op (sp : string) (st : state) (o : op) : Prop :=
  honest_op E true st o
  /\ match o with
     | Evaluate p q b => forall s cat data, session st p s -> catalog_of (s_tree s) (st_public st) (s_cons s) = Ok cat -> data_of (s_tree s) = Ok data ->
         let l2 := agg_gaussian (measure_for (s_left s)) q in
         built auto q /\ promises (e_world E) l2 cat data (agg_child q) /\ finite_ids (e_world E) l2 cat data (agg_child q)
         /\ (l2 = is_rho (s_left s) \/ forall n t, dget n (named (s_tree s)) = Some t -> grouping_column (v_place t) = None)
     | Partition p src _ _ _ => forall s t, session st p s -> dget src (named (s_tree s)) = Some t -> v_coll t <> Some sp
     | _ => True
     end.
(** The replies that a call can get. *)
Definition possible (st : state) (o : op) (r : reply) : Prop :=
  match o, snd (step E st o) with
  | Evaluate _ _ _, Ok _ => exists t, r = Answer t
  | _, x => r = Done x
  end.
Fixpoint fair (sp : string) (n : nat) (a : analyst) (hist : list reply) (st : state) : Prop :=
  match n with
  | 0 => True
  | S n =>
      match a hist with
      | None => True
      | Some o => fair_op sp st o /\ forall r, possible st o r -> fair sp n a (hist ++ [r])%list (fst (step E st o))
      end
  end.

(** Core's part: when an aggregation is compiled over two versions of the data, and what the
    two measurements read is apart by no more than the truncation allows for one person, the
    answers are within the privacy loss that the measurement reports, in both directions. *)
Definition calibrated : Prop := forall cat data data' b q m m' c x cs, valid b ->
  compile (e_round E) (e_world E) K auto so (measure_for b) cat data b q = Ok m ->
  compile (e_round E) (e_world E) K auto so (measure_for b) cat data' b q = Ok m' ->
  hide_measurement m = hide_measurement m' ->
  prepared (agg_child q) c -> build_transformation (e_world E) (agg_gaussian (measure_for b) q) cat data c = Ok (x, cs) ->
  apart_at_most so (measure_for b) 1 (agg_columns q) cs (table_of m) (table_of m') ->
  close C (privacy_loss K m) (noisy m) (noisy m') /\ close C (privacy_loss K m) (noisy m') (noisy m).
End Privacy.
