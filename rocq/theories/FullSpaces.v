(** What a query reads: tables of one ID space, or of none. *)
From Coq Require Import String Bool Arith ZArith QArith Qcanon Lia Lqa Permutation List.
From Verif Require Import Prelude Value Rows Constraints ConstraintsSpec ConstraintsProofs ConstraintsStab Schema SchemaProofs Query Transform TransformSpec TransformConform TransformVisit TransformAgree TransformIds
  QueryProofs QueryLike Tables SessionTables SessionViews Blind BlindSpec Distance StabilitySpec RowStability SensitivitySpec Sensitivity PersonSession PersonAbsent FullPrivacySpec FullStability.
Import ListNotations.
Local Open Scope string_scope.
Local Open Scope nat_scope.

Section Sources.
Variables (W : world) (l2 : bool) (cat : catalog).
Lemma visit_sources data data' q : (forall n, In n (sources q) -> dget n data = dget n data') -> visit W l2 cat data q = visit W l2 cat data' q.
Proof.
  induction q; intros S; cbn [visit sources] in *; try reflexivity; try (rewrite IHq by assumption; reflexivity).
  - unfold visit_source. rewrite S; [reflexivity|]. now left.
  - rewrite IHq1, IHq2; [reflexivity|intros n I; apply S, in_app_iff; auto..].
Qed.
(** All tables that are read are in the collection of the result. *)
Lemma source_coll data q : forall t cs, visit W l2 cat data q = Ok (t, cs) ->
  forall n, In n (sources q) -> exists u, dget n data = Some u /\ v_coll u = v_coll t.
Proof.
  induction q; intros t0 cs0 H; cbn [visit sources] in *; try discriminate H;
    try (apply bind_ok in H as ((t, cs) & V & H); specialize (IHq t cs V); enough (v_coll t0 = v_coll t) as -> by exact IHq).
  - unfold visit_source in H. destruct (dget source_id data) as [t|] eqn:G; [|discriminate]. destruct (dget source_id (cat_private cat)) as [[s cs]|]; [|discriminate]. injection H as <- <-.
    intros n [<-|[]]. eauto.
  - unfold visit_rename in H. peel H. injection H as <- <-. reflexivity.
  - injection H as <- <-. reflexivity.
  - unfold visit_select in H. peel H. injection H as <- <-. reflexivity.
  - unfold visit_map in H. peel H. injection H as <- <-. reflexivity.
  - unfold visit_flat_map in H. peel H. injection H as <- <-. reflexivity.
  - unfold visit_flat_map_by_id in H. destruct (v_place t); try discriminate. destruct (dget _ (v_dom t)); [|discriminate]. peel H. injection H as <- <-. reflexivity.
  - apply bind_ok in H as ((t, cs) & V & H). apply bind_ok in H as ((t', cs') & V' & H). specialize (IHq1 t cs V). specialize (IHq2 t' cs' V').
    unfold visit_join_private in H. apply bind_ok in H as ([] & CO & H). apply bind_ok in H as (((p & lr) & rr) & _ & H). apply bind_ok in H as (d & _ & H). injection H as <- <-. cbn [v_coll].
    apply raise_if_ok in CO. assert (EQ : v_coll t' = v_coll t).
    { destruct (v_coll t) as [a|], (v_coll t') as [b|]; cbn in CO; try discriminate CO; [|reflexivity]. destruct (String.eqb_spec a b) as [->|]; [reflexivity|discriminate]. }
    intros n I. apply in_app_iff in I as [I|I]; [apply IHq1, I|]. rewrite <- EQ. apply IHq2, I.
  - unfold visit_join_public in H. peel H. injection H as <- <-. reflexivity.
  - unfold visit_replace_null in H. peel H. injection H as <- <-. reflexivity.
  - unfold visit_replace_inf in H. peel H. injection H as <- <-. reflexivity.
  - unfold visit_drop_null in H. peel H. injection H as <- <-. reflexivity.
  - unfold visit_drop_inf in H. peel H. injection H as <- <-. reflexivity.
  - unfold visit_enforce in H. peel H. injection H as <- <-. reflexivity.
Qed.
End Sources.
