(** Properties C20, C21 and C22: rewriting a query before it is compiled. *)
From Coq Require Import String Bool Arith ZArith QArith Qcanon Lia Permutation List.
From Verif Require Import Prelude Value Rows Constraints ConstraintsSpec Schema SchemaProofs
  Query Transform TransformSpec QueryProofs Props_Query Rewrite RewriteSpec RewriteProofs RewriteRows.
Import ListNotations.
Local Open Scope string_scope.
Local Open Scope nat_scope.

(** ** C20: aggregations never see special values *)

(** A query that aggregates column [m] of a table is rewritten to a query that aggregates
    the same column, with the same bounds, of the same table with only these changes: rows
    whose measure is null or NaN are gone, an infinite measure has become the bound nearest
    to it (or the row is gone, if the query has no bounds).  All other rows, and all other
    columns, are as they were, and no measure is null, NaN or infinite any more. *)
Theorem C20_no_special_values : forall auto mu W l2 cat data q0 q q' s c m t cs,
  inputs_ok l2 cat data -> catalog_made cat -> build auto q0 = Ok q -> promises W l2 cat data q ->
  schema_of (w_cond_ok W) cat q = Ok s -> measure_of q = Some (c, m) -> is_table c ->
  build_transformation W l2 cat data c = Ok (t, cs) ->
  rewrite auto (w_cond_ok W) mu cat q = Ok q' ->
  exists c' t' cs', measure_of q' = Some (c', m) /\ bounds_of q' = bounds_of q
    /\ visit W l2 cat data c' = Ok (t', cs')
    /\ v_rows t' = flat_map (clean_row m (bounds_of q)) (v_rows t)
    /\ v_place t' = v_place t
    /\ forall r r', In r (v_rows t) -> In r' (clean_row m (bounds_of q) r) ->
         ~ is_missing (getv m r') /\ ~ is_infinite (getv m r') /\ dkeys r' = dkeys r
         /\ forall k, k <> m -> getv k r' = getv k r.
Proof.
  intros auto mu W l2 cat data q0 q q' s c m t cs IN CAT B.
  exact (rewrite_rows auto mu W l2 cat data q q' s c m t cs IN CAT (build_built auto q0 q B)).
Qed.
Print Assumptions C20_no_special_values.

(** Also in queries nested in any way, the schemas say so. *)
Theorem C20_schemas_exclude_special_values : forall auto mu cond_ok cat q0 q q' s,
  catalog_made cat -> build auto q0 = Ok q -> schema_of cond_ok cat q = Ok s ->
  rewrite auto cond_ok mu cat q = Ok q' -> everywhere (clean_measure cond_ok cat) q'.
Proof.
  intros auto mu cond_ok cat q0 q q' s CAT B S R.
  exact (proj1 (proj2 (proj2 (proj2 (rewrite_ok auto cond_ok mu cat CAT q q' s (build_built auto q0 q B) S R))))).
Qed.
Print Assumptions C20_schemas_exclude_special_values.

Definition avg0 : query :=
  GroupByBounded BAverage (PrivateSource "people") (KSet [("grp", dsc VARCHAR true false false)] [[("grp", VStr "x")]; [("grp", VStr "y")]]) "x"
    (PInt 0) (PFloat (z_to_f 10)) "avg" MDefault None.
Definition avg1 : query := Eval vm_compute in match build false avg0 with Ok q => q | Err _ => avg0 end.
Definition avg2 : query := Eval vm_compute in match rewrite false (w_cond_ok W0) PureDP pcat avg1 with Ok q => q | Err _ => avg0 end.
Definition avg_s : schema := Eval vm_compute in match schema_of (w_cond_ok W0) pcat avg1 with Ok s => s | Err _ => people end.
Definition avg_t : vtab := Eval vm_compute in match visit W0 false pcat pdata (PrivateSource "people") with Ok (t, _) => t | Err _ => tab0 people [] end.
Lemma pcat_made : catalog_made pcat.
Proof.
  intros n s cs H. unfold pcat, people_src, cat0 in H. cbn [cat_private map dget fst snd] in H.
  destruct (String.eqb n "people"); [|discriminate H]. injection H as <- <-. reflexivity.
Qed.
Example C20_case :
  inputs_ok false pcat pdata /\ catalog_made pcat /\ build false avg0 = Ok avg1 /\ promises W0 false pcat pdata avg1
  /\ schema_of (w_cond_ok W0) pcat avg1 = Ok avg_s
  /\ measure_of avg1 = Some (PrivateSource "people", "x") /\ is_table (PrivateSource "people")
  /\ build_transformation W0 false pcat pdata (PrivateSource "people") = Ok (avg_t, [MaxRowsPerID 2; MaxGroupsPerID "grp" 2])
  /\ rewrite false (w_cond_ok W0) PureDP pcat avg1 = Ok avg2
  /\ avg2 = GroupByBounded BAverage
       (ReplaceInfinity (DropNullAndNan (PrivateSource "people") ["x"]) [("x", (z_to_f 0, z_to_f 10))])
       (KSet [("grp", dsc VARCHAR true false false)] [[("grp", VStr "x")]; [("grp", VStr "y")]]) "x" (PFloat (z_to_f 0)) (PFloat (z_to_f 10)) "avg" MDefault (Some CLaplace)
  /\ flat_map (clean_row "x" (bounds_of avg1)) (v_rows avg_t)
     = [prow "b" (VStr "x") (VFloat (z_to_f 10)); prow "b" (VStr "y") (VFloat (z_to_f 3))].
Proof.
  split; [apply inputs0_ok; vm_compute; reflexivity|]. split; [exact pcat_made|].
  repeat split; vm_compute; reflexivity.
Qed.

(** ** C21: noise mechanisms *)

(** After rewriting, every aggregation has a concrete mechanism: integer noise for counts
    and for integer measure columns, and only for those; Gaussian noise exactly where the
    user asked for it or left the choice to the library under zCDP, and only under zCDP. *)
Theorem C21_mechanisms : forall auto mu cond_ok cat q0 q q' s,
  catalog_made cat -> build auto q0 = Ok q -> schema_of cond_ok cat q = Ok s ->
  rewrite auto cond_ok mu cat q = Ok q' -> everywhere (right_mechanism cond_ok mu cat) q'.
Proof.
  intros auto mu cond_ok cat q0 q q' s CAT B S R.
  exact (proj2 (proj2 (proj2 (proj2 (rewrite_ok auto cond_ok mu cat CAT q q' s (build_built auto q0 q B) S R))))).
Qed.
Print Assumptions C21_mechanisms.

(** Rewriting succeeds exactly when nowhere in the query Gaussian noise is asked for without
    zCDP, and wherever infinite values may have to be clamped the bounds are finite. *)
Theorem C21_refused_iff : forall auto mu cond_ok cat q0 q s,
  catalog_made cat -> build auto q0 = Ok q -> schema_of cond_ok cat q = Ok s ->
  (everywhere (noise_available mu) q /\ everywhere (clampable cond_ok cat) q)
  <-> exists q', rewrite auto cond_ok mu cat q = Ok q'.
Proof.
  intros auto mu cond_ok cat q0 q s CAT B S.
  rewrite <- (rewrite_total auto cond_ok mu cat CAT q s (build_built auto q0 q B) S). tauto.
Qed.
Print Assumptions C21_refused_iff.
Corollary C21_gaussian_needs_zcdp : forall auto mu cond_ok cat q0 q s,
  catalog_made cat -> build auto q0 = Ok q -> schema_of cond_ok cat q = Ok s ->
  asked_mechanism q = Some MGaussian -> mu <> RhoZCDP -> exists e, rewrite auto cond_ok mu cat q = Err e.
Proof.
  intros auto mu cond_ok cat q0 q s CAT B S A N. destruct (rewrite auto cond_ok mu cat q) as [q'|e] eqn:R; [|eauto].
  exfalso. apply N. assert (H : exists q', rewrite auto cond_ok mu cat q = Ok q') by eauto.
  apply (proj2 (C21_refused_iff auto mu cond_ok cat q0 q s CAT B S)) in H as [H _].
  apply everywhere_iff in H as [H _]. exact (H A).
Qed.
Print Assumptions C21_gaussian_needs_zcdp.

Definition cnt0 (m : mech) : query := SuppressAggregates (GroupByCount (Filter (PrivateSource "people") "grp = 'x'") (KCols ["grp"]) "n" m None) "n" (PInt 3).
Definition cnt_s : schema := Eval vm_compute in match schema_of (w_cond_ok W0) pcat (cnt0 MDefault) with Ok s => s | Err _ => people end.
Example C21_case :
  build true (cnt0 MDefault) = Ok (cnt0 MDefault) /\ build true (cnt0 MGaussian) = Ok (cnt0 MGaussian)
  /\ schema_of (w_cond_ok W0) pcat (cnt0 MDefault) = Ok cnt_s /\ schema_of (w_cond_ok W0) pcat (cnt0 MGaussian) = Ok cnt_s
  /\ rewrite true (w_cond_ok W0) RhoZCDP pcat (cnt0 MDefault)
     = Ok (SuppressAggregates (GroupByCount (Filter (PrivateSource "people") "grp = 'x'") (KCols ["grp"]) "n" MDefault (Some CDiscreteGaussian)) "n" (PInt 3))
  /\ rewrite true (w_cond_ok W0) ApproxDP pcat (cnt0 MDefault)
     = Ok (SuppressAggregates (GroupByCount (Filter (PrivateSource "people") "grp = 'x'") (KCols ["grp"]) "n" MDefault (Some CGeometric)) "n" (PInt 3))
  /\ rewrite true (w_cond_ok W0) ApproxDP pcat (cnt0 MGaussian) = Err ValueError
  /\ rewrite false (w_cond_ok W0) PureDP pcat avg1 = Ok avg2.
Proof. repeat split; vm_compute; reflexivity. Qed.
Example C21_infinite_bounds_case :
  exists q, build false (GroupByBounded BSum (PrivateSource "people") (KSet [] [[]]) "x" (PInt 0) (PFloat FPInf) "s" MLaplace None) = Ok q
    /\ rewrite false (w_cond_ok W0) PureDP pcat q = Err ValueError.
Proof. eexists. split; [vm_compute; reflexivity|]. vm_compute. reflexivity. Qed.

(** ** C22: only what is needed *)

(** The rewritten query is the original but for concrete mechanisms and steps inserted
    below aggregations of columns that may have special values; its schema is the same. *)
Theorem C22_only_inserts : forall auto mu cond_ok cat q0 q q' s,
  catalog_made cat -> build auto q0 = Ok q -> schema_of cond_ok cat q = Ok s ->
  rewrite auto cond_ok mu cat q = Ok q' ->
  rewritten cond_ok cat q q' /\ schema_of cond_ok cat q' = Ok s /\ sources q' = sources q /\ build auto q' = Ok q'.
Proof.
  intros auto mu cond_ok cat q0 q q' s CAT B S R.
  destruct (rewrite_ok auto cond_ok mu cat CAT q q' s (build_built auto q0 q B) S R) as (B' & S' & RW & _).
  split; [exact RW|]. split; [exact S'|]. split; [exact (rewritten_sources _ _ _ _ RW)|exact (built_build _ _ B')].
Qed.
Print Assumptions C22_only_inserts.

(** Nothing to do, nothing done: if no aggregated column may have special values and all
    mechanisms are there, the query stays as it is.  Tables are never changed. *)
Theorem C22_identity : forall auto mu cond_ok cat q0 q s,
  build auto q0 = Ok q -> schema_of cond_ok cat q = Ok s ->
  everywhere (clean_measure cond_ok cat) q -> everywhere (right_mechanism cond_ok mu cat) q ->
  rewrite auto cond_ok mu cat q = Ok q.
Proof. intros auto mu cond_ok cat q0 q s B. exact (rewrite_id auto cond_ok mu cat q s (build_built auto q0 q B)). Qed.
Print Assumptions C22_identity.
Theorem C22_tables_unchanged : forall auto mu cond_ok cat q0 q,
  build auto q0 = Ok q -> is_table q -> rewrite auto cond_ok mu cat q = Ok q.
Proof. intros auto mu cond_ok cat q0 q B. exact (rewrite_tables auto cond_ok mu cat q (build_built auto q0 q B)). Qed.
Print Assumptions C22_tables_unchanged.

(** Twice is the same as once. *)
Theorem C22_idempotent : forall auto mu cond_ok cat q0 q q' s,
  catalog_made cat -> build auto q0 = Ok q -> schema_of cond_ok cat q = Ok s ->
  rewrite auto cond_ok mu cat q = Ok q' -> rewrite auto cond_ok mu cat q' = Ok q'.
Proof. intros auto mu cond_ok cat q0 q q' s CAT B. exact (rewrite_idem auto cond_ok mu cat CAT q q' s (build_built auto q0 q B)). Qed.
Print Assumptions C22_idempotent.

Example C22_case :
  rewrite false (w_cond_ok W0) PureDP pcat avg1 = Ok avg2 /\ avg2 <> avg1
  /\ schema_of (w_cond_ok W0) pcat avg2 = Ok avg_s /\ rewrite false (w_cond_ok W0) PureDP pcat avg2 = Ok avg2
  /\ rewrite false (w_cond_ok W0) PureDP pcat pq = Ok pq /\ is_table pq.
Proof. repeat split; try (vm_compute; reflexivity). unfold avg1, avg2. discriminate. Qed.
