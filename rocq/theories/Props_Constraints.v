(** Properties C14, C16, C17 and C18: truncation constraints. *)
From Coq Require Import String Bool Arith ZArith Lia Permutation List.
From Verif Require Import Prelude Value Rows Constraints ConstraintsSpec ConstraintsProofs ConstraintsStab.
Import ListNotations.
Local Open Scope nat_scope.
Local Open Scope string_scope.

(** A small table with a privacy ID column used in the examples. *)
Definition row3 (id grp : string) (n : Z) : rec := [("id", VStr id); ("grp", VStr grp); ("n", VInt n)].
Definition sample : table :=
  [row3 "a" "x" 1; row3 "a" "x" 2; row3 "a" "y" 3; row3 "a" "z" 4; row3 "b" "x" 5].
Definition ko : value -> order value := fun _ => value_order.

(** ** C14: simplification keeps the meaning *)

(** Constraint constructors accept exactly positive bounds and non-empty column names. *)
Theorem C14_constructors_accept_positive_bounds : forall z g,
  (is_ok (mk_max_rows_per_id z) = true <-> (1 <= z)%Z)
  /\ (is_ok (mk_max_groups_per_id g z) = true <-> (1 <= z)%Z /\ g <> "")
  /\ (is_ok (mk_max_rows_per_group_per_id g z) = true <-> (1 <= z)%Z /\ g <> "").
Proof.
  intros z g. unfold mk_max_rows_per_id, mk_max_groups_per_id, mk_max_rows_per_group_per_id, raise_if.
  destruct (Z.ltb_spec z 1), (String.eqb_spec g ""); simpl;
    repeat split; intros; try tauto; try discriminate; try lia.
Qed.
Print Assumptions C14_constructors_accept_positive_bounds.

(** A table satisfies the simplified list iff it satisfies the list. *)
Theorem C14_simplify_same_tables : forall idc cs t,
  satisfies_all idc (simplify cs) t <-> satisfies_all idc cs t.
Proof. exact simplify_sat. Qed.
Print Assumptions C14_simplify_same_tables.

(** Two different positions never hold constraints of the same kind and column. *)
Theorem C14_simplify_one_per_subject : forall cs i j a b,
  nth_error (simplify cs) i = Some a -> nth_error (simplify cs) j = Some b ->
  same_subject a b = true -> i = j.
Proof. exact simplify_unique. Qed.
Print Assumptions C14_simplify_one_per_subject.

Theorem C14_simplify_idempotent : forall cs, simplify (simplify cs) = simplify cs.
Proof. exact simplify_idem. Qed.
Print Assumptions C14_simplify_idempotent.

(** Nothing is invented: every simplified constraint was in the list, so bounds stay
    positive; and each constraint is represented by one at least as strong. *)
Theorem C14_simplify_keeps_strongest : forall cs,
  incl (simplify cs) cs
  /\ forall c, In c cs -> exists m, In (with_max c m) (simplify cs) /\ m <= bound c.
Proof. intros cs. split; [apply simplify_incl|apply simplify_covers]. Qed.
Print Assumptions C14_simplify_keeps_strongest.

Example C14_case :
  simplify [MaxGroupsPerID "grp" 5; MaxRowsPerID 7; MaxGroupsPerID "grp" 3; MaxRowsPerID 9;
            MaxRowsPerGroupPerID "grp" 2; MaxGroupsPerID "n" 4]
  = [MaxRowsPerID 7; MaxGroupsPerID "grp" 3; MaxGroupsPerID "n" 4; MaxRowsPerGroupPerID "grp" 2].
Proof. reflexivity. Qed.

(** ** C16: enforcement *)

(** Enforcing a constraint through the library, whatever the caller does with the
    metric: the result satisfies it, is a sub-bag of the input, keeps satisfying
    everything the input satisfied, and equals the input if nothing had to be done.
    [idc] is the privacy ID column. *)
Theorem C16_enforcing_makes_true_and_only_drops : forall ro ko c update l2 idc x y,
  enforce ro ko c update l2 x = Ok y ->
  (t_place x = PKeys idc \/ exists g l, t_place x = PGroupedIds g l idc) ->
  satisfies idc c (t_rows y)
  /\ sub_table (t_rows y) (t_rows x)
  /\ (forall c', satisfies idc c' (t_rows x) -> satisfies idc c' (t_rows y))
  /\ (satisfies idc c (t_rows x) -> same_table (t_rows y) (t_rows x)).
Proof.
  intros ro k c u l2 idc x y H P. apply enforce_ok in H as (idc' & E & P').
  assert (idc' = idc).
  { destruct P as [P|(g & l & P)], P' as [P'|(g' & l' & P')]; congruence. }
  subst idc'. rewrite E. split; [apply enforce_rows_sat|]. split; [apply enforce_rows_sub|]. split.
  - intros c'. apply satisfies_sub, enforce_rows_sub.
  - apply enforce_rows_id.
Qed.
Print Assumptions C16_enforcing_makes_true_and_only_drops.

(** Tables without a privacy ID are refused. *)
Theorem C16_enforcing_needs_ids : forall ro ko c l2 x,
  is_ok (enforce ro ko c false l2 x) = true <-> exists idc, t_place x = PKeys idc.
Proof.
  intros ro k c l2 [p t]. split.
  - destruct c, p; simpl; try discriminate; eauto.
  - intros (idc & E). simpl in E. subst. destruct c; reflexivity.
Qed.
Print Assumptions C16_enforcing_needs_ids.

(** The result does not depend on how the rows are stored. *)
Theorem C16_enforcing_is_a_function_of_the_bag : forall ro ko idc c t t',
  same_table t t' -> same_table (enforce_rows ro ko idc c t) (enforce_rows ro ko idc c t').
Proof. exact enforce_rows_same. Qed.
Print Assumptions C16_enforcing_is_a_function_of_the_bag.

(** As many rows (or groups) as allowed survive: nothing is dropped needlessly. *)
Theorem C16_enforcing_drops_no_more_than_needed : forall ro ko idc t i,
  (forall m, length (rows_of idc i (enforce_rows ro ko idc (MaxRowsPerID m) t))
     = Nat.min m (length (rows_of idc i t)))
  /\ (forall g m v, length (filter (has_value g v) (rows_of idc i (enforce_rows ro ko idc (MaxRowsPerGroupPerID g m) t)))
     = Nat.min m (length (filter (has_value g v) (rows_of idc i t))))
  /\ (forall g m, length (distinct_values g (rows_of idc i (enforce_rows ro ko idc (MaxGroupsPerID g m) t)))
     = Nat.min m (length (distinct_values g (rows_of idc i t)))).
Proof.
  intros ro k idc t i. split; [|split].
  - intros m. simpl. unfold limit_rows, rows_of.
    pose proof (keep_first_exact value_eq_dec (getv idc) m i (isort (ole ro) t) []) as H.
    cbn [count_occ] in H. rewrite Nat.sub_0_r in H.
    rewrite (Permutation_length (Permutation_filter _ _ _ (isort_perm (ole ro) t))) in H. exact H.
  - intros g m v. simpl. unfold limit_rows_per_key, rows_of. rewrite !filter_filter.
    pose proof (keep_first_exact pair_eq_dec (fun r => (getv idc r, getv g r)) m (i, v) (isort (ole ro) t) []) as H.
    cbn [count_occ] in H. rewrite Nat.sub_0_r in H.
    rewrite (Permutation_length (Permutation_filter _ _ _ (isort_perm (ole ro) t))) in H.
    rewrite !(filter_ext _ _ (keyb_pair idc g i v)) in H. exact H.
  - intros g m. transitivity (length (kept_keys k idc g m t i)).
    + apply Permutation_length, NoDup_Permutation.
      * apply NoDup_nodup.
      * unfold kept_keys.
        assert (N : NoDup (isort (ole (k i)) (keys_of idc g t i)))
          by (apply (Permutation_NoDup (Permutation_sym (isort_perm _ _))), keys_of_NoDup).
        rewrite <- (firstn_skipn m) in N.
        revert N. generalize (firstn m (isort (ole (k i)) (keys_of idc g t i))).
        induction l as [|x l IH]; simpl; intros N; constructor; inversion N; subst.
        -- rewrite in_app_iff in H1. tauto.
        -- apply IH. assumption.
      * intros v. unfold distinct_values. rewrite nodup_In, in_map_iff. split.
        -- intros (r & <- & Hr). unfold rows_of in Hr. apply filter_In in Hr as [Hr Hi].
           simpl in Hr. apply filter_In in Hr as [_ Hr]. apply has_value_true in Hi. rewrite Hi in Hr.
           apply vmem_In, Hr.
        -- intros Hv. pose proof (kept_incl k idc g m t i v Hv) as Hk. apply keys_of_In in Hk as (r & Hr & <-).
           exists r. split; [reflexivity|]. unfold rows_of in *. apply filter_In in Hr as [Hr Hi].
           apply filter_In. split; [|assumption]. simpl. apply filter_In. split; [assumption|].
           apply has_value_true in Hi. rewrite Hi. apply vmem_In, Hv.
    + unfold kept_keys. rewrite firstn_length, (Permutation_length (isort_perm _ _)). reflexivity.
Qed.
Print Assumptions C16_enforcing_drops_no_more_than_needed.

Example C16_case :
  enforce rec_order ko (MaxGroupsPerID "grp" 2) true true {| t_place := PKeys "id"; t_rows := sample |}
  = Ok {| t_place := PGroupedIds "grp" true "id";
          t_rows := [row3 "a" "x" 1; row3 "a" "x" 2; row3 "a" "y" 3; row3 "b" "x" 5] |}.
Proof. vm_compute. reflexivity. Qed.

(** ** C17: one ID changes at most the computed stability *)

(** [a] and [b] differ by adding or removing the rows of [k] privacy IDs.  Whatever
    truncation the library chooses for the aggregation (same constraints, measure and
    grouping columns), the truncated tables are at most [k] times the stability apart, in
    the metric the aggregation is calibrated to.  Both sides are squared so that the
    zCDP value sqrt(groups) * rows needs no real numbers. *)
Theorem C17_truncation_bounds_influence : forall ro ko so mu grouping cs idc k a b x y,
  ids_apart idc k a b ->
  truncate_table ro ko so mu grouping cs {| t_place := PKeys idc; t_rows := a |} = Ok x ->
  truncate_table ro ko so mu grouping cs {| t_place := PKeys idc; t_rows := b |} = Ok y ->
  exists tr, choose_trunc so mu grouping cs = Some tr
    /\ t_place x = t_place y
    /\ distance_squared (t_place x) (t_rows x) (t_rows y)
       <= k * k * stability_squared mu grouping tr.
Proof. exact truncate_stability. Qed.
Print Assumptions C17_truncation_bounds_influence.

(** The L2 metric is used only under zCDP and only when grouping by the column. *)
Theorem C17_l2_only_for_zcdp_grouping : forall ro ko so mu grouping cs idc a x g,
  truncate_table ro ko so mu grouping cs {| t_place := PKeys idc; t_rows := a |} = Ok x ->
  t_place x = PGrouped g true -> mu = RhoZCDP /\ In g grouping.
Proof.
  intros ro k so mu gr cs idc a x g H E. apply truncate_ids in H as (tr & _ & _ & P).
  rewrite E in P. destruct tr as [|g' p q]; [discriminate|]. inversion P as [[E1 E2]]. subst g'.
  destruct mu; try discriminate. symmetry in E2. apply smem_In in E2. auto.
Qed.
Print Assumptions C17_l2_only_for_zcdp_grouping.

(** Non-vacuity: removing ID "a" from the sample under zCDP grouping changes 3 rows in 2
    groups; the squared L2 distance 5 is within the squared stability 2 * 2^2 = 8. *)
Example C17_case :
  let without_a := [row3 "b" "x" 5] in
  let cs := [MaxGroupsPerID "grp" 2; MaxRowsPerGroupPerID "grp" 2] in
  ids_apart "id" 1 sample without_a
  /\ match truncate_table rec_order ko (fun l => l) RhoZCDP ["grp"] cs {| t_place := PKeys "id"; t_rows := sample |},
           truncate_table rec_order ko (fun l => l) RhoZCDP ["grp"] cs {| t_place := PKeys "id"; t_rows := without_a |} with
     | Ok x, Ok y => t_place x = PGrouped "grp" true /\ distance_squared (t_place x) (t_rows x) (t_rows y) = 5
     | _, _ => False
     end
  /\ choose_trunc (fun l => l) RhoZCDP ["grp"] cs = Some (TGroups "grp" 2 2)
  /\ stability_squared RhoZCDP ["grp"] (TGroups "grp" 2 2) = 8.
Proof.
  cbv zeta. split.
  - apply (ids_step "id" 0 sample sample); [constructor; reflexivity|]. exists (VStr "a"). left.
    vm_compute. reflexivity.
  - vm_compute. repeat split.
Qed.

(** ** C18: the cheapest truncation *)

(** For a table with a privacy ID, the aggregation is refused exactly when no constraint
    known about it bounds the rows per ID (alone, or groups together with rows per
    group); otherwise the truncation used comes from known constraints and no other
    usable one has a smaller stability.  [so] is the unspecified iteration order of a
    Python set. *)
Theorem C18_cheapest_truncation_or_refused : forall ro ko so mu grouping cs idc t,
  (forall l, Permutation (so l) l) ->
  match truncate_table ro ko so mu grouping (simplify cs) {| t_place := PKeys idc; t_rows := t |} with
  | Err e => e = RuntimeError /\ forall tr, ~ incl (trunc_constraints tr) cs
  | Ok y => exists tr, incl (trunc_constraints tr) cs
      /\ (forall tr', incl (trunc_constraints tr') cs ->
            stability_squared mu grouping tr <= stability_squared mu grouping tr')
      /\ satisfies_all idc (trunc_constraints tr) (t_rows y)
      /\ sub_table (t_rows y) t
      /\ (satisfies_all idc cs t -> same_table (t_rows y) t)
  end.
Proof.
  intros ro k so mu gr cs idc t SO.
  pose proof (choose_spec so mu gr cs SO) as C.
  destruct (truncate_table ro k so mu gr (simplify cs) {| t_place := PKeys idc; t_rows := t |}) as [y|e] eqn:H.
  - apply truncate_ids in H as (tr & E & R & _). rewrite E in C. destruct C as [C1 C2].
    exists tr. split; [exact C1|]. split; [exact C2|]. rewrite R. unfold trunc_rows.
    split; [apply fold_enforce_sat|]. split; [apply fold_enforce_sub|].
    intros S. apply fold_enforce_id. intros c Hc. apply S, C1, Hc.
  - unfold truncate_table in H. cbn [t_place] in H.
    destruct (choose_trunc so mu gr (simplify cs)) as [tr|].
    + destruct tr as [m|g a b]; simpl in H; [discriminate|]. rewrite String.eqb_refl in H. discriminate.
    + inversion H. split; [reflexivity|exact C].
Qed.
Print Assumptions C18_cheapest_truncation_or_refused.

(** Tables without IDs are never truncated. *)
Theorem C18_no_ids_no_truncation : forall ro ko so mu grouping cs x,
  (forall idc, t_place x <> PKeys idc) -> truncate_table ro ko so mu grouping cs x = Ok x.
Proof.
  intros ro k so mu gr cs [p t] H. unfold truncate_table. cbn [t_place]. destruct p; try reflexivity.
  destruct (H idc). reflexivity.
Qed.
Print Assumptions C18_no_ids_no_truncation.

(** Non-vacuity: under zCDP the grouped truncation 4 groups x 3 rows (stability 6) beats
    7 rows per ID when grouping by the column, and loses under pure DP (12 against 7). *)
Example C18_case :
  let cs := [MaxRowsPerID 7; MaxGroupsPerID "grp" 4; MaxRowsPerGroupPerID "grp" 3] in
  choose_trunc (fun l => l) RhoZCDP ["grp"] cs = Some (TGroups "grp" 4 3)
  /\ choose_trunc (fun l => l) PureDP ["grp"] cs = Some (TRows 7)
  /\ choose_trunc (fun l => l) RhoZCDP [] cs = Some (TRows 7)
  /\ choose_trunc (fun l => l) PureDP ["grp"] [MaxGroupsPerID "grp" 4; MaxRowsPerGroupPerID "n" 3] = None.
Proof. repeat split. Qed.
