(** The columns that are announced for an aggregation, and those of its answer. *)
From Coq Require Import String Bool Arith ZArith QArith Qcanon Lia Permutation List.
From Verif Require Import Prelude Budget Value Rows Constraints ConstraintsSpec ConstraintsProofs ConstraintsStab
  Schema SchemaProofs Query Rewrite RewriteSpec RewriteProofs RewriteRows Transform TransformSpec TransformVisit TransformConform TransformAgree
  QueryProofs QueryAccept PropagateProofs Session Measure MeasureProofs MeasureCount MeasureRows.
Import ListNotations.
Local Open Scope string_scope.
Local Open Scope nat_scope.

(** ** Specification *)

(** The table and the keys of a grouped aggregation. *)
Definition grouped_by (q : query) : option (query * gkeys) :=
  match q with
  | GroupByCount c k _ _ _ | GroupByCountDistinct c k _ _ _ _ | GroupByQuantile c k _ _ _ _ _
  | GroupByBounded _ c k _ _ _ _ _ _ | GetBounds c k _ _ _ => Some (c, k)
  | _ => None
  end.
(** The names asked for. *)
Definition output_names (q : query) : list string :=
  match q with
  | GroupByCount _ _ o _ _ | GroupByCountDistinct _ _ _ o _ _ | GroupByQuantile _ _ _ _ _ _ o
  | GroupByBounded _ _ _ _ _ _ o _ _ => [o]
  | GetBounds _ _ _ lo hi => [lo; hi]
  | _ => []
  end.
(** Their type: counts are whole numbers; quantiles, averages, variances and standard
    deviations are decimals; a sum and the bounds of a column have the column's type. *)
Definition output_type_is (s : schema) (q : query) (t : ctype) : Prop :=
  match q with
  | GroupByCount _ _ _ _ _ | GroupByCountDistinct _ _ _ _ _ _ => t = INTEGER
  | GroupByQuantile _ _ _ _ _ _ _ => t = DECIMAL
  | GroupByBounded BSum _ _ me _ _ _ _ _ | GetBounds _ _ me _ _ => column_type s me t
  | GroupByBounded _ _ _ _ _ _ _ _ _ => t = DECIMAL
  | _ => False
  end.
(** A column without nulls, NaNs or infinities. *)
Definition never_special (t : ctype) : coldesc := {| cd_type := t; cd_null := false; cd_nan := false; cd_inf := false |}.
(** What remains when suppressions are taken away. *)
Fixpoint unsuppressed (q : query) : query := match q with SuppressAggregates c _ _ => unsuppressed c | _ => q end.

(** What is expected of tmlt.core.  Partition selection returns rows of the table it is
    given; an aggregation returns one value for each output column, never a null, NaN or
    infinity: whole numbers for counts and sums if the noise is geometric or discrete
    Gaussian, and decimals otherwise; bounds of the type of the column. *)
Definition core_type (d : coredesc) : option ctype :=
  match d with CInt _ => Some INTEGER | CFloat _ _ _ => Some DECIMAL | _ => None end.
Definition answer_type (g : plan) (t : ctype) : Prop :=
  match g_agg g with
  | ACount | ACountDistinct | ABounded BSum _ _ _ =>
      match g_mech g with CGeometric | CDiscreteGaussian => t = INTEGER | _ => t = DECIMAL end
  | AQuantile _ _ _ _ | ABounded _ _ _ _ => t = DECIMAL
  | ABounds me => exists d, dget me (v_dom (g_table g)) = Some d /\ core_type d = Some t
  end.
Record answers_as_typed (K : core) : Prop := {
  at_select : forall b t r, In r (k_select K b t) -> In r t;
  at_answer : forall g key rows t, answer_type g t ->
    Forall2 (fun _ v => cell_ok (never_special t) v = true) (g_outs g) (k_answer K g key rows)
}.
(** A KeySet has the columns and types it declares (C63). *)
Definition keys_as_declared (k : gkeys) : Prop :=
  match k with KSet cols rows => NoDup (dkeys cols) /\ conforms cols rows | KCols _ => True end.
(** It allows nothing in a column that the table does not allow. *)
Definition allows (d d' : coldesc) : Prop :=
  (cd_null d' = true -> cd_null d = true) /\ (cd_nan d' = true -> cd_nan d = true) /\ (cd_inf d' = true -> cd_inf d = true).
Definition keys_allowed (k : gkeys) (s : schema) : Prop :=
  match k with
  | KSet cols _ => forall c d d', dget c cols = Some d -> dget c (sc_cols s) = Some d' -> allows d' d
  | KCols _ => True
  end.

(** ** Proofs *)
Lemma fold_functional {V} (F : string -> option V) l : forall d k, (forall n v, In (n, v) l -> F n = Some v) ->
  dget k (fold_left (fun d p => dset (fst p) (snd p) d) l d) = if smem k (map fst l) then F k else dget k d.
Proof.
  induction l as [|(a & v) l IH]; intros d k H; [reflexivity|]. cbn [fold_left fst snd map].
  rewrite IH by (intros n w I; apply H; right; exact I). unfold smem. cbn [existsb]. fold (smem k (map fst l)).
  rewrite dget_dset, String.eqb_sym. destruct (smem k (map fst l)); [rewrite orb_true_r; reflexivity|].
  rewrite orb_false_r. destruct (String.eqb k a) eqn:E; [|reflexivity]. apply String.eqb_eq in E as ->.
  symmetry. apply H. left. reflexivity.
Qed.
Lemma dict_of_functional {V} (F : string -> option V) l k : (forall n v, In (n, v) l -> F n = Some v) ->
  dget k (dict_of l) = if smem k (map fst l) then F k else None.
Proof. intros H. exact (fold_functional F l [] k H). Qed.
Lemma in_dkeys_dict_of {V} (l : list (string * V)) k : In k (dkeys (dict_of l)) <-> In k (map fst l).
Proof.
  unfold dict_of. assert (H : forall d : dict V, In k (dkeys (fold_left (fun d p => dset (fst p) (snd p) d) l d)) <-> In k (dkeys d) \/ In k (map fst l)).
  { induction l as [|(a & v) l IH]; intros d; cbn [fold_left map fst snd]; [cbn [In]; tauto|]. rewrite IH, dkeys_dset. cbn [In].
    destruct (smem a (dkeys d)) eqn:E; [apply smem_In in E; intuition (subst; auto)|]. rewrite in_app_iff. cbn [In]. tauto. }
  rewrite H. cbn [dkeys map In]. tauto.
Qed.
Lemma in_dkeys_some {V} k (v : V) d : dget k d = Some v -> In k (dkeys d).
Proof. intros H. apply in_dkeys. eauto. Qed.
Lemma pick_spec d cols p : pick d cols = Ok p ->
  (forall n, dget n p = if smem n cols then dget n d else None)
  /\ (forall n, In n cols -> exists x, dget n d = Some x) /\ (NoDup cols -> dkeys p = cols).
Proof.
  unfold pick. intros H. apply bind_ok in H as (l & M & H). injection H as <-. apply mapM_keyed in M as (K & E).
  assert (F : forall n v, In (n, v) l -> dget n d = Some v).
  { intros n v I. specialize (E n v I). unfold lookup_col in E. destruct (dget n d); [congruence|discriminate]. }
  split; [|split].
  - intros n. rewrite (dict_of_functional (fun n => dget n d) l n F). fold (dkeys l). rewrite K. reflexivity.
  - intros n I. rewrite <- K in I. apply in_dkeys in I as (x & X). exists x. apply F, dget_In, X.
  - intros N. rewrite dict_of_NoDup; [exact K|]. fold (dkeys l). rewrite K. exact N.
Qed.
Lemma pick_total d cols : (forall n, In n cols -> In n (dkeys d)) -> exists p, pick d cols = Ok p.
Proof.
  intros H. unfold pick. destruct (mapM_keyed_ok (lookup_col d) cols) as (l & ->); [|eexists; reflexivity].
  intros c I. apply H, in_dkeys in I as (x & X). exists x. unfold lookup_col. rewrite X. reflexivity.
Qed.

Lemma map_fst_typed (outs : list (string * ctype)) : map fst (map (fun p => (fst p, plain (snd p))) outs) = map fst outs.
Proof. rewrite map_map. reflexivity. Qed.
Lemma typed_one (outs : list (string * ctype)) t : (forall p, In p outs -> snd p = t) ->
  forall k, dget k (dict_of (map (fun p => (fst p, plain (snd p))) outs)) = if smem k (map fst outs) then Some (never_special t) else None.
Proof.
  intros T k. rewrite (dict_of_functional (fun _ => Some (never_special t))).
  - rewrite map_fst_typed. reflexivity.
  - intros n v I. apply in_map_iff in I as (p & [= <- <-] & I). rewrite (T p I). reflexivity.
Qed.
Lemma schema_for_spec k outs t s s' : (forall p, In p outs -> snd p = t) -> schema_for_groupby k outs s = Ok s' ->
  sc_group s' = None /\ sc_id s' = None
  /\ (forall n, dget n (sc_cols s') = if smem n (map fst outs) then Some (never_special t) else if smem n (keys_columns k) then dget n (sc_cols s) else None)
  /\ (NoDup (keys_columns k ++ map fst outs)%list -> dkeys (sc_cols s') = (keys_columns k ++ map fst outs)%list).
Proof.
  intros T H. unfold schema_for_groupby in H. apply bind_ok in H as (d & P & H). apply mk_schema_ok in H as (_ & _ & _ & ->).
  cbn [sc_group sc_id sc_cols]. destruct (pick_spec _ _ _ P) as (A & _ & B). split; [reflexivity|]. split; [reflexivity|]. split.
  - intros n. rewrite dget_merge by apply NoDup_dict_of. rewrite (typed_one outs t T), A. destruct (smem n (map fst outs)); reflexivity.
  - intros N. rewrite dkeys_merge by apply NoDup_dict_of.
    assert (N1 : NoDup (keys_columns k)) by (clear -N; induction (keys_columns k) as [|x l IH]; [constructor|]; inversion N; subst; constructor; [intros I; apply H1, in_or_app; left; exact I|apply IH; assumption]).
    assert (N2 : NoDup (map fst outs)) by (clear -N; induction (keys_columns k) as [|x l IH]; [exact N|]; inversion N; subst; apply IH; assumption).
    rewrite (B N1), dict_of_NoDup by (rewrite map_fst_typed; exact N2). unfold dkeys at 1. rewrite map_fst_typed. f_equal.
    assert (D : forall x, In x (map fst outs) -> ~ In x (keys_columns k)).
    { clear -N. induction (keys_columns k) as [|y l IH]; [intros x _ []|]. inversion N; subst. intros x I [->|J]; [apply H1, in_or_app; right; exact I|exact (IH H2 x I J)]. }
    clear -D. induction (map fst outs) as [|x l IH]; [reflexivity|]. cbn [filter].
    destruct (smem x (keys_columns k)) eqn:E; [apply smem_In in E; exfalso; apply (D x); [left; reflexivity|exact E]|]. cbn [negb]. f_equal.
    apply IH. intros y I. apply D. right. exact I.
Qed.

Section Answers.
Variable cond_ok : string -> list sfield -> bool.
Variable cat : catalog.
Notation sch := (schema_of cond_ok cat).

(** One form for all grouped aggregations. *)
Lemma grouped_schema q c k : grouped_by q = Some (c, k) ->
  exists m outs, (forall s, sch c = Ok s -> sch q = groupby_schema k m outs s) /\ (forall t, map fst (outs t) = output_names q)
    /\ (m = None <-> measure_of q = None) /\ (forall me, m = Some me -> measure_of q = Some (c, me))
    /\ (forall s t, validate_groupby k m s = Ok tt -> t = match m with
           | Some m => match dget m (sc_cols s) with Some d => cd_type d | None => INTEGER end
           | None => INTEGER end -> exists u, output_type_is s q u /\ (forall p, In p (outs t) -> snd p = u)).
Proof.
  intros G. destruct q; cbn [grouped_by] in G; try discriminate G; injection G as -> ->; cbn [schema_of output_names measure_of output_type_is].
  - eexists (Some _), _. split; [intros s ->; reflexivity|]. split; [reflexivity|]. split; [split; discriminate|]. split; [intros ? [= ->]; reflexivity|].
    intros s t V E. apply validate_accepts in V as (_ & _ & V). destruct (V _ eq_refl) as (_ & _ & V').
    exists t. split; [|intros p [<-|[<-|[]]]; reflexivity]. rewrite E. destruct V' as [(d & D & _)|(d & D & _)]; rewrite D; exists d; auto.
  - eexists None, _. split; [intros s ->; reflexivity|]. split; [reflexivity|]. split; [split; reflexivity|]. split; [intros ? [=]|].
    intros s t V E. exists INTEGER. split; [reflexivity|intros p [<-|[]]; reflexivity].
  - eexists None, _. split; [intros s ->; reflexivity|]. split; [reflexivity|]. split; [split; reflexivity|]. split; [intros ? [=]|].
    intros s t V E. exists INTEGER. split; [reflexivity|intros p [<-|[]]; reflexivity].
  - eexists (Some _), _. split; [intros s ->; reflexivity|]. split; [reflexivity|]. split; [split; discriminate|]. split; [intros ? [= ->]; reflexivity|].
    intros s t V E. exists DECIMAL. split; [reflexivity|intros p [<-|[]]; reflexivity].
  - eexists (Some _), _. split; [intros s ->; reflexivity|]. split; [reflexivity|]. split; [split; discriminate|]. split; [intros ? [= ->]; reflexivity|].
    intros s t V E. apply validate_accepts in V as (_ & _ & V). destruct (V _ eq_refl) as (_ & _ & V').
    destruct kind; [exists t|exists DECIMAL..]; (split; [|intros p [<-|[]]; reflexivity]); try reflexivity.
    rewrite E. destruct V' as [(d & D & _)|(d & D & _)]; rewrite D; exists d; auto.
Qed.
Lemma grouped_child q c k s' : grouped_by q = Some (c, k) -> sch q = Ok s' -> exists s, sch c = Ok s.
Proof.
  intros G H. destruct q; cbn [grouped_by] in G; try discriminate G; injection G as -> ->; cbn [schema_of] in H; apply bind_ok in H as (s & S & _); eauto.
Qed.
Lemma announced q c k s' : grouped_by q = Some (c, k) -> sch q = Ok s' ->
  exists s t, sch c = Ok s /\ output_type_is s q t /\ sc_group s' = None /\ sc_id s' = None
    /\ (forall n, In n (output_names q) -> dget n (sc_cols s') = Some (never_special t))
    /\ (forall n, In n (keys_columns k) -> ~ In n (output_names q) -> dget n (sc_cols s') = dget n (sc_cols s) /\ has_column s n)
    /\ (forall n, ~ In n (keys_columns k) -> ~ In n (output_names q) -> dget n (sc_cols s') = None)
    /\ (NoDup (keys_columns k ++ output_names q)%list -> dkeys (sc_cols s') = (keys_columns k ++ output_names q)%list).
Proof.
  intros G H. destruct (grouped_child q c k s' G H) as (s & S). destruct (grouped_schema q c k G) as (m & outs & E & O & _ & _ & T).
  rewrite (E s S) in H. unfold groupby_schema in H. apply bind_ok in H as ([] & V & H).
  destruct (T s _ V eq_refl) as (u & U & A). set (ty := match m with Some m => _ | None => _ end) in *.
  destruct (schema_for_spec _ _ u _ _ A H) as (B1 & B2 & B3 & B4). rewrite O in B3, B4.
  exists s, u. split; [exact S|]. split; [exact U|]. split; [exact B1|]. split; [exact B2|]. split; [|split; [|split; [|exact B4]]].
  - intros n I. rewrite B3. apply smem_In in I. rewrite I. reflexivity.
  - intros n I N. rewrite B3. apply smem_In in I. apply smem_false in N. rewrite I, N. split; [reflexivity|].
    unfold schema_for_groupby in H. apply bind_ok in H as (d & P & _). apply has_column_iff. apply (pick_spec _ _ _ P), smem_In, I.
  - intros n I N. rewrite B3. apply smem_false in I. apply smem_false in N. rewrite I, N. reflexivity.
Qed.
Lemma accepted_iff q c k s : catalog_made cat -> grouped_by q = Some (c, k) -> sch c = Ok s ->
  (exists s', sch q = Ok s') <->
  key_types_agree k s /\ (forall g, sc_group s = Some g -> In g (keys_columns k))
  /\ (forall me, measure_of q = Some (c, me) -> ~ In me (keys_columns k) /\ sc_id s <> Some me /\ (column_type s me INTEGER \/ column_type s me DECIMAL))
  /\ ~ In "" (output_names q).
Proof.
  intros CAT G S. destruct (grouped_schema q c k G) as (m & outs & E & O & M1 & M2 & T). rewrite (E s S). unfold groupby_schema.
  assert (MM : forall me, m = Some me <-> measure_of q = Some (c, me)).
  { intros me. split; [apply M2|]. intros X. destruct m as [me'|]; [|rewrite (proj1 M1 eq_refl) in X; discriminate].
    rewrite (M2 _ eq_refl) in X. congruence. }
  set (ty := match m with Some m => _ | None => _ end). assert (VA := validate_accepts k m s).
  assert (NM : forall d, In "" (dkeys (merge d (dict_of (map (fun p => (fst p, plain (snd p))) (outs ty))))) <-> In "" (dkeys d) \/ In "" (output_names q)).
  { intros d. rewrite dkeys_merge by apply NoDup_dict_of. rewrite in_app_iff, filter_In, in_dkeys_dict_of, map_fst_typed, O, negb_true_iff, smem_false.
    destruct (in_dec string_dec "" (dkeys d)); tauto. }
  split.
  - intros (s' & H). apply bind_ok in H as ([] & V & H). apply VA in V as (A & B & C). split; [exact A|]. split; [exact B|].
    split; [intros me X; apply C, MM, X|]. unfold schema_for_groupby in H. apply bind_ok in H as (d & P & H). apply mk_schema_ok in H as (N & _).
    intros I. apply N, NM. right. exact I.
  - intros (A & B & C & D). assert (V : validate_groupby k m s = Ok tt) by (apply VA; split; [exact A|]; split; [exact B|]; intros me X; apply C, MM, X).
    rewrite V. cbn [bind]. unfold schema_for_groupby.
    assert (HC : forall n, In n (keys_columns k) -> has_column s n).
    { intros n I. destruct k as [cols rows|l]; cbn [keys_columns key_types_agree] in *; [|apply A, I].
      apply in_dkeys in I as (x & X). apply dget_In in X. eapply column_type_has, A, X. }
    destruct (pick_total (sc_cols s) (keys_columns k) HC) as (p & P). rewrite P. cbn [bind].
    eexists. apply mk_schema_ok. split; [|split; [discriminate|split; [discriminate|reflexivity]]].
    rewrite NM. intros [I|I]; [|exact (D I)].
    destruct (pick_spec _ _ _ P) as (PA & _ & _). apply in_dkeys in I as (x & X). rewrite PA in X. destruct (smem "" (keys_columns k)) eqn:SM; [|discriminate].
    destruct (made_facts s (sch_made cond_ok cat CAT c s S)) as (N & _). apply N, HC, smem_In, SM.
Qed.
End Answers.

Section Run.
Variable R : rounding.
Variable W : world.
Variable K : core.
Variable auto : bool.
Variable so : list string -> list string.
Variable mu : measure.
Variable cat : catalog.
Variable data : dict vtab.
Hypothesis MADE : catalog_made cat.
Notation sch := (schema_of (w_cond_ok W) cat).
Notation mq := (measure_query R W K auto so mu cat data).
Notation cmp := (compile R W K auto so mu cat data).
Notation BT l2 := (build_transformation W l2 cat data).

Lemma enforce_all_incl gr l : forall x y, enforce_all (w_row_order W) (w_key_order W) mu gr l x = Ok y -> incl (t_rows y) (t_rows x).
Proof.
  induction l as [|c l IH]; cbn [enforce_all]; intros x y H; [injection H as <-; apply incl_refl|].
  apply bind_ok in H as (z & Z & H). apply IH in H. apply enforce_ok in Z as (idc & E & _).
  intros r I. apply H in I. rewrite E in I. eapply sub_table_In; [apply enforce_rows_sub|exact I].
Qed.
Lemma truncated_incl gr t cs t' : truncated W so mu gr (t, cs) = Ok t' -> incl (v_rows t') (v_rows t) /\ v_dom t' = v_dom t.
Proof.
  unfold truncated. cbn [fst snd]. intros H. apply bind_ok in H as (y & Y & H). injection H as <-. cbn [v_rows v_dom]. split; [|reflexivity].
  unfold truncate_table in Y. cbn [t_place] in Y.
  destruct (v_place t); try (injection Y as <-; apply incl_refl).
  destruct (choose_trunc _ _ _ _) as [tr|]; [|discriminate]. apply enforce_all_incl in Y. exact Y.
Qed.

Lemma count_plan b c k o m x r adj : visit_count R W K so mu cat data b c k o m (Some x) = Ok (r, adj) ->
  exists g t cs, r = MGroupBy adj g /\ g_keys g = k /\ g_outs g = [o] /\ g_agg g = ACount /\ g_mech g = x
    /\ BT (gaussian x) c = Ok (t, cs) /\ incl (v_rows (g_table g)) (v_rows t) /\ v_dom (g_table g) = v_dom t.
Proof.
  unfold visit_count. intros H. apply bind_ok in H as (bs & _ & H). apply bind_ok in H as (cm & CM & H). injection CM as <-.
  apply bind_ok in H as ((t & cs) & T & H). apply bind_ok in H as (t1 & T1 & H).
  apply finish_inv in H as (kb & qb & -> & -> & _). apply truncated_incl in T1 as (A & B).
  eexists _, t, cs. cbn [g_keys g_outs g_agg g_mech g_table]. repeat (split; [reflexivity|]). split; [exact T|]. split; [exact A|exact B].
Qed.

Lemma plan_made b q c k m adj : mq b q = Ok (m, adj) -> grouped_by q = Some (c, k) -> right_mechanism (w_cond_ok W) mu cat q ->
  exists g t cs, m = MGroupBy adj g /\ g_keys g = k /\ g_outs g = output_names q /\ BT (query_l2 mu q) c = Ok (t, cs)
    /\ (forall l, k = KCols l -> incl (v_rows (g_table g)) (v_rows t) /\ v_dom (g_table g) = v_dom t)
    /\ (forall s, sch c = Ok s -> same_entries (v_dom t) (analytics_to_core s) ->
          forall ty, output_type_is s q ty -> (forall me, measure_of q = Some (c, me) -> column_type s me INTEGER \/ column_type s me DECIMAL) ->
          answer_type g ty).
Proof.
  intros H G RM. destruct q; cbn [grouped_by] in G; try discriminate G; injection G as -> ->; cbn [measure_query] in H; cbn [output_names query_l2].
  - unfold visit_bounds in H. apply bind_ok in H as (bs & _ & H). apply bind_ok in H as ((t & cs) & T & H). apply bind_ok in H as (t1 & T1 & H).
    apply finish_inv in H as (kb & qb & -> & -> & _). apply truncated_incl in T1 as (A & B).
    eexists _, t, cs. cbn [g_keys g_outs g_table unwrap v_rows v_dom]. split; [reflexivity|]. split; [reflexivity|]. split; [reflexivity|].
    split; [exact T|]. split; [intros l _; split; assumption|]. intros s S SE ty (d & D & TD) ME. unfold answer_type. cbn [g_agg g_table unwrap v_dom].
    exists (to_core d). rewrite B, SE, analytics_to_core_cols, dget_core_cols, D. split; [reflexivity|].
    destruct (ME _ eq_refl) as [(d' & D' & X)|(d' & D' & X)]; rewrite D in D'; injection D' as <-; unfold to_core; rewrite X; cbn [core_type]; congruence.
  - destruct RM as (x & -> & RN). apply count_plan in H as (g & t & cs & -> & GK & GO & GA & GM & T & A & B).
    rewrite (right_gaussian _ _ _ _ RN) in T. exists g, t, cs. repeat (split; [first [reflexivity|assumption]|]). split; [auto|].
    intros s S SE ty TY _. unfold answer_type. rewrite GA, GM. cbn [output_type_is] in TY. subst ty.
    destruct RN as (I & _). destruct (proj2 I Logic.I) as [-> | ->]; reflexivity.
  - destruct RM as (x & -> & RN). unfold visit_count_distinct in H. apply bind_ok in H as (bs & _ & H). apply bind_ok in H as (cm & CM & H). injection CM as <-.
    apply bind_ok in H as ((t & cs) & T & H). apply bind_ok in H as (s & S & H). cbn [snd] in H. unfold child_table in T.
    assert (T' := T). rewrite (right_gaussian _ _ _ _ RN) in T'.
    assert (MX : forall ty, ty = INTEGER -> match x with CGeometric | CDiscreteGaussian => ty = INTEGER | _ => ty = DECIMAL end)
      by (intros ty ->; destruct RN as (I & _); destruct (proj2 I Logic.I) as [-> | ->]; reflexivity).
    destruct (constrained_child c k columns s cs) as [c'|] eqn:CC.
    + apply bind_ok in H as (q1 & _ & H). apply count_plan in H as (g & t' & cs' & -> & GK & GO & GA & GM & T2 & A & B).
      exists g, t, cs. repeat (split; [first [reflexivity|assumption]|]). split; [|intros s' S' SE ty TY _; unfold answer_type; rewrite GA, GM; apply MX, TY].
      intros l _. unfold constrained_child in CC. destruct (sc_id s) as [i|] eqn:SI; [|discriminate].
      destruct (counts_only columns s i) eqn:CO; [|discriminate].
      assert (exists con, c' = EnforceConstraint c con) as (con & ->)
        by (destruct (keys_columns k) as [|g0 [|]]; [|destruct (existsb _ _)|]; try discriminate; injection CC as <-; eexists; reflexivity).
      destruct (enforce_child _ _ _ _ _ _ _ _ _ _ T T2) as (i' & P1 & P2 & D & RW & _). rewrite B, D. split; [|reflexivity].
      intros r I. apply A in I. rewrite RW in I. eapply sub_table_In; [apply enforce_rows_sub|exact I].
    + apply bind_ok in H as (t1 & TR & H). apply bind_ok in H as (t2 & CO & H). apply finish_inv in H as (kb & qb & -> & -> & _).
      apply truncated_incl in TR as (A & B). eexists _, t, cs. cbn [g_keys g_outs g_table].
      repeat (split; [first [reflexivity|assumption]|]). split; [|intros s' S' SE ty TY _; unfold answer_type; cbn [g_agg g_mech]; apply MX, TY].
      intros l ->. unfold counted_columns in CO. destruct columns; [|discriminate]. injection CO as <-. split; assumption.
  - unfold visit_quantile in H. apply bind_ok in H as (bs & _ & H). apply bind_ok in H as ((t & cs) & T & H). apply bind_ok in H as (t1 & T1 & H).
    apply finish_inv in H as (kb & qb & -> & -> & _). apply truncated_incl in T1 as (A & B).
    eexists _, t, cs. cbn [g_keys g_outs g_table]. split; [reflexivity|]. split; [reflexivity|]. split; [reflexivity|].
    split; [unfold child_table in T; rewrite <- T; destruct mu; reflexivity|]. split; [auto|]. intros s S SE ty TY _. exact TY.
  - destruct RM as (x & s0 & d & -> & S0 & D & RN). unfold visit_bounded in H. apply bind_ok in H as (bs & _ & H). apply bind_ok in H as (cm & CM & H). injection CM as <-.
    apply bind_ok in H as ((t & cs) & T & H). apply bind_ok in H as (t1 & T1 & H).
    apply finish_inv in H as (kb & qb & -> & -> & _). apply truncated_incl in T1 as (A & B).
    unfold child_table in T. rewrite (right_gaussian _ _ _ _ RN) in T.
    eexists _, t, cs. cbn [g_keys g_outs g_table]. split; [reflexivity|]. split; [reflexivity|]. split; [reflexivity|].
    split; [exact T|]. split; [auto|]. intros s S SE ty TY ME. rewrite S0 in S. injection S as <-. unfold answer_type. cbn [g_agg g_mech].
    destruct kind; try exact TY. destruct TY as (d' & D' & TY). rewrite D in D'. injection D' as <-. destruct RN as (I & _). unfold integer_noise in I.
    assert (cd_type d = INTEGER \/ cd_type d = DECIMAL) as [X|X]
      by (destruct (ME _ eq_refl) as [(d' & D' & X)|(d' & D' & X)]; rewrite D in D'; injection D' as <-; auto); rewrite X in *.
    + destruct (proj2 I eq_refl) as [-> | ->]; symmetry; exact TY.
    + destruct x; try (symmetry; exact TY); exfalso; discriminate (proj1 I ltac:(auto)).
Qed.

(** Rewriting does not change keys and names. *)
Lemma rewritten_grouped q q' c k : rewritten (w_cond_ok W) cat q q' -> grouped_by q = Some (c, k) ->
  exists c', grouped_by q' = Some (c', k) /\ output_names q' = output_names q
    /\ (is_table c' -> c' = c \/ exists me bo, cleaned (w_cond_ok W) cat me bo c c').
Proof.
  intros H G. destruct H; cbn [grouped_by] in G; try discriminate G; injection G as <- <-; eexists; (split; [reflexivity|]; split; [reflexivity|]);
    intros T; try (left; symmetry; eapply rewritten_to_table; eassumption).
  all: right; match goal with X : cleaned _ _ _ _ _ _ |- _ => pose proof (cleaned_table W cat _ _ _ _ X T) as T1; rewrite (rewritten_to_table _ _ _ _ H T1); eauto end.
Qed.
Lemma cleaned_promises l2 m bo c c' : cleaned (w_cond_ok W) cat m bo c c' -> promises W l2 cat data c -> promises W l2 cat data c'.
Proof.
  intros (s & d & c1 & _ & _ & A & B) P.
  assert (P1 : promises W l2 cat data c1) by (destruct A as [(_ & ->)|(_ & ->)]; exact P).
  destruct B as [(_ & ->)|(_ & ->)]; [|exact P1]. unfold without_infinities. destruct bo as [(lo & hi)|]; cbn [promises]; [|exact P1].
  split; [exact P1|]. repeat constructor. intros [].
Qed.

Lemma cell_allowed d d' v : cd_type d' = cd_type d -> allows d' d -> cell_ok d v = true -> cell_ok d' v = true.
Proof.
  intros T (A & B & C). unfold cell_ok. rewrite T. destruct v as [| |[]| | |], (cd_type d); auto.
Qed.
Lemma combine_keys (l : list string) (vs : list value) (P : string -> value -> Prop) : Forall2 P l vs -> dkeys (combine l vs) = l.
Proof. induction 1; [reflexivity|]. cbn [combine dkeys map fst]. f_equal. assumption. Qed.
Lemma combine_get (l : list string) (vs : list value) (P : value -> Prop) : Forall2 (fun _ => P) l vs -> forall n, In n l -> exists v, dget n (combine l vs) = Some v /\ P v.
Proof.
  induction 1 as [|x v l vs H F IH]; [intros n []|]. intros n I. cbn [combine dget]. destruct (String.eqb_spec n x) as [->|N]; [eauto|].
  destruct I as [->|I]; [congruence|apply IH, I].
Qed.
Lemma NoDup_parts {A} (l l' : list A) : NoDup (l ++ l') -> NoDup l /\ NoDup l' /\ forall x, In x l -> In x l' -> False.
Proof.
  induction l as [|x l IH]; cbn [app]; intros N; [split; [constructor|]; split; [exact N|intros ? []]|].
  inversion N; subst. destruct (IH H2) as (A1 & A2 & A3). split; [constructor; [intros I; apply H1, in_or_app; auto|exact A1]|]. split; [exact A2|].
  intros y [->|I] J; [apply H1, in_or_app; auto|exact (A3 y I J)].
Qed.
Lemma NoDup_joined {A} (l l' : list A) : NoDup l -> NoDup l' -> (forall x, In x l -> In x l' -> False) -> NoDup (l ++ l').
Proof.
  induction 1 as [|x l N D IH]; cbn [app]; intros N' S; [exact N'|]. constructor.
  - intros I. apply in_app_or in I as [I|I]; [exact (N I)|exact (S x (or_introl eq_refl) I)].
  - apply IH; [exact N'|]. intros y I. apply S. right. exact I.
Qed.

(** One row of the answer: the key, then the values. *)
Lemma row_of_answer (cols : dict coldesc) keys outs t key vs :
  NoDup (keys ++ outs)%list -> (forall n, In n (dkeys cols) <-> In n (keys ++ outs)%list) ->
  (forall n, In n outs -> dget n cols = Some (never_special t)) ->
  NoDup (dkeys key) -> (forall n, In n (dkeys key) <-> In n keys) ->
  (forall n d, In n keys -> dget n cols = Some d -> cell_ok d (getv n key) = true) ->
  Forall2 (fun _ v => cell_ok (never_special t) v = true) outs vs ->
  row_conforms cols (key ++ combine outs vs)%list.
Proof.
  intros N C O NK KK KC F. destruct (NoDup_parts _ _ N) as (N1 & N2 & D).
  assert (EK : dkeys (key ++ combine outs vs)%list = (dkeys key ++ outs)%list).
  { unfold dkeys. rewrite map_app. f_equal. apply (combine_keys _ _ _ F). }
  split; [|split].
  - rewrite EK. apply NoDup_joined; [exact NK|exact N2|]. intros x I. apply KK in I. apply D, I.
  - intros n. rewrite EK, C, !in_app_iff, KK. reflexivity.
  - intros n d E. unfold getv. rewrite dget_app. destruct (in_dec string_dec n keys) as [I|I].
    + destruct (proj1 (in_dkeys n key) (proj2 (KK n) I)) as (v & V). rewrite V. rewrite <- (getv_dget _ _ _ V). apply KC; assumption.
    + assert (X : dget n key = None) by (apply dget_None; intros J; apply I, KK, J). rewrite X.
      assert (J : In n outs) by (apply in_dkeys_some in E; apply C, in_app_or in E as [J|J]; [contradiction|exact J]).
      destruct (combine_get outs vs _ F n J) as (v & -> & V). rewrite (O n J) in E. injection E as <-. exact V.
Qed.

(** The answer has the announced columns: any aggregation by groups. *)
Lemma grouped_answer b q c k s sc m t : built auto q -> grouped_by q = Some (c, k) ->
  inputs_ok (query_l2 mu q) cat data -> promises W (query_l2 mu q) cat data c -> answers_as_typed K ->
  keys_as_declared k -> sch c = Ok sc -> keys_allowed k sc -> NoDup (keys_columns k ++ output_names q)%list ->
  sch q = Ok s -> cmp b q = Ok m -> run_measurement R K m = Ok t ->
  conforms (sc_cols s) t
  /\ (match k with KSet _ rows => forall r, In r rows -> dkeys r = keys_columns k | KCols _ => True end -> forall r, In r t -> dkeys r = dkeys (sc_cols s)).
Proof.
  intros B G IN PR KT KD SC KA ND S C RUN. apply compile_inv in C as (s' & q' & adj & S' & RW & M). rewrite S in S'. injection S' as <-.
  destruct (rewrite_ok auto (w_cond_ok W) mu cat MADE _ _ _ B S RW) as (B' & S1 & RR & _ & RM).
  destruct (rewritten_grouped q q' c k RR G) as (c' & G' & ON & TB).
  assert (RM' : right_mechanism (w_cond_ok W) mu cat q') by (inversion RM; assumption).
  destruct (plan_made b q' c' k m adj M G' RM') as (g & t0 & cs & -> & GK & GO & T & INC & AT). rewrite (rewritten_l2 W mu cat _ _ RR) in T.
  assert (PR' : promises W (query_l2 mu q) cat data c').
  { assert (IT : is_table c') by (apply build_transformation_ok in T as (? & _ & V & _); exact (visit_is_table _ _ _ _ _ _ V)).
    destruct (TB IT) as [->|(me & bo & CL)]; [exact PR|exact (cleaned_promises _ _ _ _ _ CL PR)]. }
  assert (BC : built auto c').
  { eapply built_child; [exact B'|]. destruct q'; cbn [grouped_by] in G'; try discriminate G'; injection G' as -> ->; left; reflexivity. }
  destruct (announced (w_cond_ok W) cat q' c' k s G' S1) as (sc' & ty & SC' & TY & _ & _ & OUT & KEY & REST & ORD). rewrite ON in *.
  destruct (announced (w_cond_ok W) cat q c k s G S) as (sc2 & ty2 & SC2 & _ & _ & _ & _ & KEY2 & _ & _). rewrite SC in SC2. injection SC2 as <-.
  destruct (built_conforms W _ cat data IN auto c' sc' t0 cs BC PR' SC' T) as (_ & CF & _ & SE).
  assert (ME : forall me, measure_of q' = Some (c', me) -> column_type sc' me INTEGER \/ column_type sc' me DECIMAL).
  { destruct (accepted_iff (w_cond_ok W) cat q' c' k sc' MADE G' SC') as (X & _). destruct (X (ex_intro _ s S1)) as (_ & _ & X3 & _). intros me E. apply (X3 me E). }
  specialize (AT sc' SC' SE ty TY ME).
  destruct (NoDup_parts _ _ ND) as (N1 & N2 & DIS). specialize (ORD ND).
  cbn [run_measurement] in RUN. unfold run_plan in RUN. apply bind_ok in RUN as (keys & FK & RUN).
  apply bind_ok in RUN as (? & _ & RUN). apply bind_ok in RUN as (? & _ & RUN). injection RUN as <-.
  assert (KEYS : forall key, In key keys -> NoDup (dkeys key) /\ (forall n, In n (dkeys key) <-> In n (keys_columns k))
            /\ (forall n d, In n (keys_columns k) -> dget n (sc_cols s) = Some d -> cell_ok d (getv n key) = true)
            /\ (match k with KSet _ rows => forall r, In r rows -> dkeys r = keys_columns k | KCols _ => True end -> dkeys key = keys_columns k)).
  { unfold find_keys in FK. rewrite GK in FK. destruct k as [cols rows|l]; cbn [keys_columns] in *.
    - apply bind_ok in FK as (? & _ & FK). injection FK as <-. destruct KD as (KN & KC).
      intros key I. destruct (dkeys cols) as [|c0 cl] eqn:DC.
      + destruct I as [<-|[]]. split; [constructor|]. split; [intros n; reflexivity|]. split; [intros n d []|reflexivity].
      + destruct (KC key I) as (K1 & K2 & K3). split; [exact K1|]. split; [intros n; rewrite K2, DC; reflexivity|]. split; [|intros X; apply X, I].
        intros n d J E. rewrite <- DC in J. apply in_dkeys in J as (dk & DK).
        assert (JJ : In n (c0 :: cl)) by (rewrite <- DC; apply in_dkeys; eauto).
        destruct (KEY2 n JJ (fun X => DIS n JJ X)) as (E2 & _). rewrite E in E2. symmetry in E2.
        apply (cell_allowed dk d); [|apply (KA n dk d DK E2)|apply (K3 n dk DK)].
        destruct (accepted_iff (w_cond_ok W) cat q c (KSet cols rows) sc MADE G SC) as (X & _). destruct (X (ex_intro _ s S)) as (KTA & _).
        destruct (KTA n dk (dget_In _ _ _ DK)) as (d2 & D2 & TT). congruence.
    - destruct (INC l eq_refl) as (I1 & I2). destruct (g_keys_budget g) as [|e0 d0|] eqn:KB; try discriminate FK. 
      apply bind_ok in FK as (? & _ & FK). apply bind_ok in FK as ((y & ycs) & Y & FK). apply bind_ok in FK as (? & _ & FK). injection FK as <-. cbn [fst].
      apply select_cols in Y as (Y & _). intros key I. apply (at_select K KT) in I. rewrite Y in I. apply in_map_iff in I as (r & <- & I).
      rewrite dkeys_select. split; [exact N1|]. split; [intros n; reflexivity|]. split; [|reflexivity].
      intros n d J E. rewrite getv_select by exact J. destruct (KEY n J (fun X => DIS n J X)) as (E2 & _). rewrite E in E2. symmetry in E2.
      destruct (CF r (I1 r I)) as (_ & _ & CC). apply (CC n d E2). }
  split.
  - intros r I. apply in_map_iff in I as (key & <- & I). destruct (KEYS key I) as (K1 & K2 & K3 & _). rewrite GO, GK.
    eapply (row_of_answer (sc_cols s) (keys_columns k) (output_names q) ty); try assumption.
    + intros n. rewrite ORD. reflexivity.
    + rewrite <- GO. apply (at_answer K KT), AT.
  - intros KO r I. apply in_map_iff in I as (key & <- & I). destruct (KEYS key I) as (_ & _ & _ & K4). rewrite ORD.
    unfold dkeys at 1. rewrite map_app. fold (dkeys key). rewrite (K4 KO). f_equal. rewrite GO, <- GO.
    apply (combine_keys _ _ _ (at_answer K KT g key _ ty AT)).
Qed.

(** And for groups. *)
Lemma groups_schema c cols s : sch (GetGroups c cols) = Ok s ->
  exists sc, sch c = Ok sc /\ sc_group s = None /\ sc_id s = None
    /\ (cols = [] -> (forall n, dget n (sc_cols s) = if is_col (sc_id sc) n then None else dget n (sc_cols sc))
          /\ dkeys (sc_cols s) = filter (fun n => negb (is_col (sc_id sc) n)) (dkeys (sc_cols sc)))
    /\ (cols <> [] -> (forall n, dget n (sc_cols s) = if smem n cols then dget n (sc_cols sc) else None)
          /\ (forall n, In n cols -> has_column sc n) /\ (NoDup cols -> dkeys (sc_cols s) = cols)).
Proof.
  cbn [schema_of]. intros H. apply bind_ok in H as (sc & SC & H). exists sc. split; [exact SC|]. unfold get_groups_schema in H. destruct cols as [|c0 cols].
  - apply mk_schema_ok in H as (_ & _ & _ & ->). cbn [sc_group sc_id sc_cols]. split; [reflexivity|]. split; [reflexivity|]. split; [|congruence]. intros _. split.
    + intros n. induction (sc_cols sc) as [|(x & d) l IH]; cbn [filter dget fst]; [destruct (is_col _ n); reflexivity|].
      destruct (is_col (sc_id sc) x) eqn:E; cbn [negb dget fst]; rewrite IH; destruct (String.eqb_spec n x) as [->|N]; rewrite ?E; reflexivity.
    + unfold dkeys. induction (sc_cols sc) as [|(x & d) l IH]; [reflexivity|]. cbn [filter map fst]. destruct (is_col (sc_id sc) x); cbn [negb map fst]; congruence.
  - apply bind_ok in H as ([] & MS & H). apply bind_ok in H as (p & P & H). apply mk_schema_ok in H as (_ & _ & _ & ->). cbn [sc_group sc_id sc_cols].
    split; [reflexivity|]. split; [reflexivity|]. split; [discriminate|]. intros _. destruct (pick_spec _ _ _ P) as (A & X & Y). split; [exact A|]. split; [|exact Y].
    intros n I. apply has_column_iff, X, I.
Qed.
Lemma groups_answer b c cols s m t : built auto (GetGroups c cols) -> NoDup cols ->
  inputs_ok false cat data -> promises W false cat data c -> answers_as_typed K ->
  sch (GetGroups c cols) = Ok s -> cmp b (GetGroups c cols) = Ok m -> run_measurement R K m = Ok t ->
  forall r, In r t -> row_conforms (sc_cols s) r /\ dkeys r = dkeys (sc_cols s).
Proof.
  intros B ND IN PR KT S C RUN. apply compile_inv in C as (s' & q' & adj & S' & RW & M). rewrite S in S'. injection S' as <-.
  destruct (rewrite_ok auto (w_cond_ok W) mu cat MADE _ _ _ B S RW) as (B' & S1 & RR & _ & RM).
  inversion RR as [| ? c' ? RC | | | | | | | | | | | | | | | | | | |]; subst.
  cbn [measure_query] in M. unfold visit_groups in M.
  apply bind_ok in M as (? & _ & M). apply bind_ok in M as (s1 & SC1 & M). apply bind_ok in M as (? & _ & M).
  apply bind_ok in M as ((t2 & cs2) & T2 & M). unfold child_table in T2. cbn [gaussian] in T2.
  assert (IT : is_table c') by (apply build_transformation_ok in T2 as (? & _ & V & _); exact (visit_is_table _ _ _ _ _ _ V)).
  pose proof (rewritten_to_table _ _ _ _ RC IT) as <-.
  apply bind_ok in M as (t1 & T1 & M). apply bind_ok in M as ((y & ycs) & Y & M). apply bind_ok in M as (? & _ & M).
  apply bind_ok in M as (? & _ & M). injection M as <- <-. cbn [fst run_measurement] in RUN. injection RUN as <-.
  assert (BC : built auto c) by (eapply built_child; [exact B|left; reflexivity]).
  destruct (built_conforms W _ cat data IN auto c s1 t2 cs2 BC PR SC1 T2) as (NS & CF & _ & _).
  apply truncated_incl in T1 as (INC & _).
  set (out := match cols with [] => _ | _ => _ end) in *.
  apply select_cols in Y as (Y & _). cbn [unwrap v_rows] in Y. intros r I. apply (at_select K KT) in I. rewrite Y in I. apply in_map_iff in I as (r0 & <- & I).
  destruct (groups_schema c cols s S) as (sc & SC & _ & _ & E1 & E2). rewrite SC1 in SC. injection SC as <-.
  assert (DK : dkeys (sc_cols s) = out /\ (forall n, In n out -> dget n (sc_cols s) = dget n (sc_cols s1)) /\ NoDup out).
  { subst out. destruct cols as [|c0 cols].
    - destruct (E1 eq_refl) as (X & Z). split; [exact Z|]. split; [|apply List.NoDup_filter; exact NS].
      intros n J. apply filter_In in J as (_ & J). rewrite X. apply negb_true_iff in J. rewrite J. reflexivity.
    - destruct (E2 ltac:(discriminate)) as (X & _ & Z). split; [apply Z, ND|]. split; [|exact ND]. intros n J. rewrite X. apply smem_In in J. rewrite J. reflexivity. }
  destruct DK as (DK & DG & DN). split; [|rewrite dkeys_select; symmetry; exact DK].
  split; [rewrite dkeys_select; exact DN|]. split; [intros n; rewrite dkeys_select, DK; reflexivity|].
  intros n d E. assert (J : In n out) by (rewrite <- DK; eapply in_dkeys_some; exact E). rewrite getv_select by exact J.
  rewrite (DG n J) in E. destruct (CF r0 (INC r0 I)) as (_ & _ & CC). apply (CC n d E).
Qed.
End Run.
