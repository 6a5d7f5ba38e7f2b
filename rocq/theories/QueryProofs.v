(** Constructors are idempotent, schemas describe the data, join schemas, ID columns. *)
From Coq Require Import String Bool Arith ZArith QArith Qcanon Lia Permutation List.
From Verif Require Import Prelude Value Rows Constraints ConstraintsSpec ConstraintsProofs Schema SchemaProofs
  Query Transform TransformSpec TransformConform TransformVisit TransformAgree TransformIds.
Import ListNotations.
Local Open Scope string_scope.
Local Open Scope nat_scope.

(** *** What build returns is a tree of accepted nodes *)
Lemma coerce_loop_names fs : forall d d', coerce_loop fs d = Ok d' -> map sf_name (sd_fields d') = map sf_name (sd_fields d).
Proof.
  induction fs as [|f fs IH]; cbn [coerce_loop]; intros d d' H; [congruence|].
  destruct (coercion (sf_type f)); [|apply IH, H]. inv_ok H. apply IH in H. rewrite H.
  unfold with_cast in E. inv_ok E. injection E as <-. cbn [sd_fields]. rewrite map_map. apply map_ext. intros g.
  destruct (String.eqb (sf_name g) (sf_name f)); reflexivity.
Qed.
Lemma coerce_loop_supported fs : forall d d', coerce_loop fs d = Ok d' ->
  forallb (fun f => supported (sf_type f)) (sd_fields d) = true -> forallb (fun f => supported (sf_type f)) (sd_fields d') = true.
Proof.
  induction fs as [|f fs IH]; cbn [coerce_loop]; intros d d' H S; [congruence|].
  destruct (coercion (sf_type f)) as [ty|] eqn:C; [|eapply IH; eassumption]. inv_ok H. apply (IH _ _ H).
  unfold with_cast in E. inv_ok E. injection E as <-. cbn [sd_fields]. rewrite forallb_forall in *.
  intros g I. apply in_map_iff in I. destruct I as (h & <- & I).
  destruct (String.eqb (sf_name h) (sf_name f)); [|apply S, I]. cbn. destruct (sf_type f); inversion C; reflexivity.
Qed.
Lemma coerce_loop_fields fs : forall d d', coerce_loop fs d = Ok d' -> forall f, In f (sd_fields d') ->
  coercion (sf_type f) = None
  \/ (In f (sd_fields d) /\ forall g, In g fs -> coercion (sf_type g) <> None -> sf_name g <> sf_name f).
Proof.
  induction fs as [|h fs IH]; cbn [coerce_loop]; intros d d' H f I.
  - injection H as <-. right. split; [exact I|]. intros ? [].
  - destruct (coercion (sf_type h)) as [ty|] eqn:C.
    + inv_ok H. destruct (IH _ _ H f I) as [N|[I' K]]; [left; exact N|].
      unfold with_cast in E. inv_ok E. injection E as <-. cbn [sd_fields] in I'. apply in_map_iff in I'.
      destruct I' as (f0 & <- & I'). destruct (String.eqb_spec (sf_name f0) (sf_name h)) as [En|Nn].
      * left. cbn. destruct (sf_type h); inversion C; reflexivity.
      * right. split; [exact I'|]. intros g [<-|Ig] Cg; [congruence|apply K; assumption].
    + destruct (IH _ _ H f I) as [N|[I' K]]; [left; exact N|]. right. split; [exact I'|].
      intros g [<-|Ig] Cg; [congruence|apply K; assumption].
Qed.
Lemma coerce_loop_id fs d : (forall f, In f fs -> coercion (sf_type f) = None) -> coerce_loop fs d = Ok d.
Proof.
  induction fs as [|f fs IH]; intros H; [reflexivity|]. cbn [coerce_loop]. rewrite (H f) by (left; reflexivity).
  apply IH. intros; apply H; right; assumption.
Qed.
Lemma coerce_idem d d' : coerce_spark_schema_or_fail d = Ok d' -> coerce_spark_schema_or_fail d' = Ok d'.
Proof.
  unfold coerce_spark_schema_or_fail. intros H. inv_ok H. inv_ok H. apply negb_false_iff in E0.
  rewrite (coerce_loop_names _ _ _ H), E. cbn [raise_if bind].
  rewrite (coerce_loop_supported _ _ _ H E0). cbn [negb raise_if bind].
  apply coerce_loop_id. intros f I. destruct (coerce_loop_fields _ _ _ H f I) as [N|[I' K]]; [exact N|].
  destruct (coercion (sf_type f)) eqn:C; [|reflexivity]. exfalso. apply (K f I'); [congruence|reflexivity].
Qed.

Lemma check_bounds_idem low high b : check_bounds low high = Ok b -> check_bounds (fst b) (snd b) = Ok b.
Proof.
  unfold check_bounds. destruct low as [a|a], high as [c|c]; intros H; inv_ok H; injection H as <-; cbn [fst snd to_float] in *;
    rewrite E; reflexivity.
Qed.

Lemma post_init_idem auto q q' : post_init auto q = Ok q' -> post_init auto q' = Ok q'.
Proof.
  destruct q; cbn [post_init]; intros H;
    try (first [inv_ok H; inv_ok H; injection H as <-|inv_ok H; injection H as <-|injection H as <-]; cbn [post_init];
         rewrite ?E, ?E0; cbn [raise_if bind]; rewrite ?E, ?E0; reflexivity).
  - inv_ok H. inv_ok H. inv_ok H. injection H as <-. cbn [post_init]. destruct x. rewrite E. cbn [bind].
    destruct public as [n|f].
    + injection E0 as <-. cbn [bind]. rewrite E1. reflexivity.
    + inv_ok E0. injection E0 as <-. rewrite (coerce_idem _ _ E2). cbn [bind]. rewrite E1. reflexivity.
  - inv_ok H. inv_ok H. inv_ok H. injection H as <-. cbn [post_init]. destruct x. rewrite E. cbn [bind]. rewrite E0. cbn [raise_if bind].
    rewrite (check_bounds_idem _ _ _ E1). cbn [bind fst snd]. reflexivity.
  - inv_ok H. inv_ok H. injection H as <-. cbn [post_init]. destruct x. rewrite E. cbn [bind].
    rewrite (check_bounds_idem _ _ _ E0). cbn [bind]. reflexivity.
Qed.

(** Everything below the node stays as it was given. *)
Definition children (q : query) : list query :=
  match q with
  | PrivateSource _ => []
  | JoinPrivate l r _ _ _ => [l; r]
  | GetGroups c _ | GetBounds c _ _ _ _ | Rename c _ | Filter c _ | Select c _ | MapQ c _ _ _
  | FlatMap c _ _ _ _ | FlatMapByID c _ _ | JoinPublic c _ _ _ | ReplaceNullAndNan c _
  | ReplaceInfinity c _ | DropNullAndNan c _ | DropInfinity c _ | EnforceConstraint c _
  | GroupByCount c _ _ _ _ | GroupByCountDistinct c _ _ _ _ _ | GroupByQuantile c _ _ _ _ _ _
  | GroupByBounded _ c _ _ _ _ _ _ _ | SuppressAggregates c _ _ => [c]
  end.
Lemma post_init_children auto q q' : post_init auto q = Ok q' -> children q' = children q.
Proof.
  destruct q; cbn [post_init]; intros H; repeat inv_ok H; injection H as <-; reflexivity.
Qed.
Lemma built_unfold auto q : built auto q <-> post_init auto q = Ok q /\ Forall (built auto) (children q).
Proof.
  destruct q; cbn [built children]; split; intros [H1 H2]; (split; [exact H1|]);
    repeat match goal with H : Forall _ (_ :: _) |- _ => inversion_clear H | H : _ /\ _ |- _ => destruct H end; auto.
Qed.
Lemma build_built auto q q' : build auto q = Ok q' -> built auto q'.
Proof.
  revert q'. induction q; cbn [build]; intros q' H; repeat match goal with H : bind _ _ = Ok _ |- _ => inv_ok H end;
    (apply built_unfold; split; [eapply post_init_idem, H|]; rewrite (post_init_children _ _ _ H); cbn [children]; auto).
Qed.

(** *** C19 *)
Lemma coredesc_eqb_eq a b : coredesc_eqb a b = true <-> a = b.
Proof.
  destruct a, b; cbn; try (split; discriminate); rewrite ?andb_true_iff, ?Bool.eqb_true_iff;
    split; intuition; try congruence.
Qed.
Lemma dict_eqb_NoDup {V} (veq : V -> V -> bool) (a b : dict V) :
  dict_eqb veq a b = true -> NoDup (dkeys a) -> NoDup (dkeys b).
Proof.
  unfold dict_eqb. rewrite andb_true_iff, Nat.eqb_eq, forallb_forall. intros [L H] N.
  apply (NoDup_incl_NoDup N).
  - unfold dkeys. rewrite !map_length. lia.
  - intros c I. apply in_map_iff in I. destruct I as ([c' v] & <- & I). specialize (H _ I). cbn in *.
    destruct (dget c' b) eqn:E; [|discriminate]. apply in_dkeys. eauto.
Qed.
Lemma place_eqb_eq a b : place_eqb a b = true <-> a = b.
Proof.
  destruct a, b; cbn; try (split; discriminate); rewrite ?andb_true_iff, ?Bool.eqb_true_iff, ?String.eqb_eq;
    split; intuition; try congruence.
Qed.
Lemma expected_metric l2 s p : expected_place l2 s = Ok p <-> metric_for l2 s p.
Proof.
  unfold expected_place, metric_for. destruct (sc_group s), (sc_id s); split; try contradiction; try congruence; discriminate.
Qed.

Lemma validate_ok l2 s t : NoDup (dkeys (v_dom t)) ->
  validate l2 s t = Ok tt <->
  NoDup (dkeys (sc_cols s)) /\ same_entries (v_dom t) (analytics_to_core s) /\ metric_for l2 s (v_place t).
Proof.
  intros N. unfold validate. split.
  - intros H. inv_ok H. inv_ok H. apply expected_metric in E. apply negb_false_iff in E0.
    destruct (negb (place_eqb (v_place t) x)) eqn:E1; [discriminate|]. apply negb_false_iff, place_eqb_eq in E1.
    pose proof (dict_eqb_NoDup _ _ _ E0 N) as N'.
    split; [rewrite analytics_to_core_cols, dkeys_core_cols in N'; exact N'|]. split; [|rewrite E1; exact E].
    intros c. apply (dict_eqb_spec coredesc_eqb (v_dom t) (analytics_to_core s) coredesc_eqb_eq N N'), E0.
  - intros (N' & S & M). rewrite (proj2 (expected_metric l2 s _) M). cbn [bind].
    rewrite (proj2 (dict_eqb_spec coredesc_eqb (v_dom t) (analytics_to_core s) coredesc_eqb_eq N
                      ltac:(rewrite analytics_to_core_cols, dkeys_core_cols; exact N')) S).
    cbn [negb raise_if bind]. rewrite (proj2 (place_eqb_eq _ _) eq_refl). reflexivity.
Qed.

Section Proofs.
Variables (W : world) (l2 : bool) (cat : catalog) (data : dict vtab).
Hypothesis IN : inputs_ok l2 cat data.
Notation sch := (schema_of (w_cond_ok W) cat).

Lemma build_transformation_ok q t cs :
  build_transformation W l2 cat data q = Ok (t, cs) <->
  exists s, sch q = Ok s /\ visit W l2 cat data q = Ok (t, cs) /\ validate l2 s t = Ok tt.
Proof.
  unfold build_transformation. split.
  - intros H. inv_ok H. inv_ok H. inv_ok H. injection H as ->. destruct x1. eauto.
  - intros (s & S & V & C). rewrite S, V. cbn [bind fst]. rewrite C. reflexivity.
Qed.

Lemma built_conforms auto q s t cs : built auto q -> promises W l2 cat data q ->
  sch q = Ok s -> build_transformation W l2 cat data q = Ok (t, cs) ->
  NoDup (dkeys (sc_cols s)) /\ conforms (sc_cols s) (v_rows t) /\ metric_for l2 s (v_place t)
  /\ same_entries (v_dom t) (analytics_to_core s).
Proof.
  intros B P S H. apply build_transformation_ok in H. destruct H as (s' & S' & V & C). rewrite S in S'. injection S' as <-.
  pose proof (visit_in_domain W l2 cat data IN auto q B P t cs V) as [N D].
  apply (validate_ok l2 s t N) in C. destruct C as (Ns & E & M).
  split; [exact Ns|]. split; [|split; assumption]. eapply in_domain_conforms; eassumption.
Qed.

Lemma regular_accepted auto q s t cs : built auto q -> promises W l2 cat data q -> regular W cat q ->
  sch q = Ok s -> visit W l2 cat data q = Ok (t, cs) -> build_transformation W l2 cat data q = Ok (t, cs).
Proof.
  intros B P R S V. apply build_transformation_ok. exists s. split; [exact S|]. split; [exact V|].
  destruct (schema_agrees W l2 cat data IN auto q B P R s t cs S V) as [Nw Nd E M].
  apply validate_ok; [exact Nd|]. split; [exact Nw|]. split; [|exact M]. intros c. rewrite analytics_to_core_cols. apply E.
Qed.

(** *** C24, schemas *)
Lemma keeps_id_trans a b c : keeps_id a b -> keeps_id b c -> keeps_id a c.
Proof.
  intros [A1 A2] [B1 B2]. split; [tauto|]. intros N. destruct (A2 N) as (Sp & i & Ei & _).
  destruct B2 as (Sp' & R); [congruence|]. split; [congruence|exact R].
Qed.
Lemma keeps_id_none s s' : sc_id s = None -> sc_id s' = None -> keeps_id s s'.
Proof. intros A B. split; [tauto|]. intros N. contradiction. Qed.
Lemma keeps_id_made s s' cols g i : mk_schema cols g i (sc_space s) = Ok s' -> (sc_id s = None <-> i = None) -> keeps_id s s'.
Proof.
  intros M E. apply mk_schema_ok in M. destruct M as (_ & _ & Hi & ->). split; [exact E|]. cbn. intros N.
  split; [reflexivity|]. destruct i as [i|]; [|tauto]. exists i. split; [reflexivity|apply Hi; reflexivity].
Qed.
Lemma option_map_none {A B} (f : A -> B) o : o = None <-> option_map f o = None.
Proof. destruct o; split; intros; try discriminate; reflexivity. Qed.

Lemma schema_keeps_id q s : is_table q -> sch q = Ok s ->
  Forall (fun n => exists s0 cs, dget n (cat_private cat) = Some (s0, cs)
     /\ ((forall i, sc_id s0 = Some i -> In i (dkeys (sc_cols s0))) -> keeps_id s0 s)) (sources q).
Proof.
  assert (Step : forall a b l, keeps_id a b ->
    Forall (fun n => exists s0 cs, dget n (cat_private cat) = Some (s0, cs)
       /\ ((forall i, sc_id s0 = Some i -> In i (dkeys (sc_cols s0))) -> keeps_id s0 a)) l ->
    Forall (fun n => exists s0 cs, dget n (cat_private cat) = Some (s0, cs)
       /\ ((forall i, sc_id s0 = Some i -> In i (dkeys (sc_cols s0))) -> keeps_id s0 b)) l).
  { intros a b l K. apply Forall_impl. intros n (s0 & cs & E & F). exists s0, cs. split; [exact E|].
    intros I. eapply keeps_id_trans; [apply F, I|exact K]. }
  revert s. induction q; intros s T S; cbn [is_table] in T; try contradiction; cbn [schema_of] in S; cbn [sources].
  - unfold source_schema in S. inv_ok S. destruct (dget source_id (cat_private cat)) as [[s0 cs]|] eqn:Es; [|discriminate].
    injection S as <-. constructor; [|constructor]. exists s0, cs. split; [exact Es|]. intros I. split; [tauto|].
    intros N. split; [reflexivity|]. destruct (sc_id s0) as [i|]; [|contradiction]. eauto.
  - inv_ok S. eapply Step; [|apply IHq; eassumption]. unfold rename_schema in S. inv_ok S. inv_ok S.
    eapply keeps_id_made; [exact S|apply option_map_none].
  - inv_ok S. unfold filter_schema in S. inv_ok S. injection S as <-. apply IHq; assumption.
  - inv_ok S. eapply Step; [|apply IHq; eassumption]. unfold select_schema in S. inv_ok S. inv_ok S. inv_ok S. inv_ok S.
    eapply keeps_id_made; [exact S|reflexivity].
  - inv_ok S. eapply Step; [|apply IHq; eassumption]. unfold map_schema in S. destruct augment.
    + inv_ok S. eapply keeps_id_made; [exact S|reflexivity].
    + inv_ok S. inv_ok S. apply mk_schema_ok in S. destruct S as (_ & _ & _ & ->). destruct (sc_id x) eqn:Ei; [discriminate|].
      apply keeps_id_none; [exact Ei|reflexivity].
  - inv_ok S. eapply Step; [|apply IHq; eassumption]. unfold flat_map_schema in S. inv_ok S. inv_ok S. destruct augment.
    + inv_ok S. eapply keeps_id_made; [exact S|reflexivity].
    + inv_ok S. inv_ok S. apply mk_schema_ok in S. destruct S as (_ & _ & _ & ->). destruct (sc_id x) eqn:Ei; [discriminate|].
      apply keeps_id_none; [exact Ei|reflexivity].
  - inv_ok S. eapply Step; [|apply IHq; eassumption]. unfold flat_map_by_id_schema in S.
    destruct (sc_id x) as [i|] eqn:Ei; [|discriminate]. inv_ok S. inv_ok S. inv_ok S. eapply keeps_id_made; [exact S|].
    rewrite Ei. split; discriminate.
  - inv_ok S. inv_ok S. destruct T as [T1 T2].
    unfold join_private_schema in S. inv_ok S. inv_ok S. inv_ok S. unfold schema_for_join in S. inv_ok S. inv_ok S.
    apply negb_false_iff, option_eqb_eq in E1; [|apply String.eqb_eq].
    apply negb_false_iff, option_eqb_eq in E2; [|apply String.eqb_eq].
    apply Forall_app. split.
    + eapply Step; [|apply IHq1; eassumption]. eapply keeps_id_made; [exact S|reflexivity].
    + eapply Step; [|apply IHq2; eassumption]. rewrite E2 in S. eapply keeps_id_made; [exact S|rewrite E1; reflexivity].
  - inv_ok S. eapply Step; [|apply IHq; eassumption]. unfold join_public_schema in S. inv_ok S. inv_ok S.
    unfold schema_for_join in S. inv_ok S. inv_ok S. eapply keeps_id_made; [exact S|reflexivity].
  - inv_ok S. eapply Step; [|apply IHq; eassumption]. unfold replace_null_schema in S. inv_ok S. inv_ok S. inv_ok S.
    eapply keeps_id_made; [exact S|reflexivity].
  - inv_ok S. eapply Step; [|apply IHq; eassumption]. unfold replace_inf_schema in S. inv_ok S. inv_ok S. inv_ok S.
    eapply keeps_id_made; [exact S|reflexivity].
  - inv_ok S. eapply Step; [|apply IHq; eassumption]. unfold drop_null_schema in S. inv_ok S. inv_ok S. inv_ok S.
    eapply keeps_id_made; [exact S|reflexivity].
  - inv_ok S. eapply Step; [|apply IHq; eassumption]. unfold drop_inf_schema in S. inv_ok S. inv_ok S. inv_ok S.
    eapply keeps_id_made; [exact S|reflexivity].
  - inv_ok S. assert (s = x) as ->; [|apply IHq; assumption].
    unfold enforce_schema in S. destruct (sc_id x); [|discriminate]. destruct c; [congruence| |]; inv_ok S; inv_ok S; congruence.
Qed.

(** *** C24, data *)

(** Every privacy ID of the result is an ID of some table of the same collection. *)
Lemma no_new_ids auto q s t cs i r : built auto q -> promises W l2 cat data q -> finite_ids W l2 cat data q ->
  sch q = Ok s -> visit W l2 cat data q = Ok (t, cs) -> v_place t = PKeys i -> In r (v_rows t) ->
  exists n t0 i0 r0, dget n data = Some t0 /\ v_coll t0 = v_coll t /\ v_place t0 = PKeys i0 /\ In r0 (v_rows t0)
    /\ getv i0 r0 = getv i r.
Proof.
  intros B P F S V Pi Ir.
  set (ids := flat_map (fun p => match v_place (snd p) with
                                 | PKeys j => if option_eqb String.eqb (v_coll (snd p)) (v_coll t)
                                              then map (getv j) (v_rows (snd p)) else []
                                 | _ => [] end)
                       (map (fun n => (n, match dget n data with Some t => t | None => t end)) (dkeys data))).
  set (keep := fun v => if in_dec value_eq_dec v ids then true else false).
  assert (Same : forall n, dget n (restrict_all (v_coll t) keep data) = dget n data).
  { intros n. unfold restrict_all. rewrite (dget_map_val (restrict (v_coll t) keep)).
    destruct (dget n data) as [t0|] eqn:E; [|reflexivity]. cbn [option_map]. f_equal. unfold restrict.
    destruct t0 as [d0 c0 p0 rows0]. cbn [v_place v_coll v_dom v_rows]. destruct p0 as [j| | |]; try reflexivity.
    destruct (option_eqb String.eqb c0 (v_coll t)) eqn:Ec; [|reflexivity]. f_equal. apply filter_true. intros r0 I0.
    unfold keep. destruct (in_dec value_eq_dec (getv j r0) ids) as [|NI]; [reflexivity|]. exfalso. apply NI.
    unfold ids. apply in_flat_map. exists (n, {| v_dom := d0; v_coll := c0; v_place := PKeys j; v_rows := rows0 |}).
    split; [apply in_map_iff; exists n; rewrite E; split; [reflexivity|apply in_dkeys; eauto]|].
    cbn [snd v_place v_coll v_rows]. rewrite Ec. apply in_map, I0. }
  pose proof (visit_restrict W l2 cat data IN (v_coll t) keep auto q B P F s t cs S V) as H.
  assert (Ext : visit W l2 cat (restrict_all (v_coll t) keep data) q = visit W l2 cat data q).
  { clear -Same. induction q; cbn [visit]; try reflexivity;
      try (rewrite IHq; reflexivity); try (rewrite IHq1, IHq2; reflexivity).
    unfold visit_source. rewrite Same. reflexivity. }
  rewrite Ext, V in H. injection H as H. 
  assert (K : keep (getv i r) = true).
  { assert (I2 : In r (v_rows (restrict (v_coll t) keep t))) by (rewrite <- H; exact Ir).
    unfold restrict in I2. rewrite Pi in I2. rewrite (proj2 (option_eqb_eq String.eqb String.eqb_eq _ _) eq_refl) in I2.
    cbn [v_rows] in I2. apply filter_In in I2. apply I2. }
  unfold keep in K. destruct (in_dec value_eq_dec (getv i r) ids) as [I|]; [|discriminate].
  unfold ids in I. apply in_flat_map in I. destruct I as ([n t0] & In0 & I). apply in_map_iff in In0. destruct In0 as (n' & En & In').
  injection En as -> E. apply in_dkeys in In'. destruct In' as (t1 & E1). rewrite E1 in E. subst t1.
  cbn [snd] in I. destruct (v_place t0) as [j| | |] eqn:Pj; try contradiction.
  destruct (option_eqb String.eqb (v_coll t0) (v_coll t)) eqn:Ec; [|contradiction].
  apply (option_eqb_eq String.eqb String.eqb_eq) in Ec. apply in_map_iff in I. destruct I as (r0 & Er & Ir0).
  exists n, t0, j, r0. auto.
Qed.
End Proofs.

(** Two sets of tables that hold the same rows for all IDs but those excluded give
    results that hold the same rows for all IDs but those excluded. *)
Lemma visit_ext W l2 cat data data' q : (forall n, dget n data = dget n data') -> visit W l2 cat data q = visit W l2 cat data' q.
Proof.
  intros Same. induction q; cbn [visit]; try reflexivity;
    try (rewrite IHq; reflexivity); try (rewrite IHq1, IHq2; reflexivity).
  unfold visit_source. rewrite Same. reflexivity.
Qed.
Lemma outside_ids W l2 cat data data' k keep auto q s t cs t' cs' :
  inputs_ok l2 cat data -> inputs_ok l2 cat data' ->
  (forall n, dget n (restrict_all k keep data) = dget n (restrict_all k keep data')) ->
  built auto q -> promises W l2 cat data q -> promises W l2 cat data' q ->
  finite_ids W l2 cat data q -> finite_ids W l2 cat data' q ->
  schema_of (w_cond_ok W) cat q = Ok s ->
  visit W l2 cat data q = Ok (t, cs) -> visit W l2 cat data' q = Ok (t', cs') ->
  restrict k keep t = restrict k keep t' /\ cs = cs'.
Proof.
  intros IN IN' Same B P P' F F' S V V'.
  pose proof (visit_restrict W l2 cat data IN k keep auto q B P F s t cs S V) as H.
  pose proof (visit_restrict W l2 cat data' IN' k keep auto q B P' F' s t' cs' S V') as H'.
  rewrite (visit_ext _ _ _ _ _ _ Same) in H. rewrite H in H'. injection H' as -> ->. auto.
Qed.

(** *** C23 *)
Lemma out_name_eq {V} (other : dict V) suffix c : suffixed other suffix c = out_name (dkeys other) suffix c.
Proof.
  unfold suffixed, out_name. destruct (in_dec string_dec c (dkeys other)) as [I|I].
  - rewrite (proj2 (dmem_In c other) I). reflexivity.
  - assert (dmem c other = false) as ->; [|reflexivity]. apply not_true_iff_false. intros M. apply I, dmem_In, M.
Qed.
Lemma dkeys_filter_map {V} (p : string -> bool) (f : string -> string) (g : V -> coredesc) (d : dict V) :
  map fst (map (fun x => (f (fst x), g (snd x))) (filter (fun x => p (fst x)) d)) = map f (filter p (dkeys d)).
Proof.
  induction d as [|[c v] d IH]; [reflexivity|]. cbn [filter dkeys map fst]. destruct (p c); cbn [map fst]; [f_equal|]; exact IH.
Qed.

Lemma join_domain_names on left l r out : join_domain on left l r = Ok out ->
  dkeys out = join_names on (dkeys l) (dkeys r).
Proof.
  intros J. apply join_domain_spec in J. destruct J as [j JK _ -> _ _]. unfold join_names, dkeys at 1. rewrite !map_app.
  f_equal; [exact JK|].
  rewrite (dkeys_filter_map (fun c => negb (smem c on)) (suffixed r "_left") (fun k => k)).
  rewrite (dkeys_filter_map (fun c => negb (smem c on)) (suffixed l "_right") (fun k => if left then core_nullable k else k)).
  f_equal; apply map_ext; intros; apply out_name_eq.
Qed.

Lemma core_type_view a : cd_type (view a) = match a with CFloat _ _ _ => DECIMAL | CInt _ => INTEGER | CString _ => VARCHAR | CDate _ => DATE | CTimestamp _ => TIMESTAMP end.
Proof. destruct a; reflexivity. Qed.

Lemma schema_for_join_ok l r on space how s :
  NoDup (dkeys (sc_cols l)) -> NoDup (dkeys (sc_cols r)) ->
  schema_for_join l r on space how = Ok s ->
  let J := chosen l r on in
  let left := String.eqb how "left" in
  J <> []
  /\ dkeys (sc_cols s) = join_names J (dkeys (sc_cols l)) (dkeys (sc_cols r))
  /\ NoDup (dkeys (sc_cols s))
  /\ (forall c, In c J -> exists a b d,
        dget c (sc_cols l) = Some a /\ dget c (sc_cols r) = Some b /\ dget c (sc_cols s) = Some d
        /\ cd_type d = cd_type a /\ cd_type d = cd_type b
        /\ (cd_null d = if left then cd_null a else cd_null a && cd_null b)
        /\ (cd_type a = DECIMAL ->
            cd_nan d = (if left then cd_nan a else cd_nan a && cd_nan b)
            /\ cd_inf d = (if left then cd_inf a else cd_inf a && cd_inf b)))
  /\ (forall c a, dget c (sc_cols l) = Some a -> ~ In c J -> exists d,
        dget (out_name (dkeys (sc_cols r)) "_left" c) (sc_cols s) = Some d
        /\ cd_type d = cd_type a /\ cd_null d = cd_null a
        /\ (cd_type a = DECIMAL -> cd_nan d = cd_nan a /\ cd_inf d = cd_inf a))
  /\ (forall c b, dget c (sc_cols r) = Some b -> ~ In c J -> exists d,
        dget (out_name (dkeys (sc_cols l)) "_right" c) (sc_cols s) = Some d
        /\ cd_type d = cd_type b /\ cd_null d = left || cd_null b
        /\ (cd_type b = DECIMAL -> cd_nan d = cd_nan b /\ cd_inf d = cd_inf b))
  /\ sc_id s = sc_id l /\ sc_space s = space.
Proof.
  intros Nl Nr H J left. unfold schema_for_join in H. fold (chosen l r on) in H. fold J in H. fold left in H.
  inv_ok H. inv_ok H. apply mk_schema_ok in H. destruct H as (_ & _ & _ & ->). cbn [sc_cols sc_id sc_space].
  rewrite core_to_analytics_view in E0. injection E0 as <-.
  assert (Kl : dkeys (analytics_to_core l) = dkeys (sc_cols l)) by (rewrite analytics_to_core_cols; apply dkeys_core_cols).
  assert (Kr : dkeys (analytics_to_core r) = dkeys (sc_cols r)) by (rewrite analytics_to_core_cols; apply dkeys_core_cols).
  assert (Gl : forall c, dget c (analytics_to_core l) = option_map to_core (dget c (sc_cols l))) by (intros; rewrite analytics_to_core_cols; apply dget_core_cols).
  assert (Gr : forall c, dget c (analytics_to_core r) = option_map to_core (dget c (sc_cols r))) by (intros; rewrite analytics_to_core_cols; apply dget_core_cols).
  pose proof (join_domain_names _ _ _ _ _ E) as K. rewrite Kl, Kr in K.
  assert (Nl' : NoDup (dkeys (analytics_to_core l))) by (rewrite Kl; exact Nl).
  assert (Nr' : NoDup (dkeys (analytics_to_core r))) by (rewrite Kr; exact Nr).
  pose proof (join_domain_entries _ _ _ _ _ Nl' Nr' E) as En.
  pose proof (join_domain_spec _ _ _ _ _ E) as [j JK JC JO JN Jne].
  assert (V : forall d, view (to_core d) = core_view d) by apply view_to_core.
  split; [exact Jne|]. rewrite (dkeys_map_val view). split; [exact K|]. split; [exact JN|].
  split; [|split; [|split; [|split; reflexivity]]].
  - intros c I. assert (Ij : In c (dkeys j)) by (rewrite JK; exact I). apply in_map_iff in Ij. destruct Ij as ([c' k] & <- & Ij). cbn [fst] in *.
    destruct (JC c' k Ij) as (a & b & A & B & T & ->). rewrite Gl in A. rewrite Gr in B.
    destruct (dget c' (sc_cols l)) as [a0|]; [|discriminate]. destruct (dget c' (sc_cols r)) as [b0|]; [|discriminate].
    cbn in A, B. injection A as <-. injection B as <-. exists a0, b0.
    assert (D : dget c' x = Some (if left then to_core a0 else core_and (to_core a0) (to_core b0))).
    { apply In_dget; [exact JN|]. rewrite JO. apply in_or_app. left. exact Ij. }
    rewrite dget_map_val, D. cbn [option_map]. eexists. split; [reflexivity|]. split; [reflexivity|]. split; [reflexivity|].
    destruct left; destruct a0 as [[] ? ? ?], b0 as [[] ? ? ?]; cbn in T |- *; try discriminate; (split; [reflexivity|]; split; [reflexivity|]; split; [reflexivity|]; intros Td; first [discriminate Td | split; reflexivity]).
  - intros c a A NJ. rewrite <- Kr, <- out_name_eq.
    assert (D : dget (suffixed (analytics_to_core r) "_left" c) x = Some (to_core a)).
    { apply In_dget; [exact JN|]. apply En. right. left. exists c. split; [exact NJ|]. rewrite Gl, A. auto. }
    rewrite dget_map_val, D. cbn [option_map]. eexists. split; [reflexivity|]. destruct a as [[] ? ? ?]; (split; [reflexivity|]; split; [reflexivity|]; intros Td; first [discriminate Td | split; reflexivity]).
  - intros c b B NJ. rewrite <- Kl, <- out_name_eq.
    assert (D : dget (suffixed (analytics_to_core l) "_right" c) x = Some (if left then core_nullable (to_core b) else to_core b)).
    { apply In_dget; [exact JN|]. apply En. right. right. exists c, (to_core b). split; [exact NJ|]. rewrite Gr, B. auto. }
    rewrite dget_map_val, D. cbn [option_map]. eexists. split; [reflexivity|].
    destruct left; destruct b as [[] ? ? ?]; (split; [reflexivity|]; split; [reflexivity|]; intros Td; first [discriminate Td | split; reflexivity]).
Qed.

(** Nothing is refused without a reason. *)
Lemma schema_for_join_accepts l r on space how :
  NoDup (dkeys (sc_cols l)) -> NoDup (dkeys (sc_cols r)) ->
  ~ In "" (dkeys (sc_cols l)) -> ~ In "" (dkeys (sc_cols r)) ->
  let J := chosen l r on in
  J <> [] ->
  (forall c, In c J -> exists a b, dget c (sc_cols l) = Some a /\ dget c (sc_cols r) = Some b /\ cd_type a = cd_type b) ->
  NoDup (join_names J (dkeys (sc_cols l)) (dkeys (sc_cols r))) ->
  (forall c, sc_id l = Some c \/ sc_group l = Some c \/ (sc_group l = None /\ sc_group r = Some c) ->
     In c (join_names J (dkeys (sc_cols l)) (dkeys (sc_cols r)))) ->
  exists s, schema_for_join l r on space how = Ok s.
Proof.
  intros Nl Nr El Er J Jne T N Sp. unfold schema_for_join. fold (chosen l r on). fold J.
  set (left := String.eqb how "left").
  assert (Kl : dkeys (analytics_to_core l) = dkeys (sc_cols l)) by (rewrite analytics_to_core_cols; apply dkeys_core_cols).
  assert (Kr : dkeys (analytics_to_core r) = dkeys (sc_cols r)) by (rewrite analytics_to_core_cols; apply dkeys_core_cols).
  assert (exists out, join_domain J left (analytics_to_core l) (analytics_to_core r) = Ok out) as (out & Eo).
  { unfold join_domain. destruct J as [|c0 J0] eqn:EJ; [contradiction|]. cbn [length Nat.eqb raise_if bind]. rewrite <- EJ in *. 
    assert (exists j, mapM (fun c => match dget c (analytics_to_core l), dget c (analytics_to_core r) with
        | Some a, Some b => let* _ := raise_if (negb (core_same_type a b)) ValueError in Ok (c, if left then a else core_and a b)
        | _, _ => Err ValueError end) J = Ok j /\ map fst j = J) as (j & Ej & Kj).
    { clear EJ Jne N Sp. clearbody J. induction J as [|c J IH]; [exists []; auto|].
      destruct (T c (or_introl eq_refl)) as (a & b & A & B & Ty).
      destruct IH as (j & Ej & Kj); [intros; apply T; right; assumption|].
      cbn [mapM]. rewrite !analytics_to_core_cols, !dget_core_cols, A, B. cbn [option_map].
      assert (core_same_type (to_core a) (to_core b) = true) as -> by (destruct a as [[] ? ? ?], b as [[] ? ? ?]; cbn in *; try discriminate; reflexivity).
      cbn [negb raise_if bind]. rewrite !analytics_to_core_cols in Ej. rewrite Ej. cbn [bind]. eexists. split; [reflexivity|]. cbn [map fst]. f_equal. exact Kj. }
    rewrite Ej. cbn [bind].
    assert (Ks : dkeys (j ++ map (fun p => (suffixed (analytics_to_core r) "_left" (fst p), snd p)) (filter (fun p => negb (smem (fst p) J)) (analytics_to_core l))
        ++ map (fun p => (suffixed (analytics_to_core l) "_right" (fst p), if left then core_nullable (snd p) else snd p)) (filter (fun p => negb (smem (fst p) J)) (analytics_to_core r)))%list
      = join_names J (dkeys (sc_cols l)) (dkeys (sc_cols r))).
    { unfold join_names, dkeys at 1. rewrite !map_app. f_equal; [exact Kj|].
      rewrite (dkeys_filter_map (fun c => negb (smem c J)) (suffixed (analytics_to_core r) "_left") (fun k => k)).
      rewrite (dkeys_filter_map (fun c => negb (smem c J)) (suffixed (analytics_to_core l) "_right") (fun k => if left then core_nullable k else k)).
      rewrite Kl, Kr. f_equal; apply map_ext; intros; rewrite out_name_eq, ?Kl, ?Kr; reflexivity. }
    rewrite Ks, (proj2 (has_dup_false _) N). cbn [raise_if bind]. eauto. }
  rewrite Eo. cbn [bind]. rewrite core_to_analytics_view. cbn [bind].
  pose proof (join_domain_names _ _ _ _ _ Eo) as K. rewrite Kl, Kr in K.
  eexists. apply mk_schema_ok. rewrite (dkeys_map_val view), K. split; [|split; [|split; [|reflexivity]]].
  - unfold join_names. rewrite !in_app_iff, !in_map_iff. intros [I|[(c & Ec & I)|(c & Ec & I)]].
    + destruct (T "" I) as (a & _ & A & _). apply El, in_dkeys. eauto.
    + apply filter_In in I. destruct I as [I _]. unfold out_name in Ec. destruct (in_dec _ _ _); [destruct c; discriminate|subst; contradiction].
    + apply filter_In in I. destruct I as [I _]. unfold out_name in Ec. destruct (in_dec _ _ _); [destruct c; discriminate|subst; contradiction].
  - intros c Hc. apply Sp. destruct (sc_group l) as [g|]; [right; left; exact Hc|right; right; auto].
  - intros c Hc. apply Sp. left. exact Hc.
Qed.
