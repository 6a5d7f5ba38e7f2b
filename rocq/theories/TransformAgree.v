(** The schema a query reports and the domain and metric its compilation produces. *)
From Coq Require Import String Bool Arith ZArith QArith Qcanon Lia Permutation List.
From Verif Require Import Prelude Value Rows Constraints ConstraintsSpec ConstraintsProofs Schema SchemaProofs
  Query Transform TransformSpec TransformConform TransformVisit.
Import ListNotations.
Local Open Scope string_scope.
Local Open Scope nat_scope.

(** *** Dictionaries up to order *)
Lemma same_entries_keys {V} (a b : dict V) : same_entries a b -> forall c, In c (dkeys a) <-> In c (dkeys b).
Proof. intros E c. rewrite !in_dkeys, (E c). tauto. Qed.
Lemma same_entries_dmem {V} (a b : dict V) c : same_entries a b -> dmem c a = dmem c b.
Proof. intros E. unfold dmem. rewrite (E c). reflexivity. Qed.
Lemma same_entries_In {V} (a b : dict V) : NoDup (dkeys a) -> NoDup (dkeys b) ->
  (forall c k, In (c, k) a <-> In (c, k) b) -> same_entries a b.
Proof.
  intros Na Nb H c. destruct (dget c a) as [x|] eqn:E.
  - symmetry. apply In_dget; [exact Nb|]. apply H, dget_In, E.
  - destruct (dget c b) as [y|] eqn:E'; [|reflexivity]. apply dget_In, H in E'. apply In_dget in E'; [congruence|exact Na].
Qed.

Definition core_cols (s : dict coldesc) : dict coredesc := map (fun p => (fst p, to_core (snd p))) s.
Lemma dget_core_cols s c : dget c (core_cols s) = option_map to_core (dget c s).
Proof. apply dget_map_val. Qed.
Lemma dkeys_core_cols s : dkeys (core_cols s) = dkeys s.
Proof. apply dkeys_map_val. Qed.
Lemma analytics_to_core_cols s : analytics_to_core s = core_cols (sc_cols s).
Proof. reflexivity. Qed.

(** *** Entries of the domain of a join *)
Lemma join_domain_entries on left l r out : NoDup (dkeys l) -> NoDup (dkeys r) ->
  join_domain on left l r = Ok out ->
  forall c k, In (c, k) out <->
    (In c on /\ exists a b, dget c l = Some a /\ dget c r = Some b /\ k = if left then a else core_and a b)
    \/ (exists c0, ~ In c0 on /\ dget c0 l = Some k /\ c = suffixed r "_left" c0)
    \/ (exists c0 k0, ~ In c0 on /\ dget c0 r = Some k0 /\ c = suffixed l "_right" c0
          /\ k = if left then core_nullable k0 else k0).
Proof.
  intros Nl Nr J c k. apply join_domain_spec in J. destruct J as [j JK JC JO JN _].
  rewrite JO at 1. rewrite !in_app_iff, !in_map_iff.
  assert (A : In (c, k) j <-> In c on /\ exists a b, dget c l = Some a /\ dget c r = Some b /\ k = if left then a else core_and a b).
  { split.
    - intros I. split; [rewrite <- JK; exact (in_map fst _ _ I)|]. destruct (JC c k I) as (a & b & A & B & _ & E). eauto.
    - intros (I & a & b & A & B & ->). rewrite <- JK in I. unfold dkeys in I. apply in_map_iff in I.
      destruct I as ([c' k'] & E & I). cbn in E. subst c'. destruct (JC c k' I) as (a' & b' & A' & B' & _ & Ek).
      rewrite A in A'. rewrite B in B'. injection A' as <-. injection B' as <-. subst k'. exact I. }
  assert (Nin : forall x, negb (smem x on) = true <-> ~ In x on).
  { intros x. rewrite negb_true_iff. apply smem_false. }
  assert (B : (exists x, (suffixed r "_left" (fst x), snd x) = (c, k) /\ In x (filter (fun p => negb (smem (fst p) on)) l))
              <-> exists c0, ~ In c0 on /\ dget c0 l = Some k /\ c = suffixed r "_left" c0).
  { split.
    - intros ([c0 k0] & E & I). cbn in E. injection E as <- <-. apply filter_In in I. destruct I as [I F]. cbn in F.
      exists c0. split; [apply Nin, F|]. split; [apply In_dget; assumption|reflexivity].
    - intros (c0 & N & G & ->). exists (c0, k). split; [reflexivity|]. apply filter_In. split; [apply dget_In, G|apply Nin, N]. }
  assert (C : (exists x, (suffixed l "_right" (fst x), if left then core_nullable (snd x) else snd x) = (c, k)
                 /\ In x (filter (fun p => negb (smem (fst p) on)) r))
              <-> exists c0 k0, ~ In c0 on /\ dget c0 r = Some k0 /\ c = suffixed l "_right" c0
                    /\ k = if left then core_nullable k0 else k0).
  { split.
    - intros ([c0 k0] & E & I). cbn in E. injection E as <- <-. apply filter_In in I. destruct I as [I F]. cbn in F.
      exists c0, k0. split; [apply Nin, F|]. split; [apply In_dget; assumption|]. split; reflexivity.
    - intros (c0 & k0 & N & G & -> & ->). exists (c0, k0). split; [reflexivity|]. apply filter_In. split; [apply dget_In, G|apply Nin, N]. }
  rewrite A, B, C. tauto.
Qed.

Lemma join_domain_same on on' left l l' r r' out out' :
  NoDup (dkeys l) -> NoDup (dkeys l') -> NoDup (dkeys r) -> NoDup (dkeys r') ->
  same_entries l l' -> same_entries r r' -> (forall c, In c on <-> In c on') ->
  join_domain on left l r = Ok out -> join_domain on' left l' r' = Ok out' -> same_entries out out'.
Proof.
  intros Nl Nl' Nr Nr' El Er Eon J J'.
  apply same_entries_In.
  - apply join_domain_spec in J. destruct J; assumption.
  - apply join_domain_spec in J'. destruct J'; assumption.
  - intros c k. rewrite (join_domain_entries _ _ _ _ _ Nl Nr J), (join_domain_entries _ _ _ _ _ Nl' Nr' J').
    assert (Sr : forall x, suffixed r "_left" x = suffixed r' "_left" x) by (intros x; unfold suffixed; rewrite (same_entries_dmem r r' x Er); reflexivity).
    assert (Sl : forall x, suffixed l "_right" x = suffixed l' "_right" x) by (intros x; unfold suffixed; rewrite (same_entries_dmem l l' x El); reflexivity).
    rewrite Eon, (El c), (Er c).
    apply or_iff_compat_l. apply ZifyClasses.or_morph.
    + split; intros (c0 & N & G & ->); exists c0; rewrite <- Eon in * || rewrite Eon in *; rewrite <- (El c0) in * || rewrite (El c0) in *; auto.
    + split; intros (c0 & k0 & N & G & -> & ->); exists c0, k0; rewrite <- Eon in * || rewrite Eon in *; rewrite <- (Er c0) in * || rewrite (Er c0) in *; auto.
Qed.

Section Agree.
Variables (W : world) (l2 : bool) (cat : catalog) (data : dict vtab).
Hypothesis IN : inputs_ok l2 cat data.
Notation sch := (schema_of (w_cond_ok W) cat).

(** The queries on which schema() and the compiled transformation can differ (the library
    then reports an internal error):
    - ReplaceInfinity and DropInfinity with no columns given, on a table whose grouping
      or ID column is a float column that allows infinities;
    - a left public join of a table with privacy IDs;
    - a grouping FlatMap that does not keep the input columns. *)
Definition no_inf_special (q : query) : Prop :=
  forall s c d, sch q = Ok s -> sc_group s = Some c \/ sc_id s = Some c -> dget c (sc_cols s) = Some d ->
    is_decimal d && cd_inf d = false.
Fixpoint regular (q : query) : Prop :=
  match q with
  | PrivateSource _ => True
  | FlatMap c _ new aug _ => regular c /\ (aug = true \/ sc_group new = None)
  | JoinPrivate l r _ _ _ => regular l /\ regular r
  | JoinPublic c _ _ how => regular c /\ forall s, sch c = Ok s -> how = "left" -> sc_id s = None
  | ReplaceInfinity c rw => regular c /\ (rw = [] -> no_inf_special c)
  | DropInfinity c cols => regular c /\ (cols = [] -> no_inf_special c)
  | GetGroups c _ | GetBounds c _ _ _ _ | Rename c _ | Filter c _ | Select c _ | MapQ c _ _ _
  | FlatMapByID c _ _ | ReplaceNullAndNan c _ | DropNullAndNan c _ | EnforceConstraint c _
  | GroupByCount c _ _ _ _ | GroupByCountDistinct c _ _ _ _ _ | GroupByQuantile c _ _ _ _ _ _
  | GroupByBounded _ c _ _ _ _ _ _ _ | SuppressAggregates c _ _ => regular c
  end.

Record agrees (s : schema) (t : vtab) : Prop := {
  ag_wf : NoDup (dkeys (sc_cols s));
  ag_dom : NoDup (dkeys (v_dom t));
  ag_same : same_entries (v_dom t) (core_cols (sc_cols s));
  ag_metric : metric_for l2 s (v_place t)
}.

Lemma metric_group s p : metric_for l2 s p -> match p with PKeys _ => sc_group s = None | _ => sc_id s = None end.
Proof.
  unfold metric_for. destruct (sc_group s) as [g|], (sc_id s) as [i|]; intros H; try contradiction; subst p; reflexivity.
Qed.
Lemma metric_col s p : metric_for l2 s p ->
  metric_column p = match sc_group s with Some g => Some g | None => sc_id s end
  /\ (sc_group s = None \/ sc_id s = None).
Proof.
  unfold metric_for. destruct (sc_group s) as [g|], (sc_id s) as [i|]; intros H; try contradiction; subst p; cbn; auto.
Qed.
Lemma metric_special s p c : metric_for l2 s p -> is_col (metric_column p) c = negb (not_special s c).
Proof.
  intros M. destruct (metric_col s p M) as [-> O]. unfold not_special.
  destruct (sc_group s) as [g|], (sc_id s) as [i|]; cbn; rewrite ?andb_true_r, ?negb_involutive; try reflexivity.
  destruct O; discriminate.
Qed.

Lemma rebuild_ok f s s' : rebuild f s = Ok s' ->
  sc_cols s' = map (fun p => (fst p, f (fst p) (snd p))) (sc_cols s)
  /\ sc_group s' = sc_group s /\ sc_id s' = sc_id s /\ sc_space s' = sc_space s.
Proof. unfold rebuild. intros H. apply mk_schema_ok in H. destruct H as (_ & _ & _ & ->). auto. Qed.
Lemma dget_map_key {V U} (f : string -> V -> U) (d : dict V) c :
  dget c (map (fun p => (fst p, f (fst p) (snd p))) d) = option_map (f c) (dget c d).
Proof.
  induction d as [|[k v] d IH]; [reflexivity|]. simpl. destruct (String.eqb_spec c k) as [Ec|]; [subst; reflexivity|exact IH].
Qed.
Lemma dkeys_map_key {V U} (f : string -> V -> U) (d : dict V) :
  dkeys (map (fun p => (fst p, f (fst p) (snd p))) d) = dkeys d.
Proof. unfold dkeys. rewrite map_map. reflexivity. Qed.

(** Schema-side rebuilding against domain-side changes of the same columns. *)
Lemma rebuild_agrees f s s' t dom' rows' coll' :
  agrees s t -> rebuild f s = Ok s' -> dkeys dom' = dkeys (v_dom t) ->
  (forall c d, dget c (sc_cols s) = Some d -> dget c dom' = Some (to_core (f c d))) ->
  agrees s' {| v_dom := dom'; v_coll := coll'; v_place := v_place t; v_rows := rows' |}.
Proof.
  intros [Aw Ad As Am] R K H. apply rebuild_ok in R. destruct R as (Ec & Eg & Ei & _).
  split; cbn [v_dom v_place].
  - rewrite Ec, dkeys_map_key. exact Aw.
  - rewrite K. exact Ad.
  - intros c. rewrite Ec, dget_core_cols, dget_map_key.
    destruct (dget c (sc_cols s)) as [d|] eqn:E; cbn [option_map]; [apply H, E|].
    apply dget_None. rewrite K. apply dget_None. rewrite (As c), dget_core_cols, E. reflexivity.
  - unfold metric_for in *. rewrite Eg, Ei. exact Am.
Qed.

Lemma schema_pick cols d l : pick d cols = Ok l -> NoDup cols ->
  dkeys l = cols /\ forall c, In c cols -> dget c l = dget c d.
Proof.
  unfold pick. intros H N. inv_ok H. injection H as <-. apply mapM_keyed in E. destruct E as [K C].
  rewrite dict_of_NoDup by (change (NoDup (dkeys x)); rewrite K; exact N). split; [exact K|].
  intros c I. rewrite <- K in I. apply in_dkeys in I. destruct I as (k & Hk). rewrite Hk.
  apply dget_In, C in Hk. unfold lookup_col in Hk. destruct (dget c d); [congruence|discriminate].
Qed.

Lemma merge_agree (s : dict coldesc) (d : dict coredesc) new :
  NoDup (dkeys (sc_cols new)) -> same_entries d (core_cols s) ->
  same_entries (merge d (new_core new)) (core_cols (merge s (new_columns new))).
Proof.
  intros N E c. rewrite dget_core_cols. rewrite !dget_merge.
  - rewrite dget_new_core. unfold new_columns. rewrite dget_map_val. rewrite (E c), dget_core_cols.
    destruct (dget c (sc_cols new)); cbn [option_map]; [rewrite to_core_nullable|]; reflexivity.
  - unfold new_columns. rewrite dkeys_map_val. exact N.
  - rewrite dkeys_new_core. exact N.
Qed.
Lemma new_agree new : same_entries (new_core new) (core_cols (new_columns new)).
Proof.
  intros c. rewrite dget_core_cols, dget_new_core. unfold new_columns. rewrite dget_map_val.
  destruct (dget c (sc_cols new)); cbn [option_map]; [rewrite to_core_nullable|]; reflexivity.
Qed.
Lemma dkeys_new_columns new : dkeys (new_columns new) = dkeys (sc_cols new).
Proof. unfold new_columns. apply (dkeys_map_val nullable). Qed.

(** at_columns on the core side of a column. *)
Lemma view_to_core d : view (to_core d) = core_view d.
Proof. unfold to_core, view, core_view. destruct d as [[] n x i]; cbn; rewrite ?andb_true_r, ?andb_false_r; reflexivity. Qed.

Lemma smem_dkeys {V} (d : dict V) c : smem c (dkeys d) = dmem c d.
Proof.
  destruct (dmem c d) eqn:E; [apply smem_In, dmem_In, E|]. apply smem_false. rewrite <- dmem_In. congruence.
Qed.
Lemma dmem_filter {V} (p : string * V -> bool) (d : dict V) c : NoDup (dkeys d) ->
  dmem c (filter p d) = match dget c d with Some v => p (c, v) | None => false end.
Proof.
  intros N. destruct (dmem c (filter p d)) eqn:E.
  - apply dmem_In, in_dkeys in E. destruct E as (v & E). apply dget_filter_keys in E; [|exact N]. destruct E as [-> P]. congruence.
  - destruct (dget c d) as [v|] eqn:G; [|reflexivity]. destruct (p (c, v)) eqn:P; [|reflexivity].
    exfalso. assert (dmem c (filter p d) = true); [|congruence]. apply dmem_In, in_dkeys. exists v.
    apply In_dget; [apply NoDup_filter_keys, N|]. apply filter_In. split; [apply dget_In, G|exact P].
Qed.

Lemma null_agree d (b b0 sp : bool) :
  (b = b0 \/ (b0 = (cd_null d || cd_nan d) && sp
              /\ b = sp && (cd_null (view (to_core d)) || cd_nan (view (to_core d))))) ->
  (if b && (is_decimal (view (to_core d)) && cd_nan (view (to_core d))) then core_not_nan else fun k => k)
    ((if b && cd_null (view (to_core d)) then core_not_null else fun k => k) (to_core d))
  = to_core {| cd_type := cd_type d; cd_null := cd_null d && negb b0; cd_nan := cd_nan d && negb b0; cd_inf := cd_inf d |}.
Proof.
  destruct d as [[] n x i]; intros [->|[-> ->]]; destruct n, x, i, sp; try destruct b0; reflexivity.
Qed.

Lemma null_dom (nulls nans : list string) dom c k :
  dget c dom = Some k ->
  dget c (at_columns nans core_not_nan (at_columns nulls core_not_null dom))
  = Some ((if smem c nans then core_not_nan else fun k => k) ((if smem c nulls then core_not_null else fun k => k) k)).
Proof. intros E. rewrite !at_columns_dget, E. cbn. destruct (smem c nans), (smem c nulls); reflexivity. Qed.

Lemma missing_false cols d : missing cols d = false <-> forall c, In c cols -> In c (dkeys d).
Proof.
  unfold missing. split.
  - intros H c I. destruct (dmem c d) eqn:M; [apply dmem_In, M|]. exfalso.
    assert (existsb (fun c => negb (dmem c d)) cols = true); [|congruence]. apply existsb_exists. exists c. rewrite M. auto.
  - intros H. destruct (existsb _ cols) eqn:E; [|reflexivity]. apply existsb_exists in E. destruct E as (c & I & M).
    apply negb_true_iff in M. apply H, dmem_In in I. congruence.
Qed.

Lemma dom_of_schema s t c d : agrees s t -> dget c (sc_cols s) = Some d -> dget c (v_dom t) = Some (to_core d).
Proof. intros A E. rewrite (ag_same s t A c), dget_core_cols, E. reflexivity. Qed.

Lemma agree_common l r tl tr : agrees l tl -> same_entries tr (core_cols (sc_cols r)) ->
  forall c, In c (common_columns (v_dom tl) tr) <-> In c (common_columns (sc_cols l) (sc_cols r)).
Proof.
  intros A E c. unfold common_columns. rewrite !filter_In.
  rewrite (same_entries_keys _ _ (ag_same _ _ A) c), dkeys_core_cols.
  rewrite (same_entries_dmem _ _ c E). unfold dmem. rewrite dget_core_cols. destruct (dget c (sc_cols r)); reflexivity.
Qed.

Lemma core_to_analytics_same d d' : core_to_analytics d = Ok d' -> core_cols d' = d.
Proof.
  rewrite core_to_analytics_view. intros H.
  assert (d' = map (fun p => (fst p, view (snd p))) d) as -> by congruence.
  unfold core_cols. rewrite map_map. cbn [fst snd].
  transitivity (map (fun x : string * coredesc => x) d); [|apply map_id].
  apply map_ext. intros [c k]. cbn. rewrite to_core_view. reflexivity.
Qed.

Lemma schema_agrees auto q : built auto q -> promises W l2 cat data q -> regular q ->
  forall s t cs, sch q = Ok s -> visit W l2 cat data q = Ok (t, cs) -> agrees s t.
Proof.
  induction q; intros B P R s0 t0 cs0 S H; cbn [visit] in H; try discriminate H; cbn [schema_of] in S.
  - (* source *)
    unfold visit_source in H. destruct (dget source_id data) as [t|] eqn:E; [|discriminate].
    destruct (proj1 IN source_id t E) as (s & cs & Es & Ns & Nd & _ & SE & M & _).
    rewrite Es in H. injection H as <- <-. unfold source_schema in S. inv_ok S. rewrite Es in S. injection S as <-.
    split; assumption.
  - (* rename *)
    inv_ok S. inv_ok H. destruct x0 as [t cs]. destruct B as [B0 B]. destruct P as [P1 P2]. 
    pose proof (IHq B P1 R x t cs E E0) as A. destruct A as [Aw Ad As Am].
    unfold rename_schema in S. inv_ok S. inv_ok S. apply mk_schema_ok in S. destruct S as (_ & _ & _ & ->).
    unfold visit_rename in H. inv_ok H. injection H as <- <-.
    pose proof (P2 t cs E0) as Nm.
    assert (Pk : Permutation (dkeys (v_dom t)) (dkeys (sc_cols x))).
    { apply same_keys_perm; [exact Ad|exact Aw|]. intros c. rewrite (same_entries_keys _ _ As c), dkeys_core_cols. tauto. }
    assert (Nm' : NoDup (map (renamed mapper) (dkeys (sc_cols x)))).
    { eapply Permutation_NoDup; [apply Permutation_map, Pk|exact Nm]. }
    set (f := fun p : string * coldesc => (renamed mapper (fst p), snd p)).
    set (g := fun p : string * coredesc => (renamed mapper (fst p), snd p)).
    assert (Kf : dkeys (map f (sc_cols x)) = map (renamed mapper) (dkeys (sc_cols x))) by apply dkeys_rekey.
    assert (Kg : dkeys (map g (v_dom t)) = map (renamed mapper) (dkeys (v_dom t))) by apply dkeys_rekey.
    assert (Df : dict_of (map f (sc_cols x)) = map f (sc_cols x)) by (apply dict_of_NoDup; exact (eq_ind_r (@NoDup string) Nm' Kf)).
    assert (Dg : dict_of (map g (v_dom t)) = map g (v_dom t)) by (apply dict_of_NoDup; exact (eq_ind_r (@NoDup string) Nm Kg)).
    split; cbn [sc_cols v_dom v_place]; rewrite ?Df, ?Dg.
    + rewrite Kf. exact Nm'.
    + rewrite Kg. exact Nm.
    + intros c. rewrite dget_core_cols.
      destruct (in_dec string_dec c (map (renamed mapper) (dkeys (v_dom t)))) as [I|I].
      * apply in_map_iff in I. destruct I as (c0 & <- & I). unfold g, f. rewrite !dget_rekey; try assumption.
        -- rewrite (As c0), dget_core_cols. reflexivity.
        -- eapply Permutation_in; [exact Pk|exact I].
      * assert (dget c (map g (v_dom t)) = None) as -> by (apply dget_None; rewrite Kg; exact I).
        assert (dget c (map f (sc_cols x)) = None) as ->; [|reflexivity].
        apply dget_None. rewrite Kf. intros I'. apply I. eapply Permutation_in; [apply Permutation_map; symmetry; exact Pk|exact I'].
    + unfold metric_for in *. cbn [sc_group sc_id]. destruct (sc_group x), (sc_id x); cbn; try contradiction; rewrite Am; reflexivity.
  - (* filter *)
    inv_ok S. inv_ok H. destruct x0 as [t cs]. destruct B as [_ B]. pose proof (IHq B P R x t cs E E0) as A.
    unfold filter_schema in S. inv_ok S. injection S as <-. injection H as <- <-. destruct A. split; assumption.
  - (* select *)
    inv_ok S. inv_ok H. destruct x0 as [t cs]. destruct B as [B0 B]. pose proof (IHq B P R x t cs E E0) as A.
    cbn in B0. inv_ok B0. apply has_dup_false in E1.
    unfold select_schema in S. inv_ok S. inv_ok S. inv_ok S. inv_ok S.
    apply mk_schema_ok in S. destruct S as (_ & _ & _ & ->).
    destruct (schema_pick _ _ _ E5 E1) as [Kp Cp].
    unfold visit_select in H. inv_ok H. inv_ok H. injection H as <- <-.
    assert (D0 : in_domain (v_dom t) []) by (intros ? []).
    destruct (select_ok columns (v_dom t) [] x1 E1 D0 E6) as (N1 & _ & K1 & C1).
    destruct A as [Aw Ad As Am]. split; cbn [sc_cols v_dom v_place].
    + rewrite Kp. exact E1.
    + rewrite dict_of_NoDup by exact N1. exact N1.
    + rewrite dict_of_NoDup by exact N1. intros c. rewrite dget_core_cols.
      destruct (in_dec string_dec c columns) as [I|I].
      * rewrite C1, Cp by exact I. rewrite (As c), dget_core_cols. reflexivity.
      * assert (dget c x1 = None) as -> by (apply dget_None; rewrite K1; exact I).
        assert (dget c x0 = None) as -> by (apply dget_None; rewrite Kp; exact I). reflexivity.
    + exact Am.
  - (* map *)
    inv_ok S. inv_ok H. destruct x0 as [t cs]. destruct B as [_ B]. destruct P as (P1 & Pn & _).
    pose proof (IHq B P1 R x t cs E E0) as A. destruct A as [Aw Ad As Am].
    unfold visit_map in H. inv_ok H. inv_ok H. injection H as <- <-.
    unfold map_schema in S. destruct augment.
    + inv_ok S. apply mk_schema_ok in S. destruct S as (_ & _ & _ & ->). split; cbn [sc_cols v_dom v_place mapped_domain].
      * apply NoDup_merge, Aw.
      * apply NoDup_merge, Ad.
      * apply merge_agree; assumption.
      * exact Am.
    + inv_ok S. inv_ok S. apply mk_schema_ok in S. destruct S as (_ & _ & _ & ->). split; cbn [sc_cols v_dom v_place mapped_domain].
      * rewrite dkeys_new_columns. exact Pn.
      * rewrite dkeys_new_core. exact Pn.
      * apply new_agree.
      * unfold metric_for in *. cbn. destruct (sc_group x), (sc_id x); try discriminate; exact Am.
  - (* flat map *)
    inv_ok S. inv_ok H. destruct x0 as [t cs]. destruct B as [_ B]. destruct P as (P1 & Pn & _). destruct R as [R R2].
    pose proof (IHq B P1 R x t cs E E0) as A. destruct A as [Aw Ad As Am].
    unfold visit_flat_map in H. inv_ok H. inv_ok H. injection H as <- <-.
    unfold flat_map_schema in S. inv_ok S. inv_ok S. destruct augment.
    + inv_ok S. apply mk_schema_ok in S. destruct S as (_ & _ & _ & ->). split; cbn [sc_cols v_dom v_place mapped_domain].
      * apply NoDup_merge, Aw.
      * apply NoDup_merge, Ad.
      * apply merge_agree; assumption.
      * unfold metric_for in *. cbn [sc_group sc_id].
        destruct (in_collection (v_place t)) eqn:C.
        -- inv_ok E1. inv_ok E1. injection E1 as <-. cbn [fst]. destruct (sc_group new); [discriminate|]. exact Am.
        -- destruct max_rows as [z|]; [|discriminate]. destruct (sc_group new) as [g|] eqn:Eg.
           ++ destruct (v_place t) eqn:Ep; try discriminate E1. injection E1 as <-. cbn [fst].
              destruct (sc_group x), (sc_id x); try discriminate; try contradiction; reflexivity.
           ++ injection E1 as <-. exact Am.
    + inv_ok S. inv_ok S. apply mk_schema_ok in S. destruct S as (_ & _ & _ & ->).
      destruct R2 as [R2|R2]; [discriminate|].
      split; cbn [sc_cols v_dom v_place mapped_domain].
      * rewrite dkeys_new_columns. exact Pn.
      * rewrite dkeys_new_core. exact Pn.
      * apply new_agree.
      * rewrite R2 in E1. unfold metric_for in *. cbn [sc_group sc_id].
        destruct (sc_group x), (sc_id x); try discriminate. rewrite Am in E1. cbn in E1.
        destruct max_rows; [|discriminate]. injection E1 as <-. reflexivity.
  - (* flat map by id *)
    inv_ok S. inv_ok H. destruct x0 as [t cs]. destruct B as [_ B]. destruct P as (P1 & Pn & _).
    pose proof (IHq B P1 R x t cs E E0) as A. pose proof A as [Aw Ad As Am].
    unfold flat_map_by_id_schema in S. destruct (sc_id x) as [i|] eqn:Ei; [|discriminate]. inv_ok S. inv_ok S. inv_ok S.
    apply mk_schema_ok in S. destruct S as (_ & _ & _ & ->).
    unfold metric_for in Am. rewrite Ei in Am. destruct (sc_group x) eqn:Eg; [contradiction|].
    unfold visit_flat_map_by_id in H. rewrite Am in H. destruct (dget i (v_dom t)) as [d|] eqn:Ed; [|discriminate].
    inv_ok H. injection H as <- <-.
    unfold lookup_col in E3. destruct (dget i (sc_cols x)) as [d0|] eqn:E0'; [|discriminate]. injection E3 as ->.
    pose proof (dom_of_schema x t i x0 A E0') as Ed'. rewrite Ed in Ed'. injection Ed' as ->.
    split; cbn [sc_cols v_dom v_place].
    + apply NoDup_merge. repeat constructor; intros [].
    + apply NoDup_merge. repeat constructor; intros [].
    + apply merge_agree; [exact Pn|]. intros c. reflexivity.
    + reflexivity.
  - (* private join *)
    inv_ok S. inv_ok S. inv_ok H. destruct x1 as [tl' cl]. inv_ok H. destruct x1 as [tr' cr].
    destruct B as (_ & B1 & B2). destruct P as [P1 P2]. destruct R as [R1 R2].
    pose proof (IHq1 B1 P1 R1 x tl' cl E E1) as Al. pose proof (IHq2 B2 P2 R2 x0 tr' cr E0 E2) as Ar.
    unfold join_private_schema in S. inv_ok S. inv_ok S. inv_ok S. unfold schema_for_join in S. inv_ok S. inv_ok S.
    apply mk_schema_ok in S. destruct S as (_ & _ & _ & ->).
    apply core_to_analytics_same in E7.
    unfold visit_join_private in H. inv_ok H. inv_ok H. destruct x4 as [[p lr] rr]. inv_ok H. injection H as <- <-.
    assert (Nj : NoDup (dkeys x2)) by (apply join_domain_spec in E6; destruct E6; assumption).
    assert (Nj' : NoDup (dkeys x4)) by (apply join_domain_spec in E10; destruct E10; assumption).
    split; cbn [sc_cols v_dom v_place].
    + rewrite <- (dkeys_core_cols x3), E7. exact Nj.
    + exact Nj'.
    + rewrite E7. unfold join_columns in E10.
      eapply join_domain_same; [| | | | | | |exact E10|exact E6].
      * apply (ag_dom _ _ Al).
      * rewrite analytics_to_core_cols, dkeys_core_cols. apply (ag_wf _ _ Al).
      * apply (ag_dom _ _ Ar).
      * rewrite analytics_to_core_cols, dkeys_core_cols. apply (ag_wf _ _ Ar).
      * apply (ag_same _ _ Al).
      * apply (ag_same _ _ Ar).
      * destruct on; [tauto|]. apply agree_common; [exact Al|apply (ag_same _ _ Ar)].
    + destruct Al as [_ _ _ Al]. destruct Ar as [_ _ _ Ar]. unfold metric_for in *. cbn [sc_group sc_id].
      apply negb_false_iff, option_eqb_eq in E3; [|apply String.eqb_eq].
      destruct (sc_group x) as [g|], (sc_id x) as [i|]; try contradiction; rewrite Al in E9; try discriminate.
      * rewrite <- E3 in Ar. destruct (sc_group x0); [contradiction|]. rewrite Ar in E9. inv_ok E9. inv_ok E9. congruence.
      * rewrite <- E3 in Ar. destruct (sc_group x0); [rewrite Ar in E9; discriminate|]. rewrite Ar in E9.
        destruct tl; [|discriminate]. destruct tr; [|discriminate]. congruence.
  - (* public join *)
    inv_ok S. inv_ok H. destruct x0 as [t cs]. destruct B as (_ & B). destruct P as [P1 P2]. destruct R as [R1 R2].
    pose proof (IHq B P1 R1 x t cs E E0) as A. pose proof (R2 x E) as R3.
    unfold join_public_schema in S. inv_ok S. inv_ok S. unfold schema_for_join in S. inv_ok S. inv_ok S.
    apply mk_schema_ok in S. destruct S as (_ & _ & _ & ->). apply core_to_analytics_same in E4.
    unfold visit_join_public in H. inv_ok H. inv_ok H. inv_ok H. inv_ok H. inv_ok H. injection H as <- <-.
    assert (Pf : frame_conforms x4 /\ sc_group x0 = None /\ NoDup (dkeys (sc_cols x0))
                 /\ same_entries (analytics_to_core x6) (core_cols (sc_cols x0))).
    { apply mk_schema_ok in E7. destruct E7 as (_ & _ & _ & ->). destruct public as [n|f]; cbn in E1, E5.
      - destruct (dget n (cat_public cat)) as [[s f]|] eqn:En; [|discriminate]. injection E1 as <-. injection E5 as <-.
        destruct (proj2 IN n s f En) as (F & Ns & G & _ & d & Ed & Sd). rewrite E6 in Ed. injection Ed as <-.
        split; [exact F|]. split; [exact G|]. split; [exact Ns|]. intros c. symmetry. exact (Sd c).
      - injection E5 as <-. inv_ok E1. rewrite E6 in E5. injection E5 as <-. apply mk_schema_ok in E1. destruct E1 as (_ & _ & _ & ->).
        split; [exact P2|]. split; [reflexivity|]. split; [|intros c; reflexivity]. cbn [sc_cols].
        unfold spark_schema_to_analytics_columns in E6. inv_ok E6. injection E6 as <-. apply NoDup_dict_of. }
    destruct Pf as (Pf & Gr & Nr & Sr).
    assert (L : negb (in_collection (v_place t)) && String.eqb how "left" = String.eqb how "left").
    { destruct (String.eqb_spec how "left") as [Eh|]; [|apply andb_false_r]. rewrite andb_true_r.
      specialize (R3 Eh). pose proof (ag_metric _ _ A) as M. unfold metric_for in M. rewrite R3 in M.
      destruct (sc_group x); rewrite M; reflexivity. }
    rewrite L in E8.
    assert (Nj : NoDup (dkeys x2)) by (apply join_domain_spec in E3; destruct E3; assumption).
    assert (Nj' : NoDup (dkeys x7)) by (apply join_domain_spec in E8; destruct E8; assumption).
    split; cbn [sc_cols v_dom v_place].
    + rewrite <- (dkeys_core_cols x3), E4. exact Nj.
    + exact Nj'.
    + rewrite E4. unfold join_columns in E8. eapply join_domain_same; [| | | | | | |exact E8|exact E3].
      * apply (ag_dom _ _ A).
      * rewrite analytics_to_core_cols, dkeys_core_cols. apply (ag_wf _ _ A).
      * apply (frame_in_domain x4 x5 x6 Pf E6 E7).
      * rewrite analytics_to_core_cols, dkeys_core_cols. exact Nr.
      * apply (ag_same _ _ A).
      * exact Sr.
      * destruct on; [tauto|]. apply agree_common; [exact A|exact Sr].
    + pose proof (ag_metric _ _ A) as M. unfold metric_for in *. cbn [sc_group sc_id]. rewrite Gr. destruct (sc_group x); exact M.
  - (* replace null *)
    inv_ok S. inv_ok H. destruct x0 as [t cs]. destruct B as (B0 & B). destruct P as (P1 & P2 & P3).
    pose proof (IHq B P1 R x t cs E E0) as A.
    unfold replace_null_schema in S. inv_ok S. inv_ok S. inv_ok S.
    unfold visit_replace_null in H. inv_ok H. inv_ok H. inv_ok H. injection H as <- <-.
    rewrite core_to_analytics_view in E5. injection E5 as <-.
    cbn in B0. inv_ok B0.
    destruct (get_replace_with_ok replace_with (v_dom t) (metric_column (v_place t)) x2 (ag_dom _ _ A) P2) as (N0 & _ & K1 & K2).
    { intros c v I. destruct (valid_replacement v) eqn:V; [reflexivity|]. exfalso.
      assert (existsb (fun p => negb (valid_replacement (snd p))) replace_with = true); [|congruence].
      apply existsb_exists. exists (c, v). split; [exact I|]. cbn. rewrite V. reflexivity. }
    { intros c v k I Hd. apply (P3 t cs c v k E0 I Hd). }
    { exact E6. }
    eapply rebuild_agrees; [exact A|exact S|rewrite !at_columns_dkeys; reflexivity|].
    intros c d Hd. pose proof (dom_of_schema x t c d A Hd) as Hk. rewrite (null_dom _ _ _ c (to_core d) Hk). f_equal.
    rewrite !smem_dkeys, !dmem_filter by exact N0. cbn [fst]. rewrite !dget_map_val, Hk. cbn [option_map].
    set (b := smem c (dkeys x2)).
    replace (match dget c x2 with Some _ => is_decimal (view (to_core d)) && cd_nan (view (to_core d)) | None => false end)
      with (b && (is_decimal (view (to_core d)) && cd_nan (view (to_core d))))
      by (unfold b; rewrite smem_dkeys; unfold dmem; destruct (dget c x2); reflexivity).
    replace (match dget c x2 with Some _ => cd_null (view (to_core d)) | None => false end)
      with (b && cd_null (view (to_core d)))
      by (unfold b; rewrite smem_dkeys; unfold dmem; destruct (dget c x2); reflexivity).
    apply (null_agree d b _ (not_special x c)). subst b.
    destruct replace_with as [|p0 rw] eqn:Erw.
    + right. cbn [dkeys map]. split.
      * rewrite smem_dkeys, dmem_filter by apply (ag_wf _ _ A). rewrite Hd. reflexivity.
      * destruct (smem c (dkeys x2)) eqn:Sm.
        -- apply smem_In, (K2 eq_refl) in Sm. destruct Sm as (k & Hk' & F1 & F2). rewrite Hk in Hk'. injection Hk' as <-.
           rewrite (metric_special _ _ _ (ag_metric _ _ A)) in F1. apply negb_false_iff in F1. rewrite F1, F2. reflexivity.
        -- apply smem_false in Sm. destruct (not_special x c) eqn:Sp; [|reflexivity]. cbn.
           destruct (cd_null (view (to_core d)) || cd_nan (view (to_core d))) eqn:F; [|reflexivity]. exfalso. apply Sm, (K2 eq_refl).
           exists (to_core d). split; [exact Hk|]. split; [|exact F]. rewrite (metric_special _ _ _ (ag_metric _ _ A)), Sp. reflexivity.
    + left. rewrite K1 by discriminate. cbn [dkeys map]. reflexivity.
  - (* replace infinity *)
    inv_ok S. inv_ok H. destruct x0 as [t cs]. destruct B as (_ & B). destruct P as (P1 & _). destruct R as [R1 R2].
    pose proof (IHq B P1 R1 x t cs E E0) as A.
    unfold replace_inf_schema in S. inv_ok S. inv_ok S. inv_ok S. 
    unfold visit_replace_inf in H. inv_ok H. inv_ok H. inv_ok H. injection H as <- <-.
    rewrite core_to_analytics_view in E4. injection E4 as <-.
    unfold no_infinity in S. eapply rebuild_agrees; [exact A|exact S|rewrite at_columns_dkeys; reflexivity|].
    intros c d Hd. pose proof (dom_of_schema x t c d A Hd) as Hk. rewrite at_columns_dget, Hk. cbn [option_map]. f_equal.
    destruct replace_with as [|p0 rw] eqn:Erw.
    + cbn [dkeys map default_infinity]. rewrite (dkeys_map_val (fun _ => (z_to_f 0, z_to_f 0))).
      rewrite !smem_dkeys, !dmem_filter by (rewrite ?dkeys_map_val; first [apply (ag_dom _ _ A) | apply (ag_wf _ _ A)]).
      rewrite dget_map_val, Hk, Hd. cbn [option_map snd fst].
      pose proof (fun c' => R2 eq_refl x c' d E) as R3. specialize (R3 c).
      assert (Z : not_special x c = false -> is_decimal d && cd_inf d = false).
      { intros Sp. apply R3; [|exact Hd]. unfold not_special in Sp. apply andb_false_iff in Sp. destruct Sp as [Sp|Sp];
          apply negb_false_iff in Sp; unfold is_col in Sp; [left; destruct (sc_group x)|right; destruct (sc_id x)]; try discriminate;
          apply String.eqb_eq in Sp; congruence. }
      clear -Z. destruct (not_special x c); [clear Z|specialize (Z eq_refl)]; destruct d as [[] n xx []]; cbn in *; try discriminate; reflexivity.
    + rewrite <- Erw in *. assert (default_infinity x (dkeys replace_with) = dkeys replace_with) as -> by (rewrite Erw; reflexivity).
      destruct (smem c (dkeys replace_with)); destruct d as [[] n xx ii]; cbn; rewrite ?andb_true_r, ?andb_false_r; reflexivity.
  - (* drop null *)
    inv_ok S. inv_ok H. destruct x0 as [t cs]. destruct B as (_ & B).
    pose proof (IHq B P R x t cs E E0) as A.
    unfold drop_null_schema in S. inv_ok S. inv_ok S. inv_ok S.
    unfold visit_drop_null in H. inv_ok H. inv_ok H. inv_ok H. inv_ok H. injection H as <- <-.
    rewrite core_to_analytics_view in E4. injection E4 as <-.
    eapply rebuild_agrees; [exact A|exact S|rewrite !at_columns_dkeys; reflexivity|].
    intros c d Hd. pose proof (dom_of_schema x t c d A Hd) as Hk. rewrite (null_dom _ _ _ c (to_core d) Hk). f_equal.
    assert (Sf : forall (l : list string) (p : string -> bool), smem c (filter p l) = smem c l && p c).
    { intros l p. destruct (smem c l && p c) eqn:Q.
      - apply andb_prop in Q. destruct Q as [Q1 Q2]. apply smem_In, filter_In. split; [apply smem_In, Q1|exact Q2].
      - apply smem_false. intros I. apply filter_In in I. destruct I as [I I2]. apply smem_In in I. rewrite I, I2 in Q. discriminate. }
    rewrite !Sf. rewrite !dget_map_val, Hk. cbn [option_map fst snd].
    set (b := smem c _).
    replace (b && cd_nan (view (to_core d))) with (b && (is_decimal (view (to_core d)) && cd_nan (view (to_core d))))
      by (destruct d as [[] ? ? ?]; cbn; rewrite ?andb_false_r; reflexivity).
    apply (null_agree d b _ (not_special x c)). subst b.
    destruct columns as [|c0 cols].
    + right. split.
      * rewrite smem_dkeys, dmem_filter by apply (ag_wf _ _ A). rewrite Hd. reflexivity.
      * rewrite smem_dkeys, dmem_filter by (rewrite dkeys_map_val; apply (ag_dom _ _ A)). rewrite dget_map_val, Hk. cbn [option_map fst snd].
        rewrite (metric_special _ _ _ (ag_metric _ _ A)), negb_involutive. apply andb_comm.
    + left. reflexivity.
  - (* drop infinity *)
    inv_ok S. inv_ok H. destruct x0 as [t cs]. destruct B as (_ & B). destruct R as [R1 R2].
    pose proof (IHq B P R1 x t cs E E0) as A.
    unfold drop_inf_schema in S. inv_ok S. inv_ok S. inv_ok S.
    unfold visit_drop_inf in H. inv_ok H. inv_ok H. inv_ok H. injection H as <- <-.
    rewrite core_to_analytics_view in E4. injection E4 as <-.
    unfold no_infinity in S. eapply rebuild_agrees; [exact A|exact S|rewrite at_columns_dkeys; reflexivity|].
    intros c d Hd. pose proof (dom_of_schema x t c d A Hd) as Hk. rewrite at_columns_dget, Hk. cbn [option_map]. f_equal.
    destruct columns as [|c0 cols].
    + injection E6 as <-. cbn [default_infinity].
      rewrite !smem_dkeys, !dmem_filter by (rewrite ?dkeys_map_val; first [apply (ag_dom _ _ A) | apply (ag_wf _ _ A)]).
      rewrite dget_map_val, Hk, Hd. cbn [option_map snd fst].
      pose proof (fun c' => R2 eq_refl x c' d E) as R3. specialize (R3 c).
      assert (Z : not_special x c = false -> is_decimal d && cd_inf d = false).
      { intros Sp. apply R3; [|exact Hd]. unfold not_special in Sp. apply andb_false_iff in Sp. destruct Sp as [Sp|Sp];
          apply negb_false_iff in Sp; unfold is_col in Sp; [left; destruct (sc_group x)|right; destruct (sc_id x)]; try discriminate;
          apply String.eqb_eq in Sp; congruence. }
      clear -Z. destruct (not_special x c); [clear Z|specialize (Z eq_refl)]; destruct d as [[] n xx []]; cbn in *; try discriminate; reflexivity.
    + inv_ok E6. injection E6 as <-. cbn [default_infinity].
      destruct (smem c (c0 :: cols)); destruct d as [[] n xx ii]; cbn; rewrite ?andb_true_r, ?andb_false_r; reflexivity.
  - (* enforce *)
    inv_ok S. inv_ok H. destruct x0 as [t cs]. destruct B as (_ & B). pose proof (IHq B P R x t cs E E0) as A.
    assert (s0 = x) as ->.
    { unfold enforce_schema in S. destruct (sc_id x); [|discriminate]. destruct c; [congruence| |]; inv_ok S; inv_ok S; congruence. }
    unfold visit_enforce in H. inv_ok H. injection H as <- <-.
    assert (t_place x0 = v_place t).
    { unfold enforce in E1. cbn [t_place] in E1. destruct c, (v_place t); try discriminate; injection E1 as <-; reflexivity. }
    destruct A as [Aw Ad As Am]. split; cbn [v_dom v_place]; try assumption. rewrite H. exact Am.
Qed.
End Agree.
