(** Tables of two sessions that are no further apart than what is tracked, and what queries
    and aggregations make of them. *)
From Coq Require Import String Bool Arith ZArith QArith Qcanon Lia Lqa Permutation List.
From Verif Require Import Prelude Budget BudgetProofs Value Rows Constraints ConstraintsSpec ConstraintsProofs ConstraintsStab Schema SchemaProofs Query RewriteSpec Transform TransformSpec TransformConform TransformVisit TransformAgree TransformIds
  QueryProofs QueryLike Tables TablesProofs Accountant Session SessionSpec SessionTables SessionInv SessionViews SessionWell SessionSound Neighboring NeighboringSpec Builder BuilderCalls Measure MeasureProofs BlindSpec Blind BlindMeasure
  Distance StabilitySpec RowStability SensitivitySpec Sensitivity SensitivityReads PersonSession PersonAbsent Props_Measure PrivacySpec PrivacyProofs FullPrivacySpec FullStability FullSpaces FullSessionSpec FullMoves.
Import ListNotations.
Local Open Scope string_scope.
Local Open Scope nat_scope.

Section Near.
Variables (gone : string -> bool) (who : string -> value).
Local Notation "'R' k" := (restrict (Some k) (everyone_but (who k))) (at level 10, k at level 9).

(** The rest of the share [f] of what is tracked, for one table. *)
Definition pair_near (rho : bool) (f : Q) (N : nat) (t t' : vtab) : Prop :=
  match v_coll t with
  | None => within rho f N (v_place t) (v_rows t) (v_rows t')
  | Some k => R k t = R k t' /\ (if gone k then R k t' = t' else R k t = t)
  end.
Record near (rho : bool) (f : Q) (d : distances) (T T' : string -> option vtab) : Prop := {
  nr_hide : forall n, option_map hide (T n) = option_map hide (T' n);
  nr_tables : forall n t t', T n = Some t -> T' n = Some t' -> pair_near rho f (of_table d n) t t';
  nr_share : forall k, portion f 1 (of_space d k) \/ forall n t, T n = Some t -> v_coll t = Some k -> T' n = Some t
}.
Lemma sources_some q : sources q <> [].
Proof. induction q; cbn [sources]; auto; [discriminate|]. intros E. apply app_eq_nil in E as (E & _). auto. Qed.

Section Queries.
Variables (E : env) (rho : bool) (l2 : bool) (cat : catalog) (data data' : dict vtab) (f : Q) (d : distances) (auto : bool).
Notation W := (e_world E).
Notation T := (fun n => dget n data).
Notation T' := (fun n => dget n data').
Hypothesis FPOS : (0 <= f)%Q.
Hypothesis IN : inputs_ok l2 cat data.
Hypothesis IN' : inputs_ok l2 cat data'.
Hypothesis SAME : hide_all data = hide_all data'.
Hypothesis PL : forall n t, dget n data = Some t -> placed t.
Hypothesis PL' : forall n t, dget n data' = Some t -> placed t.
Hypothesis NR : near rho f d T T'.
Notation RE := (reach rho W l2 cat (hide_all data) (of_table d)).

(** Query results. *)
Lemma space_of q t cs : visit W l2 cat data q = Ok (t, cs) -> read_space data q = v_coll t.
Proof.
  intros V. unfold read_space. destruct (sources q) as [|n l] eqn:SE; [destruct (sources_some q SE)|].
  destruct (source_coll W l2 cat data q t cs V n) as (u & -> & C); [rewrite SE; now left|exact C].
Qed.
Lemma result_near q y y' : built auto q -> promises W l2 cat data q -> promises W l2 cat data' q -> finite_ids W l2 cat data q -> finite_ids W l2 cat data' q ->
  groups_kept W l2 cat data q -> groups_kept W l2 cat data' q ->
  build_transformation W l2 cat data q = Ok y -> build_transformation W l2 cat data' q = Ok y' ->
  pair_near rho f (RE q) (fst y) (fst y') /\ snd y = snd y' /\ hide (fst y) = hide (fst y') /\
  (forall k, v_coll (fst y) = Some k -> (forall n t, dget n data = Some t -> v_coll t = Some k -> dget n data' = Some t) -> y = y').
Proof.
  intros B P P' F F' G G' BT BT'. destruct y as (t, cs), y' as (t', cs'). cbn [fst snd].
  pose proof BT as BT0. pose proof BT' as BT0'.
  apply build_transformation_ok in BT as (s & S & V & VA). apply build_transformation_ok in BT' as (s' & S' & V' & VA'). rewrite S in S'. injection S' as <-.
  destruct (visit_hidden W l2 cat data data' SAME q t cs t' cs' V V') as (HT & HC). pose proof HT as HT0. apply hide_eqs in HT as (HD & HK & HP).
  pose proof (visit_placed W l2 cat data PL q t cs V) as PT.
  split; [|split; [exact HC|split; [exact HT0|]]].
  - unfold pair_near. destruct (v_coll t) as [k|] eqn:CT.
    + assert (LK : forall n, In n (sources q) -> dget n (restrict_all (Some k) (everyone_but (who k)) data) = dget n (restrict_all (Some k) (everyone_but (who k)) data')).
      { intros n I. destruct (source_coll W l2 cat data q t cs V n I) as (u & GU & CU). destruct (source_coll W l2 cat data' q t' cs' V' n I) as (u' & GU' & CU').
        unfold restrict_all. rewrite !(dget_map_val (R k)), GU, GU'. cbn. f_equal. pose proof (nr_tables _ _ _ _ _ NR n u u' GU GU') as PN. unfold pair_near in PN. rewrite CU, CT in PN. apply PN. }
      pose proof (visit_restrict W l2 cat data IN (Some k) (everyone_but (who k)) auto q B P F s t cs S V) as H1.
      pose proof (visit_restrict W l2 cat data' IN' (Some k) (everyone_but (who k)) auto q B P' F' s t' cs' S V') as H2.
      split; [rewrite (visit_sources W l2 cat _ _ q LK), H2 in H1; congruence|].
      assert (LA : forall (dd : dict vtab), (forall n u, dget n dd = Some u -> v_coll u = Some k -> R k u = u) -> forall n u, dget n dd = Some u -> R k u = u).
      { intros dd H n u GU. assert (DE : {v_coll u = Some k} + {v_coll u <> Some k}) by (decide equality; apply string_dec). destruct DE as [CU|NU]; [exact (H n u GU CU)|]. apply R_fixed. intros; contradiction. }
      assert (OT : forall n u, dget n data = Some u -> v_coll u = Some k -> exists u', dget n data' = Some u' /\ v_coll u' = Some k).
      { intros n u GU CU. pose proof (nr_hide _ _ _ _ _ NR n) as H. cbn beta in H. rewrite GU in H. destruct (dget n data') as [u'|]; [|discriminate]. exists u'. split; [reflexivity|]. injection H as H1' H2' H3'. congruence. }
      assert (OT' : forall n u, dget n data' = Some u -> v_coll u = Some k -> exists u', dget n data = Some u' /\ v_coll u' = Some k).
      { intros n u GU CU. pose proof (nr_hide _ _ _ _ _ NR n) as H. cbn beta in H. rewrite GU in H. destruct (dget n data) as [u'|]; [|discriminate]. exists u'. split; [reflexivity|]. injection H as H1' H2' H3'. congruence. }
      destruct (gone k) eqn:GK.
      * apply (view_lacks E k (everyone_but (who k)) l2 cat data' q (t', cs') auto IN'); try assumption. apply LA. intros n u GU CU. destruct (OT' n u GU CU) as (u0 & G0 & C0).
        pose proof (nr_tables _ _ _ _ _ NR n u0 u G0 GU) as PN. unfold pair_near in PN. rewrite C0, GK in PN. apply PN.
      * apply (view_lacks E k (everyone_but (who k)) l2 cat data q (t, cs) auto IN); try assumption. apply LA. intros n u GU CU. destruct (OT n u GU CU) as (u0 & G0 & C0).
        pose proof (nr_tables _ _ _ _ _ NR n u u0 GU G0) as PN. unfold pair_near in PN. rewrite CU, GK in PN. apply PN.
    + apply (visit_reach rho W l2 cat data data' (of_table d) f auto FPOS IN IN' SAME) with (s := s) (cs := cs) (cs' := cs'); try assumption.
      * intros n u u' GU GU' NC. pose proof (nr_tables _ _ _ _ _ NR n u u' GU GU') as PN. unfold pair_near in PN. specialize (PL n u GU). unfold placed in PL. destruct (v_place u); try discriminate NC; try contradiction; rewrite PL in PN; exact PN.
      * unfold placed in PT. destruct (v_place t); try reflexivity; first [contradiction|congruence].
      * unfold group_known. unfold validate, expected_place in VA. destruct (v_place t); auto. intros NG. rewrite NG in VA. destruct (sc_id s); cbn in VA; apply bind_ok in VA as (? & _ & VA); discriminate VA.
  - intros k CT EQ. assert (VE : visit W l2 cat data q = visit W l2 cat data' q).
    { apply visit_sources. intros n I. destruct (source_coll W l2 cat data q t cs V n I) as (u & GU & CU). rewrite GU. symmetry. apply EQ; [exact GU|congruence]. }
    rewrite VE, V' in V. congruence.
Qed.
(** The library's own steps before an aggregation change neither what is read nor how far. *)
Lemma prepared_reach c c' : prepared c c' -> RE c' = RE c /\ sources c' = sources c.
Proof. induction 1 as [c|c c' m _ IH|c c' m _ IH|c c' m lo hi _ IH|c c' _ IH|c c' g _ IH]; cbn [reach sources]; auto. Qed.
Definition kept (c : query) : Prop :=
  promises W l2 cat data c /\ promises W l2 cat data' c /\ finite_ids W l2 cat data c /\ finite_ids W l2 cat data' c
  /\ groups_kept W l2 cat data c /\ groups_kept W l2 cat data' c.
Lemma prepared_kept c c' : prepared c c' -> kept c -> kept c'.
Proof.
  intros P (A1 & A2 & A3 & A4 & A5 & A6).
  destruct (meets_prepared W cat l2 data c c' P (conj IN (conj A1 A3))) as (_ & B1 & B3). destruct (meets_prepared W cat l2 data' c c' P (conj IN' (conj A2 A4))) as (_ & B2 & B4).
  assert (GK : forall dd, groups_kept W l2 cat dd c -> groups_kept W l2 cat dd c').
  { clear - P. intros dd. induction P as [c|c c' m _ IH|c c' m _ IH|c c' m lo hi _ IH|c c' _ IH|c c' g _ IH]; cbn [groups_kept]; auto. intros H. split; [auto|discriminate]. }
  repeat (split; [assumption|]). split; apply GK; assumption.
Qed.
Section Measures.
Variables (K : core) (so : list string -> list string) (mu : measure).
Hypothesis MADE : catalog_made cat.
Hypothesis BK : blind_core K.
Definition made_for (c : query) : nat := match read_space data c with Some sp => of_space d sp | None => RE c end.
Lemma measured_near b q m m' : built auto q -> agg_gaussian mu q = l2 -> kept (agg_child q) ->
  compile (e_round E) W K auto so mu cat data b q = Ok m -> compile (e_round E) W K auto so mu cat data' b q = Ok m' ->
  m = m' \/ exists c x cs, prepared (agg_child q) c /\ build_transformation W l2 cat data c = Ok (x, cs)
    /\ allowed so mu rho (agg_columns q) cs x f (made_for (agg_child q)) (table_of m) (table_of m').
Proof.
  intros B L2 KE C C'.
  assert (HM : hide_measurement m = hide_measurement m').
  { pose proof (compile_hide' (e_round E) W K BK auto so mu cat data b q) as H1. pose proof (compile_hide' (e_round E) W K BK auto so mu cat data' b q) as H2. rewrite C in H1. rewrite C', <- SAME, H1 in H2. cbn in H2. congruence. }
  destruct (both_compile (e_round E) W K auto so mu cat data data' MADE (fun l c => l = l2 /\ kept c)) with (b := b) (q := q) (m := m) (m' := m')
    as (c2 & x & x' & cs & y & y' & g & (P & B2 & _ & K2) & BT & BT' & Y & Y' & RW & RW' & KG); try assumption.
  { intros l c c' P (-> & H). split; [reflexivity|]. exact (prepared_kept c c' P H). }
  { intros l c z zs z' zs' _ _ T1 T2. apply build_transformation_ok in T1 as (? & _ & T1 & _). apply build_transformation_ok in T2 as (? & _ & T2 & _). exact (proj2 (visit_hidden W l cat data data' SAME _ _ _ _ _ T1 T2)). }
  { split; assumption. }
  rewrite L2 in BT, BT'. destruct K2 as (P1 & P2 & F1 & F2 & G1 & G2).
  destruct (result_near c2 (x, cs) (x', cs) B2 P1 P2 F1 F2 G1 G2 BT BT') as (PN & _ & HX & EQ). cbn [fst snd] in *.
  destruct (prepared_reach _ _ P) as (RC & SC). apply hide_eqs in HX as (HD & HK & HP).
  pose proof BT as BT0. apply build_transformation_ok in BT0 as (sc & SCH & V & _). pose proof (visit_placed W l2 cat data PL c2 x cs V) as PT.
  assert (MF : made_for (agg_child q) = match v_coll x with Some sp => of_space d sp | None => RE c2 end).
  { unfold made_for. rewrite RC. assert (RS : read_space data (agg_child q) = v_coll x) by (rewrite <- (space_of c2 x cs V); unfold read_space; rewrite SC; reflexivity). rewrite RS. reflexivity. }
  assert (SM : x = x' -> m = m').
  { intros <-. rewrite Y in Y'. injection Y' as <-. apply hidden_same; [exact HM|]. congruence. }
  unfold allowed. rewrite MF. unfold pair_near in PN. destruct (v_coll x) as [k|] eqn:CX.
  - destruct PN as (RX & LK). destruct (restrict_cases (Some k) (everyone_but (who k)) x x' RX) as [E1|(i & PX & PX' & OE & EF)]; [left; auto|].
    destruct (nr_share _ _ _ _ _ NR k) as [PO|AE]; [|left; apply SM; specialize (EQ k eq_refl AE); congruence].
    right. exists c2, x, cs. split; [exact P|]. split; [exact BT|]. rewrite CX. split; [exact PO|].
    pose proof (truncated_rows W so mu (agg_columns q) x cs y i PX Y) as TY. pose proof (truncated_rows W so mu (agg_columns q) x' cs y' i PX' Y') as TY'.
    assert (OE' : option_eqb String.eqb (v_coll x) (Some k) = true) by (rewrite CX; cbn; apply String.eqb_refl).
    destruct (gone k).
    + left. assert (IA : ids_apart i 1 (v_rows x) (v_rows x')).
      { apply (one_id i (who k)); [exact EF|]. apply (f_equal v_rows) in LK. unfold restrict in LK. rewrite PX', OE in LK. exact LK. }
      destruct (truncate_stability _ _ _ mu (agg_columns q) cs i 1 _ _ _ _ IA TY TY') as (tr & CT & PL1 & D). destruct (truncate_ids _ _ _ _ _ _ _ _ _ TY) as (tr1 & CT1 & _ & PL2). assert (tr1 = tr) as -> by congruence.
      exists tr, (v_place y), (v_rows y), (v_rows y'), g. cbn [t_place t_rows] in *. repeat split; assumption.
    + right. assert (IA : ids_apart i 1 (v_rows x') (v_rows x)).
      { apply (one_id i (who k)); [symmetry; exact EF|]. apply (f_equal v_rows) in LK. unfold restrict in LK. rewrite PX, OE' in LK. exact LK. }
      destruct (truncate_stability _ _ _ mu (agg_columns q) cs i 1 _ _ _ _ IA TY' TY) as (tr & CT & PL1 & D). destruct (truncate_ids _ _ _ _ _ _ _ _ _ TY') as (tr1 & CT1 & _ & PL2). assert (tr1 = tr) as -> by congruence.
      exists tr, (v_place y'), (v_rows y'), (v_rows y), g. cbn [t_place t_rows] in *. repeat split; assumption.
  - right. exists c2, x, cs. split; [exact P|]. split; [exact BT|]. rewrite CX. exists (v_rows x), (v_rows x'), g.
    assert (U : forall z u, in_collection (v_place z) = false -> truncated W so mu (agg_columns q) (z, cs) = Ok u -> v_rows u = v_rows z).
    { intros z u N H. unfold truncated, truncate_table in H. cbn [fst snd t_place] in H. destruct (v_place z); [discriminate N|injection H as <-; reflexivity..]. }
    assert (NC : in_collection (v_place x) = false) by (unfold placed in PT; destruct (v_place x); try reflexivity; first [contradiction|congruence]).
    split; [exact PN|]. rewrite RW, RW', (U _ _ NC Y). rewrite HP in NC. rewrite (U _ _ NC Y'). auto.
Qed.
End Measures.
End Queries.
End Near.
