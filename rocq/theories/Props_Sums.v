(** Property C67: how much one person, or some rows, can change clamped sums and ranks. *)
From Coq Require Import String Bool Arith ZArith QArith Qcanon Qabs Qminmax Lia Lqa Permutation List.
From Verif Require Import Prelude Budget BudgetProofs BudgetScale Value Rows Constraints ConstraintsSpec ConstraintsStab Schema SchemaProofs Query RewriteSpec Transform TransformSpec TransformVisit Tables TablesProofs
  TransformConform QueryProofs Accountant AccountantProofs Session SessionSpec SessionMoney SessionSteps SessionTables SessionInv SessionViews SessionWell SessionSound
  Neighboring NeighboringProofs Builder BuilderCalls BuilderNeighbours Measure MeasureProofs MeasureCount
  BlindSpec Blind BlindMeasure BlindSession BlindBuilder PersonSpec PersonSession PersonStart PersonAbsent
  Distance SensitivitySpec Sensitivity SensitivityCounts StabilitySpec RowStability RowStabilityMeasure Props_Query Props_Session Props_Measure Props_Blind Props_Sound Props_Person Props_Sensitivity
  PrivacySpec PrivacyProofs Props_Stability Sums.
Import ListNotations.
Local Open Scope string_scope.
Local Open Scope nat_scope.

(** ** Clamping bounds *)

Lemma fnum_ge_fin (a b : Qc) : fnum_ge (FFin a) (FFin b) = true <-> (b <= a)%Q.
Proof.
  cbn [fnum_ge]. change (b <= a)%Q with (b <= a)%Qc. unfold Qcle. destruct (Qccompare a b) eqn:C.
  - apply Qceq_alt in C as ->. split; intros; [apply Qle_refl|reflexivity].
  - apply Qclt_alt in C. unfold Qclt in C. split; [discriminate|intros L; exfalso; lra].
  - apply Qcgt_alt in C. unfold Qclt in C. split; intros; [lra|reflexivity].
Qed.
(** Values are never clamped outside of the bounds asked for, and clamped exactly to them when
    they are converted exactly. *)
Theorem C67_clamping_bounds : forall auto kd c k me low high out m co F lo hi,
  built auto (GroupByBounded kd c k me low high out m co) -> directed F ->
  query_bounds F low high = Ok (XFin lo, XFin hi) ->
  exists l h : Qc, to_float low = FFin l /\ to_float high = FFin h /\ (l < h)%Q /\ (l <= lo)%Q /\ (hi <= h)%Q
    /\ ((forall q : Qc, cv_up F q == q /\ cv_down F q == q)%Q -> (lo == l /\ hi == h)%Q).
Proof.
  intros auto kd c k me low high out m co F lo hi B D H. apply built_unfold in B as (B & _). cbn [post_init] in B.
  apply bind_ok in B as (u & _ & B). apply bind_ok in B as ((l0 & h0) & CB & B). cbn [fst snd] in B. assert (l0 = low /\ h0 = high) as (-> & ->) by (split; congruence). clear B.
  unfold query_bounds in H. destruct (to_float low) as [l| | |] eqn:L; destruct (to_float high) as [h| | |] eqn:Hh; cbn [from_float bind] in H;
    try (destruct (fnum_ge _ _ && fnum_ge _ _); cbn [bind from_float] in H; discriminate H); try (cbn in H; discriminate H).
  exists l, h. split; [reflexivity|]. split; [reflexivity|].
  assert (LT : (l < h)%Q).
  { unfold check_bounds in CB. destruct low as [a|fa], high as [b|fb]; cbn [to_float] in L, Hh; try rewrite L in CB; try rewrite Hh in CB.
    2,3,4: apply bind_ok in CB as ([] & CB & _); apply raise_if_ok in CB; cbn [to_float] in CB; rewrite ?L, ?Hh in CB; apply Qnot_le_lt; intros X; apply fnum_ge_fin in X; congruence.
    apply bind_ok in CB as ([] & CB & _). apply raise_if_ok in CB. apply Z.leb_gt in CB. unfold z_to_f in L, Hh. injection L as <-. injection Hh as <-. unfold Q2Qc. cbn [this].
    rewrite !Qred_correct. rewrite <- Zlt_Qlt. exact CB. }
  split; [exact LT|]. assert (FG : fnum_ge (FFin l) (FFin h) = false) by (apply not_true_iff_false; intros X; apply fnum_ge_fin in X; lra).
  rewrite FG, andb_false_r in H. cbn [from_float bind] in H. injection H as <- <-. split; [apply D|]. split; [apply D|]. intros X. split; apply X.
Qed.
Print Assumptions C67_clamping_bounds.
(** Every aggregation with finite bounds has clamping bounds. *)
Theorem C67_clamping_bounds_exist : forall F low high l h, to_float low = FFin l -> to_float high = FFin h -> exists lo hi, query_bounds F low high = Ok (XFin lo, XFin hi).
Proof. intros F low high l h L H. unfold query_bounds. rewrite L, H. destruct (_ && _); cbn [from_float bind]; eauto. Qed.
Print Assumptions C67_clamping_bounds_exist.
(** A side that is not bounded stays unbounded, no other side becomes so, and NaN is refused. *)
Theorem C67_infinite_clamping_bounds : forall F low high,
  (forall lo hi, query_bounds F low high = Ok (lo, hi) ->
    (lo = XNInf <-> to_float low = FNInf) /\ (lo = XPInf <-> to_float low = FPInf)
    /\ (hi = XPInf <-> to_float high = FPInf) /\ (hi = XNInf <-> to_float high = FNInf))
  /\ (is_ok (query_bounds F low high) = true <-> to_float low <> FNan /\ to_float high <> FNan).
Proof.
  intros F low high. unfold query_bounds. split.
  - intros lo hi H.
    destruct (to_float low) as [l| | |], (to_float high) as [h| | |]; cbn [fnum_ge andb] in H;
      try (destruct (_ && _) in H); cbn [from_float bind] in H; try discriminate H; injection H as <- <-;
      (split; [split; congruence|split; [split; congruence|split; split; congruence]]).
  - destruct (to_float low) as [l| | |], (to_float high) as [h| | |]; cbn [fnum_ge andb];
      try (destruct (_ && _)); cbn [from_float bind is_ok]; (split; [intros H; split; congruence|intros [N M]; congruence]).
Qed.
Print Assumptions C67_infinite_clamping_bounds.
Example C67_infinite_clamping_bounds_case : forall F,
  query_bounds F (Query.PInt 0) (Query.PFloat FPInf) = Ok (XFin (cv_up F 0%Qc), XPInf).
Proof. reflexivity. Qed.

(** ** One person *)

(** Any number between -B and B per row, added up per group. *)
Theorem C67_person_totals : forall E K auto so sp j l l' h st st' p b q s s' cat cat' data data' m m' n total g total' g' keys w B,
  blind_core K -> two_histories E sp (everyone_but j) l l' h st st' ->
  n = 2 \/ (n = 1 /\ calls_lack sp (everyone_but j) l') ->
  measured E K auto so st p b q s cat data m -> measured E K auto so st' p b q s' cat' data' m' ->
  p = [] \/ (exists x t, dget x (named (s_tree s)) = Some t /\ v_coll t = Some sp) ->
  plan_of m = Some (total, g) -> plan_of m' = Some (total', g') -> distinct_keys (agg_columns q) keys ->
  (forall r, Qabs (w r) <= B)%Q ->
  (forall key, total_change w g g' key == 0)%Q
  \/ exists c x cs tr, prepared (agg_child q) c /\ build_transformation (e_world E) (agg_gaussian (measure_for b) q) cat data c = Ok (x, cs)
       /\ choose_trunc so (measure_for b) (agg_columns q) cs = Some tr
       /\ (sum_over (fun key => total_change w g g' key * total_change w g g' key) keys <= B * B * nq (n * n * stability_squared (measure_for b) (agg_columns q) tr))%Q
       /\ (measure_for b <> RhoZCDP ->
           (sum_over (total_change w g g') keys * sum_over (total_change w g g') keys <= B * B * nq (n * n * stability_squared (measure_for b) (agg_columns q) tr))%Q).
Proof.
  intros E K auto so sp j l l' h st st' p b q s s' cat cat' data data' m m' n total g total' g' keys w B BK TH N M M' Q P P' DK W.
  assert (HM : hide_measurement m = hide_measurement m') by (eapply pair_hidden; eassumption). destruct (hidden_plans _ _ _ _ _ _ HM P P') as (KE & _ & _).
  destruct (histories_good _ _ _ _ _ _ _ _ TH) as (G & _). destruct (measured_meets _ _ _ _ _ _ _ _ _ _ _ _ G M) as (_ & MD & _).
  pose proof (compiled_keys _ _ _ _ _ _ _ _ _ _ _ _ _ MD (me_built _ _ _ _ _ _ _ _ _ _ _ _ M) (me_compiled _ _ _ _ _ _ _ _ _ _ _ _ M) P) as KC.
  assert (PA : v_rows (table_of m) = v_rows (table_of m') \/ exists c x cs, prepared (agg_child q) c /\ build_transformation (e_world E) (agg_gaussian (measure_for b) q) cat data c = Ok (x, cs)
       /\ apart_at_most so (measure_for b) n (agg_columns q) cs (table_of m) (table_of m')) by (eapply C53_what_one_person_changes; eassumption).
  destruct PA as [ER|(c & x & cs & PR & BT & AP)]; rewrite (table_of_plan _ _ _ P), (table_of_plan _ _ _ P') in *.
  - left. intros key. apply total_change_none; assumption.
  - right. rewrite <- KC in *. destruct (apart_rows so (measure_for b) n _ cs _ _ keys AP DK) as (tr & CT & S2 & S1). exists c, x, cs, tr. split; [exact PR|]. split; [exact BT|]. split; [exact CT|]. split.
    + apply (totals_squares g g' KE w B W). exact S2.
    + intros NZ. apply (totals_sum_squared g g' KE w B W). exact (S1 NZ).
Qed.
Print Assumptions C67_person_totals.

(** Sums of the measured values, clamped: at most the stability of the truncation (once or
    twice) times the larger bound. *)
Theorem C67_person_sums : forall E K auto so sp j l l' h st st' p b q s s' cat cat' data data' m m' n total g total' g' keys kd me low high F lo hi,
  blind_core K -> two_histories E sp (everyone_but j) l l' h st st' ->
  n = 2 \/ (n = 1 /\ calls_lack sp (everyone_but j) l') ->
  measured E K auto so st p b q s cat data m -> measured E K auto so st' p b q s' cat' data' m' ->
  p = [] \/ (exists x t, dget x (named (s_tree s)) = Some t /\ v_coll t = Some sp) ->
  plan_of m = Some (total, g) -> plan_of m' = Some (total', g') -> distinct_keys (agg_columns q) keys ->
  g_agg g = ABounded kd me low high -> query_bounds F low high = Ok (XFin lo, XFin hi) ->
  let change := total_change (clamped lo hi me) g g' in let B := larger_bound lo hi in
  g_agg g' = g_agg g
  /\ ((forall key, change key == 0)%Q
  \/ exists c x cs tr, prepared (agg_child q) c /\ build_transformation (e_world E) (agg_gaussian (measure_for b) q) cat data c = Ok (x, cs)
       /\ choose_trunc so (measure_for b) (agg_columns q) cs = Some tr
       /\ (sum_over (fun key => change key * change key) keys <= B * B * nq (n * n * stability_squared (measure_for b) (agg_columns q) tr))%Q
       /\ (measure_for b <> RhoZCDP ->
           (sum_over change keys * sum_over change keys <= B * B * nq (n * n * stability_squared (measure_for b) (agg_columns q) tr))%Q)).
Proof.
  intros E K auto so sp j l l' h st st' p b q s s' cat cat' data data' m m' n total g total' g' keys kd me low high F lo hi BK TH N M M' Q P P' DK AG QB change B. split.
  - assert (HM : hide_measurement m = hide_measurement m') by (eapply pair_hidden; eassumption). exact (proj1 (proj2 (hidden_plans _ _ _ _ _ _ HM P P'))).
  - eapply C67_person_totals; try eassumption. apply clamped_small.
Qed.
Print Assumptions C67_person_sums.
(** Ranks: how many measured values of a group are at most [x], which is what decides how
    good [x] is as a quantile. *)
Theorem C67_person_ranks : forall E K auto so sp j l l' h st st' p b q s s' cat cat' data data' m m' n total g total' g' keys me qu low high x,
  blind_core K -> two_histories E sp (everyone_but j) l l' h st st' ->
  n = 2 \/ (n = 1 /\ calls_lack sp (everyone_but j) l') ->
  measured E K auto so st p b q s cat data m -> measured E K auto so st' p b q s' cat' data' m' ->
  p = [] \/ (exists x t, dget x (named (s_tree s)) = Some t /\ v_coll t = Some sp) ->
  plan_of m = Some (total, g) -> plan_of m' = Some (total', g') -> distinct_keys (agg_columns q) keys ->
  g_agg g = AQuantile me qu low high ->
  let change := total_change (at_most x me) g g' in
  (forall key, change key == 0)%Q
  \/ exists c x cs tr, prepared (agg_child q) c /\ build_transformation (e_world E) (agg_gaussian (measure_for b) q) cat data c = Ok (x, cs)
       /\ choose_trunc so (measure_for b) (agg_columns q) cs = Some tr
       /\ (sum_over (fun key => change key * change key) keys <= nq (n * n * stability_squared (measure_for b) (agg_columns q) tr))%Q
       /\ (measure_for b <> RhoZCDP -> (sum_over change keys * sum_over change keys <= nq (n * n * stability_squared (measure_for b) (agg_columns q) tr))%Q).
Proof.
  intros E K auto so sp j l l' h st st' p b q s s' cat cat' data data' m m' n total g total' g' keys me qu low high x BK TH N M M' Q P P' DK AG change.
  assert (X := C67_person_totals E K auto so sp j l l' h st st' p b q s s' cat cat' data data' m m' n total g total' g' keys (at_most x me) 1%Q BK TH N M M' Q P P' DK (at_most_small x me)).
  destruct X as [X|(c & y & cs & tr & PR & BT & CT & S2 & S1)]; [left; exact X|right]. exists c, y, cs, tr. split; [exact PR|]. split; [exact BT|]. split; [exact CT|].
  split; [|intros NZ; specialize (S1 NZ)]; fold change in S2, S1; lra.
Qed.
Print Assumptions C67_person_ranks.

(** ** Rows of tables without IDs *)
Theorem C67_row_totals : forall E K auto so st st' p s cat data d q b m m' k total g total' g' keys w B,
  blind E -> blind_core K -> rows_apart E st st' p s cat data d -> built auto q ->
  spread (e_world E) (agg_gaussian (measure_for (s_left s)) q) cat data d (agg_child q) k ->
  measurement_of E K auto so st p q b = Ok m -> measurement_of E K auto so st' p q b = Ok m' ->
  plan_of m = Some (total, g) -> plan_of m' = Some (total', g') -> distinct_keys (agg_columns q) keys ->
  (forall r, Qabs (w r) <= B)%Q -> (sum_over (total_change w g g') keys <= B * nq k)%Q.
Proof.
  intros E K auto so st st' p s cat data d q b m m' k total g total' g' keys w B BL BK RA BU S M M' P P' DK W.
  pose proof (C55_rows_read_by_an_aggregation _ _ _ _ _ _ _ _ _ _ _ _ _ _ _ _ BL RA BU S M M') as D. destruct (apart_pair _ _ _ _ _ _ _ _ _ _ _ _ _ _ _ BL RA M M') as (adj & data' & MADE & SAME & _ & _ & C & C').
  assert (HM : hide_measurement m = hide_measurement m').
  { pose proof (compile_hide' (e_round E) (e_world E) K BK auto so (measure_for adj) cat data adj q) as H1. pose proof (compile_hide' (e_round E) (e_world E) K BK auto so (measure_for adj) cat data' adj q) as H2.
    rewrite C in H1. rewrite C', <- SAME, H1 in H2. cbn in H2. congruence. }
  destruct (hidden_plans _ _ _ _ _ _ HM P P') as (KE & _ & _). pose proof (compiled_keys _ _ _ _ _ _ _ _ _ _ _ _ _ MADE BU C P) as CK.
  rewrite (table_of_plan _ _ _ P), (table_of_plan _ _ _ P') in D. rewrite <- CK in DK.
  eapply Qle_trans; [apply (totals_sum g g' KE w B W)|]. pose proof (group_distances _ keys (v_rows (g_table g)) (v_rows (g_table g')) DK) as GD.
  assert (LE : list_sum (map (fun key => row_distance (group (keys_columns (g_keys g)) key (v_rows (g_table g))) (group (keys_columns (g_keys g)) key (v_rows (g_table g')))) keys) <= k) by (etransitivity; eassumption).
  apply nq_le in LE. pose proof (bound_nonneg w B W). nra.
Qed.
Print Assumptions C67_row_totals.
Theorem C67_row_sums_and_ranks : forall E K auto so st st' p s cat data d q b m m' k total g total' g' keys,
  blind E -> blind_core K -> rows_apart E st st' p s cat data d -> built auto q ->
  spread (e_world E) (agg_gaussian (measure_for (s_left s)) q) cat data d (agg_child q) k ->
  measurement_of E K auto so st p q b = Ok m -> measurement_of E K auto so st' p q b = Ok m' ->
  plan_of m = Some (total, g) -> plan_of m' = Some (total', g') -> distinct_keys (agg_columns q) keys ->
  (forall kd me low high F lo hi, g_agg g = ABounded kd me low high -> query_bounds F low high = Ok (XFin lo, XFin hi) ->
     sum_over (total_change (clamped lo hi me) g g') keys <= larger_bound lo hi * nq k)%Q
  /\ (forall me qu low high x, g_agg g = AQuantile me qu low high -> sum_over (total_change (at_most x me) g g') keys <= nq k)%Q.
Proof.
  intros E K auto so st st' p s cat data d q b m m' k total g total' g' keys BL BK RA BU S M M' P P' DK. split.
  - intros kd me low high F lo hi _ _. eapply C67_row_totals; try eassumption. apply clamped_small.
  - intros me qu low high x _. assert (X := C67_row_totals E K auto so st st' p s cat data d q b m m' k total g total' g' keys (at_most x me) 1%Q BL BK RA BU S M M' P P' DK (at_most_small x me)). lra.
Qed.
Print Assumptions C67_row_sums_and_ranks.

(** ** Non-vacuity *)
(** Costs per city of the view "few" of C49, clamped to 0 to 5, once per person and city.
    Person 1 has other rows in the second dataset. *)
Definition costs : query :=
  GroupByBounded BSum (EnforceConstraint (PrivateSource "few") (MaxRowsPerGroupPerID "city" 1))
    (KSet [("city", dsc VARCHAR true false false)] [[("city", VStr "a")]; [("city", VStr "b")]; [("city", VStr "")]; [("city", VNull)]])
    "cost" (Query.PInt 0) (Query.PInt 5) "total" MDefault None.
Lemma costs_measured : exists s cat data m, measured E0 K0 true idl (run E0 trips_state trips_plan) [] (Zcdp (XFin 1)) costs s cat data m.
Proof. measured_case. Qed.
Lemma costs_measured3 : exists s cat data m, measured E0 K0 true idl (run E0 trips_state3 trips_plan) [] (Zcdp (XFin 1)) costs s cat data m.
Proof. measured_case. Qed.
Definition costs_plan (st : state) : option plan :=
  match (let* s := session_at st [] in let* cat := catalog_of (s_tree s) (st_public st) (s_cons s) in let* data := data_of (s_tree s) in
         compile exact_rounding W0 K0 true idl RhoZCDP cat data (Zcdp (XFin 1)) costs) with
  | Ok m => option_map snd (plan_of m) | Err _ => None end.
Definition exact : conversion := {| cv_up := fun q => q; cv_down := fun q => q |}.
Example C67_case : blind_core K0 /\ directed exact
  /\ two_histories E0 "people" (everyone_but (VInt 1)) trips_calls' trips_calls3 trips_plan (run E0 trips_state trips_plan) (run E0 trips_state3 trips_plan)
  /\ distinct_keys (agg_columns costs) visit_keys
  /\ exists g g', costs_plan (run E0 trips_state trips_plan) = Some g /\ costs_plan (run E0 trips_state3 trips_plan) = Some g'
       /\ g_agg g = ABounded BSum "cost" (Query.PInt 0) (Query.PInt 5)
       /\ (exists lo hi, query_bounds exact (Query.PInt 0) (Query.PInt 5) = Ok (XFin lo, XFin hi)
            /\ map (fun key => Qred (group_total (clamped lo hi "cost") g key)) visit_keys = [0; 5; 3; 0]%Q
            /\ map (fun key => Qred (group_total (clamped lo hi "cost") g' key)) visit_keys = [0; 10; 0; 0]%Q
            /\ Qred (larger_bound lo hi) = 5%Q).
Proof.
  split; [exact K0_blind|]. split; [intros q; split; apply Qle_refl|]. split; [exact (proj1 C52_case)|]. split; [vm_compute; repeat constructor; cbn; intuition discriminate|].
  eexists _, _. split; [vm_compute; reflexivity|]. split; [vm_compute; reflexivity|]. split; [reflexivity|]. eexists _, _. split; [vm_compute; reflexivity|].
  split; [vm_compute; reflexivity|]. split; vm_compute; reflexivity.
Qed.
(** A table of sales without IDs, of which up to two rows are protected. *)
Definition sales_frame (rows : list (list value)) : sframe :=
  {| sd_fields := [{| sf_name := "shop"; sf_type := StringT; sf_nullable := false |}; {| sf_name := "price"; sf_type := LongT; sf_nullable := false |}]; sd_rows := rows |}.
Definition sales_state (rows : list (list value)) : state :=
  match build_by E1 [WithBudget (Pure (XFin 1)); WithPrivate "sales" (sales_frame rows) (AddMaxRows 2)] with Ok o => o_state o | Err _ => st0 (Pure (XFin 0)) end.
Definition some_sales : list (list value) := [[VStr "a"; VInt 7]; [VStr "a"; VInt 70]; [VStr "b"; VInt (-4)]].
Definition fewer_sales : list (list value) := [[VStr "a"; VInt 7]].
Definition earned : query := GroupByBounded BSum (PrivateSource "sales") (KSet [("shop", dsc VARCHAR false false false)] [[("shop", VStr "a")]; [("shop", VStr "b")]])
  "price" (Query.PInt 0) (Query.PInt 10) "total" MDefault None.
Definition shop_keys : list rec := [[("shop", VStr "a")]; [("shop", VStr "b")]].
Definition earned_in (st : state) : option (list Q) := match measurement_of E1 K0 true idl st [] earned (Pure (XFin 1)) with
  | Ok m => match plan_of m with Some (_, g) => Some (map (fun key => Qred (group_total (clamped 0 10 "price") g key)) shop_keys) | None => None end | Err _ => None end.
Lemma sales_any rows : (exists o, build_by E1 [WithBudget (Pure (XFin 1)); WithPrivate "sales" (sales_frame rows) (AddMaxRows 2)] = Ok o) -> any_state E1 (sales_state rows).
Proof.
  intros (o & B). eexists _, o, []. split; [|split; [exact B|]]; [cbn; intuition discriminate|]. split; [constructor|]. unfold sales_state. rewrite B. reflexivity.
Qed.
Example C67_row_case : blind E1 /\ blind_core K0 /\ built true earned /\ distinct_keys (agg_columns earned) shop_keys
  /\ exists s cat data, rows_apart E1 (sales_state some_sales) (sales_state fewer_sales) [] s cat data (fun _ => 2)
       /\ spread (e_world E1) (agg_gaussian (measure_for (s_left s)) earned) cat data (fun _ => 2) (agg_child earned) 2
       /\ earned_in (sales_state some_sales) = Some [17; 0]%Q /\ earned_in (sales_state fewer_sales) = Some [7; 0]%Q.
Proof.
  split; [exact E1_blind|]. split; [exact K0_blind|]. split; [vm_compute; auto|]. split; [vm_compute; repeat constructor; cbn; intuition discriminate|].
  eexists _, _, _. split; [constructor|].
  - split; [apply sales_any; eexists; vm_compute; reflexivity|]. split; [apply sales_any; eexists; vm_compute; reflexivity|vm_compute; reflexivity].
  - eexists. split; [vm_compute; reflexivity|reflexivity].
  - vm_compute. reflexivity.
  - vm_compute. reflexivity.
  - intros s' n t t' S' G G'. assert (SS : session_at (sales_state fewer_sales) [] = Ok s') by (apply session_at_iff, S'). vm_compute in SS. injection SS as <-.
    apply dget_In in G. vm_compute in G. destruct G as [G|[]]; injection G as <- <-; vm_compute in G'; injection G' as <-; vm_compute; lia.
  - split; [|split; vm_compute; reflexivity]. eapply sp_source; vm_compute; reflexivity.
Qed.
