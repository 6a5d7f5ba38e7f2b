(** Property C51: whether calls succeed, and what they do to budgets and tables, does not
    depend on the rows of private tables. *)
From Coq Require Import String Bool Arith ZArith QArith Qcanon Lia Permutation List.
From Verif Require Import Prelude Budget BudgetScale Value Rows Constraints Schema SchemaProofs Query Rewrite Transform Tables TablesProofs
  Accountant AccountantProofs Session SessionSpec SessionMoney SessionSteps SessionInv Neighboring Builder BuilderNeighbours Measure
 
  BlindSpec Blind BlindSession BlindMeasure BlindBuilder Props_Query Props_Session Props_Measure Props_Sound.
Import ListNotations.
Local Open Scope string_scope.
Local Open Scope nat_scope.

(** ** Sessions *)

(** Two trees of sessions that differ in the rows of private tables only give the same
    answers to every sequence of calls, exceptions included, and again differ in the rows
    of private tables only. *)
Theorem C51_answers_do_not_depend_on_rows : forall E st st' l, blind E -> same_but_rows st st' ->
  answers E st l = answers E st' l /\ same_but_rows (run E st l) (run E st' l).
Proof.
  intros E st st' l BL S. split.
  - rewrite <- (answers_hide E BL l st), <- (answers_hide E BL l st'), S. reflexivity.
  - unfold same_but_rows. rewrite <- !(run_hide E BL). now rewrite S.
Qed.
Print Assumptions C51_answers_do_not_depend_on_rows.

(** So nothing that can be asked without a measurement tells such trees apart: the sessions
    and their states, remaining budgets, tables and their descriptions, public tables. *)
Theorem C51_descriptions_do_not_depend_on_rows : forall st st', same_but_rows st st' ->
  st_public st' = st_public st
  /\ forall p, option_map a_state (find p (st_root st')) = option_map a_state (find p (st_root st))
     /\ forall s, session st p s -> exists s', session st' p s'
          /\ remaining_privacy_budget s' = remaining_privacy_budget s /\ s_log s' = s_log s /\ s_cons s' = s_cons s
          /\ private_sources (s_tree s') = private_sources (s_tree s)
          /\ forall pub n, get_schema (s_tree s') pub n = get_schema (s_tree s) pub n
               /\ get_id_column (s_tree s') pub n = get_id_column (s_tree s) pub n
               /\ get_id_space (s_tree s') pub n = get_id_space (s_tree s) pub n
               /\ get_grouping_column (s_tree s') pub n = get_grouping_column (s_tree s) pub n.
Proof.
  intros st st' S. unfold same_but_rows, hide_state in S. injection S as SR SP. split; [auto|]. intros p.
  pose proof (f_equal (find p) SR) as FP. rewrite !find_amap in FP. split.
  - destruct (find p (st_root st)) as [c|], (find p (st_root st')) as [c'|]; try discriminate; [|reflexivity]. cbn in FP |- *. injection FP as FP.
    apply (f_equal a_state) in FP. rewrite !amap_state in FP. congruence.
  - intros s (c & F & <-). rewrite F in FP. destruct (find p (st_root st')) as [c'|] eqn:F'; [|discriminate]. injection FP as FP.
    exists (a_data c'). split; [exists c'; auto|]. apply (f_equal a_data) in FP. rewrite !amap_data in FP.
    destruct (a_data c) as (i1, le1, lo1, tr1, co1), (a_data c') as (i2, le2, lo2, tr2, co2). unfold hide_sess in FP. cbn in FP. injection FP as -> -> -> TR ->.
    cbn [remaining_privacy_budget s_left s_log s_cons s_tree]. split; [reflexivity|]. split; [reflexivity|]. split; [reflexivity|].
    split; [now rewrite <- (sources_hide tr1), TR, sources_hide|]. intros pub n.
    split; [now rewrite <- (get_schema_hide tr1), TR, get_schema_hide|]. split; [now rewrite <- (id_column_hide tr1), TR, id_column_hide|].
    split; [now rewrite <- (id_space_hide tr1), TR, id_space_hide|now rewrite <- (grouping_hide tr1), TR, grouping_hide].
Qed.
Print Assumptions C51_descriptions_do_not_depend_on_rows.

(** ** Compiling and running *)

(** Whether a query compiles, into what, and with which privacy loss, does not depend on the
    rows, if tmlt.core's constructors look at domains and metrics only. *)
Theorem C51_compiling_does_not_depend_on_rows : forall R W K auto so mu cat data data' b q, blind_core K -> hide_all data = hide_all data' ->
  match compile R W K auto so mu cat data b q, compile R W K auto so mu cat data' b q with
  | Ok m, Ok m' => hide_measurement m = hide_measurement m' /\ privacy_loss K m = privacy_loss K m'
  | Err e, Err e' => e = e'
  | _, _ => False
  end.
Proof.
  intros R W K auto so mu cat data data' b q BK HD. pose proof (compile_hide' R W K BK auto so mu cat data b q) as C1.
  pose proof (compile_hide' R W K BK auto so mu cat data' b q) as C2. rewrite HD, C2 in C1.
  destruct (compile R W K auto so mu cat data b q) as [m|e], (compile R W K auto so mu cat data' b q) as [m'|e']; cbn [rmap] in C1; try discriminate.
  - injection C1 as C1. split; [congruence|]. rewrite <- (privacy_loss_hide K BK m), <- (privacy_loss_hide K BK m'). now rewrite C1.
  - congruence.
Qed.
Print Assumptions C51_compiling_does_not_depend_on_rows.
(** Sessions whose queries are compiled that way are blind, as far as compiling goes. *)
Theorem C51_sessions_compile_blindly : forall E K auto so cat x q b, blind_core K -> compiles_with E K auto so ->
  e_compiles E cat (hide_tree x) q b = e_compiles E cat x q b.
Proof.
  intros E K auto so cat x q b BK CW. rewrite !CW, data_hide, bind_rmap. apply bind_ext. intros data. rewrite compile_hide', bind_rmap by exact BK. reflexivity.
Qed.
Print Assumptions C51_sessions_compile_blindly.
(** Running a measurement raises on all rows or on none: the exceptions do not depend on
    them (given that tmlt.core's own parts do not raise). *)
Theorem C51_running_fails_independently_of_rows : forall R K m m' e, blind_core K -> hide_measurement m = hide_measurement m' ->
  run_measurement R K m = Err e -> run_measurement R K m' = Err e.
Proof.
  assert (X : forall R K m e, blind_core K -> (run_measurement R K m = Err e <-> run_measurement R K (hide_measurement m) = Err e)).
  { intros R K m e BK. induction m as [total g|t cols b|m IH col th]; cbn [run_measurement hide_measurement].
    - unfold run_plan. cbn [hide_plan g_keys_budget g_budget]. assert (FK : forall e, find_keys R K g = Err e <-> find_keys R K (hide_plan g) = Err e).
      { intros e'. unfold find_keys. cbn [hide_plan g_keys g_keys_budget g_table]. destruct (g_keys g) as [cols rows|cols]; [reflexivity|].
        destruct (g_keys_budget g); try reflexivity. destruct (raise_if _ _); [|reflexivity]. cbn [bind]. rewrite select_hide.
        destruct (visit_select cols (g_table g, [])) as [y|ey]; [|reflexivity]. cbn [rmap bind]. change (fst (hide2 y)) with (hide (fst y)). rewrite (bc_groups_builds K BK).
        destruct (k_groups_builds K (fst y) _); [cbn [bind]; split; discriminate|reflexivity]. }
      destruct (find_keys R K g) as [k1|e1].
      + destruct (find_keys R K (hide_plan g)) as [k2|e2]; [|specialize (proj2 (FK e2) eq_refl); discriminate]. cbn [bind].
        destruct (ask total (g_keys_budget g)) as [left|]; [|reflexivity]. cbn [bind]. destruct (ask left (g_budget g)); [cbn [bind]; split; discriminate|reflexivity].
      + rewrite (proj1 (FK e1) eq_refl). reflexivity.
    - split; discriminate.
    - destruct (run_measurement R K m) as [t|e1].
      + destruct (run_measurement R K (hide_measurement m)) as [t2|e2]; cbn [bind]; [split; discriminate|].
        split; [discriminate|]. intros H. injection H as ->. specialize (proj2 IH eq_refl). discriminate.
      + cbn [bind]. destruct (run_measurement R K (hide_measurement m)) as [t2|e2]; cbn [bind].
        * split; [intros H; injection H as ->; specialize (proj1 IH eq_refl); discriminate|discriminate].
        * exact IH. }
  intros R K m m' e BK HM H. apply (X R K m' e BK). rewrite <- HM. apply (X R K m e BK), H.
Qed.
Print Assumptions C51_running_fails_independently_of_rows.

(** ** Building *)

(** The same calls on a builder, possibly with other rows in the private tables. *)
Definition same_call (c c' : bcall) : Prop :=
  match c, c' with
  | WithPrivate n f x, WithPrivate n' f' x' => n = n' /\ x = x' /\ sd_fields f = sd_fields f'
  | _, _ => c = c'
  end.
Lemma same_call_hide c c' : same_call c c' -> hide_call c = hide_call c'.
Proof. destruct c, c'; cbn; try congruence. intros (-> & -> & F). unfold hide_frame. now rewrite F. Qed.
Theorem C51_building_does_not_depend_on_rows : forall E l l', Forall2 same_call l l' ->
  match snd (Builder.build E (brun E empty_builder l)), snd (Builder.build E (brun E empty_builder l')) with
  | Ok o, Ok o' => same_but_rows (o_state o) (o_state o') /\ o_din o = o_din o'
  | Err e, Err e' => e = e'
  | _, _ => False
  end.
Proof.
  intros E l l' F. assert (X : map hide_call l = map hide_call l').
  { induction F as [|c c' l l' S F IH]; [reflexivity|]. cbn. f_equal; [apply same_call_hide, S|exact IH]. }
  pose proof (brun_hide E l empty_builder) as B1. pose proof (brun_hide E l' empty_builder) as B2. rewrite X, B2 in B1.
  pose proof (build_hide_b E (brun E empty_builder l)) as C1. pose proof (build_hide_b E (brun E empty_builder l')) as C2. rewrite B1, C1 in C2.
  destruct (Builder.build E (brun E empty_builder l)) as (b1, [o|e]), (Builder.build E (brun E empty_builder l')) as (b2, [o'|e']); cbn [fst snd rmap] in C2 |- *; try discriminate.
  - assert (HO : hide_opened o = hide_opened o') by congruence. split; [exact (f_equal o_state HO)|exact (f_equal o_din HO)].
  - congruence.
Qed.
Print Assumptions C51_building_does_not_depend_on_rows.

(** From the builder to the end of any history. *)
Corollary C51_from_building_on : forall E l l' o o' h, blind E -> Forall2 same_call l l' ->
  snd (Builder.build E (brun E empty_builder l)) = Ok o -> snd (Builder.build E (brun E empty_builder l')) = Ok o' ->
  answers E (o_state o) h = answers E (o_state o') h /\ same_but_rows (run E (o_state o) h) (run E (o_state o') h).
Proof.
  intros E l l' o o' h BL F B B'. pose proof (C51_building_does_not_depend_on_rows E l l' F) as X. rewrite B, B' in X.
  apply C51_answers_do_not_depend_on_rows; [exact BL|apply X].
Qed.
Print Assumptions C51_from_building_on.

(** Non-vacuity: the compiler of Measure.v with an accepting tmlt.core is blind; two builders
    with other rows in both private tables; a history with successes and failures. *)
Lemma K0_blind : blind_core K0.
Proof. constructor; reflexivity. Qed.
Lemma E1_blind : blind E1.
Proof.
  constructor; try reflexivity. intros cat x q b. apply (C51_sessions_compile_blindly E1 K0 true idl); [exact K0_blind|]. intros c y r d. reflexivity.
Qed.
Definition trips2 : sframe := {| sd_fields := sd_fields trips; sd_rows := [[VInt 7; VStr "z"; VNull]] |}.
Definition codes2 : sframe := {| sd_fields := sd_fields codes; sd_rows := [] |}.
Definition trips_calls2 : list bcall :=
  [WithIdSpace "people"; WithBudget (Zcdp (XFin 4)); WithPrivate "trips" trips2 (AddRowsWithID "id" "people"); WithPublic "codes" codes;
   WithPrivate "log" codes2 (AddMaxRowsInMaxGroups "city" 1 2)].
Definition per_city : query :=
  GroupByCount (PrivateSource "few") (KSet [("city", dsc VARCHAR false false false)] [[("city", VStr "a")]]) "n" MDefault None.
Definition plan51 : list op :=
  [Evaluate [] per_city (Zcdp (XFin 1)); CreateView [] (EnforceConstraint few (MaxRowsPerGroupPerID "city" 1)) "few" false; Evaluate [] per_city (Zcdp (XFin 1));
   Evaluate [] (GroupByCount (PrivateSource "trips") (KSet [] [[]]) "n" MDefault None) (Zcdp (XFin 1));
   Partition [] "few" (Zcdp (XFin 2)) "city" [("as", VStr "a"); ("bs", VStr "b")]; Evaluate [] per_city (Zcdp (XFin 2))].
Example C51_case : exists o o',
  Forall2 same_call trips_calls' trips_calls2
  /\ snd (Builder.build E1 (brun E1 empty_builder trips_calls')) = Ok o /\ snd (Builder.build E1 (brun E1 empty_builder trips_calls2)) = Ok o'
  /\ blind E1 /\ o_state o <> o_state o'
  /\ answers E1 (o_state o) plan51 = [Err ValueError; Ok tt; Ok tt; Err RuntimeError; Ok tt; Err RuntimeError].
Proof.
  assert (B : exists o, snd (Builder.build E1 (brun E1 empty_builder trips_calls')) = Ok o) by (eexists; vm_compute; reflexivity).
  assert (B' : exists o, snd (Builder.build E1 (brun E1 empty_builder trips_calls2)) = Ok o) by (eexists; vm_compute; reflexivity).
  destruct B as (o & B), B' as (o' & B'). exists o, o'. split; [repeat constructor|]. split; [exact B|]. split; [exact B'|]. split; [exact E1_blind|].
  vm_compute in B, B'. injection B as <-. injection B' as <-. split; [discriminate|]. vm_compute. reflexivity.
Qed.
(** The assumption on tmlt.core matters: with a constructor that refuses empty tables the
    outcome does depend on the rows. *)
Definition K_peeks : core :=
  {| k_builds := fun g => match v_rows (g_table g) with [] => Err ValueError | _ => Ok tt end; k_groups_builds := fun _ _ => Ok tt; k_groups_loss := fun _ b => b;
     k_select := k_select K0; k_answer := k_answer K0 |}.
Example C51_peeking : ~ blind_core K_peeks.
Proof.
  intros [H _ _]. specialize (H {| g_table := tab0 people [[("id", VStr "a")]]; g_keys := KCols []; g_keys_budget := Pure XPInf; g_agg := ACount; g_mech := CLaplace;
    g_budget := Pure XPInf; g_outs := [] |}). vm_compute in H. discriminate.
Qed.
