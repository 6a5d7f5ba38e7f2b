(** Properties C30, C31, C38, C39 and C46: compiling an aggregation and running it. *)
From Coq Require Import String Bool Arith ZArith QArith Qcanon Qround Lqa Lia Permutation List.
From Verif Require Import Prelude Budget BudgetProofs BudgetScale Value Rows Constraints ConstraintsSpec ConstraintsProofs
  Schema SchemaProofs Query Rewrite RewriteSpec Transform TransformSpec TransformVisit QueryProofs Tables Accountant
  AccountantProofs Session SessionSpec SessionMoney SessionSteps SessionInv SessionUse SessionCharge
  Measure MeasureProofs MeasureCount MeasureRows Props_Query Props_Rewrite Props_Session.
Import ListNotations.
Local Open Scope string_scope.
Local Open Scope nat_scope.

(** *** Material for the examples: tmlt.core accepts everything, selects the keys that occur
    and answers with the number of rows. *)
Definition K0 : core :=
  {| k_builds := fun _ => Ok tt; k_groups_builds := fun _ _ => Ok tt; k_groups_loss := fun _ b => b;
     k_select := fun _ t => nodup (list_eq_dec (fun x y : string * value =>
                   match string_dec (fst x) (fst y), value_eq_dec (snd x) (snd y) with
                   | left a, left b => left (match x, y return fst x = fst y -> snd x = snd y -> x = y with
                       (a, b), (c, d) => fun E F => f_equal2 pair E F end a b)
                   | right n, _ => right (fun E => n (f_equal fst E))
                   | _, right n => right (fun E => n (f_equal snd E)) end)) t;
     k_answer := fun _ _ t => [VInt (Z.of_nat (length t))] |}.
Definition idl : list string -> list string := fun l => l.
Lemma idl_ok : forall l, Permutation (idl l) l.
Proof. intros l. apply Permutation_refl. Qed.

(** ** C30: splitting a budget between finding the keys and the aggregation *)

(** When the keys have to be found, with a finite budget: both components were positive,
    the whole delta goes to finding the keys, and the epsilon is divided in equal halves
    which add up to the epsilon asked for. *)
Theorem C30_split_adds_up : forall R W K auto so mu cat data b q m total g cols,
  valid b -> ~ infinite b -> compile R W K auto so mu cat data b q = Ok m ->
  plan_of m = Some (total, g) -> g_keys g = KCols cols ->
  exists e d h, b = Approx (XFin e) (XFin d) /\ total = b /\ (0 < e)%Q /\ (0 < d)%Q
    /\ g_keys_budget g = Approx (XFin h) (XFin d) /\ g_budget g = Approx (XFin h) (XFin 0)
    /\ (h + h == e)%Q.
Proof.
  intros R W K auto so mu cat data b q m total g cols V NI C P G. apply compile_shape in C as (adj & S).
  destruct (auto_split R K b m adj total g cols V S P G NI) as (-> & x & y & h & H). exists x, y, h. tauto.
Qed.
Print Assumptions C30_split_adds_up.

(** With an infinite budget both parts are unlimited. *)
Theorem C30_split_infinite : forall R W K auto so mu cat data b q m total g cols,
  loss b = XPInf -> compile R W K auto so mu cat data b q = Ok m ->
  plan_of m = Some (total, g) -> g_keys g = KCols cols ->
  (exists d, b = Approx XPInf d) /\ total = Approx XPInf (XFin 0)
  /\ g_keys_budget g = Approx XPInf (XFin 1) /\ g_budget g = Approx XPInf (XFin 0).
Proof.
  intros R W K auto so mu cat data b q m total g cols I C P G. apply compile_shape in C as (adj & S).
  destruct (auto_split_infinite R K b m adj total g cols S P G I) as (d & H). split; [exists d; apply H|apply H].
Qed.
Print Assumptions C30_split_infinite.

(** Known keys cost nothing: everything but the delta goes to the aggregation. *)
Theorem C30_known_keys_cost_nothing : forall R W K auto so mu cat data b q m total g cols rows,
  compile R W K auto so mu cat data b q = Ok m -> plan_of m = Some (total, g) -> g_keys g = KSet cols rows ->
  loss (g_keys_budget g) = XFin 0 /\ delta (g_keys_budget g) = XFin 0
  /\ g_budget g = total /\ loss total = loss b /\ delta total = XFin 0.
Proof.
  intros R W K auto so mu cat data b q m total g cols rows C P G. apply compile_shape in C as (adj & S).
  destruct (known_keys R K b m adj total g cols rows S P G) as (-> & -> & ->). destruct b; cbn; auto.
Qed.
Print Assumptions C30_known_keys_cost_nothing.

(** Keys are found only with approximate-DP budgets. *)
Theorem C30_only_approximate : forall R W K auto so mu cat data b q m,
  compile R W K auto so mu cat data b q = Ok m ->
  (plan_of m = None \/ exists total g cols, plan_of m = Some (total, g) /\ g_keys g = KCols cols) ->
  exists e d, b = Approx e d.
Proof.
  intros R W K auto so mu cat data b q m C H. apply compile_shape in C as (adj & S).
  assert (A : is_approx b = true).
  { destruct H as [N|(total & g & cols & P & G)].
    - destruct S as (_ & S). rewrite N in S. apply S.
    - exact (auto_approx R K b m adj total g cols S P G). }
  destruct b; try discriminate. eauto.
Qed.
Print Assumptions C30_only_approximate.

(** The two parts never ask for more than the composition has: running the measurement is
    not refused, provided tmlt.core accepts the search for the keys.  When keys are to be found, half the epsilon and the delta must not be zero
    as floats (see below); and as in every session an infinite budget has infinite epsilon. *)
Theorem C30_never_refused : forall R W K auto so mu cat data b q m,
  valid b -> (infinite b -> loss b = XPInf) -> compile R W K auto so mu cat data b q = Ok m ->
  (forall e d h, b = Approx (XFin e) (XFin d) -> (0 < d)%Q -> (0 < h)%Q -> (h + h == e)%Q ->
     positive R (XFin h) = true /\ positive R (XFin d) = true) ->
  (forall total g cols, plan_of m = Some (total, g) -> g_keys g = KCols cols -> search_accepted K g cols) ->
  exists t, run_measurement R K m = Ok t.
Proof.
  intros R W K auto so mu cat data b q m V INF C POS ACC. apply compile_shape in C as (adj & S).
  destruct (plan_of m) as [(total & g)|] eqn:P; [|apply run_groups; exact P].
  apply (run_suppressed R K m total g P). destruct (g_keys g) as [cols rows|cols] eqn:G.
  - destruct (known_keys R K b m adj total g cols rows S P G) as (T & Z & Q). apply (run_known R K total g cols rows G); [|exact Q|].
    + rewrite Z, T. destruct b; reflexivity.
    + rewrite T. destruct b; cbn in V |- *; try exact V. destruct V as (V & _). split; [exact V|]. split; discriminate.
  - destruct (Budget.is_infinite b) eqn:IB.
    + apply is_infinite_iff in IB. destruct (auto_split_infinite R K b m adj total g cols S P G (INF IB)) as (d & _ & T & A & B).
      exact (run_auto_infinite R K total g cols G T A B (ACC _ _ _ eq_refl G)).
    + assert (NI : ~ infinite b) by (intros I; apply is_infinite_iff in I; congruence).
      destruct (auto_split R K b m adj total g cols V S P G NI) as (T & x & y & h & B & X & Y & A & Q & HH).
      destruct (POS x y h B Y ltac:(lra) HH) as (P1 & P2).
      exact (run_auto R K total g cols x y h G (eq_trans T B) X Y A Q HH P1 P2 (ACC _ _ _ eq_refl G)).
Qed.
Print Assumptions C30_never_refused.

(** The groups that are reported are those the search returned.  The search had one half of
    the epsilon and the delta, and saw the key columns of the rows that are aggregated; each
    group is answered from its own rows. *)
Theorem C30_reports_the_groups_found : forall R W K auto so mu cat data b q total g cols t,
  valid b -> ~ infinite b -> compile R W K auto so mu cat data b q = Ok (MGroupBy total g) -> g_keys g = KCols cols ->
  run_measurement R K (MGroupBy total g) = Ok t ->
  exists e d h, b = Approx (XFin e) (XFin d) /\ (h + h == e)%Q
    /\ t = map (fun key => (key ++ combine (g_outs g) (k_answer K g key (filter (fun r => forallb (fun c => value_eqb (getv c key) (getv c r)) cols) (v_rows (g_table g)))))%list)
              (k_select K (Approx (XFin h) (XFin d)) (map (select_row cols) (v_rows (g_table g)))).
Proof.
  intros R W K auto so mu cat data b q total g cols t V F C KC H.
  destruct (C30_split_adds_up R W K auto so mu cat data b q _ total g cols V F C eq_refl KC) as (e & d & h & B & T & _ & _ & KB & _ & HH).
  exists e, d, h. split; [exact B|]. split; [exact HH|].
  cbn [run_measurement] in H. unfold run_plan, find_keys in H. rewrite KC, KB in H.
  apply bind_ok in H as (keys & E & H). apply bind_ok in E as (x & _ & E). apply bind_ok in E as (y & Ey & E). apply bind_ok in E as (z & _ & E).
  apply bind_ok in H as (l & _ & H). apply bind_ok in H as (z' & _ & H). injection H as <-. injection E as <-.
  unfold visit_select in Ey. apply bind_ok in Ey as (dm & _ & Ey). apply bind_ok in Ey as (u & _ & Ey). injection Ey as <-. cbn [fst v_rows keys_columns].
  reflexivity.
Qed.
Print Assumptions C30_reports_the_groups_found.

(** The people of Props_Query counted by group: keys to be found, budget (1, 1/4).  Every
    key that occurs is found, and the two parts together spend everything. *)
Definition count_q (k : gkeys) : query := GroupByCount (PrivateSource "people") k "n" MDefault None.
Definition compile0 := compile exact_rounding W0 K0 true idl.
Definition found : measurement := Eval vm_compute in
  match compile0 ApproxDP pcat pdata (Approx (XFin 1) (XFin (1 # 4))) (count_q (KCols ["grp"])) with
  | Ok m => m | Err _ => MGroups (tab0 people []) [] (Pure XPInf) end.
Example C30_case :
  valid (Approx (XFin 1) (XFin (1 # 4))) /\ ~ infinite (Approx (XFin 1) (XFin (1 # 4)))
  /\ compile0 ApproxDP pcat pdata (Approx (XFin 1) (XFin (1 # 4))) (count_q (KCols ["grp"])) = Ok found
  /\ (exists total g, plan_of found = Some (total, g) /\ g_keys g = KCols ["grp"]
        /\ g_keys_budget g = Approx (XFin (1 # 2)) (XFin (1 # 4)) /\ g_budget g = Approx (XFin (1 # 2)) (XFin 0))
  /\ (forall h d, (0 < d)%Q -> (0 < h)%Q -> positive exact_rounding (XFin h) = true /\ positive exact_rounding (XFin d) = true)
  /\ search_accepted K0 (match plan_of found with Some (_, g) => g | None => {| g_table := tab0 people []; g_keys := KCols []; g_keys_budget := Pure XPInf;
        g_agg := ACount; g_mech := CLaplace; g_budget := Pure XPInf; g_outs := [] |} end) ["grp"]
  /\ run_measurement exact_rounding K0 found
     = Ok [[("grp", VNull); ("n", VInt 1)]; [("grp", VStr "x"); ("n", VInt 2)]; [("grp", VStr "y"); ("n", VInt 1)]].
Proof.
  split; [cbn; intuition discriminate|]. split; [intros [X|X]; discriminate|]. split; [vm_compute; reflexivity|].
  split; [eexists _, _; vm_compute; auto|]. split; [|split; [eexists; split; vm_compute; reflexivity|vm_compute; reflexivity]].
  assert (P : forall h, (0 < h)%Q -> positive exact_rounding (XFin h) = true).
  { intros h H. unfold positive, plt. destruct (tiof_exact h) as (v & E & V). rewrite E. cbn [pynum_x]. apply xltb_iff. change (~ (v <= 0)%Q). intros X. rewrite V in X. lra. }
  intros h d D H. split; apply P; assumption.
Qed.
Example C30_infinite_case :
  loss (Approx XPInf (XFin 1)) = XPInf
  /\ (exists m total g, compile0 ApproxDP pcat pdata (Approx XPInf (XFin 1)) (count_q (KCols ["grp"])) = Ok m
        /\ plan_of m = Some (total, g) /\ g_keys g = KCols ["grp"] /\ exists t, run_measurement exact_rounding K0 m = Ok t).
Proof. split; [reflexivity|]. eexists _, _, _. split; [vm_compute; reflexivity|]. split; [reflexivity|]. split; [reflexivity|]. eexists; vm_compute; reflexivity. Qed.
Definition grp_keys : gkeys := KSet [("grp", dsc VARCHAR true false false)] [[("grp", VStr "x")]; [("grp", VStr "z")]].
Example C30_known_case :
  exists m total g cols rows, compile0 ApproxDP pcat pdata (Approx (XFin 1) (XFin (1 # 4))) (count_q grp_keys) = Ok m
    /\ plan_of m = Some (total, g) /\ g_keys g = KSet cols rows
    /\ run_measurement exact_rounding K0 m = Ok [[("grp", VStr "x"); ("n", VInt 2)]; [("grp", VStr "z"); ("n", VInt 0)]].
Proof. eexists _, _, _, _, _. split; [vm_compute; reflexivity|]. split; [reflexivity|]. split; [reflexivity|]. vm_compute. reflexivity. Qed.
Example C30_approximate_case :
  compile0 PureDP pcat pdata (Pure (XFin 1)) (count_q (KCols ["grp"])) = Err ValueError
  /\ compile0 RhoZCDP pcat pdata (Zcdp XPInf) (GetGroups (PrivateSource "people") ["grp"]) = Err ValueError
  /\ exists m, compile0 ApproxDP pcat pdata (Approx (XFin 1) (XFin (1 # 4))) (GetGroups (PrivateSource "people") ["grp"]) = Ok m.
Proof. split; [vm_compute; reflexivity|]. split; [vm_compute; reflexivity|]. eexists; vm_compute; reflexivity. Qed.

(** The condition of C30_never_refused is needed.  With floats that have a smallest positive
    value, here any N-th of one, rounding towards minus infinity, half of that value is zero:
    the query compiles, and running it ends in an internal error (not raised by the checks
    of the arguments). *)
Section Grid.
Variable N : BinNums.positive.
Definition grid (x : Q) : Q := (inject_Z (Qfloor (x * inject_Z (Z.pos N))) * (1 # N))%Q.
Lemma grid_n : (inject_Z (Z.pos N) * (1 # N) == 1)%Q.
Proof. unfold Qeq, Qmult, inject_Z. cbn. lia. Qed.
Lemma n_pos : (0 < inject_Z (Z.pos N))%Q.
Proof. unfold Qlt, inject_Z. cbn. lia. Qed.
Lemma grid_mono x y : (x <= y)%Q -> (grid x <= grid y)%Q.
Proof.
  intros H. unfold grid. apply Qmult_le_compat_r; [|unfold Qle; cbn; lia]. rewrite <- Zle_Qle. apply Qfloor_resp_le.
  apply Qmult_le_compat_r; [exact H|]. apply Qlt_le_weak, n_pos.
Qed.
Lemma grid_le x : (grid x <= x)%Q.
Proof.
  unfold grid. pose proof (Qfloor_le (x * inject_Z (Z.pos N))) as F. pose proof grid_n as G.
  apply Qle_trans with (x * inject_Z (Z.pos N) * (1 # N))%Q.
  - apply Qmult_le_compat_r; [exact F|unfold Qle; cbn; lia].
  - rewrite <- Qmult_assoc, G. lra.
Qed.
Lemma grid_int z : (grid (inject_Z z * (1 # N)) == inject_Z z * (1 # N))%Q.
Proof.
  unfold grid. assert (E : (inject_Z z * (1 # N) * inject_Z (Z.pos N) == inject_Z z)%Q) by (rewrite <- Qmult_assoc, (Qmult_comm (1 # N)), grid_n; lra).
  rewrite (Qfloor_comp _ _ E), Qfloor_Z. reflexivity.
Qed.
Lemma grid_one z : (grid (inject_Z z) == inject_Z z)%Q.
Proof.
  assert (E : (inject_Z z == inject_Z (z * Z.pos N) * (1 # N))%Q).
  { rewrite inject_Z_mult, <- Qmult_assoc, grid_n. lra. }
  transitivity (grid (inject_Z (z * Z.pos N) * (1 # N)))%Q.
  - unfold grid. rewrite (Qfloor_comp (inject_Z z * inject_Z (Z.pos N)) (inject_Z (z * Z.pos N) * (1 # N) * inject_Z (Z.pos N))); [reflexivity|]. rewrite <- E. reflexivity.
  - rewrite grid_int, <- E. reflexivity.
Qed.
Definition grid_rounding : rounding.
Proof.
  refine {| rnd := fun x => XFin (grid x); ffrom := fun x => x |}; try (intros; cbn [xle xeq]).
  - apply grid_mono. assumption.
  - cbn. apply (grid_one 0).
  - cbn. apply (grid_one 1).
  - injection H as <-. apply grid_int.
  - cbn in H, H0. pose proof (grid_le (x - y)). lra.
  - assumption.
  - apply Qle_refl.
  - reflexivity.
  - reflexivity.
Defined.
End Grid.
Theorem C30_never_refused_refuted : exists R W K auto so mu cat data b q m,
  valid b /\ ~ infinite b /\ compile R W K auto so mu cat data b q = Ok m
  /\ run_measurement R K m = Err InternalError.
Proof.
  exists (grid_rounding (2 ^ 1074)), W0, K0, true, idl, ApproxDP, pcat, pdata, (Approx (XFin (1 # 2 ^ 1074)) (XFin (1 # 2))), (count_q (KCols ["grp"])).
  eexists. split; [|split]; [| |split; vm_compute; reflexivity].
  - cbn. intuition discriminate.
  - intros [X|X]; discriminate.
Qed.
Print Assumptions C30_never_refused_refuted.

(** Nor can the search for keys always be made.  Take a table with IDs that is constrained
    by the number of days of an ID and its rows per day.  The table is truncated to that,
    and from then on distances are measured per day.  Keys in another column can then not be
    searched: selecting this column drops the day.  The query compiles; running it fails. *)
Definition shop_src := [("shop", orders, [MaxGroupsPerID "day" 2; MaxRowsPerGroupPerID "day" 2],
  [orow "a" "mon" 1; orow "a" "tue" 2; orow "b" "mon" 2])].
Theorem C30_search_accepted_refuted : exists R W K so mu cat data b q m total g cols,
  constraints_hold cat data /\ inputs_ok false cat data
  /\ valid b /\ ~ infinite b /\ build true q = Ok q /\ compile R W K true so mu cat data b q = Ok m
  /\ plan_of m = Some (total, g) /\ g_keys g = KCols cols /\ ~ search_accepted K g cols
  /\ run_measurement R K m = Err ValueError.
Proof.
  exists exact_rounding, W0, K0, idl, ApproxDP, (cat0 shop_src []), (data0 shop_src), (Approx (XFin 1) (XFin (1 # 4))),
    (GroupByCount (PrivateSource "shop") (KCols ["n"]) "count" MDefault None).
  eexists _, _, _, _. split; [apply constraints0; vm_compute; reflexivity|]. split; [apply inputs0_ok; vm_compute; reflexivity|].
  split; [cbn; intuition discriminate|]. split; [intros [X|X]; discriminate|]. split; [reflexivity|].
  split; [vm_compute; reflexivity|]. split; [reflexivity|]. split; [reflexivity|]. split; [|vm_compute; reflexivity].
  intros (y & Y & _). vm_compute in Y. discriminate.
Qed.
Print Assumptions C30_search_accepted_refuted.

(** ** C31: the privacy loss of a compiled query *)

(** At most the budget it was compiled with, in every component, and equal to it for pure
    and zero-concentrated DP. *)
Theorem C31_loss_within_budget : forall R W K auto so mu cat data b q m,
  valid b -> compile R W K auto so mu cat data b q = Ok m ->
  same_kind (privacy_loss K m) b /\ xle (loss (privacy_loss K m)) (loss b) /\ xle (delta (privacy_loss K m)) (delta b).
Proof.
  intros R W K auto so mu cat data b q m V C. apply compile_shape in C as (adj & S). destruct (shape_le R K b m adj V S) as (A & B).
  pose proof (ble_trans _ _ _ A B) as L. destruct (privacy_loss K m), b; cbn in *; try contradiction; intuition auto; apply Qle_refl.
Qed.
Print Assumptions C31_loss_within_budget.

Theorem C31_loss_exact : forall R W K auto so mu cat data b q m,
  compile R W K auto so mu cat data b q = Ok m ->
  (forall e, b = Pure e \/ b = Zcdp e -> loss (privacy_loss K m) = e)
  /\ (forall total g cols rows, plan_of m = Some (total, g) -> g_keys g = KSet cols rows ->
        loss (privacy_loss K m) = loss b /\ delta (privacy_loss K m) = XFin 0).
Proof.
  intros R W K auto so mu cat data b q m C. apply compile_shape in C as (adj & S). split.
  - intros e B. assert (NA : is_approx b = false) by (destruct B as [-> | ->]; reflexivity).
    destruct S as (_ & S). destruct (plan_of m) as [(total & g)|]; [|destruct S as (_ & A); congruence].
    destruct S as (-> & -> & (mm & A) & _). apply adjust_inv in A. destruct (g_keys g).
    + rewrite A. destruct B as [-> | ->]; reflexivity.
    + destruct (Budget.is_infinite b); [rewrite A|rewrite (proj1 A)]; destruct B as [-> | ->]; reflexivity.
  - intros total g cols rows P G. pose proof S as S0. destruct (known_keys R K b m adj total g cols rows S P G) as (T & _ & _).
    destruct S0 as (_ & S0). rewrite P in S0. destruct S0 as (_ & -> & _). rewrite T. destruct b; split; reflexivity.
Qed.
Print Assumptions C31_loss_exact.

Example C31_case :
  (exists m, compile0 ApproxDP pcat pdata (Approx (XFin 1) (XFin (1 # 4))) (count_q grp_keys) = Ok m
     /\ privacy_loss K0 m = Approx (XFin 1) (XFin 0))
  /\ (exists m, compile0 ApproxDP pcat pdata (Approx (XFin 1) (XFin (1 # 4))) (count_q (KCols ["grp"])) = Ok m
     /\ privacy_loss K0 m = Approx (XFin 1) (XFin (1 # 4)))
  /\ (exists m, compile0 RhoZCDP pcat pdata (Zcdp (XFin 1)) (SuppressAggregates (count_q grp_keys) "n" (Query.PInt 1)) = Ok m
     /\ privacy_loss K0 m = Zcdp (XFin 1)).
Proof. split; [|split]; eexists; (split; [vm_compute; reflexivity|reflexivity]). Qed.

(** In a session that uses this compiler (with the measure of the session's budget), a
    successful evaluation compiled the query with the amount that the session is charged.
    The loss of the measurement it ran is within that amount, so the accountant's check of
    the measurement's privacy relation cannot fail. *)
Definition measure_for (b : budget) : measure := match b with Pure _ => PureDP | Approx _ _ => ApproxDP | Zcdp _ => RhoZCDP end.
Definition compiles_with (E : env) (K : core) (auto : bool) (so : list string -> list string) : Prop :=
  forall cat x q b, e_compiles E cat x q b
    = (let* data := data_of x in let* _ := compile (e_round E) (e_world E) K auto so (measure_for b) cat data b q in Ok tt).
Theorem C31_charged_for_what_was_compiled : forall E K auto so b x st p s q want st',
  compiles_with E K auto so -> reachable E b x st -> session st p s ->
  step E st (Evaluate p q want) = (st', Ok tt) ->
  exists cat data c m s', catalog_of (s_tree s) (st_public st) (s_cons s) = Ok cat /\ data_of (s_tree s) = Ok data
    /\ compile (e_round E) (e_world E) K auto so (measure_for c) cat data c q = Ok m
    /\ session st' p s' /\ s_log s' = (s_log s ++ [Measured c])%list
    /\ charge_for (s_left s) (request (s_left s) want) c
    /\ same_kind (privacy_loss K m) c
    /\ xle (loss (privacy_loss K m)) (loss c) /\ xle (delta (privacy_loss K m)) (delta c).
Proof.
  intros E K auto so b x st p s q want st' CW RE S H.
  destruct (C25_charge E b x st p s (Evaluate p q want) st' want RE S (or_introl (ex_intro _ q eq_refl)) H) as (s' & c & S' & L & _ & _ & M & CF & _).
  pose proof (reachable_ok _ _ _ _ RE) as O. apply step_effect in H; [|exact O].
  inversion H as [| |p1 q0 b0 s0 adj rest st1 o0 OK0 S0 C SP RL RD| | | |]; subst.
  destruct OK0 as [[= -> -> ->]|[=]]. apply session_at_iff in S0.
  assert (s0 = s) as -> by (destruct S as (c1 & F1 & <-), S0 as (c2 & F2 & <-); congruence).
  destruct (ready_session _ _ _ _ (proj2 (session_at_iff st p1 s) S0) RD) as (cc & F & D & A).
  assert (s' = charged s rest (Measured adj)) as ->.
  { destruct S' as (c1 & F1 & <-). cbn [st_root set_root] in F1. rewrite find_change, F in F1. injection F1 as <-. reflexivity. }
  cbn [s_log charged] in L. apply app_inv_head in L. injection L as <-. cbn [amount] in CF.
  unfold compile_and_get_info in C. apply bind_ok in C as (b1 & LP & C). apply bind_ok in C as (? & V & C). apply bind_ok in C as (? & _ & C).
  apply bind_ok in C as (adj' & PB & C). apply bind_ok in C as (cat & CT & C). apply bind_ok in C as (? & _ & C). apply bind_ok in C as (? & EC & C).
  injection C as ->. rewrite CW in EC. apply bind_ok in EC as (data & DO & EC). apply bind_ok in EC as (m & CM & _).
  exists cat, data, adj, m, (charged s rest (Measured adj)). split; [exact CT|]. split; [exact DO|]. split; [exact CM|].
  split; [exact S'|]. split; [reflexivity|]. split; [exact CF|].
  apply (C31_loss_within_budget _ _ _ _ _ _ _ _ _ _ _ (proj1 (process_valid E _ _ _ PB)) CM).
Qed.
Print Assumptions C31_charged_for_what_was_compiled.

Definition E1 : env.
Proof.
  refine {| e_world := W0; e_round := exact_rounding; e_down := fun q => q; e_identifier := fun n => negb (String.eqb n "");
            e_compiles := fun cat x q b => let* data := data_of x in
              let* _ := compile exact_rounding W0 K0 true idl (measure_for b) cat data b q in Ok tt;
            e_relation := fun _ _ _ => true; e_temps := fun _ _ => [];
            e_shuffle := fun l => l; e_empty_ok := false; e_retires_waiting := false |}.
  - intros q H. split; [exact H|apply Qle_refl].
  - intros l. apply Permutation_refl.
Defined.
Definition groups_q : query :=
  GroupByCount (PrivateSource "cities") (KSet [("city", dsc VARCHAR false false false)] [[("city", VStr "x")]]) "n" MDefault None.
Definition b1 : budget := Approx (XFin 3) (XFin (1 # 2)).
Definition st1 : state := fst (step E1 (st0 b1) (Evaluate [] groups_q (Approx (XFin 1) (XFin (1 # 4))))).
Example C31_session_case :
  compiles_with E1 K0 true idl /\ reachable E1 b1 x0 (st0 b1) /\ (exists s, session (st0 b1) [] s)
  /\ step E1 (st0 b1) (Evaluate [] groups_q (Approx (XFin 1) (XFin (1 # 4)))) = (st1, Ok tt)
  /\ snd (step E1 (st0 b1) (Evaluate [] (PrivateSource "cities") (Approx (XFin 1) (XFin (1 # 4))))) = Err NotImplementedError.
Proof.
  split; [intros cat x q b; reflexivity|]. split; [|split; [|split; vm_compute; reflexivity]].
  - exists (st0 b1), []. split; [cbn; intuition discriminate|]. split; [exact layout_x0|]. split; reflexivity.
  - eexists. eexists. split; [vm_compute; reflexivity|reflexivity].
Qed.

(** A query that does not need the delta it was given has loss with delta 0, but the session
    is charged that delta nevertheless: the charge is more than the loss. *)
Theorem C31_unneeded_delta_is_free_refuted : exists E K auto so b x st p s q want st' cat data c m s',
  compiles_with E K auto so /\ reachable E b x st /\ session st p s
  /\ step E st (Evaluate p q want) = (st', Ok tt)
  /\ catalog_of (s_tree s) (st_public st) (s_cons s) = Ok cat /\ data_of (s_tree s) = Ok data
  /\ compile (e_round E) (e_world E) K auto so (measure_for c) cat data c q = Ok m
  /\ session st' p s' /\ s_log s' = (s_log s ++ [Measured c])%list
  /\ delta (privacy_loss K m) = XFin 0 /\ delta c = XFin (1 # 4)
  /\ xeq (delta (remaining_privacy_budget s)) (XFin (1 # 2)) /\ xeq (delta (remaining_privacy_budget s')) (XFin (1 # 4)).
Proof.
  exists E1, K0, true, idl, b1, x0, (st0 b1), [].
  eexists _, groups_q, (Approx (XFin 1) (XFin (1 # 4))), st1, _, _, (Approx (XFin 1) (XFin (1 # 4))), _, _.
  split; [apply C31_session_case|]. split; [apply C31_session_case|].
  split; [eexists; split; [vm_compute; reflexivity|reflexivity]|]. split; [apply C31_session_case|].
  split; [vm_compute; reflexivity|]. split; [vm_compute; reflexivity|]. split; [vm_compute; reflexivity|].
  split; [eexists; split; [vm_compute; reflexivity|reflexivity]|]. split; [vm_compute; reflexivity|].
  split; [reflexivity|]. split; [reflexivity|]. split; vm_compute; reflexivity.
Qed.
Print Assumptions C31_unneeded_delta_is_free_refuted.

(** ** C38: counts of distinct values *)

(** For any count of distinct values of columns [cols] (all columns, if none are given) of
    a table that [c] computes: the number that is computed for a key before noise is added
    is the number of different values in the rows with that key, whether or not the compiler
    replaced it by a count of rows after truncating to one row per ID (or per ID and group).
    The hypotheses on the data are those of C15: the data conforms to the schemas and the
    declared constraints, and user functions return what they promise. *)
Theorem C38_distinct_counts_exact : forall R W K auto so mu cat data b q0 c k cols o m co meas,
  (forall l, Permutation (so l) l) -> constraints_hold cat data -> catalog_made cat ->
  build auto q0 = Ok (GroupByCountDistinct c k cols o m co) ->
  holds_for W cat data (asks_gaussian mu m) c ->
  compile R W K auto so mu cat data b (GroupByCountDistinct c k cols o m co) = Ok meas ->
  exists t cs s total g, build_transformation W (asks_gaussian mu m) cat data c = Ok (t, cs)
    /\ schema_of (w_cond_ok W) cat c = Ok s
    /\ plan_of meas = Some (total, g) /\ g_keys g = k /\ g_outs g = [o]
    /\ forall key, counted g key
         = distinct_count (match cols with [] => dkeys (sc_cols s) | _ => cols end) (rows_with_key (keys_columns k) key (v_rows t)).
Proof.
  intros R W K auto so mu cat data b q0 c k cols o m co meas SO HOLD MADE B HF C.
  exact (compile_count_distinct R W K auto so SO mu cat data HOLD MADE b c k cols o m co meas (build_built auto _ _ B) HF C).
Qed.
Print Assumptions C38_distinct_counts_exact.

(** Counts of rows, too, count all the rows. *)
Theorem C38_row_counts_exact : forall R W K auto so mu cat data b q0 c k o m co meas,
  (forall l, Permutation (so l) l) -> constraints_hold cat data -> catalog_made cat ->
  build auto q0 = Ok (GroupByCount c k o m co) ->
  holds_for W cat data (asks_gaussian mu m) c ->
  compile R W K auto so mu cat data b (GroupByCount c k o m co) = Ok meas ->
  exists t cs total g, build_transformation W (asks_gaussian mu m) cat data c = Ok (t, cs)
    /\ plan_of meas = Some (total, g) /\ g_keys g = k /\ g_outs g = [o]
    /\ forall key, counted g key = length (rows_with_key (keys_columns k) key (v_rows t)).
Proof.
  intros R W K auto so mu cat data b q0 c k o m co meas SO HOLD MADE B HF C.
  exact (compile_count R W K auto so SO mu cat data HOLD MADE b c k o m co meas (build_built auto _ _ B) HF C).
Qed.
Print Assumptions C38_row_counts_exact.

(** IDs counted per group; both constraints of the table are used (MaxRowsPerID 2 and
    MaxGroupsPerID 2), and the aggregation became a count of rows. *)
Definition ids_q (k : gkeys) (cols : list string) : query := GroupByCountDistinct (PrivateSource "people") k cols "n" MDefault None.
Lemma people_holds l2 : holds_for W0 pcat pdata l2 (PrivateSource "people").
Proof. split; [apply inputs0_ok; vm_compute; reflexivity|]. repeat split. Qed.
Lemma pcat_holds : constraints_hold pcat pdata.
Proof. apply C15_case. Qed.
Example C38_case :
  (forall l, Permutation (idl l) l) /\ constraints_hold pcat pdata /\ catalog_made pcat
  /\ build true (ids_q grp_keys ["id"]) = Ok (ids_q grp_keys ["id"])
  /\ holds_for W0 pcat pdata (asks_gaussian PureDP MDefault) (PrivateSource "people")
  /\ (exists meas total g, compile0 PureDP pcat pdata (Pure (XFin 1)) (ids_q grp_keys ["id"]) = Ok meas
        /\ plan_of meas = Some (total, g) /\ g_agg g = ACount
        /\ counted g [("grp", VStr "x")] = 2 /\ counted g [("grp", VStr "z")] = 0)
  /\ (exists meas total g, compile0 PureDP pcat pdata (Pure (XFin 1)) (ids_q grp_keys ["x"]) = Ok meas
        /\ plan_of meas = Some (total, g) /\ g_agg g = ACountDistinct
        /\ counted g [("grp", VStr "x")] = 2 /\ counted g [("grp", VStr "z")] = 0)
  /\ (exists meas, compile0 PureDP pcat pdata (Pure (XFin 1)) (count_q grp_keys) = Ok meas).
Proof.
  split; [exact idl_ok|]. split; [exact pcat_holds|]. split; [exact pcat_made|]. split; [reflexivity|]. split; [apply people_holds|].
  split; [|split].
  - eexists _, _, _. split; [vm_compute; reflexivity|]. split; [reflexivity|]. vm_compute. auto.
  - eexists _, _, _. split; [vm_compute; reflexivity|]. split; [reflexivity|]. vm_compute. auto.
  - eexists. vm_compute. reflexivity.
Qed.

(** Distinct values of given columns cannot be counted per group when the keys are to be
    found: the query is accepted by every check of its arguments, as is the count of rows
    with the same keys, but compiling it fails with an AttributeError, for every budget. *)
Theorem C38_distinct_with_found_keys_refuted : exists R W K cat data q q',
  build true q = Ok q /\ build true q' = Ok q'
  /\ (exists c k o m cols, q = GroupByCount c k o m None /\ q' = GroupByCountDistinct c k cols o m None)
  /\ (exists s, schema_of (w_cond_ok W) cat q = Ok s /\ schema_of (w_cond_ok W) cat q' = Ok s)
  /\ (exists m, compile R W K true idl ApproxDP cat data (Approx (XFin 1) (XFin (1 # 4))) q = Ok m)
  /\ compile R W K true idl ApproxDP cat data (Approx (XFin 1) (XFin (1 # 4))) q' = Err AttributeError.
Proof.
  exists exact_rounding, W0, K0, pcat, pdata, (count_q (KCols ["grp"])), (ids_q (KCols ["grp"]) ["x"]).
  split; [reflexivity|]. split; [reflexivity|]. split; [eexists _, _, _, _, _; split; reflexivity|].
  split; [eexists; split; vm_compute; reflexivity|]. split; [eexists|]; vm_compute; reflexivity.
Qed.
Print Assumptions C38_distinct_with_found_keys_refuted.

(** ** C46: constraints that hold cost no data *)

(** An aggregation of a measure column is computed from exactly the rows of the table (up to
    their order), after null, NaN and infinite measures have been dealt with as in C20:
    truncating to the constraints of the table removes nothing. *)
Theorem C46_measures_see_all_rows : forall R W K auto so mu cat data b q0 q c me t cs meas,
  (forall l, Permutation (so l) l) -> constraints_hold cat data -> catalog_made cat ->
  build auto q0 = Ok q -> measure_of q = Some (c, me) -> holds_for W cat data (query_l2 mu q) c ->
  build_transformation W (query_l2 mu q) cat data c = Ok (t, cs) ->
  compile R W K auto so mu cat data b q = Ok meas ->
  exists total g, plan_of meas = Some (total, g)
    /\ Permutation (v_rows (g_table g)) (flat_map (clean_row me (bounds_of q)) (v_rows t)).
Proof.
  intros R W K auto so mu cat data b q0 q c me t cs meas SO HOLD MADE B MO HF T C.
  exact (compile_measured R W K auto so SO mu cat data HOLD MADE b q c me t cs meas (build_built auto _ _ B) MO HF T C).
Qed.
Print Assumptions C46_measures_see_all_rows.

(** Groups are looked for in all rows, in the columns asked for; in all columns except the
    ID column, if none are given. *)
Theorem C46_groups_see_all_rows : forall R W K auto so mu cat data b q0 c cols t cs meas,
  (forall l, Permutation (so l) l) -> constraints_hold cat data -> catalog_made cat ->
  build auto q0 = Ok (GetGroups c cols) -> holds_for W cat data false c ->
  build_transformation W false cat data c = Ok (t, cs) ->
  compile R W K auto so mu cat data b (GetGroups c cols) = Ok meas ->
  exists t' out s, schema_of (w_cond_ok W) cat c = Ok s /\ meas = MGroups t' out b
    /\ Permutation (v_rows t') (map (select_row out) (v_rows t))
    /\ (cols <> [] -> out = cols)
    /\ (cols = [] -> forall k, In k out <-> In k (dkeys (sc_cols s)) /\ sc_id s <> Some k).
Proof.
  intros R W K auto so mu cat data b q0 c cols t cs meas SO HOLD MADE B HF T C.
  exact (compile_groups R W K auto so SO mu cat data HOLD MADE b c cols t cs meas (build_built auto _ _ B) HF T C).
Qed.
Print Assumptions C46_groups_see_all_rows.

Example C46_case :
  build true avg0 = Ok avg1 /\ measure_of avg1 = Some (PrivateSource "people", "x")
  /\ holds_for W0 pcat pdata (query_l2 PureDP avg1) (PrivateSource "people")
  /\ build_transformation W0 false pcat pdata (PrivateSource "people") = Ok (avg_t, [MaxRowsPerID 2; MaxGroupsPerID "grp" 2])
  /\ (exists m total g, compile0 PureDP pcat pdata (Pure (XFin 1)) avg1 = Ok m /\ plan_of m = Some (total, g)
        /\ Permutation (v_rows (g_table g)) [prow "b" (VStr "x") (VFloat (z_to_f 10)); prow "b" (VStr "y") (VFloat (z_to_f 3))])
  /\ (exists t, compile0 ApproxDP pcat pdata (Approx (XFin 1) (XFin (1 # 4))) (GetGroups (PrivateSource "people") ["grp"])
        = Ok (MGroups t ["grp"] (Approx (XFin 1) (XFin (1 # 4)))) /\ length (v_rows t) = 4).
Proof.
  split; [reflexivity|]. split; [reflexivity|]. split; [apply people_holds|]. split; [vm_compute; reflexivity|]. split.
  - eexists _, _, _. split; [vm_compute; reflexivity|]. split; [reflexivity|]. vm_compute. apply Permutation_refl.
  - eexists. split; vm_compute; reflexivity.
Qed.

(** ** C39: suppression *)

(** [x >= threshold] as numbers. *)
Definition number (v : value) : option fnum := match v with VInt z => Some (z_to_f z) | VFloat f => Some f | _ => None end.
Definition reaches (th : Query.pynum) (v : value) : Prop :=
  exists x, number v = Some x /\
    match x, to_float th with
    | FNan, _ => True                       (* Spark: NaN is the largest number *)
    | FFin a, FFin b => (b <= a)%Qc
    | FPInf, FFin _ | FPInf, FPInf => True
    | _, FNInf => True
    | _, _ => False
    end.
Lemma z_to_f_le n z : (Q2Qc (inject_Z n) <= Q2Qc (inject_Z z))%Qc <-> (n <= z)%Z.
Proof.
  unfold Qcle. change (Qred (inject_Z n) <= Qred (inject_Z z) <-> (n <= z)%Z)%Q. rewrite !Qred_correct, <- Zle_Qle. reflexivity.
Qed.
Lemma at_least_iff th v : at_least th v = true <-> reaches th v.
Proof.
  assert (G : forall x y, x <> FNan -> fnum_ge x y = true <-> match x, y with
    | FNan, _ => True | FFin a, FFin b => (b <= a)%Qc | FPInf, FFin _ | FPInf, FPInf => True | _, FNInf => True | _, _ => False end).
  { intros x y N. destruct x as [a| | |], y as [b| | |]; cbn; try congruence; try (split; [intros; discriminate|intros []]); try (split; auto; fail).
    destruct (a ?= b)%Qc eqn:C.
    - apply Qceq_alt in C. subst. split; [intros _; apply Qcle_refl|reflexivity].
    - apply Qclt_alt in C. split; [discriminate|]. intros L. exfalso. exact (Qclt_not_le _ _ C L).
    - apply Qcgt_alt in C. split; [intros _; apply Qclt_le_weak, C|reflexivity]. }
  unfold reaches. destruct v as [|z|f|s|d|d]; cbn [at_least number];
    try (split; [discriminate|intros (x & [=] & _)]).
  - destruct th as [n|f]; cbn [to_float].
    + split.
      * intros H. exists (z_to_f z). split; [reflexivity|]. apply z_to_f_le, Z.leb_le, H.
      * intros (x & [= <-] & H). apply Z.leb_le, z_to_f_le, H.
    + split.
      * intros H. exists (z_to_f z). split; [reflexivity|]. apply (G (z_to_f z) f); [discriminate|exact H].
      * intros (x & [= <-] & H). apply (G (z_to_f z) f); [discriminate|exact H].
  - assert (E : f <> FNan -> fnum_ge f (to_float th) = true <-> reaches th (VFloat f)).
    { intros N. rewrite (G f _ N). unfold reaches. cbn [number]. split; [intros H; exists f; auto|intros (x & [= <-] & H); exact H]. }
    destruct f; try (apply E; discriminate). split; [|reflexivity]. intros _. exists FNan. split; [reflexivity|exact I].
Qed.

(** suppress(t) gives the rows of the answer without it whose aggregate is at least t, as
    they were and in the same order, and no others.  (An answer that is null would not be
    shown.)  It costs what the answer costs. *)
Theorem C39_suppression_exact : forall R W K auto so mu cat data b c col th meas,
  compile R W K auto so mu cat data b (SuppressAggregates c col th) = Ok meas ->
  exists m, compile R W K auto so mu cat data b c = Ok m
    /\ privacy_loss K meas = privacy_loss K m
    /\ (forall t', run_measurement R K meas = Ok t' <->
          exists t keep, run_measurement R K m = Ok t /\ t' = filter keep t
            /\ forall r, keep r = true <-> reaches th (getv col r)).
Proof.
  intros R W K auto so mu cat data b c col th meas H. apply compile_suppress in H as (m & C & ->).
  exists m. split; [exact C|]. split; [reflexivity|]. intros t'. cbn [run_measurement]. split.
  - intros H. apply bind_ok in H as (t & T & H). injection H as <-. exists t, (fun r => at_least th (getv col r)).
    split; [exact T|]. split; [reflexivity|]. intros r. apply at_least_iff.
  - intros (t & keep & T & -> & KP). rewrite T. cbn [bind]. f_equal. apply filter_ext. intros r.
    apply Bool.eq_iff_eq_true. rewrite KP. apply at_least_iff.
Qed.
Print Assumptions C39_suppression_exact.

Corollary C39_rows_kept : forall R W K auto so mu cat data b c col th meas t',
  compile R W K auto so mu cat data b (SuppressAggregates c col th) = Ok meas -> run_measurement R K meas = Ok t' ->
  exists m t, compile R W K auto so mu cat data b c = Ok m /\ run_measurement R K m = Ok t
    /\ forall r, In r t' <-> In r t /\ reaches th (getv col r).
Proof.
  intros R W K auto so mu cat data b c col th meas t' C H. apply C39_suppression_exact in C as (m & C & _ & X).
  apply X in H as (t & keep & T & -> & KP). exists m, t. split; [exact C|]. split; [exact T|]. intros r. rewrite filter_In, KP. reflexivity.
Qed.
Print Assumptions C39_rows_kept.

Example C39_case :
  exists m, compile0 PureDP pcat pdata (Pure (XFin 1)) (SuppressAggregates (count_q (KSet [("grp", dsc VARCHAR true false false)]
        [[("grp", VNull)]; [("grp", VStr "x")]; [("grp", VStr "y")]])) "n" (Query.PInt 2)) = Ok m
    /\ run_measurement exact_rounding K0 m = Ok [[("grp", VStr "x"); ("n", VInt 2)]]
    /\ reaches (Query.PInt 2) (VInt 2) /\ ~ reaches (Query.PInt 2) (VInt 1) /\ reaches (Query.PFloat (FFin (Q2Qc (3 # 2)))) (VInt 2).
Proof.
  eexists. split; [vm_compute; reflexivity|]. split; [vm_compute; reflexivity|].
  split; [|split]; rewrite <- at_least_iff; vm_compute; congruence.
Qed.
