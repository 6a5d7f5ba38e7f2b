(** Property C45, continued: which partitions are accepted, and what is raised otherwise. *)
From Coq Require Import String Bool Arith ZArith QArith Lqa Lia Permutation List.
From Verif Require Import Prelude Budget BudgetProofs Value Rows Constraints ConstraintsSpec ConstraintsProofs Schema SchemaProofs Query Transform TransformConform TransformVisit
  QuerySame Tables TablesProofs Accountant AccountantProofs Session SessionSpec SessionMoney SessionSteps SessionTables SessionInv SessionUse SessionCharge
  SessionViews SessionWell SessionNames SessionParts MoreBudget Props_Query Props_Session Props_Views Props_Message.
Import ListNotations.
Local Open Scope string_scope.
Local Open Scope nat_scope.

(** ** Specification *)

(** A value that a column of this type can hold; other columns cannot be partitioned on. *)
Definition fits_column (d : coredesc) (v : value) : Prop :=
  match d, v with CString _, VStr _ => True | CInt _, VInt _ => True | _, _ => False end.
(** A table with privacy IDs needs a bound on the values of the column, or on the rows, per ID. *)
Definition bounded (s : sess) (src col : string) (t : vtab) : Prop :=
  forall i, id_column (v_place t) = Some i -> exists cs c, dget src (s_cons s) = Some cs /\ splitting_constraint col cs c.
(** What keeps a table from being partitioned, and the exception; [l2] says whether the
    session's measure is rho-zCDP, and then tables with a grouping column have another metric
    (always so in sessions made by the builder). *)
Inductive obstacle (l2 : bool) (s : sess) (pub : dict sframe) (src col : string) (values : list value) : exn -> Prop :=
| ObPublic : (forall t, table_named (s_tree s) src <> Ok t) -> In src (public_sources pub) -> obstacle l2 s pub src col values ValueError
| ObUnknown : (forall t, table_named (s_tree s) src <> Ok t) -> ~ In src (public_sources pub) -> obstacle l2 s pub src col values KeyError
| ObUnbounded t i : table_named (s_tree s) src = Ok t -> id_column (v_place t) = Some i ->
    (forall cs m, dget src (s_cons s) = Some cs -> ~ In (MaxGroupsPerID col m) cs /\ ~ In (MaxRowsPerID m) cs) -> obstacle l2 s pub src col values ValueError
| ObColumn t : table_named (s_tree s) src = Ok t -> bounded s src col t -> ~ In col (dkeys (v_dom t)) -> obstacle l2 s pub src col values KeyError
| ObType t d v : table_named (s_tree s) src = Ok t -> bounded s src col t -> dget col (v_dom t) = Some d -> In v values -> ~ fits_column d v ->
    obstacle l2 s pub src col values TypeError
| ObValues t d : table_named (s_tree s) src = Ok t -> bounded s src col t -> dget col (v_dom t) = Some d -> (forall v, In v values -> fits_column d v) ->
    values = [] \/ ~ NoDup values -> obstacle l2 s pub src col values ValueError
| ObGroup t d g l : table_named (s_tree s) src = Ok t -> bounded s src col t -> dget col (v_dom t) = Some d -> (forall v, In v values -> fits_column d v) ->
    v_place t = PGrouped g l -> g <> col \/ l <> l2 -> obstacle l2 s pub src col values ValueError.
(** A table that can be partitioned on a column by these values. *)
Definition partitionable (l2 : bool) (s : sess) (src col : string) (values : list value) : Prop :=
  exists t d, table_named (s_tree s) src = Ok t /\ bounded s src col t /\ dget col (v_dom t) = Some d
    /\ (forall v, In v values -> fits_column d v) /\ values <> [] /\ NoDup values
    /\ (forall g l, v_place t = PGrouped g l -> g = col /\ l = l2).

(** ** Proofs *)
Section Verdict.
Variable E : env.
Lemma fits_iff d v : valid_py_value d v = true <-> fits_column d v.
Proof. destruct d, v; cbn; split; (discriminate || tauto || auto). Qed.
Lemma no_constraint col cs : partition_constraint col cs = None <-> forall m, ~ In (MaxGroupsPerID col m) cs /\ ~ In (MaxRowsPerID m) cs.
Proof.
  unfold partition_constraint. split.
  - destruct (List.find _ cs) eqn:F; [discriminate|]. intros F2 m.
    pose proof (find_none _ _ F) as N. pose proof (find_none _ _ F2) as N2. split; intros I; [apply N in I; cbn in I; rewrite String.eqb_refl in I|apply N2 in I]; discriminate.
  - intros N. destruct (List.find _ cs) as [c|] eqn:F.
    + apply find_some in F as (I & F). destruct c; try discriminate. apply String.eqb_eq in F as ->. destruct (N max) as [X _]. contradiction.
    + match goal with |- List.find ?f cs = None => destruct (List.find f cs) as [c|] eqn:F2; [|reflexivity] end. apply find_some in F2 as (I & F2). destruct c; try discriminate. destruct (N max) as [_ X]. contradiction.
Qed.
Lemma distinct_iff values : (if list_eq_dec value_eq_dec (nodup value_eq_dec values) values then true else false) = true <-> NoDup values.
Proof.
  destruct (list_eq_dec _ _ _) as [EQ|NE]; split; intros H; try discriminate; try reflexivity.
  - rewrite <- EQ. apply NoDup_nodup.
  - destruct NE. apply nodup_fixed_point, H.
Qed.
Lemma unbounded_not s src col t i : bounded s src col t -> id_column (v_place t) = Some i ->
  (forall cs m, dget src (s_cons s) = Some cs -> ~ In (MaxGroupsPerID col m) cs /\ ~ In (MaxRowsPerID m) cs) -> False.
Proof.
  intros B I N. destruct (B i I) as (cs' & c & CS' & SC). destruct SC as (IN & SC). destruct c; cbn in SC.
  - destruct (N cs' max CS') as (_ & X). contradiction.
  - subst. destruct (N cs' max CS') as (X & _). contradiction.
  - exact SC.
Qed.
Lemma no_obstacle l2 s pub src col values e : partitionable l2 s src col values -> ~ obstacle l2 s pub src col values e.
Proof.
  intros (t & d & TN & B & D & FV & NE & ND & PO) OB. inversion OB as [N _|N _|t' i T' I N|t' T' B' N|t' d' v T' B' D' I N|t' d' T' B' D' F' N|t' d' g l T' B' D' F' P' N]; subst.
  - exact (N t TN).
  - exact (N t TN).
  - assert (t' = t) as -> by congruence. exact (unbounded_not _ _ _ _ _ B I N).
  - assert (t' = t) as -> by congruence. apply N, in_dkeys. eauto.
  - assert (t' = t) as -> by congruence. assert (d' = d) as -> by congruence. apply N, FV, I.
  - destruct N as [N|N]; contradiction.
  - assert (t' = t) as -> by congruence. destruct (PO g l P') as (-> & ->). destruct N as [N|N]; apply N; reflexivity.
Qed.
Lemma obstacle_one l2 s pub src col values e e' : obstacle l2 s pub src col values e -> obstacle l2 s pub src col values e' -> e = e'.
Proof.
  intros O1 O2.
  destruct O1 as [N I|N I|t i T IC N|t T B N|t d v T B D I N|t d T B D F N|t d g l T B D F P N];
    destruct O2 as [N' I'|N' I'|t' i' T' IC' N'|t' T' B' N'|t' d' v' T' B' D' I' N'|t' d' T' B' D' F' N'|t' d' g' l' T' B' D' F' P' N'];
    try reflexivity; exfalso; try contradiction; try exact (N _ T'); try exact (N' _ T);
    (assert (t' = t) as -> by congruence); try (exact (unbounded_not _ _ _ _ _ B' IC N)); try (exact (unbounded_not _ _ _ _ _ B IC' N'));
    try (apply N, in_dkeys; eauto; fail); try (apply N', in_dkeys; eauto; fail);
    (assert (d' = d) as -> by congruence); auto.
Qed.
Lemma verdict s pub src col splits : tables_ok s ->
  match create_partition_transformation E s pub src col splits with
  | Err e => obstacle (is_rho (s_left s)) s pub src col (map snd splits) e
  | Ok _ => partitionable (is_rho (s_left s)) s src col (map snd splits)
  end.
Proof.
  intros TK. pose proof (tk_layout s TK) as L. unfold create_partition_transformation. cbv zeta. unfold private_ref. rewrite (find_reference_named _ src L).
  pose proof (table_named_spec _ src L) as TN. destruct (dget src (named (s_tree s))) as [t|] eqn:G; cbn [option_map].
  2: { destruct (dmem src pub) eqn:M; cbn [bind].
       - apply ObPublic; [intros t; congruence|]. unfold public_sources. apply dmem_In, M.
       - apply ObUnknown; [intros t; congruence|]. unfold public_sources. intros I. apply dmem_In in I. congruence. }
  cbn [bind]. rewrite (layout_metric _ _ _ L (dget_in _ _ _ G)), (layout_get _ _ _ L (dget_in _ _ _ G)). cbn [bind leaf].
  assert (CS : exists cs, dget src (s_cons s) = Some cs).
  { apply in_dkeys. apply (tk_names s TK). apply in_dkeys. eauto. }
  destruct CS as (cs & CS). rewrite CS.
  assert (T1 : forall (r : res tbl), r = match v_place t with
      | PKeys _ => match partition_constraint col cs with None => Err ValueError
                   | Some c => enforce (w_row_order (e_world E)) (w_key_order (e_world E)) c true (is_rho (s_left s)) {| t_place := v_place t; t_rows := v_rows t |} end
      | _ => Ok {| t_place := v_place t; t_rows := v_rows t |} end ->
    (r = Err ValueError /\ (exists i, id_column (v_place t) = Some i) /\ partition_constraint col cs = None)
    \/ exists t1, r = Ok t1 /\ bounded s src col t /\
         (partition_place (is_rho (s_left s)) col (t_place t1) = Err ValueError -> exists g l, v_place t = PGrouped g l /\ (g <> col \/ l <> is_rho (s_left s)))
         /\ (forall pl, partition_place (is_rho (s_left s)) col (t_place t1) = Ok pl -> forall g l, v_place t = PGrouped g l -> g = col /\ l = is_rho (s_left s))).
  { intros r ->. assert (PT : placed t).
    { apply dget_in in G. destruct L as [kids N T _]. apply (in_named kids src t T) in G as [G|(c & l & G & J)]; [apply T in G; apply G|]. apply T in G as (_ & LE). apply LE in J. apply J. }
    unfold placed in PT. destruct (v_place t) as [i| |g b i|g b] eqn:VP.
    - destruct (partition_constraint col cs) as [c|] eqn:PC; [|left; split; [reflexivity|split; [exists i; reflexivity|reflexivity]]]. right.
      pose proof (splitting col cs c PC) as SC. assert (B : bounded s src col t) by (intros j _; exists cs, c; auto).
      destruct SC as (_ & SC). destruct c; cbn [enforce t_place]; [| |destruct SC]; (eexists; split; [reflexivity|]; split; [exact B|]; cbn [t_place partition_place]; split; [|intros; discriminate]).
      + discriminate.
      + subst. rewrite String.eqb_refl, eqb_reflx. discriminate.
    - right. eexists. split; [reflexivity|]. split; [intros j; rewrite VP; discriminate|]. cbn [t_place partition_place]. split; intros; discriminate.
    - destruct PT.
    - right. eexists. split; [reflexivity|]. split; [intros j; rewrite VP; discriminate|]. cbn [t_place partition_place].
      destruct (String.eqb_spec g col) as [->|NG]; cbn [andb]; [destruct (Bool.eqb b (is_rho (s_left s))) eqn:BE|].
      + apply eqb_prop in BE as ->. split; [discriminate|]. intros _ _ g0 l0 [= <- <-]. auto.
      + split; [|discriminate]. intros _. exists col, b. split; [reflexivity|]. right. intros ->. rewrite eqb_reflx in BE. discriminate.
      + split; [|discriminate]. intros _. exists g, b. split; [reflexivity|]. left. exact NG. }
  match goal with |- match bind ?r _ with _ => _ end => destruct (T1 r) as [(-> & (i & ID) & PC)|(t1 & -> & B & PE & PO)] end.
  { destruct (v_place t); reflexivity. }
  { cbn [bind]. eapply ObUnbounded; [exact TN|exact ID|]. intros cs' m EQ. assert (cs' = cs) as -> by congruence. apply no_constraint, PC. }
  clear T1. cbn [bind]. destruct (dget col (v_dom t)) as [d|] eqn:D; cbn [bind].
  2: { eapply ObColumn; [exact TN|exact B|]. intros I. apply in_dkeys in I as (v & I). congruence. }
  destruct (existsb (fun v => negb (valid_py_value d v)) (map snd splits)) eqn:EV; cbn [raise_if bind].
  { apply existsb_exists in EV as (v & I & NV). eapply ObType; [exact TN|exact B|exact D|exact I|]. intros F. apply fits_iff in F. rewrite F in NV. discriminate. }
  assert (FV : forall v, In v (map snd splits) -> fits_column d v).
  { intros v I. apply fits_iff. destruct (valid_py_value d v) eqn:V; [reflexivity|]. exfalso. assert (X : existsb (fun v => negb (valid_py_value d v)) (map snd splits) = true) by (apply existsb_exists; exists v; rewrite V; auto). congruence. }
  unfold partition_by_keys. destruct (length (map snd splits) =? 0) eqn:LE; cbn [raise_if bind].
  { eapply ObValues; [exact TN|exact B|exact D|exact FV|]. left. apply Nat.eqb_eq, length_zero_iff_nil in LE. exact LE. }
  destruct (if list_eq_dec value_eq_dec (nodup value_eq_dec (map snd splits)) (map snd splits) then true else false) eqn:ND; cbn [negb raise_if bind].
  2: { eapply ObValues; [exact TN|exact B|exact D|exact FV|]. right. intros N. apply distinct_iff in N. congruence. }
  apply distinct_iff in ND. destruct (partition_place _ _ _) as [pl|e] eqn:PP; cbn [bind].
  - exists t, d. repeat (split; [assumption || (intros Z; rewrite Z in LE; discriminate LE)|]). exact (PO pl eq_refl).
  - assert (e = ValueError) as ->. { unfold partition_place in PP. destruct (t_place t1); try (injection PP as <-; reflexivity); try discriminate; destruct (_ && _); try discriminate; injection PP as <-; reflexivity. }
    destruct (PE eq_refl) as (g & l & VP & N). eapply ObGroup; eauto.
Qed.

(** Budgets of the session's kind are processed without an exception. *)
Lemma exact_pure x : xle (XFin 0) x -> mk_pure (e_round E) (AExact x) = Ok (Pure x).
Proof. intros H. unfold mk_pure. cbn [arg_isnan bind raise_if arg_lt_int]. change (z2q 0) with (0%Q). replace (xltb x (XFin 0)) with false by (symmetry; apply xltb_false, H). reflexivity. Qed.
Lemma exact_zcdp x : xle (XFin 0) x -> mk_zcdp (e_round E) (AExact x) = Ok (Zcdp x).
Proof. intros H. unfold mk_zcdp. cbn [arg_isnan bind raise_if arg_lt_int]. change (z2q 0) with (0%Q). replace (xltb x (XFin 0)) with false by (symmetry; apply xltb_false, H). reflexivity. Qed.
Lemma exact_approx x d : xle (XFin 0) x -> xle (XFin 0) d -> xle d (XFin 1) -> mk_approx (e_round E) (AExact x) (AExact d) = Ok (Approx x d).
Proof.
  intros H H0 H1. unfold mk_approx. cbn [arg_isnan bind raise_if arg_lt_int arg_gt_int]. change (z2q 0) with (0%Q). change (z2q 1) with (1%Q).
  replace (xltb x (XFin 0)) with false by (symmetry; apply xltb_false, H). replace (xltb d (XFin 0)) with false by (symmetry; apply xltb_false, H0).
  replace (xltb (XFin 1) d) with false by (symmetry; apply xltb_false, H1). reflexivity.
Qed.
Lemma adjusted_between P x r : P x -> P r -> P (adjusted_number x r). Proof. unfold adjusted_number. destruct (slightly_higher x r); auto. Qed.
Lemma process_total left b : valid left -> valid b -> same_kind left b -> exists adj, process_budget E left b = Ok adj.
Proof.
  intros VL VB K. destruct left as [l|l ld|l], b as [y|y d|y]; try destruct K; cbn [process_budget].
  - rewrite (rem_pure E l VL). cbn [bind adjusted_budget]. eexists. apply exact_pure, adjusted_between; [exact VB|apply as_float_nonneg, VL].
  - destruct (is_infinite (Approx y d)).
    + unfold mk_approx. cbn [arg_isnan]. unfold isnan. cbn [Budget.to_float bind raise_if]. unfold int_to_float. change (z2q 1) with (1%Q).
      pose proof (rnd_one (e_round E)) as O. destruct (rnd (e_round E) 1); cbn in O; try tauto. eexists. reflexivity.
    + destruct VL as (L1 & L2 & L3), VB as (B1 & B2 & B3). rewrite (exact_approx y d B1 B2 B3). cbn [bind]. rewrite (rem_approx E l ld L1 L2 L3). cbn [bind adjusted_budget].
      eexists. apply exact_approx; apply (adjusted_between (fun z => xle (XFin 0) z)) || apply (adjusted_between (fun z => xle z (XFin 1))); try assumption;
        try (apply as_float_nonneg; assumption). eapply xle_trans; [apply as_float_le; assumption|assumption].
  - rewrite (rem_zcdp E l VL). cbn [bind adjusted_budget]. eexists. apply exact_zcdp, adjusted_between; [exact VB|apply as_float_nonneg, VL].
Qed.
Lemma lift_total left b : valid b -> lift_pure E left b = Ok (request left b).
Proof.
  intros V. destruct b as [e|e d|r]; cbn [lift_pure request]; [|destruct left; reflexivity|destruct left; reflexivity].
  destruct left; cbn [is_approx]; try reflexivity. unfold mk_approx. cbn [arg_isnan]. unfold isnan. cbn [Budget.to_float bind raise_if]. unfold int_to_float. change (z2q 0) with (0%Q).
  destruct (rnd0_fin (e_round E)) as (q & ->). cbn [bind raise_if arg_lt_int]. change (z2q 0) with (0%Q).
  replace (xltb e (XFin 0)) with false by (symmetry; apply xltb_false, V). reflexivity.
Qed.
Lemma request_valid left b : valid b -> valid (request left b).
Proof. destruct left, b; cbn; try tauto. intros H. split; [exact H|]. cbn. split; lra. Qed.
End Verdict.

(** ** Theorems *)

(** A partition that cannot be made raises the exception of what is in its way, and leaves
    the state alone. *)
Theorem C45_partition_refused : forall E b x st p s src want col splits e, reachable E b x st -> session st p s ->
  valid want -> same_kind (s_left s) (request (s_left s) want) -> (forall n, In n (dkeys splits) -> e_identifier E n = true) ->
  obstacle (is_rho (s_left s)) s (st_public st) src col (map snd splits) e ->
  partition_and_create E st p src want col splits = (st, Err e).
Proof.
  intros E b x st p s src want col splits e RE S V K ID OB.
  pose proof (reachable_books _ _ _ _ _ _ RE S) as BK. assert (VL : valid (s_left s)) by apply BK.
  destruct (process_total E (s_left s) _ VL (request_valid _ _ V) K) as (adj & PB).
  assert (VT : validate_type (s_left s) (request (s_left s) want) = Ok tt) by (destruct (s_left s), want; cbn in K |- *; try contradiction; reflexivity).
  assert (I : existsb (fun n => negb (e_identifier E n)) (dkeys splits) = false).
  { destruct (existsb _ _) eqn:X; [|reflexivity]. apply existsb_exists in X as (n & X1 & X2). rewrite (ID n X1) in X2. discriminate. }
  assert (TK : tables_ok s) by (eapply reachable_tables; eassumption).
  pose proof (verdict E s (st_public st) src col splits TK) as VD.
  destruct S as (c & F & D). unfold partition_and_create, attempt, session_at. rewrite F, D, (lift_total E _ _ V), VT, I. cbn [raise_if]. rewrite PB.
  destruct (create_partition_transformation _ _ _ _ _ _) as [y|e'].
  - exfalso. eapply no_obstacle; [exact VD|exact OB].
  - rewrite (obstacle_one _ _ _ _ _ _ _ _ VD OB). reflexivity.
Qed.
Print Assumptions C45_partition_refused.

(** One that can be made, in a session that has not ended and with a budget that what is left
    allows, is made. *)
Theorem C45_partition_accepted : forall E b x st p s a src want col splits, reachable E b x st -> session st p s -> state_at (st_root st) p a -> a <> RETIRED ->
  valid want -> same_kind (s_left s) (request (s_left s) want) -> allowed (s_left s) (request (s_left s) want) ->
  (forall n, In n (dkeys splits) -> e_identifier E n = true) ->
  partitionable (is_rho (s_left s)) s src col (map snd splits) ->
  exists st' l, partition_and_create E st p src want col splits = (st', Ok l).
Proof.
  intros E b x st p s a src want col splits RE S SA N V K AL ID PA.
  pose proof (reachable_books _ _ _ _ _ _ RE S) as BK. assert (VL : valid (s_left s)) by apply BK.
  destruct (process_total E (s_left s) _ VL (request_valid _ _ V) K) as (adj & PB).
  assert (VT : validate_type (s_left s) (request (s_left s) want) = Ok tt) by (destruct (s_left s), want; cbn in K |- *; try contradiction; reflexivity).
  assert (I : existsb (fun n => negb (e_identifier E n)) (dkeys splits) = false).
  { destruct (existsb _ _) eqn:X; [|reflexivity]. apply existsb_exists in X as (n & X1 & X2). rewrite (ID n X1) in X2. discriminate. }
  assert (TK : tables_ok s) by (eapply reachable_tables; eassumption).
  destruct (process_valid _ _ _ _ PB) as (VA & K1). pose proof (same_kind_trans _ _ _ K K1) as K2.
  destruct (allowed_spends _ _ _ VL VA K2 K (process_charge _ _ _ _ VL K PB) AL) as (rest & SP).
  pose proof (verdict E s (st_public st) src col splits TK) as VD. destruct (activates _ _ _ _ S SA N) as (S1 & t & A).
  pose proof PA as (t0 & _ & TN & _). pose proof (tk_layout s TK) as L. pose proof (table_named_spec _ src L) as TS.
  destruct (dget src (named (s_tree s))) as [t1|] eqn:G; [|congruence].
  unfold partition_and_create, attempt, activated. rewrite S1, (lift_total E _ _ V), VT, I. cbn [raise_if]. rewrite PB.
  destruct (create_partition_transformation _ _ _ _ _ _) as [y|e'].
  - rewrite A, SP, (get_id_space_spec _ _ _ _ L G). eauto.
  - exfalso. eapply no_obstacle; eassumption.
Qed.
Print Assumptions C45_partition_accepted.

(** Nothing else can. *)
Theorem C45_only_partitionable : forall E b x st p s src want col splits st' l, reachable E b x st -> session st p s ->
  partition_and_create E st p src want col splits = (st', Ok l) -> partitionable (is_rho (s_left s)) s src col (map snd splits).
Proof.
  intros E b x st p s src want col splits st' l RE S P. assert (TK : tables_ok s) by (eapply reachable_tables; eassumption).
  pose proof (verdict E s (st_public st) src col splits TK) as VD. destruct S as (c & F & D). unfold partition_and_create, attempt, session_at in P. rewrite F, D in P.
  destruct (lift_pure _ _ _); [|discriminate]. destruct (validate_type _ _); [|discriminate]. destruct (raise_if _ _); [|discriminate].
  destruct (process_budget _ _ _); [|discriminate]. destruct (create_partition_transformation _ _ _ _ _ _); [exact VD|discriminate].
Qed.
Print Assumptions C45_only_partitionable.

(** Non-vacuity: a table that can be partitioned, and what is raised for others. *)
Definition tries (src col : string) (splits : dict value) : res (list (string * path)) :=
  snd (partition_and_create E0 (st0 (Pure (XFin 3))) [] src (Pure (XFin 1)) col splits).
Example C45_verdict_case :
  (exists s, session (st0 (Pure (XFin 3))) [] s /\ partitionable false s "cities" "city" [VStr "x"; VStr "y"]
     /\ obstacle false s (st_public (st0 (Pure (XFin 3)))) "people" "grp" [VStr "x"] ValueError
     /\ obstacle false s (st_public (st0 (Pure (XFin 3)))) "nowhere" "grp" [VStr "x"] KeyError
     /\ obstacle false s (st_public (st0 (Pure (XFin 3)))) "cities" "country" [VStr "x"] KeyError
     /\ obstacle false s (st_public (st0 (Pure (XFin 3)))) "cities" "city" [VStr "x"; VInt 1] TypeError
     /\ obstacle false s (st_public (st0 (Pure (XFin 3)))) "cities" "city" [VStr "x"; VStr "x"] ValueError)
  /\ is_ok (tries "cities" "city" [("a", VStr "x"); ("b", VStr "y")]) = true
  /\ tries "people" "grp" [("a", VStr "x")] = Err ValueError
  /\ tries "nowhere" "grp" [("a", VStr "x")] = Err KeyError
  /\ tries "cities" "country" [("a", VStr "x")] = Err KeyError
  /\ tries "cities" "city" [("a", VStr "x"); ("b", VInt 1)] = Err TypeError
  /\ tries "cities" "city" [("a", VStr "x"); ("b", VStr "x")] = Err ValueError
  /\ tries "cities" "city" [] = Err ValueError.
Proof.
  split; [|vm_compute; auto 10]. eexists. split; [eexists; split; reflexivity|].
  assert (ND : NoDup [VStr "x"; VStr "y"]) by (repeat constructor; cbn; intuition discriminate).
  split; [|split; [|split; [|split; [|split]]]].
  - eexists _, _. split; [reflexivity|]. split; [intros i X; discriminate X|]. split; [reflexivity|]. split; [intros v [<-|[<-|[]]]; exact I|].
    split; [discriminate|]. split; [exact ND|]. intros g l X. discriminate X.
  - eapply ObUnbounded; [reflexivity|reflexivity|]. intros cs m X. vm_compute in X. injection X as <-. split; intros [].
  - apply ObUnknown; [intros t X; vm_compute in X; discriminate X|]. vm_compute. intuition discriminate.
  - eapply ObColumn; [reflexivity|intros i X; discriminate X|]. vm_compute. intuition discriminate.
  - eapply (ObType _ _ _ _ _ _ _ _ (VInt 1)); [reflexivity|intros i X; discriminate X|reflexivity|right; left; reflexivity|]. intros [].
  - eapply ObValues; [reflexivity|intros i X; discriminate X|reflexivity|intros v [<-|[<-|[]]]; exact I|]. right. intros X. inversion X as [|? ? N _]. apply N. left. reflexivity.
Qed.
