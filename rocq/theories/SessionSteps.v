(** What each operation does to the state of a session tree. *)
From Coq Require Import String Bool Arith ZArith QArith Lia Permutation List.
From Verif Require Import Prelude Budget BudgetProofs Value Rows Constraints Schema Query Transform Tables TablesProofs
  Accountant AccountantProofs Session SessionSpec SessionMoney.
Import ListNotations.
Local Open Scope string_scope.
Local Open Scope nat_scope.

Section Steps.
Variable E : env.
Notation W := (e_world E).

(** Only states of accountants changed, and only towards RETIRED or by passing on activity. *)
Definition quiet (st st' : state) : Prop :=
  payload (st_root st') = payload (st_root st) /\ st_public st' = st_public st
  /\ ok (st_root st') /\ keeps (st_root st) (st_root st').
Lemma quiet_refl st : ok (st_root st) -> quiet st st.
Proof. intros H. split; [reflexivity|]. split; [reflexivity|]. split; [exact H|apply keeps_refl]. Qed.
Definition ready (st st' : state) (p : path) : Prop :=
  quiet st st' /\ live (st_root st') /\ state_at (st_root st') p ACTIVE /\ activate p (st_root st) = (st_root st', Ok tt).

Lemma set_root_id st : set_root st (st_root st) = st. Proof. destruct st; reflexivity. Qed.
Lemma attempt_inv {A B} st (r : res A) (k : A -> state * res B) st' x : attempt st r k = (st', x) ->
  (exists e, r = Err e /\ st' = st /\ x = Err e) \/ (exists a, r = Ok a /\ k a = (st', x)).
Proof. unfold attempt, fails. destruct r as [a|e]; intros H; [right; eauto|left; inversion H; eauto]. Qed.
Lemma activate_err p (t t' : acct sess) e : activate p t = (t', Err e) -> t' = t.
Proof. unfold activate. destruct (option_map a_state (find p t)) as [[| | |]|]; intros H; inversion H; reflexivity. Qed.
Lemma activate_ok p (t t' : acct sess) : ok t -> activate p t = (t', Ok tt) ->
  live t' /\ state_at t' p ACTIVE /\ payload t' = payload t /\ keeps t t'.
Proof.
  unfold activate. intros O H. destruct (find p t) as [c|] eqn:F; cbn in H; [|discriminate].
  destruct (a_state c) eqn:A; inversion H; subst t'.
  - split; [destruct (ok_usable_live t p c O F ltac:(congruence)) as (L & _); exact L|]. split; [exists c; auto|]. split; [reflexivity|apply keeps_refl].
  - destruct (force_keeps p t c O F ltac:(congruence)) as (L & S & K). split; [exact L|]. split; [exact S|]. split; [apply payload_force|exact K].
  - destruct (force_keeps p t c O F ltac:(congruence)) as (L & S & K). split; [exact L|]. split; [exact S|]. split; [apply payload_force|exact K].
Qed.
Lemma activated_inv {A} p st (k : state -> state * res A) st' x : ok (st_root st) -> activated p st k = (st', x) ->
  (exists e, st' = st /\ x = Err e /\ activate p (st_root st) = (st_root st, Err e)) \/ (exists st1, ready st st1 p /\ k st1 = (st', x)).
Proof.
  intros O H. unfold activated in H. destruct (activate p (st_root st)) as (t, [[]|e]) eqn:AC.
  - right. exists (set_root st t). split; [|exact H]. destruct (activate_ok p _ _ O AC) as (L & S & P & K).
    split; [split; [exact P|split; [reflexivity|split; [left; exact L|exact K]]]|]. split; [exact L|]. split; [exact S|exact AC].
  - left. apply activate_err in AC as ->. exists e. rewrite set_root_id in H. inversion H; auto.
Qed.

(** ** Effects *)

Inductive effect (st : state) : op -> state -> res unit -> Prop :=
| EFails o st' e : quiet st st' -> effect st o st' (Err e)
| EStops p st' r : quiet st st' -> (st_root st', r) = retire (e_retires_waiting E) p (st_root st) -> effect st (Stop p) st' r
| EMeasures p q b s adj rest st1 o : o = Evaluate p q b \/ o = SpendOnly p q b ->
    session_at st p = Ok s -> compile_and_get_info E s (st_public st) q b = Ok adj -> spend (s_left s) adj = Some rest ->
    (o = Evaluate p q b -> e_relation E (s_tree s) q adj = true) -> ready st st1 p ->
    effect st o (set_root st1 (change p (set_data (charged s rest (Measured adj))) (st_root st1))) (Ok tt)
| EPublic p name f f' s names : session_at st p = Ok s -> e_identifier E name = true -> private_sources (s_tree s) = Ok names ->
    dmem name (st_public st) = false -> smem name names = false -> coerce_spark_schema_or_fail f = Ok f' ->
    effect st (AddPublic p name f) {| st_root := st_root st; st_public := (st_public st ++ [(name, f')])%list |} (Ok tt)
| EViews p q name (cache : bool) s names cat data y x1 z z' x4 st1 : session_at st p = Ok s -> e_identifier E name = true ->
    private_sources (s_tree s) = Ok names -> smem name names = false -> dmem name (st_public st) = false ->
    catalog_of (s_tree s) (st_public st) (s_cons s) = Ok cat -> data_of (s_tree s) = Ok data ->
    build_transformation W (is_rho (s_left s)) cat data q = Ok y ->
    add_temps (e_temps E (s_tree s) q) (s_tree s) = Ok x1 -> add_result (fst y) x1 = Ok z ->
    (if cache then let* x3 := rename_table (fst z) (snd z) (fresh (fst z)) in
                   let* par := ref_parent (snd z) in Ok (x3, (par ++ [fresh (fst z)])%list) else Ok z) = Ok z' ->
    rename_table (fst z') (snd z') (NamedTable name) = Ok x4 -> ready st st1 p ->
    effect st (CreateView p q name cache) (set_root st1 (change p (set_data (with_tables s x4 (dset name (snd y) (s_cons s)))) (st_root st1))) (Ok tt)
| EDeletes p name s r cols x1 x2 st1 : session_at st p = Ok s -> find_reference name (domain_of (s_tree s)) = Some r ->
    lookup_domain (domain_of (s_tree s)) r = Ok (DFrame cols) -> rename_table (s_tree s) r (fresh (s_tree s)) = Ok x1 ->
    delete_table (e_empty_ok E) (e_shuffle E) x1 r = Ok x2 -> ready st st1 p ->
    effect st (DeleteView p name) (set_root st1 (change p (set_data (with_tables s x2 (ddel name (s_cons s)))) (st_root st1))) (Ok tt)
| ESplits p source b column splits s b1 adj y rest space r st1 : session_at st p = Ok s -> lift_pure E (s_left s) b = Ok b1 ->
    validate_type (s_left s) b1 = Ok tt -> existsb (fun n => negb (e_identifier E n)) (dkeys splits) = false ->
    process_budget E (s_left s) b1 = Ok adj -> create_partition_transformation E s (st_public st) source column splits = Ok y ->
    spend (s_left s) adj = Some rest -> ready st st1 p ->
    ((get_id_space (s_tree s) (st_public st) source = Ok space /\ r = Ok tt)
     \/ (space = None /\ exists e, get_id_space (s_tree s) (st_public st) source = Err e /\ r = Err e)) ->
    effect st (Partition p source b column splits)
      (set_root st1 (change p (split_at (charged s rest (Split adj))
        (map (fun x => part_session adj space (fst y) (fst x) (snd x)) (combine (dkeys splits) (snd y)))) (st_root st1))) r.

Ltac quiet_end := solve [apply EFails; first [apply quiet_refl; assumption|assumption]].
Ltac att H v := apply attempt_inv in H as [(?e & ? & -> & ->)|(v & ? & H)]; [quiet_end|].
Ltac act H v := apply activated_inv in H as [(?e & -> & -> & _)|(v & ? & H)]; [quiet_end| |assumption].

Lemma raise_if_ok b e u : raise_if b e = Ok u -> b = false. Proof. destruct b; [discriminate|reflexivity]. Qed.
Lemma step_effect st o st' r : ok (st_root st) -> step E st o = (st', r) -> effect st o st' r.
Proof.
  intros O H. destruct o as [p q b|p q b|p n f|p q n c|p n|p src b col sp|p]; cbn [step] in H.
  - unfold evaluate in H. att H s. att H adj. act H st1. assert (Q : quiet st st1) by apply H2.
    destruct (e_relation E (s_tree s) q adj) eqn:R; cbn in H; [|inversion H; subst; quiet_end].
    destruct (spend (s_left s) adj) as [rest|] eqn:SP; [|inversion H; subst; quiet_end].
    inversion H; subst. eapply EMeasures; eauto.
  - unfold spend_without_executing in H. att H s. att H adj. act H st1. assert (Q : quiet st st1) by apply H2.
    destruct (spend (s_left s) adj) as [rest|] eqn:SP; [|inversion H; subst; quiet_end].
    inversion H; subst. eapply EMeasures; eauto. discriminate.
  - unfold add_public_dataframe in H. att H s. att H u. att H names. att H u'. att H f'. inversion H; subst.
    apply raise_if_ok in H1, H3. apply negb_false_iff in H1. apply orb_false_iff in H3 as (H3 & H3'). eapply EPublic; eauto.
  - unfold create_view in H. att H s. att H u. act H st1. assert (Q : quiet st st1) by apply H2.
    assert (PB : st_public st1 = st_public st) by apply Q. rewrite PB in *.
    att H names. att H u'. att H cat. att H data. att H y. att H x1. att H z. att H z'. att H x4. inversion H; subst.
    apply raise_if_ok in H1, H4. apply negb_false_iff in H1. apply orb_false_iff in H4 as (H4 & H4'). eapply EViews; eauto.
  - unfold delete_view in H. att H s. act H st1. assert (Q : quiet st st1) by apply H1.
    destruct (find_reference n (domain_of (s_tree s))) as [r0|] eqn:F; [|inversion H; subst; quiet_end].
    att H d. att H u. att H x1. att H x2. inversion H; subst. apply raise_if_ok in H3. destruct d as [cols|]; [|discriminate]. eapply EDeletes; eauto.
  - destruct (partition_and_create E st p src b col sp) as (st2, r2) eqn:P. inversion H; subst st2 r. clear H. unfold partition_and_create in P.
    assert (X : forall e, quiet st st' -> r2 = Err e -> effect st (Partition p src b col sp) st' (let* _ := r2 in Ok tt)) by (intros e Q ->; quiet_end).
    apply attempt_inv in P as [(e & _ & -> & ->)|(s & S1 & P)]; [quiet_end|].
    apply attempt_inv in P as [(e & _ & -> & ->)|(b1 & S2 & P)]; [quiet_end|].
    apply attempt_inv in P as [(e & _ & -> & ->)|([] & S3 & P)]; [quiet_end|].
    apply attempt_inv in P as [(e & _ & -> & ->)|([] & S4 & P)]; [quiet_end|].
    apply attempt_inv in P as [(e & _ & -> & ->)|(adj & S5 & P)]; [quiet_end|].
    apply attempt_inv in P as [(e & _ & -> & ->)|(y & S6 & P)]; [quiet_end|].
    apply activated_inv in P as [(e & -> & -> & _)|(st1 & RD & P)]; [quiet_end| |assumption].
    assert (Q : quiet st st1) by apply RD. assert (PB : st_public st1 = st_public st) by apply Q. rewrite PB in *.
    destruct (spend (s_left s) adj) as [rest|] eqn:SP; [|inversion P; subst; quiet_end]. apply raise_if_ok in S4.
    destruct (get_id_space (s_tree s) (st_public st) src) as [space|e] eqn:G; inversion P; subst; clear P.
    + eapply ESplits; eauto.
    + eapply (ESplits st p src b col sp s b1 adj y rest None (Err e)); eauto.
  - unfold stop in H. destruct (retire (e_retires_waiting E) p (st_root st)) as (t, r') eqn:R. inversion H; subst.
    apply EStops; [|cbn; auto]. destruct (retire_keeps (e_retires_waiting E) p _ O) as (O' & K). pose proof (retire_payload (e_retires_waiting E) p (st_root st)) as P.
    rewrite R in *. cbn in *. split; [exact P|]. split; [reflexivity|]. split; assumption.
Qed.

(** ** The tree stays well-formed *)

Lemma ready_session st st1 p s : session_at st p = Ok s -> ready st st1 p -> exists c, find p (st_root st1) = Some c /\ a_data c = s /\ a_state c = ACTIVE.
Proof.
  intros H ((P & _ & _ & K) & _ & (c & F & A) & _). exists c. split; [exact F|]. split; [|exact A].
  unfold session_at in H. destruct (find p (st_root st)) as [c0|] eqn:F0; [|discriminate]. injection H as <-.
  destruct (K p) as (D & _). rewrite F, F0 in D. injection D. auto.
Qed.
Lemma parts_nonempty E' s pub src col sp y : create_partition_transformation E' s pub src col sp = Ok y -> combine (dkeys sp) (snd y) <> [] /\ length (snd y) = length sp.
Proof.
  unfold create_partition_transformation. intros H.
  repeat match type of H with bind _ _ = Ok _ => apply bind_ok in H as (? & ? & H) end.
  injection H as <-. cbn [snd].
  match goal with P : partition_by_keys _ _ _ _ = Ok _ |- _ => rename P into PB end.
  unfold partition_by_keys in PB. apply bind_ok in PB as (? & L & PB). apply bind_ok in PB as (? & _ & PB). apply bind_ok in PB as (pl & _ & PB).
  injection PB as <-. apply raise_if_ok in L. apply Nat.eqb_neq in L. rewrite !map_length in *. split; [|reflexivity].
  destruct sp as [|(k, v) sp]; [now destruct L|]. discriminate.
Qed.
Lemma effect_ok st o st' r : ok (st_root st) -> effect st o st' r -> ok (st_root st').
Proof.
  intros O H. destruct H as [o st' e Q|p st' r Q _|p q b s adj rest st1 o K S C SP R RD|p n f f' s names S I PS D M CS
    |p q n c s names cat data y x1 z z' x4 st1 S I PS M D CA DA B AT AR RN RN2 RD|p n s r cols x1 x2 st1 S F L RN DT RD
    |p src b col sp s b1 adj y rest space r st1 S LP V I PB CP SP RD G].
  - apply Q.
  - apply Q.
  - left. cbn. apply change_live; [apply RD|apply RD|]. intros c L A. apply set_data_live; assumption.
  - exact O.
  - left. cbn. apply change_live; [apply RD|apply RD|]. intros c0 L A. apply set_data_live; assumption.
  - left. cbn. apply change_live; [apply RD|apply RD|]. intros c0 L0 A. apply set_data_live; assumption.
  - left. cbn. apply change_live; [apply RD|apply RD|]. intros c0 L A. apply split_live; [|assumption|assumption].
    intros N. apply map_eq_nil in N. destruct (parts_nonempty _ _ _ _ _ _ _ CP) as (X & _). exact (X N).
Qed.
Lemma step_ok st o : ok (st_root st) -> ok (st_root (fst (step E st o))).
Proof. intros O. destruct (step E st o) as (st', r) eqn:H. eapply effect_ok; [exact O|]. apply step_effect; [exact O|exact H]. Qed.
Lemma run_ok l : forall st, ok (st_root st) -> ok (st_root (run E st l)).
Proof. induction l as [|o l IH]; intros st O; [exact O|]. cbn. apply IH, step_ok, O. Qed.
Lemma new_ok b x st : new_session b x = Ok st -> ok (st_root st).
Proof. unfold new_session. intros H. apply bind_ok in H as (? & _ & H). injection H as <-. left. cbn. constructor. intros ? ? []. Qed.

(** ** Budgets stay balanced *)

Lemma splits_app l l' : splits_of (l ++ l') = (splits_of l ++ splits_of l')%list.
Proof. apply flat_map_app. Qed.
Lemma balanced_set d s' : balanced d -> books s' -> s_initial s' = s_initial (d_data d) -> splits_of (s_log s') = splits_of (s_log (d_data d)) ->
  balanced (d_set s' d) /\ s_initial (d_data (d_set s' d)) = s_initial (d_data d).
Proof.
  intros B K I S. split; [|exact I]. destruct B as [s parts BK F]. cbn in *. constructor; [exact K|]. rewrite S. exact F.
Qed.
Lemma effect_balanced st o st' r : effect st o st' r -> balanced (payload (st_root st)) ->
  balanced (payload (st_root st')) /\ s_initial (d_data (payload (st_root st'))) = s_initial (d_data (payload (st_root st))).
Proof.
  intros H B. destruct H as [o st' e Q|p st' r Q _|p q b s adj rest st1 o K S C SP R RD|p n f f' s names S I PS D M CS
    |p q n c s names cat data y x1 z z' x4 st1 S I PS M D CA DA BT AT AR RN RN2 RD|p n s r cols x1 x2 st1 S F L RN DT RD
    |p src b col sp s b1 adj y rest space r st1 S LP V I PB CP SP RD G]; cbn [st_root set_root];
    try (rewrite (proj1 Q); auto); auto;
    assert (PY : payload (st_root st1) = payload (st_root st)) by apply RD;
    destruct (ready_session st st1 p s S RD) as (c0 & F0 & D0 & A0); rewrite <- PY in B |- *.
  - rewrite (payload_change _ (d_set (charged s rest (Measured adj))) (payload_set_data _)).
    apply (balanced_change _ p _ (payload c0)); [exact B|rewrite dfind_payload, F0; reflexivity|]. intros BC. destruct c0 as [a0 s0 parts0]. cbn in D0. subst s0.
    pose proof (balanced_books _ BC) as BK. destruct (compile_adj E _ _ _ _ _ C) as (VA & KA).
    apply balanced_set; [exact BC|apply books_charged; assumption|reflexivity|]. cbn. rewrite splits_app, app_nil_r. reflexivity.
  - rewrite (payload_change _ (d_set (with_tables s x4 (dset n (snd y) (s_cons s)))) (payload_set_data _)).
    apply (balanced_change _ p _ (payload c0)); [exact B|rewrite dfind_payload, F0; reflexivity|]. intros BC. destruct c0 as [a0 s0 parts0]. cbn in D0. subst s0.
    pose proof (balanced_books _ BC) as BK. apply balanced_set; [exact BC|apply books_tables; exact BK|reflexivity|reflexivity].
  - rewrite (payload_change _ (d_set (with_tables s x2 (ddel n (s_cons s)))) (payload_set_data _)).
    apply (balanced_change _ p _ (payload c0)); [exact B|rewrite dfind_payload, F0; reflexivity|]. intros BC. destruct c0 as [a0 s0 parts0]. cbn in D0. subst s0.
    pose proof (balanced_books _ BC) as BK. apply balanced_set; [exact BC|apply books_tables; exact BK|reflexivity|reflexivity].
  - set (kids := map (fun x => part_session adj space (fst y) (fst x) (snd x)) (combine (dkeys sp) (snd y))).
    rewrite (payload_change _ (d_split (charged s rest (Split adj)) kids) (payload_split _ _)).
    apply (balanced_change _ p _ (payload c0)); [exact B|rewrite dfind_payload, F0; reflexivity|]. intros BC. destruct c0 as [a0 s0 parts0]. cbn in D0. subst s0.
    pose proof (balanced_books _ BC) as BK. split; [|reflexivity]. inversion BC as [? ? _ FF]; subst. cbn.
    apply process_valid in PB as (VA & KA). apply validate_kind in V.
    constructor; [apply books_charged; [exact BK|exact VA|eapply same_kind_trans; eassumption|exact SP]|].
    cbn. rewrite splits_app. apply Forall2_app; [exact FF|]. constructor; [|constructor]. intros d J. apply in_map_iff in J as (k & <- & J).
    unfold kids in J. apply in_map_iff in J as ((n, t) & <- & J). cbn. split; [|reflexivity]. constructor; [|constructor]. apply books_new. exact VA.
Qed.
Lemma run_balanced l : forall st, ok (st_root st) -> balanced (payload (st_root st)) ->
  balanced (payload (st_root (run E st l))) /\ s_initial (d_data (payload (st_root (run E st l)))) = s_initial (d_data (payload (st_root st))).
Proof.
  induction l as [|o l IH]; intros st O B; [auto|]. cbn. destruct (step E st o) as (st', r) eqn:H. apply step_effect in H; [|exact O]. cbn.
  destruct (effect_balanced _ _ _ _ H B) as (B' & I'). destruct (IH st' (effect_ok _ _ _ _ O H) B') as (B2 & I2). split; [exact B2|congruence].
Qed.
Lemma new_balanced b x st : valid b -> new_session b x = Ok st -> balanced (payload (st_root st)).
Proof. unfold new_session. intros V H. apply bind_ok in H as (? & _ & H). injection H as <-. cbn. constructor; [apply books_new, V|constructor]. Qed.
End Steps.
