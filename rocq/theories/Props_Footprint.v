(** Property C69: an answer depends only on the tables that the query names. *)
From Coq Require Import String Bool Arith ZArith QArith Qcanon Lia Permutation List.
From Verif Require Import Prelude Budget BudgetScale Value Rows Constraints Schema SchemaProofs Query QuerySame Rewrite Transform TransformSpec TransformConform QueryProofs Tables TablesProofs
  Accountant AccountantProofs Session SessionSpec SessionMoney SessionSteps SessionTables SessionInv SessionUse SessionViews SessionWell SessionSound
  Builder BuilderCalls BuilderNeighbours Measure Footprint Props_Query Props_Session Props_Measure Props_Sound.
Import ListNotations.
Local Open Scope string_scope.
Local Open Scope nat_scope.

(** ** One query, two sets of tables *)

(** Whatever the other tables are, the query has the same schema, gives the same rows and
    constraints, compiles to the same measurement, or is refused with the same exception. *)
Theorem C69_only_named_tables : forall R W K auto so mu b q cat data cat' data',
  agree_for q cat data cat' data' ->
  schema_of (w_cond_ok W) cat q = schema_of (w_cond_ok W) cat' q
  /\ (forall l2, build_transformation W l2 cat data q = build_transformation W l2 cat' data' q)
  /\ compile R W K auto so mu cat data b q = compile R W K auto so mu cat' data' b q.
Proof.
  intros R W K auto so mu b q cat data cat' data' A.
  split; [exact (schema_same _ _ _ _ _ _ A)|]. split; [intros l2; exact (build_same _ _ _ _ _ _ _ A)|exact (compile_same _ _ _ _ _ _ _ _ _ _ _ _ A)].
Qed.
Print Assumptions C69_only_named_tables.

(** ** Sessions *)

(** What a query with the budget [c] computes in the session at [p]. *)
Definition answer (E : env) (K : core) (auto : bool) (so : list string -> list string) (st : state) (p : path) (c : budget) (q : query) : res table :=
  let* s := session_at st p in
  let* cat := catalog_of (s_tree s) (st_public st) (s_cons s) in
  let* data := data_of (s_tree s) in
  let* m := compile (e_round E) (e_world E) K auto so (measure_for c) cat data c q in
  run_measurement (e_round E) K m.
(** What the two sessions have under the names in [q] is the same: the private tables with
    their recorded constraints, and the public tables. *)
Definition same_tables_for (q : query) (s : sess) (pub : dict sframe) (s' : sess) (pub' : dict sframe) : Prop :=
  (forall n, In n (sources q) -> table_named (s_tree s) n = table_named (s_tree s') n /\ dget n (s_cons s) = dget n (s_cons s')
     /\ (In n (public_sources pub) <-> In n (public_sources pub')))
  /\ (forall n, In n (joined q) -> dget n pub = dget n pub').

Lemma public_dget pub publ : catalog_public pub = Ok publ -> forall n,
  match dget n pub with
  | None => dget n publ = None
  | Some f => exists cols s, spark_schema_to_analytics_columns (sd_fields f) = Ok cols /\ mk_schema cols None None None = Ok s /\ dget n publ = Some (s, f)
  end.
Proof.
  revert publ. induction pub as [|(k, f) p IH]; intros l CU n; cbn in CU; [injection CU as <-; reflexivity|].
  apply bind_ok in CU as (x & HP & CU). apply bind_ok in CU as (l' & HL & CU). injection CU as <-. apply bind_ok in HP as (cols & C & HP). apply bind_ok in HP as (s1 & S & HP). injection HP as <-.
  cbn. destruct (String.eqb n k); [exists cols, s1; auto|]. apply IH, HL.
Qed.
Lemma dget_mem {V} (d : dict V) n : dmem n d = match dget n d with Some _ => true | None => false end.
Proof. reflexivity. Qed.
Lemma in_keys_mem {V} (d : dict V) n : In n (dkeys d) <-> dmem n d = true.
Proof.
  unfold dmem. split; [intros I; apply in_dkeys in I as (v & ->); reflexivity|].
  destruct (dget n d) as [v|] eqn:G; [intros _; apply in_dkeys; eauto|discriminate].
Qed.
Lemma agree_sessions q s s' pub pub' cat cat' data data' : tables_ok s -> tables_ok s' ->
  catalog_of (s_tree s) pub (s_cons s) = Ok cat -> data_of (s_tree s) = Ok data ->
  catalog_of (s_tree s') pub' (s_cons s') = Ok cat' -> data_of (s_tree s') = Ok data' ->
  same_tables_for q s pub s' pub' -> agree_for q cat data cat' data'.
Proof.
  intros TK TK' CA DA CA' DA' (SP & SU). pose proof (tk_layout s TK) as L. pose proof (tk_layout s' TK') as L'.
  pose proof (catalog_of_for _ _ _ _ L CA) as CF. pose proof (catalog_of_for _ _ _ _ L' CA') as CF'.
  destruct (data_of_spec _ L) as (d0 & D0 & DG). rewrite D0 in DA. injection DA as ->.
  destruct (data_of_spec _ L') as (d0' & D0' & DG'). rewrite D0' in DA'. injection DA' as ->.
  assert (NM : forall n, In n (sources q) -> dget n (named (s_tree s)) = dget n (named (s_tree s'))).
  { intros n I. destruct (SP n I) as (T & _). rewrite (table_named_spec _ _ L), (table_named_spec _ _ L') in T.
    destruct (dget n (named (s_tree s))), (dget n (named (s_tree s'))); try discriminate; congruence. }
  split; intros n I.
  - pose proof (NM n I) as N. destruct (SP n I) as (_ & C & _). destruct (dget n (named (s_tree s))) as [t|] eqn:G; symmetry in N.
    + destruct (cf_private _ _ _ _ CF n t G) as (sc & cs & A1 & A2 & ->). destruct (cf_private _ _ _ _ CF' n t N) as (sc' & cs' & B1 & B2 & ->). congruence.
    + rewrite (cf_none _ _ _ _ CF n G), (cf_none _ _ _ _ CF' n N). reflexivity.
  - rewrite DG, DG'. apply NM, I.
  - destruct (SP n I) as (_ & _ & P). unfold public_sources in P. rewrite !in_keys_mem, !dget_mem in P. rewrite !dget_mem.
    pose proof (public_dget _ _ (cf_public _ _ _ _ CF) n) as PU. pose proof (public_dget _ _ (cf_public _ _ _ _ CF') n) as PU'.
    destruct (dget n pub), (dget n pub'); try (destruct PU as (? & ? & _ & _ & PU)); try (destruct PU' as (? & ? & _ & _ & PU')); rewrite PU, PU'; try reflexivity;
      [symmetry|]; apply P; reflexivity.
  - pose proof (SU n I) as N. pose proof (public_dget _ _ (cf_public _ _ _ _ CF) n) as PU. pose proof (public_dget _ _ (cf_public _ _ _ _ CF') n) as PU'. rewrite N in PU.
    destruct (dget n pub'); [|congruence]. destruct PU as (c1 & s1 & E1 & F1 & ->), PU' as (c2 & s2 & E2 & F2 & ->). congruence.
Qed.

(** Two sessions, of one tree or of different ones, after any calls: if they have the same
    tables under the names in the query, the query has the same answer or the same exception. *)
Theorem C69_sessions_agree : forall E K auto so st p s st' p' s' c q,
  any_state E st -> any_state E st' -> session st p s -> session st' p' s' ->
  same_tables_for q s (st_public st) s' (st_public st') ->
  answer E K auto so st p c q = answer E K auto so st' p' c q.
Proof.
  intros E K auto so st p s st' p' s' c q A A' S S' ST.
  destruct (any_state_facts E st A) as (T & F & R), (any_state_facts E st' A') as (T' & F' & R').
  destruct (catalogs_exist st s (T p s S) (F p s S) R) as (cat & data & CA & DA). destruct (catalogs_exist st' s' (T' p' s' S') (F' p' s' S') R') as (cat' & data' & CA' & DA').
  unfold answer. rewrite (proj2 (session_at_iff st p s) S), (proj2 (session_at_iff st' p' s') S'). cbn [bind]. rewrite CA, CA', DA, DA'. cbn [bind].
  erewrite compile_same; [reflexivity|]. exact (agree_sessions q s s' (st_public st) (st_public st') cat cat' data data' (T p s S) (T' p' s' S') CA DA CA' DA' ST).
Qed.
Print Assumptions C69_sessions_agree.
(** If as much is left in both, the evaluation is accepted in both with the same charge, or
    refused in both with the same exception, up to the accountant's own checks. *)
Theorem C69_same_charge : forall E K auto so st p s st' p' s' want q,
  compiles_with E K auto so -> any_state E st -> any_state E st' -> session st p s -> session st' p' s' ->
  same_tables_for q s (st_public st) s' (st_public st') -> s_left s = s_left s' ->
  compile_and_get_info E s (st_public st) q want = compile_and_get_info E s' (st_public st') q want.
Proof.
  intros E K auto so st p s st' p' s' want q CW A A' S S' ST LE.
  destruct (any_state_facts E st A) as (T & F & R), (any_state_facts E st' A') as (T' & F' & R').
  destruct (catalogs_exist st s (T p s S) (F p s S) R) as (cat & data & CA & DA). destruct (catalogs_exist st' s' (T' p' s' S') (F' p' s' S') R') as (cat' & data' & CA' & DA').
  assert (AG : agree_for q cat data cat' data') by exact (agree_sessions q s s' (st_public st) (st_public st') cat cat' data data' (T p s S) (T' p' s' S') CA DA CA' DA' ST).
  unfold compile_and_get_info. rewrite LE. destruct (lift_pure _ _ _) as [b|]; cbn [bind]; [|reflexivity]. destruct (validate_type _ _); cbn [bind]; [|reflexivity].
  destruct (raise_if _ _); cbn [bind]; [|reflexivity]. destruct (process_budget _ _ _) as [adj|]; cbn [bind]; [|reflexivity]. rewrite CA, CA'. cbn [bind].
  rewrite (schema_same _ _ _ _ _ _ AG). destruct (schema_of _ _ _); cbn [bind]; [|reflexivity]. rewrite !CW, DA, DA'. cbn [bind].
  erewrite compile_same; [reflexivity|exact AG].
Qed.
Print Assumptions C69_same_charge.

(** ** Calls in between *)

(** The calls that make or delete the table [n] of the session at [p].  Public tables are
    shared by all sessions. *)
Definition concerns (p : path) (n : string) (o : op) : Prop :=
  match o with
  | CreateView p' _ v _ | DeleteView p' v => p' = p /\ v = n
  | AddPublic _ v _ => v = n
  | _ => False
  end.

Section Steps.
Variable E : env.
Lemma dget_ddel_other {V} k (d : dict V) n : n <> k -> dget n (ddel k d) = dget n d.
Proof.
  intros N. induction d as [|(j, v) d IH]; [reflexivity|]. unfold ddel in *. cbn. destruct (String.eqb k j) eqn:KJ; cbn.
  - apply String.eqb_eq in KJ as <-. apply String.eqb_neq in N. rewrite N. exact IH.
  - destruct (String.eqb n j); [reflexivity|exact IH].
Qed.
Lemma effect_other st o st' r p s : all_sessions tables_ok st -> effect E st o st' r -> session st p s ->
  exists s', session st' p s' /\ forall n, ~ concerns p n o ->
    dget n (named (s_tree s)) = dget n (named (s_tree s')) /\ dget n (s_cons s) = dget n (s_cons s') /\ dget n (st_public st) = dget n (st_public st').
Proof.
  intros T EF S.
  assert (Q : forall st1, quiet st st1 -> session st1 p s /\ st_public st1 = st_public st).
  { intros st1 (P & U & _). split; [|exact U]. apply (quiet_session st1 st); [symmetry; exact P|exact S]. }
  assert (SET : forall st1 p0 s0 s1 n0, ready st st1 p0 -> session_at st p0 = Ok s0 ->
      (p0 = p -> forall n, n <> n0 -> dget n (named (s_tree s0)) = dget n (named (s_tree s1)) /\ dget n (s_cons s0) = dget n (s_cons s1)) ->
      exists s', session (set_root st1 (change p0 (set_data s1) (st_root st1))) p s' /\ forall n, ~ (p0 = p /\ n0 = n) ->
        dget n (named (s_tree s)) = dget n (named (s_tree s')) /\ dget n (s_cons s) = dget n (s_cons s')
        /\ dget n (st_public st) = dget n (st_public (set_root st1 (change p0 (set_data s1) (st_root st1))))).
  { intros st1 p0 s0 s1 n0 RD S0 SAME. destruct (ready_session _ _ _ _ S0 RD) as (c & FC & DC & _). destruct (Q st1 (proj1 RD)) as (S1 & U).
    destruct (list_eq_dec (fun x y : nat * nat => ltac:(decide equality; apply Nat.eq_dec)) p0 p) as [->|NP].
    - exists s1. split; [exists (set_data s1 c); cbn [st_root set_root]; rewrite find_change, FC; split; [reflexivity|destruct c; reflexivity]|].
      intros n N. assert (s0 = s) as -> by (destruct S as (c1 & G1 & <-); apply session_at_iff in S0 as (c2 & G2 & <-); congruence).
      cbn [st_public set_root]. rewrite U. destruct (SAME eq_refl n); [intros ->; apply N; auto|auto].
    - exists s. split; [apply data_set_other; [congruence|exact S1]|]. intros n _. cbn [st_public set_root]. rewrite U. auto. }
  destruct EF as [o st' e QU|p0 st' r QU _|p0 q b s0 adj rest st1 o OK S0 _ _ _ RD|p0 name f f' s0 names S0 _ _ _ _ _
    |p0 q name cache s0 names cat data y x1 z z' x4 st1 S0 _ PS NN _ CA DA BT AT AR RC RT RD|p0 name s0 r cols x1 x2 st1 S0 FR LD RT DT RD
    |p0 src b col splits s0 b1 adj y rest space r st1 S0 _ _ _ _ _ _ RD _].
  - destruct (Q st' QU) as (S1 & U). exists s. split; [exact S1|]. intros n _. rewrite U. auto.
  - destruct (Q st' QU) as (S1 & U). exists s. split; [exact S1|]. intros n _. rewrite U. auto.
  - destruct (SET st1 p0 s0 (charged s0 rest (Measured adj)) "" RD S0) as (s' & S' & SAME); [intros; split; reflexivity|].
    exists s'. split; [exact S'|]. intros n _.
    destruct (SET st1 p0 s0 (charged s0 rest (Measured adj)) (n ++ "x") RD S0) as (s2 & S2 & SAME2); [intros; split; reflexivity|].
    assert (s2 = s') as -> by (destruct S' as (c1 & G1 & <-), S2 as (c2 & G2 & <-); congruence).
    apply SAME2. intros (_ & X). clear -X. induction n; [discriminate|]. injection X as X. auto.
  - exists s. split; [exact S|]. intros n N. split; [reflexivity|]. split; [reflexivity|]. cbn [concerns] in N. cbn [st_public].
    rewrite dget_app. destruct (dget n (st_public st)); [reflexivity|]. cbn. destruct (String.eqb n name) eqn:EN; [apply String.eqb_eq in EN; congruence|reflexivity].
  - apply (SET _ _ s0); [exact RD|exact S0|]. intros -> n N. cbn [s_tree s_cons with_tables].
    pose proof (T p s0 (proj1 (session_at_iff st p s0) S0)) as TK. pose proof (tk_layout _ TK) as L.
    destruct (view_tables E q name cache _ _ _ _ _ _ _ _ _ L PS NN DA _ BT AT AR RC RT) as (L4 & PE). split; [|symmetry; apply dget_dset_other; congruence].
    symmetry. rewrite (perm_dget _ _ n (layout_nodup _ L4) PE). cbn. apply String.eqb_neq in N. rewrite N. reflexivity.
  - apply (SET _ _ s0); [exact RD|exact S0|]. intros -> n N. cbn [s_tree s_cons with_tables].
    pose proof (T p s0 (proj1 (session_at_iff st p s0) S0)) as TK. pose proof (tk_layout _ TK) as L.
    destruct (delete_tables E name _ _ _ _ L FR RT DT) as (t & _ & _ & L2 & PE). split; [|symmetry; apply dget_ddel_other, N].
    rewrite (perm_dget _ _ n (layout_nodup _ L) PE). cbn. apply String.eqb_neq in N. rewrite N. reflexivity.
  - destruct (ready_session _ _ _ _ S0 RD) as (c & FC & DC & _). destruct (Q st1 (proj1 RD)) as (S1 & U).
    destruct (list_eq_dec (fun x y : nat * nat => ltac:(decide equality; apply Nat.eq_dec)) p0 p) as [->|NP].
    + eexists. split; [eexists; cbn [st_root set_root]; rewrite find_change, FC; split; [reflexivity|reflexivity]|]. intros n _.
      assert (s0 = s) as -> by (destruct S as (c1 & G1 & <-); apply session_at_iff in S0 as (c2 & G2 & <-); congruence).
      cbn [st_public set_root]. rewrite U. auto.
    + exists s. split; [apply data_split_other; [congruence|exact S1]|]. intros n _. cbn [st_public set_root]. rewrite U. auto.
Qed.
Lemma run_other l : forall st p s, ok (st_root st) -> all_sessions tables_ok st -> session st p s ->
  exists s', session (run E st l) p s' /\ forall n, (forall o, In o l -> ~ concerns p n o) ->
    dget n (named (s_tree s)) = dget n (named (s_tree s')) /\ dget n (s_cons s) = dget n (s_cons s') /\ dget n (st_public st) = dget n (st_public (run E st l)).
Proof.
  induction l as [|o l IH]; intros st p s O T S; [exists s; split; [exact S|auto]|].
  cbn [run]. destruct (step E st o) as [st1 r] eqn:ST. pose proof (step_effect E st o st1 r O ST) as EF.
  destruct (effect_other st o st1 r p s T EF S) as (s1 & S1 & SAME).
  assert (O1 : ok (st_root st1)) by (eapply effect_ok; eauto). assert (T1 : all_sessions tables_ok st1) by (eapply effect_tables; eauto).
  destruct (IH st1 p s1 O1 T1 S1) as (s2 & S2 & SAME2). exists s2. split; [exact S2|]. intros n N.
  destruct (SAME n (N o (or_introl eq_refl))) as (A & B & C). destruct (SAME2 n (fun o' I => N o' (or_intror I))) as (A' & B' & C').
  rewrite A, B, C. auto.
Qed.
End Steps.

Lemma any_state_run E st l : any_state E st -> Forall proper l -> any_state E (run E st l).
Proof.
  intros (calls & o & l0 & NB & B & P & ->) Q. exists calls, o, (l0 ++ l)%list. split; [exact NB|]. split; [exact B|]. split; [apply Forall_app; auto|].
  generalize (o_state o). induction l0 as [|x l0 IH]; intros st0; [reflexivity|]. inversion P; subst. cbn [run app]. apply IH. assumption.
Qed.
Lemma any_state_ok E st : any_state E st -> ok (st_root st).
Proof. intros (calls & o & l & NB & B & P & ->). destruct (start_sound E false calls o NB B) as (O & _). apply run_ok, O. Qed.

(** Whatever is called in between, in this session or in others, and whether it succeeds or
    not: evaluations, views and public tables with other names, deletions of other views,
    partitions, stopping.  The answer to the query stays the same. *)
Theorem C69_other_calls_do_not_matter : forall E K auto so st p s c q calls,
  any_state E st -> session st p s -> Forall proper calls ->
  (forall o n, In o calls -> In n (sources q ++ joined q) -> ~ concerns p n o) ->
  answer E K auto so (run E st calls) p c q = answer E K auto so st p c q.
Proof.
  intros E K auto so st p s c q calls A S P N. destruct (any_state_facts E st A) as (T & F & R).
  destruct (run_other E calls st p s (any_state_ok E st A) T S) as (s' & S' & SAME). symmetry.
  pose proof (any_state_run E st calls A P) as A'. destruct (any_state_facts E _ A') as (T' & _ & _).
  apply (C69_sessions_agree E K auto so st p s (run E st calls) p s' c q A A' S S'). split; intros n I.
  - destruct (SAME n (fun o IO => N o n IO (in_or_app _ _ _ (or_introl I)))) as (G & C & U).
    rewrite (table_named_spec _ _ (tk_layout _ (T p s S))), (table_named_spec _ _ (tk_layout _ (T' p s' S'))), G. split; [reflexivity|]. split; [exact C|].
    unfold public_sources. rewrite !in_keys_mem. unfold dmem. rewrite U. reflexivity.
  - apply (SAME n (fun o IO => N o n IO (in_or_app _ _ _ (or_intror I)))).
Qed.
Print Assumptions C69_other_calls_do_not_matter.

(** *** A case *)

(** The session of Props_Sound with the view "few" and the public table "more"; the rows of
    "few" with their codes, counted by city.  Then a view of them is made, deleted and made
    again with another definition, a query is evaluated on another table, a partition is made
    and a part is used.  The answer stays.  Deleting "few" does matter. *)
Definition started : state := match build_by E1 trips_calls' with Ok o => o_state o | Err _ => st0 (Pure (XFin 0)) end.
Definition first_calls : list op := [CreateView [] few "few" false; AddPublic [] "more" codes].
Definition coded (n : string) : query := JoinPublic (PrivateSource n) (PubName "more") None "inner".
Definition by_city (c : query) : query :=
  GroupByCount (EnforceConstraint c (MaxRowsPerID 3)) (KSet [("city", dsc VARCHAR true false false)] [[("city", VStr "a")]; [("city", VStr "b")]]) "n" MDefault None.
Definition other_calls : list op :=
  [CreateView [] (coded "few") "coded" true; Evaluate [] (by_city (coded "coded")) (Zcdp (XFin 1)); DeleteView [] "coded"; DeleteView [] "nothing";
   CreateView [] (PrivateSource "trips") "coded" false; Partition [] "few" (Zcdp (XFin 1)) "city" [("few", VStr "a"); ("bs", VStr "b")];
   DeleteView [(0, 0)] "few"; AddPublic [(0, 0)] "codes2" codes; Stop [(0, 0)]].
Lemma started_any l : Forall proper l -> any_state E1 (run E1 started l).
Proof.
  intros P. unfold started. assert (B : exists o, build_by E1 trips_calls' = Ok o) by (eexists; vm_compute; reflexivity). destruct B as (o & B). rewrite B.
  exists trips_calls', o, l. split; [cbn; intuition discriminate|]. split; [exact B|]. split; [exact P|reflexivity].
Qed.
Example C69_case : let st := run E1 started first_calls in let q := by_city (coded "few") in
  any_state E1 st /\ (exists s, session st [] s) /\ Forall proper other_calls
  /\ (forall o n, In o other_calls -> In n (sources q ++ joined q) -> ~ concerns [] n o)
  /\ answer E1 K0 true idl st [] (Zcdp (XFin 1)) q = Ok [[("city", VStr "a"); ("n", VInt 1)]; [("city", VStr "b"); ("n", VInt 0)]]
  /\ contents (run E1 st other_calls) <> contents st
  /\ answer E1 K0 true idl (run E1 st (other_calls ++ [DeleteView [] "few"])) [] (Zcdp (XFin 1)) q = Err ValueError.
Proof.
  cbv zeta. split; [apply started_any; repeat constructor; exact I|]. split; [eexists; eexists; split; [vm_compute; reflexivity|reflexivity]|].
  split; [repeat constructor; try discriminate; exact I|]. split.
  { intros o n IO IN. cbn in IN. cbn in IO. repeat (destruct IO as [<-|IO]; [cbn [concerns]; intuition (subst; discriminate)|]). destruct IO. }
  split; [vm_compute; reflexivity|]. split; [|vm_compute; reflexivity].
  intros H. apply (f_equal (fun x => length (snd x))) in H. vm_compute in H. discriminate.
Qed.
(** Sessions of two trees, and of one, with the same table. *)
Example C69_sessions_case : exists s s',
  let st := run E1 started first_calls in let st' := run E1 started (first_calls ++ [CreateView [] (PrivateSource "few") "same" true; AddPublic [] "more2" codes]) in
  compiles_with E1 K0 true idl /\ any_state E1 st /\ any_state E1 st' /\ session st [] s /\ session st' [] s' /\ s_left s = s_left s'
  /\ same_tables_for (by_city (coded "few")) s (st_public st) s' (st_public st')
  /\ s_tree s <> s_tree s' /\ st_public st <> st_public st'
  /\ compile_and_get_info E1 s (st_public st) (by_city (coded "few")) (Zcdp (XFin 1)) = Ok (Zcdp (XFin 1)).
Proof.
  eexists _, _. cbv zeta. split; [intros cat x q b; reflexivity|]. split; [apply started_any; repeat constructor|]. split; [apply started_any; repeat constructor|].
  split; [eexists; split; [vm_compute; reflexivity|reflexivity]|]. split; [eexists; split; [vm_compute; reflexivity|reflexivity]|].
  split; [reflexivity|]. split.
  { split; intros n I; cbn in I; destruct I as [<-|[]]; vm_compute; [|reflexivity]. split; [reflexivity|]. split; [reflexivity|]. intuition discriminate. }
  split; [intros H; apply (f_equal private_sources) in H; vm_compute in H; discriminate|].
  split; [intros H; apply (f_equal (@length _)) in H; vm_compute in H; discriminate|vm_compute; reflexivity].
Qed.
