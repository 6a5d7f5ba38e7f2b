(** Property C81: failed calls leave no trace, except that they may end other sessions. *)
From Coq Require Import String Bool Arith ZArith QArith Qcanon Lia Permutation List.
From Verif Require Import Prelude Budget BudgetScale Value Rows Constraints Schema SchemaProofs Query QuerySame Rewrite Transform TransformSpec TransformConform TransformVisit QueryProofs Tables TablesProofs
  Accountant AccountantProofs Session SessionSpec SessionMoney SessionSteps SessionTables SessionInv SessionUse SessionViews SessionNames SessionWell SessionViewTotal SessionSound
  Neighboring NeighboringProofs Builder BuilderProofs BuilderTree BuilderBuild BuilderCalls BuilderSpec BuilderNeighbours BlindSpec Measure Footprint Props_Query Props_Session Props_Measure Props_Sound Props_Footprint.
Import ListNotations.
Local Open Scope string_scope.
Local Open Scope nat_scope.

(** ** What may be left behind *)

(** The session at [p] waits: for the parts split off it, or for an earlier part. *)
Definition waits (st : state) (p : path) : Prop := state_at (st_root st) p WAITING_FOR_CHILDREN \/ state_at (st_root st) p WAITING_FOR_SIBLING.
(** The calls of [l] that succeed when [l] is called from [st]. *)
Fixpoint successful (E : env) (st : state) (l : list op) : list op :=
  match l with
  | [] => []
  | o :: l => match snd (step E st o) with
              | Ok _ => o :: successful E (fst (step E st o)) l
              | Err _ => successful E (fst (step E st o)) l
              end
  end.
(** No call of [l] fails in a session that waits. *)
Fixpoint calm (E : env) (st : state) (l : list op) : Prop :=
  match l with
  | [] => True
  | o :: l => (snd (step E st o) <> Ok tt -> ~ waits st (target o)) /\ calm E (fst (step E st o)) l
  end.

(** ** One call *)

Section Fails.
Variable E : env.
Definition touched (st : state) (o : op) (st' : state) : Prop := st' = st \/ exists t, activate (target o) (st_root st) = (t, Ok tt) /\ st' = set_root st t.
Lemma att_fails {A} st (r : res A) (k : A -> state * res unit) st' e : attempt st r k = (st', Err e) -> st' = st \/ exists a, r = Ok a /\ k a = (st', Err e).
Proof. destruct r as [a|x]; cbn; [eauto|]. intros [= <- _]. auto. Qed.
Lemma att_fails' {A B} st (r : res A) (k : A -> state * res B) st' e : attempt st r k = (st', Err e) -> st' = st \/ exists a, r = Ok a /\ k a = (st', Err e).
Proof. destruct r as [a|x]; cbn; [eauto|]. intros [= <- _]. auto. Qed.
Lemma act_fails {A} p st (k : state -> state * res A) st' e : activated p st k = (st', Err e) ->
  st' = st \/ exists t, activate p (st_root st) = (t, Ok tt) /\ k (set_root st t) = (st', Err e).
Proof.
  unfold activated. destruct (activate p (st_root st)) as (t, [[]|x]) eqn:AC; [eauto|]. intros [= <- _]. left. apply activate_err in AC as ->. apply set_root_id.
Qed.
Lemma fail_touches st o st' e : all_sessions tables_ok st -> step E st o = (st', Err e) -> touched st o st'.
Proof.
  intros TA H. unfold touched.
  destruct o as [p q b|p q b|p n f|p q n c|p n|p src b col sp|p]; cbn [step target] in *.
  - unfold evaluate in H. do 2 (apply att_fails in H as [H|(? & _ & H)]; [auto|]). apply act_fails in H as [H|(t & AC & H)]; [auto|]. right. exists t. split; [exact AC|].
    destruct (negb _); [injection H as <- _; reflexivity|]. destruct (spend _ _); [discriminate|]. injection H as <- _. reflexivity.
  - unfold spend_without_executing in H. do 2 (apply att_fails in H as [H|(? & _ & H)]; [auto|]). apply act_fails in H as [H|(t & AC & H)]; [auto|]. right. exists t. split; [exact AC|].
    destruct (spend _ _); [discriminate|]. injection H as <- _. reflexivity.
  - unfold add_public_dataframe in H. do 5 (apply att_fails in H as [H|(? & _ & H)]; [auto|]). discriminate.
  - unfold create_view in H. do 2 (apply att_fails in H as [H|(? & _ & H)]; [auto|]). apply act_fails in H as [H|(t & AC & H)]; [auto|]. right. exists t. split; [exact AC|].
    do 9 (apply att_fails in H as [H|(? & _ & H)]; [exact H|]). discriminate.
  - unfold delete_view in H. apply att_fails in H as [H|(? & _ & H)]; [auto|]. apply act_fails in H as [H|(t & AC & H)]; [auto|]. right. exists t. split; [exact AC|].
    destruct (find_reference _ _); [|injection H as <- _; reflexivity]. do 4 (apply att_fails in H as [H|(? & _ & H)]; [exact H|]). discriminate.
  - destruct (partition_and_create E st p src b col sp) as (st1, r) eqn:P. destruct r as [l|x]; [discriminate|]. injection H as -> _.
    unfold partition_and_create in P. apply att_fails' in P as [P|(s & S & P)]; [auto|]. do 4 (apply att_fails' in P as [P|(? & _ & P)]; [auto|]). apply att_fails' in P as [P|(y & CP & P)]; [auto|].
    apply act_fails in P as [P|(t & AC & P)]; [auto|]. right. exists t. split; [exact AC|]. destruct (spend _ _) as [rest|]; [|injection P as <- _; reflexivity]. cbn [set_root st_public] in P.
    apply session_at_iff in S. destruct (partition_source E s _ _ _ _ _ (TA p s S) CP) as (u & _ & G & _). cbv zeta in P. rewrite G in P. discriminate.
  - unfold stop in H. destruct (retire _ p (st_root st)) as (t, r) eqn:R. injection H as <- ->. left. unfold retire in R. destruct (option_map a_state (find p (st_root st))) as [[]|]; try discriminate R;
      try (destruct (e_retires_waiting E); [discriminate|]); injection R as <- _; apply set_root_id.
Qed.
End Fails.

(** A call that fails leaves everything as it was, unless its session waited: then it may have
    become the active one, and still all budgets, tables and histories are as they were. *)
Theorem C81_failed_calls : forall E st o st' e, any_state E st -> step E st o = (st', Err e) ->
  st' = st
  \/ (waits st (target o) /\ state_at (st_root st') (target o) ACTIVE /\ contents st' = contents st).
Proof.
  intros E st o st' e A H. destruct (any_state_facts E st A) as (TA & _ & _). pose proof (any_state_ok E st A) as O.
  destruct (fail_touches E st o st' e TA H) as [->|(t & AC & ->)]; [auto|]. destruct (activate_ok _ _ _ O AC) as (_ & SA & P & _).
  unfold activate in AC. destruct (find (target o) (st_root st)) as [c|] eqn:F; cbn [option_map] in AC; [|discriminate].
  destruct (a_state c) eqn:Q; try discriminate AC.
  - injection AC as <-. left. apply set_root_id.
  - right. split; [|split; [exact SA|unfold contents; cbn; rewrite P; reflexivity]]. unfold waits. first [left; exists c; split; [exact F|exact Q]|right; exists c; split; [exact F|exact Q]].
  - right. split; [|split; [exact SA|unfold contents; cbn; rewrite P; reflexivity]]. unfold waits. first [left; exists c; split; [exact F|exact Q]|right; exists c; split; [exact F|exact Q]].
Qed.
Print Assumptions C81_failed_calls.

(** ** Histories *)

(** Leave out the calls that failed: if none of them was made in a session that waits, the
    others all succeed, and everything is as if the failed calls had been made. *)
Theorem C81_failures_can_be_left_out : forall E l st, any_state E st -> Forall proper l -> calm E st l ->
  run E st (successful E st l) = run E st l
  /\ answers E st (successful E st l) = map (fun _ => Ok tt) (successful E st l).
Proof.
  intros E l. induction l as [|o l IH]; intros st A P C; [split; reflexivity|]. inversion P as [|? ? PO PL]; subst. destruct C as (C & CL).
  pose proof (any_state_run E st [o] A (Forall_cons _ PO (Forall_nil _))) as A'. cbn [run] in A'. cbn [successful run].
  destruct (step E st o) as (st', r) eqn:ST. cbn [fst snd] in *. destruct (IH st' A' PL CL) as (H1 & H2). destruct r as [[]|e].
  - cbn [run answers map]. rewrite ST. cbn [fst snd]. split; [exact H1|rewrite H2; reflexivity].
  - destruct (C81_failed_calls E st o st' e A ST) as [->|(W & _)]; [split; assumption|]. exfalso. apply C; [discriminate|exact W].
Qed.
Print Assumptions C81_failures_can_be_left_out.

(** Without partitions there is one session, which never waits; so failed calls can always be
    left out. *)
Definition only_one (st : state) : Prop := forall p s, session st p s -> p = [].
Lemma one_stays E st o st' r : any_state E st -> step E st o = (st', r) -> makes_parts o = false -> only_one st -> only_one st'.
Proof.
  intros A H M ONE p s (c & F & _). pose proof (step_effect E st o st' r (any_state_ok E st A) H) as EF.
  assert (Q : forall st1, quiet st st1 -> forall c, find p (st_root st1) = Some c -> p = []).
  { intros st1 (PQ & _) c1 F1. destruct (payload_find _ _ _ _ PQ F1) as (c2 & F2 & _). eapply ONE. exists c2. split; [exact F2|reflexivity]. }
  assert (C : forall st1 p0 f c, quiet st st1 -> find p (Accountant.change p0 (set_data f) (st_root st1)) = Some c -> p = []).
  { intros st1 p0 f c1 QS F1. pose proof (set_data_states f p0 (st_root st1) p) as X. rewrite F1 in X. destruct (find p (st_root st1)) as [c2|] eqn:F2; [|discriminate]. eapply Q; eassumption. }
  inversion EF as [? ? ? QS|? ? ? QS _|? ? ? ? ? ? ? ? ? ? ? ? ? RD|? ? ? ? ? ? ?|? ? ? ? ? ? ? ? ? ? ? ? ? ? ? ? ? ? ? ? ? ? ? ? ? ? RD|? ? ? ? ? ? ? ? ? ? ? ? ? RD|]; subst; try discriminate M.
  - eapply Q; eassumption.
  - eapply Q; eassumption.
  - eapply C; [apply RD|exact F].
  - eapply ONE. exists c. split; [exact F|reflexivity].
  - eapply C; [apply RD|exact F].
  - eapply C; [apply RD|exact F].
Qed.
Lemma one_never_waits E st p : any_state E st -> only_one st -> ~ waits st p.
Proof.
  intros A ONE W. assert (p = []) as ->. { destruct W as [(c & F & _)|(c & F & _)]; eapply ONE; exists c; (split; [exact F|reflexivity]). }
  assert (N : a_state (st_root st) <> RETIRED) by (destruct W as [(c & [= <-] & W)|(c & [= <-] & W)]; congruence).
  destruct (any_state_ok E st A) as [L|R]; [|apply N, retired_state, R]. destruct (st_root st) as (a, s, parts) eqn:RT.
  inversion L as [s0 parts0 FI|s0 parts0 pre x post FI PR LX PO]; subst.
  - destruct W as [(c & F & X)|(c & F & X)]; rewrite RT in F; injection F as <-; discriminate.
  - assert (X : [(length parts0, length pre)] = []) ; [|discriminate]. eapply ONE. exists x. split; [|reflexivity]. rewrite RT. cbn [find a_parts].
    rewrite nth_error_app2, Nat.sub_diag by lia. cbn [nth_error]. rewrite nth_error_app2, Nat.sub_diag by lia. reflexivity.
Qed.
Theorem C81_without_partitions : forall E l st, any_state E st -> (forall p s, session st p s -> p = []) ->
  Forall proper l -> (forall o, In o l -> makes_parts o = false) ->
  run E st (successful E st l) = run E st l
  /\ answers E st (successful E st l) = map (fun _ => Ok tt) (successful E st l).
Proof.
  intros E l st A ONE P M. apply C81_failures_can_be_left_out; [exact A|exact P|]. revert st A ONE P. induction l as [|o l IH]; intros st A ONE P; [exact Logic.I|]. inversion P as [|? ? PO PL]; subst. cbn [calm].
  split; [intros _; eapply one_never_waits; eassumption|]. pose proof (any_state_run E st [o] A (Forall_cons _ PO (Forall_nil _))) as A'. cbn [run] in A'.
  apply IH; [intros o' I; apply M; right; exact I|exact A'| |exact PL]. destruct (step E st o) as (st', r) eqn:ST. eapply one_stays; [exact A|exact ST|apply M; left; reflexivity|exact ONE].
Qed.
Print Assumptions C81_without_partitions.

(** In general they cannot: a call that fails in a session that waits for its parts ends them. *)
Definition trip_state : state := match build_by E1 trips_calls' with Ok o => o_state o | Err _ => st0 (Pure (XFin 0)) end.
Lemma trip_any l : Forall proper l -> any_state E1 (run E1 trip_state l).
Proof.
  intros P. assert (B : exists o, build_by E1 trips_calls' = Ok o) by (eexists; vm_compute; reflexivity). destruct B as (o & B).
  exists trips_calls', o, l. split; [cbn; intuition discriminate|]. split; [exact B|]. split; [exact P|]. unfold trip_state. rewrite B. reflexivity.
Qed.
Definition split_trips : list op := [CreateView [] few "few" false; Partition [] "few" (Zcdp (XFin 1)) "city" [("as", VStr "a"); ("bs", VStr "b")]].
Definition dear : op := CreateView [(0, 0)] (Filter (PrivateSource "as") "cost > 0") "dear" false.
Theorem C81_failures_end_parts_refuted : exists E st o o' e, any_state E st /\ snd (step E st o) = Err e
  /\ snd (step E st o') = Ok tt /\ snd (step E (fst (step E st o)) o') = Err RuntimeError.
Proof.
  exists E1, (run E1 trip_state split_trips), (CreateView [] few "few" false), dear, ValueError. split; [apply trip_any; repeat constructor; discriminate|].
  split; [|split]; vm_compute; reflexivity.
Qed.
Print Assumptions C81_failures_end_parts_refuted.

(** ** A case *)
Definition tries : list op :=
  [CreateView [] few "" false; CreateView [] few "few" true; DeleteView [] "less"; CreateView [] few "few" false; Evaluate [] (PrivateSource "few") (Zcdp (XFin 1));
   SpendOnly [] (PrivateSource "none") (Zcdp (XFin 1)); AddPublic [] "more" codes; AddPublic [] "more" codes; DeleteView [] "few"; Stop [(0, 0)]; Stop []; DeleteView [] "log"].
Example C81_case :
  any_state E1 trip_state /\ (forall p s, session trip_state p s -> p = []) /\ Forall proper tries /\ (forall o, In o tries -> makes_parts o = false)
  /\ successful E1 trip_state tries = [CreateView [] few "few" true; AddPublic [] "more" codes; DeleteView [] "few"; Stop []]
  /\ (let st := run E1 trip_state split_trips in let l := [dear; dear; DeleteView [(0, 0)] "none"; DeleteView [(0, 0)] "dear"; DeleteView [(0, 1)] "bs"; dear] in
      calm E1 st (firstn 4 l) /\ Forall proper l /\ answers E1 st l = [Ok tt; Err ValueError; Err KeyError; Ok tt; Err ValueError; Err RuntimeError]).
Proof.
  split; [apply (trip_any []); constructor|]. split.
  { intros p s (c & F & _). destruct p as [|(k, i) p]; [reflexivity|]. rewrite find_step in F. replace (a_parts (st_root trip_state)) with (@nil (list (acct sess))) in F by (vm_compute; reflexivity). destruct k; discriminate. }
  split; [repeat constructor; discriminate|]. split; [cbn; intros o I; repeat (destruct I as [<-|I]; [reflexivity|]); destruct I|]. split; [vm_compute; reflexivity|].
  cbv zeta. split; [|split; [repeat constructor; discriminate|vm_compute; reflexivity]].
  cbn [firstn calm]. repeat match goal with |- _ /\ _ => split | |- True => exact Logic.I end; intros N [(c & F & W)|(c & F & W)]; vm_compute in F; injection F as <-; vm_compute in W; discriminate W.
Qed.
