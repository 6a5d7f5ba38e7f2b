(** Properties C28, C29 and C45: names, views and parts. *)
From Coq Require Import String Bool Arith ZArith QArith Lia Permutation List.
From Verif Require Import Prelude Budget BudgetProofs Value Rows Constraints ConstraintsSpec ConstraintsProofs Schema SchemaProofs Query Transform TransformConform TransformVisit
  QuerySame Tables TablesProofs Accountant AccountantProofs Session SessionSpec SessionMoney SessionSteps SessionTables SessionInv SessionUse SessionCharge
  SessionViews SessionWell SessionNames SessionParts Props_Query Props_Session.
Import ListNotations.
Local Open Scope string_scope.
Local Open Scope nat_scope.

(** ** C28: names *)

(** The session at [p] lists the name [n] among its private sources. *)
Definition private_name (st : state) (p : path) (n : string) : Prop :=
  exists s names, session st p s /\ private_sources (s_tree s) = Ok names /\ In n names.
Definition public_name (st : state) (n : string) : Prop := In n (public_sources (st_public st)).

Lemma private_name_named st p n : all_sessions tables_ok st -> private_name st p n <-> exists s, session st p s /\ In n (dkeys (named (s_tree s))).
Proof.
  intros TA. split.
  - intros (s & names & S & PS & I). exists s. split; [exact S|]. apply (mem_names _ _ n (tk_layout s (TA p s S)) PS). apply smem_In, I.
  - intros (s & S & I). destruct (private_sources_spec _ (tk_layout s (TA p s S))) as (names & PS & _ & NM). exists s, names. split; [exact S|]. split; [exact PS|]. apply NM, I.
Qed.

(** Whatever happened: every session lists each private table once, every name leads to one
    table only, and no public table is listed twice. *)
Theorem C28_names_unique : forall E b x st p s, reachable E b x st -> session st p s ->
  exists names, private_sources (s_tree s) = Ok names /\ NoDup names
    /\ (forall n, unambiguous n (domain_of (s_tree s)))
    /\ (forall n, In n names <-> exists t, table_named (s_tree s) n = Ok t)
    /\ NoDup (public_sources (st_public st)).
Proof.
  intros E b x st p s RE S. pose proof (reachable_tables _ _ _ _ RE p s S) as TK. destruct (private_sources_spec _ (tk_layout s TK)) as (names & PS & N & NM).
  exists names. split; [exact PS|]. split; [exact N|]. split; [intros n; apply layout_unambiguous, TK|]. split.
  - intros n. rewrite NM. rewrite (table_named_spec _ n (tk_layout s TK)). rewrite in_dkeys. split; intros (t & H).
    + exists t. rewrite H. reflexivity.
    + destruct (dget n (named (s_tree s))) as [t'|]; [|discriminate]. eauto.
  - destruct RE as (st0 & l & V & L & N0 & ->). apply run_public_nodup; [eapply new_ok, N0|]. unfold new_session in N0. apply bind_ok in N0 as (ns & _ & N0). injection N0 as <-. constructor.
Qed.
Print Assumptions C28_names_unique.

(** A view or public table whose name is in use in the session, or is no identifier, is
    refused, and nothing changes. *)
Theorem C28_clashes_refused : forall E b x st p n, reachable E b x st -> private_name st p n \/ (public_name st n /\ exists s, session st p s) ->
  (forall f, exists e, step E st (AddPublic p n f) = (st, Err e))
  /\ (forall q c, exists st' e, step E st (CreateView p q n c) = (st', Err e) /\ contents st' = contents st).
Proof.
  intros E b x st p n RE CL. pose proof (reachable_tables _ _ _ _ RE) as TA. pose proof (reachable_ok _ _ _ _ RE) as O.
  destruct CL as [CL|(CL & s & S)].
  - apply private_name_named in CL as (s & S & I); [|exact TA]. eapply clash_refused; [exact O|exact S|apply (TA p s S)|]. left. exact I.
  - eapply clash_refused; [exact O|exact S|apply (TA p s S)|]. right. exact CL.
Qed.
Print Assumptions C28_clashes_refused.
Theorem C28_only_identifiers : forall E b x st p n, reachable E b x st -> e_identifier E n = false ->
  (forall f st', step E st (AddPublic p n f) <> (st', Ok tt))
  /\ (forall q c st', step E st (CreateView p q n c) <> (st', Ok tt))
  /\ (forall src want col splits st', In n (dkeys splits) -> step E st (Partition p src want col splits) <> (st', Ok tt)).
Proof.
  intros E b x st p n RE EN. pose proof (reachable_ok _ _ _ _ RE) as O. split; [|split].
  - intros f st' H. apply step_effect in H; [|exact O]. inversion H as [| |? ? ? ? ? ? ? ? K| | | |]; subst; [destruct K; discriminate|congruence].
  - intros q c st' H. apply step_effect in H; [|exact O]. inversion H as [| |? ? ? ? ? ? ? ? K| | | |]; subst; [destruct K; discriminate|congruence].
  - intros src want col splits st' I H. apply step_effect in H; [|exact O]. inversion H as [| |? ? ? ? ? ? ? ? K| | | |? ? ? ? ? ? ? ? ? ? ? ? ? ? ? ? EX]; subst; [destruct K; discriminate|].
    assert (X : existsb (fun n => negb (e_identifier E n)) (dkeys splits) = true) by (apply existsb_exists; exists n; rewrite EN; auto). congruence.
Qed.
Print Assumptions C28_only_identifiers.

(** If partitions never name a part like a public table, and public tables are never named
    like a private table of another session, no name is ever both private and public.
    (The session checks the other clashes itself.) *)
Theorem C28_private_or_public_partial : forall E b x st0 calls p n, valid b -> layout x -> new_session b x = Ok st0 ->
  careful_calls E st0 calls -> private_name (run E st0 calls) p n -> ~ public_name (run E st0 calls) n.
Proof.
  intros E b x st0 calls p n V L N C PN. pose proof (new_ok _ _ _ N) as O. pose proof (new_tables _ _ _ L N) as TA.
  apply private_name_named in PN as (s & S & I); [|apply run_tables; assumption].
  assert (D : disjoint_names (run E st0 calls)).
  { apply run_disjoint; [exact O|exact TA| |exact C]. intros p' s' n' _ _. unfold new_session in N. apply bind_ok in N as (ns & _ & N). injection N as <-. intros []. }
  exact (D p s n S I).
Qed.
Print Assumptions C28_private_or_public_partial.

(** Without that care it fails.  A part may be named like a public table; then no query on
    its only table is accepted, and creating the part cost budget. *)
Definition codes : sframe :=
  {| sd_fields := [{| sf_name := "city"; sf_type := StringT; sf_nullable := false |}]; sd_rows := [[VStr "x"]] |}.
Definition clash_calls : list op :=
  [AddPublic [] "xs" codes; Partition [] "cities" (Pure (XFin 1)) "city" [("xs", VStr "x"); ("ys", VStr "y")]].
Lemma public_source_refused cond cat n s fr : dget n (cat_public cat) = Some (s, fr) -> schema_of cond cat (PrivateSource n) = Err ValueError.
Proof. intros G. cbn. unfold source_schema, dmem. rewrite G. reflexivity. Qed.
Theorem C28_part_named_like_public_refuted : exists E b x st s,
  reachable E b x st /\ session st [(0, 0)] s /\ private_name st [(0, 0)] "xs" /\ public_name st "xs"
  /\ (forall sc, ~ has_schema E st s (PrivateSource "xs") sc)
  /\ (exists root, session st [] root /\ budget_eqb (remaining_privacy_budget root) b = false).
Proof.
  exists E0, (Pure (XFin 3)), x0, (run E0 (st0 (Pure (XFin 3))) clash_calls).
  eexists. split; [apply reachable_run; cbn; discriminate|]. split; [eexists; split; [vm_compute; reflexivity|reflexivity]|].
  split; [|split; [vm_compute; left; reflexivity|split]].
  - eexists. eexists. split; [eexists; split; [vm_compute; reflexivity|reflexivity]|]. split; [vm_compute; reflexivity|]. left. reflexivity.
  - intros sc (cat & CA & H). vm_compute in CA. injection CA as <-. vm_compute in H. discriminate.
  - eexists. split; [eexists; split; [vm_compute; reflexivity|reflexivity]|]. vm_compute. reflexivity.
Qed.
Print Assumptions C28_part_named_like_public_refuted.
(** Public tables are shared with the parts but only checked against the names of one
    session: the parent can make the table of a waiting part unusable. *)
Theorem C28_shared_public_tables_refuted : exists E b x st s,
  reachable E b x st /\ session st [(0, 0)] s /\ (exists sc, has_schema E st s (PrivateSource "xs") sc)
  /\ exists st', step E st (AddPublic [] "xs" codes) = (st', Ok tt)
  /\ session st' [(0, 0)] s /\ private_name st' [(0, 0)] "xs" /\ public_name st' "xs"
  /\ (forall sc, ~ has_schema E st' s (PrivateSource "xs") sc).
Proof.
  exists E0, (Pure (XFin 3)), x0, (run E0 (st0 (Pure (XFin 3))) [Partition [] "cities" (Pure (XFin 1)) "city" [("xs", VStr "x"); ("ys", VStr "y")]]).
  eexists. split; [apply reachable_run; cbn; discriminate|]. split; [eexists; split; [vm_compute; reflexivity|reflexivity]|].
  split; [eexists; eexists; split; vm_compute; reflexivity|].
  eexists. split; [vm_compute; reflexivity|]. split; [eexists; split; [vm_compute; reflexivity|reflexivity]|].
  split; [|split; [vm_compute; left; reflexivity|]].
  - eexists. eexists. split; [eexists; split; [vm_compute; reflexivity|reflexivity]|]. split; [vm_compute; reflexivity|]. left. reflexivity.
  - intros sc (cat & CA & H). vm_compute in CA. injection CA as <-. vm_compute in H. discriminate.
Qed.
Print Assumptions C28_shared_public_tables_refuted.

(** Non-vacuity: a careful history with a view, a public table and a partition. *)
Definition view_calls : list op :=
  [CreateView [] (Select (PrivateSource "cities") ["city"]) "names" true; AddPublic [] "codes" codes;
   CreateView [] (JoinPublic (PrivateSource "names") (PubName "codes") None "inner") "joined" false;
   Partition [] "cities" (Pure (XFin 1)) "city" [("xs", VStr "x"); ("ys", VStr "y")]].
Example C28_case :
  careful_calls E0 (st0 (Pure (XFin 3))) view_calls
  /\ private_name (run E0 (st0 (Pure (XFin 3))) view_calls) [] "joined"
  /\ private_name (run E0 (st0 (Pure (XFin 3))) view_calls) [(0, 1)] "ys"
  /\ public_name (run E0 (st0 (Pure (XFin 3))) view_calls) "codes"
  /\ (exists st', step E0 (run E0 (st0 (Pure (XFin 3))) view_calls) (CreateView [] (PrivateSource "cities") "codes" false) = (st', Err ValueError)).
Proof.
  split; [|split; [|split; [|split]]].
  - split; [exact I|]. split; [|split; [exact I|split; [|exact I]]].
    + intros p' s NE S. destruct S as (c & F & <-). destruct p' as [|(k, i) p']; [destruct (NE eq_refl)|]. vm_compute in F. destruct k; discriminate.
    + intros n. vm_compute. intuition (subst; discriminate).
  - eexists. eexists. split; [eexists; split; [vm_compute; reflexivity|reflexivity]|]. split; [vm_compute; reflexivity|]. vm_compute. auto 10.
  - eexists. eexists. split; [eexists; split; [vm_compute; reflexivity|reflexivity]|]. split; [vm_compute; reflexivity|]. vm_compute. auto 10.
  - vm_compute. auto.
  - eexists. vm_compute. reflexivity.
Qed.

(** ** C29: views *)

(** States of sessions whose tables have schemas the library can describe and whose view
    definitions are well-formed queries ([dicts]: arguments that are dictionaries have no
    repeated keys, and renamings do not merge columns). *)
Definition well_built (E : env) (b : budget) (x : tree) (st : state) : Prop :=
  exists st0 calls, valid b /\ layout x /\ (forall n t, dget n (named x) = Some t -> fine_table t)
    /\ new_session b x = Ok st0 /\ Forall proper calls /\ st = run E st0 calls.
Lemma well_built_reachable E b x st : well_built E b x st -> reachable E b x st.
Proof. intros (st0 & l & V & L & _ & N & _ & ->). exists st0, l. split; [exact V|]. split; [exact L|]. split; [exact N|reflexivity]. Qed.
Lemma new_sessions b x st p s : new_session b x = Ok st -> session st p s -> s_tree s = x.
Proof.
  intros N (c & F & <-). unfold new_session in N. apply bind_ok in N as (ns & _ & N). injection N as <-. cbn in F. destruct p as [|(k, i) p]; [|destruct k; discriminate].
  injection F as <-. reflexivity.
Qed.
Lemma well_built_fine E b x st : well_built E b x st -> all_sessions fine st.
Proof.
  intros (st0 & l & V & L & F & N & P & ->). apply run_fine; [eapply new_ok, N|eapply new_tables; eassumption| |exact P].
  intros p s S n t G. rewrite (new_sessions _ _ _ _ _ N S) in G. eapply F, G.
Qed.
Lemma well_built_step E b x st o : well_built E b x st -> proper o -> well_built E b x (fst (step E st o)).
Proof.
  intros (st0 & l & V & L & F & N & P & ->) PO. exists st0, (l ++ [o])%list. split; [exact V|]. split; [exact L|]. split; [exact F|]. split; [exact N|]. split.
  - apply Forall_app. split; [exact P|constructor; [exact PO|constructor]].
  - clear. revert st0. induction l as [|a l IH]; intros st0; [reflexivity|]. cbn. apply IH.
Qed.

(** After a view [v] of [d] was created, any query gives exactly the table and constraints
    that the query with [v] replaced by [d] gave before, or is refused if that was. *)
Theorem C29_view_is_its_query : forall E b x st p s d v cache st' s' q z,
  by_name (w_cond_ok (e_world E)) -> well_built E b x st -> session st p s -> dicts d -> dicts q ->
  step E st (CreateView p d v cache) = (st', Ok tt) -> session st' p s' ->
  (stands_for E st' s' q z <-> stands_for E st s (subst v d q) z).
Proof.
  intros E b x st p s d v cache st' s' q z BN WB S D DQ H S'. pose proof (well_built_reachable _ _ _ _ WB) as RE.
  eapply view_stands; [exact BN|eapply reachable_ok, RE|eapply reachable_tables, RE|apply (well_built_fine _ _ _ _ WB p s S)|exact D|exact DQ|exact S|exact H|exact S'].
Qed.
Print Assumptions C29_view_is_its_query.
(** It also has the same schema: columns, their descriptions, ID and grouping columns and
    ID space. *)
Theorem C29_view_schema_is_that_of_its_query : forall E b x st p s d v cache st' s' q,
  by_name (w_cond_ok (e_world E)) -> well_built E b x st -> session st p s -> dicts d -> dicts q ->
  step E st (CreateView p d v cache) = (st', Ok tt) -> session st' p s' ->
  (forall sc, has_schema E st' s' q sc -> exists sc', has_schema E st s (subst v d q) sc' /\ same_schema sc sc')
  /\ (forall sc', has_schema E st s (subst v d q) sc' -> exists sc, has_schema E st' s' q sc /\ same_schema sc sc').
Proof.
  intros E b x st p s d v cache st' s' q BN WB S D DQ H S'. pose proof (well_built_reachable _ _ _ _ WB) as RE.
  eapply view_has_schema; [exact BN|eapply reachable_ok, RE|eapply reachable_tables, RE|apply (well_built_fine _ _ _ _ WB p s S)|exact D|exact DQ|exact S|exact H|exact S'].
Qed.
Print Assumptions C29_view_schema_is_that_of_its_query.

(** Views on views, to any depth: with the views [l], oldest first, a query means what it
    means with the views replaced, the newest first. *)
Fixpoint make_views (E : env) (st : state) (p : path) (l : list (string * query * bool)) : option state :=
  match l with
  | [] => Some st
  | (v, d, c) :: l => match step E st (CreateView p d v c) with (st', Ok tt) => make_views E st' p l | _ => None end
  end.
Definition replace_views (l : list (string * query * bool)) (q : query) : query := fold_right (fun v q => subst (fst (fst v)) (snd (fst v)) q) q l.
Lemma dicts_subst v d q : dicts d -> dicts q -> dicts (subst v d q).
Proof.
  intros D. induction q; cbn [dicts subst replace]; try tauto; try (intros H; apply IHq; exact H).
  - intros _. destruct (String.eqb source_id v); [exact D|exact I].
Qed.
Lemma dicts_views l q : Forall (fun v => dicts (snd (fst v))) l -> dicts q -> dicts (replace_views l q).
Proof. intros F D. induction F as [|((v, d), c) l F1 F2 IH]; [exact D|]. cbn. apply dicts_subst; [exact F1|exact IH]. Qed.
Theorem C29_views_on_views : forall E b x p l st s st' s' q z,
  by_name (w_cond_ok (e_world E)) -> well_built E b x st -> session st p s -> Forall (fun v => dicts (snd (fst v))) l -> dicts q ->
  make_views E st p l = Some st' -> session st' p s' ->
  (stands_for E st' s' q z <-> stands_for E st s (replace_views l q) z).
Proof.
  intros E b x p l. induction l as [|((v, d), c) l IH]; intros st s st' s' q z BN WB S F DQ M S'.
  - cbn in M. injection M as <-. rewrite (session_unique _ _ _ _ S' S). reflexivity.
  - inversion F as [|? ? F1 F2]; subst. cbn [snd fst] in F1. cbn [make_views] in M. destruct (step E st (CreateView p d v c)) as (st1, r) eqn:H. destruct r as [[]|]; [|discriminate].
    pose proof (well_built_reachable _ _ _ _ WB) as RE. destruct (view_step E _ _ _ _ _ _ _ (reachable_ok _ _ _ _ RE) (reachable_tables _ _ _ _ RE) S H) as (_ & _ & _ & s1 & _ & _ & _ & S1 & _).
    assert (WB1 : well_built E b x st1) by (pose proof (well_built_step _ _ _ _ (CreateView p d v c) WB F1) as X; rewrite H in X; exact X).
    rewrite (IH st1 s1 st' s' q z BN WB1 S1 F2 DQ M S'). cbn [replace_views fold_right fst snd]. fold (replace_views l q).
    apply (C29_view_is_its_query E b x st p s d v c st1 s1 (replace_views l q) z BN WB S F1 (dicts_views l q F2 DQ) H S1).
Qed.
Print Assumptions C29_views_on_views.

(** Creating a view adds its table to the session, with the constraints that hold for its
    query, and changes no other table, recorded constraint, budget or session. *)
Theorem C29_create_changes_nothing_else : forall E b x st p s d v cache st', reachable E b x st -> session st p s ->
  step E st (CreateView p d v cache) = (st', Ok tt) ->
  exists s' y, stands_for E st s d y /\ session st' p s' /\ st_public st' = st_public st
    /\ table_named (s_tree s) v = Err KeyError
    /\ table_named (s_tree s') v = Ok (fst y) /\ dget v (s_cons s') = Some (snd y)
    /\ (forall n, n <> v -> table_named (s_tree s') n = table_named (s_tree s) n /\ dget n (s_cons s') = dget n (s_cons s))
    /\ s_left s' = s_left s /\ s_initial s' = s_initial s /\ s_log s' = s_log s
    /\ (forall q c, q <> p -> (session st' q c <-> session st q c)).
Proof.
  intros E b x st p s d v cache st' RE S H. pose proof (reachable_tables _ _ _ _ RE) as TA.
  destruct (view_step E _ _ _ _ _ _ _ (reachable_ok _ _ _ _ RE) TA S H) as (cat & data & y & s' & CA & DA & BT & S' & PB & L' & P' & CN & SL & SI & SG & FR & DM & OT).
  pose proof (tk_layout s (TA p s S)) as L. exists s', y. split; [exists cat, data; split; [exact CA|split; [exact DA|exact BT]]|]. split; [exact S'|]. split; [exact PB|].
  assert (NM : forall n, dget n (named (s_tree s')) = dget n ((v, fst y) :: named (s_tree s))) by (intros n; apply perm_dget; [apply layout_nodup, L'|exact P']).
  split; [rewrite (table_named_spec _ v L), FR; reflexivity|]. split; [rewrite (table_named_spec _ v L'), NM; cbn; rewrite String.eqb_refl; reflexivity|].
  split; [rewrite CN; apply dget_dset_same|]. split; [|split; [exact SL|split; [exact SI|split; [exact SG|exact OT]]]].
  intros n NE. split; [|rewrite CN; apply dget_dset_other; congruence]. rewrite (table_named_spec _ n L), (table_named_spec _ n L'), NM. cbn. apply String.eqb_neq in NE. rewrite NE. reflexivity.
Qed.
Print Assumptions C29_create_changes_nothing_else.

Lemma dget_ddel_same {V} k (d : dict V) : NoDup (dkeys d) -> dget k (ddel k d) = None.
Proof.
  intros N. destruct (dget k (ddel k d)) eqn:G; [|reflexivity]. exfalso. assert (I : In k (dkeys (ddel k d))) by (apply in_dkeys; eauto). apply (ddel_spec k d N) in I. tauto.
Qed.
Lemma dget_ddel_other {V} k n (d : dict V) : n <> k -> dget n (ddel k d) = dget n d.
Proof.
  intros NE. induction d as [|(a, v) d IH]; [reflexivity|]. cbn. destruct (String.eqb k a) eqn:A.
  - apply String.eqb_eq in A. subst a. destruct (String.eqb n k) eqn:B; [apply String.eqb_eq in B; contradiction|]. reflexivity || exact IH.
  - cbn. destruct (String.eqb n a); [reflexivity|exact IH].
Qed.
(** Deleting removes one table and nothing else. *)
Theorem C29_delete_changes_nothing_else : forall E b x st p s v st', reachable E b x st -> session st p s ->
  step E st (DeleteView p v) = (st', Ok tt) ->
  exists s', session st' p s' /\ st_public st' = st_public st
    /\ (exists t, table_named (s_tree s) v = Ok t)
    /\ table_named (s_tree s') v = Err KeyError /\ dget v (s_cons s') = None
    /\ (forall n, n <> v -> table_named (s_tree s') n = table_named (s_tree s) n /\ dget n (s_cons s') = dget n (s_cons s))
    /\ s_left s' = s_left s /\ s_initial s' = s_initial s /\ s_log s' = s_log s
    /\ (forall q c, q <> p -> (session st' q c <-> session st q c)).
Proof.
  intros E b x st p s v st' RE S H. pose proof (reachable_tables _ _ _ _ RE) as TA.
  destruct (delete_step E _ _ _ _ _ (reachable_ok _ _ _ _ RE) TA S H) as (t & s' & G & S' & PB & L' & P' & CN & SL & SI & SG & OT).
  pose proof (tk_layout s (TA p s S)) as L. exists s'. split; [exact S'|]. split; [exact PB|]. split; [exists t; rewrite (table_named_spec _ v L), G; reflexivity|].
  assert (NM : forall n, dget n (named (s_tree s)) = dget n ((v, t) :: named (s_tree s'))) by (intros n; apply perm_dget; [apply layout_nodup, L|exact P']).
  split; [|split; [rewrite CN; apply dget_ddel_same, (TA p s S)|split; [|split; [exact SL|split; [exact SI|split; [exact SG|exact OT]]]]]].
  - rewrite (table_named_spec _ v L'). destruct (dget v (named (s_tree s'))) eqn:G'; [|reflexivity]. exfalso.
    assert (N : NoDup (dkeys ((v, t) :: named (s_tree s')))) by (eapply named_key_names; [exact P'|apply layout_nodup, L]). cbn in N. inversion N as [|? ? N1 N2]. apply N1. apply in_dkeys. eauto.
  - intros n NE. split; [|rewrite CN; apply dget_ddel_other, NE]. rewrite (table_named_spec _ n L), (table_named_spec _ n L'), NM. cbn. apply String.eqb_neq in NE. rewrite NE. reflexivity.
Qed.
Print Assumptions C29_delete_changes_nothing_else.
(** A view that was created and deleted might as well not have been there: every query
    stands for the same table and constraints as before. *)
Theorem C29_delete_undoes_create : forall E b x st p s d v cache st1 st2 s2 q z, reachable E b x st -> session st p s ->
  step E st (CreateView p d v cache) = (st1, Ok tt) -> step E st1 (DeleteView p v) = (st2, Ok tt) -> session st2 p s2 ->
  (stands_for E st2 s2 q z <-> stands_for E st s q z).
Proof.
  intros E b x st p s d v cache st1 st2 s2 q z RE S H1 H2 S2. pose proof (reachable_tables _ _ _ _ RE) as TA.
  assert (RE1 : reachable E b x st1) by (pose proof (reachable_step _ _ _ _ (CreateView p d v cache) RE) as X; rewrite H1 in X; exact X).
  destruct (C29_create_changes_nothing_else _ _ _ _ _ _ _ _ _ _ RE S H1) as (s1 & y & _ & S1 & PB1 & AB & _ & _ & OT1 & SL1 & _).
  destruct (C29_delete_changes_nothing_else _ _ _ _ _ _ _ _ RE1 S1 H2) as (s2' & S2' & PB2 & _ & AB2 & _ & OT2 & SL2 & _).
  rewrite (session_unique _ _ _ _ S2' S2) in *. clear s2' S2'.
  assert (RE2 : reachable E b x st2) by (pose proof (reachable_step _ _ _ _ (DeleteView p v) RE1) as X; rewrite H2 in X; exact X).
  pose proof (tk_layout s (TA p s S)) as L. pose proof (tk_layout s2 (reachable_tables _ _ _ _ RE2 p s2 S2)) as L2.
  assert (NM : forall n, dget n (named (s_tree s2)) = dget n (named (s_tree s))).
  { intros n. assert (T : table_named (s_tree s2) n = table_named (s_tree s) n).
    { destruct (String.string_dec n v) as [->|NE]; [congruence|]. destruct (OT1 n NE) as (A1 & _), (OT2 n NE) as (A2 & _). congruence. }
    rewrite (table_named_spec _ n L), (table_named_spec _ n L2) in T. destruct (dget n (named (s_tree s2))), (dget n (named (s_tree s))); congruence. }
  assert (CN : forall n, In n (dkeys (named (s_tree s))) -> dget n (s_cons s2) = dget n (s_cons s)).
  { intros n I. destruct (String.string_dec n v) as [->|NE].
    - apply in_dkeys in I as (t & G). rewrite (table_named_spec _ v L), G in AB. discriminate.
    - destruct (OT1 n NE) as (_ & A1), (OT2 n NE) as (_ & A2). congruence. }
  split; intros ST.
  - eapply (stands_ext E st2 st s2 s); [congruence|exact L2|exact L|rewrite SL2, SL1; reflexivity|intros n; symmetry; apply NM| |exact ST].
    intros n I. symmetry. apply CN. apply in_dkeys in I as (t & G). rewrite NM in G. apply in_dkeys. eauto.
  - eapply (stands_ext E st st2 s s2); [congruence|exact L|exact L2|rewrite SL2, SL1; reflexivity|exact NM|exact CN|exact ST].
Qed.
Print Assumptions C29_delete_undoes_create.

Lemma by_name_W0 : by_name (w_cond_ok (e_world E0)).
Proof. intros cond fs fs' _. reflexivity. Qed.
Lemma fine_x0 n t : dget n (named x0) = Some t -> fine_table t.
Proof.
  cbn. destruct (String.eqb n "people"); [intros [= <-]|destruct (String.eqb n "cities"); [intros [= <-]|discriminate]].
  - split; [repeat constructor; cbn; intuition discriminate|]. eexists. vm_compute. reflexivity.
  - split; [repeat constructor; cbn; intuition discriminate|]. eexists. vm_compute. reflexivity.
Qed.
Lemma well_built_run b l : valid b -> Forall proper l -> well_built E0 b x0 (run E0 (st0 b) l).
Proof. intros V P. exists (st0 b), l. split; [exact V|]. split; [exact layout_x0|]. split; [exact fine_x0|]. split; [reflexivity|]. split; [exact P|reflexivity]. Qed.

(** A view on a view, used in a query. *)
Definition kept : query := EnforceConstraint (PrivateSource "people") (MaxRowsPerID 1).
Definition kept2 : query := Select (PrivateSource "kept") ["id"; "grp"].
Example C29_case :
  let st := st0 (Pure (XFin 3)) in
  let l := [("kept", kept, true); ("kept2", kept2, false)] in
  let q := Rename (PrivateSource "kept2") [("grp", "g")] in
  well_built E0 (Pure (XFin 3)) x0 st /\ Forall (fun v => dicts (snd (fst v))) l /\ dicts q
  /\ (exists st' s' z, make_views E0 st [] l = Some st' /\ session st' [] s' /\ stands_for E0 st' s' q z
      /\ length (v_rows (fst z)) = 2 /\ snd z = [MaxRowsPerID 1]
      /\ exists st2 s2, step E0 st' (DeleteView [] "kept2") = (st2, Ok tt) /\ session st2 [] s2 /\ table_named (s_tree s2) "kept2" = Err KeyError
         /\ is_ok (table_named (s_tree s2) "kept") = true)
  /\ replace_views l q = Rename (Select (EnforceConstraint (PrivateSource "people") (MaxRowsPerID 1)) ["id"; "grp"]) [("grp", "g")].
Proof.
  cbv zeta. split; [apply (well_built_run _ []); [cbn; discriminate|constructor]|]. split; [repeat constructor|]. split; [repeat constructor; intros []|]. split; [|reflexivity].
  eexists. eexists. eexists. split; [vm_compute; reflexivity|]. split; [eexists; split; [vm_compute; reflexivity|reflexivity]|].
  split; [eexists; eexists; split; [vm_compute; reflexivity|split; vm_compute; reflexivity]|]. split; [reflexivity|]. split; [reflexivity|].
  eexists. eexists. split; [vm_compute; reflexivity|]. split; [eexists; split; [vm_compute; reflexivity|reflexivity]|]. split; reflexivity.
Qed.

(** ** C45: partitions *)

(** A successful partition of the table [t] by [col] returns one session per split, in
    order and under its name.  Its only private table has exactly the rows that have the
    split's value among those that are split: all rows of a table without privacy IDs; of a
    table with IDs, what is left after enforcing a constraint recorded for the table, which
    is on the number of values of [col] per ID if there is one and else on the rows per ID.
    The parts have the same columns; they keep the ID column exactly if the number of values
    per ID was limited; they start with no constraints, no charges and their whole budget. *)
Theorem C45_parts_of_a_partition : forall E b x st p s src want col splits st' l, reachable E b x st -> session st p s ->
  partition_and_create E st p src want col splits = (st', Ok l) ->
  exists t c, table_named (s_tree s) src = Ok t
    /\ NoDup (map snd splits) /\ length l = length splits
    /\ match id_column (v_place t), c with
       | None, None => True
       | Some _, Some c => exists cs, dget src (s_cons s) = Some cs /\ splitting_constraint col cs c
       | _, _ => False
       end
    /\ forall i name v, nth_error splits i = Some (name, v) -> exists q, nth_error l i = Some (name, q)
         /\ is_part st' t (match c with Some c => keeps_groups c | None => false end) col (truncated E t c) name v q.
Proof.
  intros E b x st p s src want col splits st' l RE S H. pose proof (reachable_tables _ _ _ _ RE) as TA.
  destruct (parts_spec E _ _ _ _ _ _ _ _ _ (reachable_ok _ _ _ _ RE) TA S H) as (t & c & G & R). exists t, c. split; [rewrite (table_named_spec _ src (tk_layout s (TA p s S))), G; reflexivity|exact R].
Qed.
Print Assumptions C45_parts_of_a_partition.
(** What is split is part of the table; rows without IDs are all split. *)
Theorem C45_only_rows_of_the_table : forall E t c, sub_table (truncated E t c) (v_rows t) /\ (id_column (v_place t) = None -> truncated E t c = v_rows t).
Proof.
  intros E t c. unfold truncated. destruct (id_column (v_place t)) as [i|].
  - split; [|discriminate]. destruct c as [c|]; [apply enforce_rows_sub|]. intros r. apply Nat.le_refl.
  - split; [|reflexivity]. intros r. apply Nat.le_refl.
Qed.
Print Assumptions C45_only_rows_of_the_table.
(** Parts are disjoint: a row is in the part of its own value only. *)
Theorem C45_parts_disjoint : forall col (rows : table) v v' r, In r (filter (has_value col v) rows) -> In r (filter (has_value col v') rows) -> v = v'.
Proof. intros col rows v v' r A B. apply filter_In in A as (_ & A), B as (_ & B). apply has_value_true in A, B. congruence. Qed.
Print Assumptions C45_parts_disjoint.
(** An ID is in at most as many parts as the constraint says, or has at most as many rows
    in all parts together as the constraint says. *)
Theorem C45_ids_in_few_parts : forall E t idc c col vs i, id_column (v_place t) = Some idc -> NoDup vs ->
  (forall m, c = MaxGroupsPerID col m -> (forall v, In v vs -> rows_of idc i (filter (has_value col v) (truncated E t (Some c))) <> []) -> length vs <= m)
  /\ (forall m, c = MaxRowsPerID m -> list_sum (map (fun v => length (rows_of idc i (filter (has_value col v) (truncated E t (Some c))))) vs) <= m).
Proof.
  intros E t idc c col vs i ID N. unfold truncated. rewrite ID. split; intros m ->.
  - intros H. eapply groups_bound; [apply enforce_rows_sat|exact N|exact H].
  - apply rows_bound; [apply enforce_rows_sat|exact N].
Qed.
Print Assumptions C45_ids_in_few_parts.
(** Parallel composition: adding or removing one ID changes at most as many parts as the
    constraint says; adding or removing one row of a table without IDs changes at most one. *)
Theorem C45_one_id_changes_few_parts : forall E t t' idc cs c col vs,
  v_place t = PKeys idc -> v_place t' = PKeys idc -> one_id_apart idc (v_rows t) (v_rows t') -> splitting_constraint col cs c -> NoDup vs ->
  exists changed, length changed <= (match c with MaxRowsPerID m | MaxGroupsPerID _ m | MaxRowsPerGroupPerID _ m => m end)
    /\ forall v, In v vs -> ~ In v changed ->
         same_table (filter (has_value col v) (truncated E t (Some c))) (filter (has_value col v) (truncated E t' (Some c))).
Proof.
  intros E t t' idc cs c col vs P P' AP SC N. unfold truncated. rewrite P, P'. cbn [id_column].
  destruct (few_parts_change (w_row_order (e_world E)) (w_key_order (e_world E)) idc c col _ _ vs AP N) as (ch & L & _ & _ & X).
  - destruct SC as (_ & SC). destruct c; auto.
  - exists ch. split; assumption.
Qed.
Print Assumptions C45_one_id_changes_few_parts.
Theorem C45_one_row_changes_one_part : forall E t t' r col c v, id_column (v_place t) = None -> id_column (v_place t') = None -> same_table (v_rows t') (r :: v_rows t) ->
  v <> getv col r -> same_table (filter (has_value col v) (truncated E t c)) (filter (has_value col v) (truncated E t' c)).
Proof.
  intros E t t' r col c v I I' S NE. unfold truncated. rewrite I, I'. apply (one_row_one_part col _ _ r [v] S v); [left; reflexivity|exact NE].
Qed.
Print Assumptions C45_one_row_changes_one_part.

(** Non-vacuity: by city without IDs, and by group with IDs and a constraint. *)
Definition by_city : state * res (list (string * path)) :=
  partition_and_create E0 (st0 (Pure (XFin 3))) [] "cities" (Pure (XFin 1)) "city" [("xs", VStr "x"); ("ys", VStr "y"); ("zs", VStr "z")].
Definition limited : state := run E0 (st0 (Pure (XFin 3))) [CreateView [] (EnforceConstraint (PrivateSource "people") (MaxGroupsPerID "grp" 2)) "limited" false].
Definition by_grp : state * res (list (string * path)) :=
  partition_and_create E0 limited [] "limited" (Pure (XFin 1)) "grp" [("xs", VStr "x"); ("ys", VStr "y")].
Definition part_rows (x : state * res (list (string * path))) (q : path) : option (list (string * (place * nat))) :=
  match session_at (fst x) q with Ok s => Some (map (fun t => (fst t, (v_place (snd t), length (v_rows (snd t))))) (named (s_tree s))) | Err _ => None end.
Example C45_case :
  snd by_city = Ok [("xs", [(0, 0)]); ("ys", [(0, 1)]); ("zs", [(0, 2)])]
  /\ map (part_rows by_city) [[(0, 0)]; [(0, 1)]; [(0, 2)]] = [Some [("xs", (PSym, 2))]; Some [("ys", (PSym, 1))]; Some [("zs", (PSym, 0))]]
  /\ is_ok (snd by_grp) = true
  /\ map (part_rows by_grp) [[(0, 0)]; [(0, 1)]] = [Some [("xs", (PKeys "id", 2))]; Some [("ys", (PKeys "id", 1))]]
  /\ snd (partition_and_create E0 (st0 (Pure (XFin 3))) [] "people" (Pure (XFin 1)) "grp" [("xs", VStr "x")]) = Err ValueError.
Proof. vm_compute. auto 10. Qed.
