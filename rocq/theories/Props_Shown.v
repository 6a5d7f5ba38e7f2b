(** Property C76: what a session does next depends only on what it shows. *)
From Coq Require Import String Bool Arith ZArith QArith Qcanon Lia Permutation List.
From Verif Require Import Prelude Budget BudgetScale Value Rows Constraints Schema SchemaProofs Query QuerySame Rewrite Transform TransformSpec TransformConform TransformVisit QueryProofs Tables TablesProofs
  Accountant AccountantProofs Session SessionSpec SessionMoney SessionSteps SessionTables SessionInv SessionUse SessionViews SessionWell SessionViewTotal SessionSound
  Neighboring NeighboringProofs Builder BuilderProofs BuilderTree BuilderBuild BuilderCalls BuilderSpec BuilderNeighbours BlindSpec Measure Footprint Props_Query Props_Session Props_Measure Props_Sound Props_Footprint Shown.
Import ListNotations.
Local Open Scope string_scope.
Local Open Scope nat_scope.

(** ** The same future *)

(** Two trees of sessions that show the same tables, constraints, budgets and states: all
    further calls have the same results, and the trees show the same afterwards.  Then every
    query has the same answer in both, and every partition makes its parts at the same places. *)
Theorem C76_same_future : forall E K auto so st st' calls,
  indifferent E K auto so -> any_state E st -> any_state E st' -> state_shows st st' -> Forall proper calls ->
  answers E st calls = answers E st' calls
  /\ state_shows (run E st calls) (run E st' calls)
  /\ (forall p c q, answer E K auto so (run E st calls) p c q = answer E K auto so (run E st' calls) p c q)
  /\ (forall p src b col splits, snd (partition_and_create E (run E st calls) p src b col splits) = snd (partition_and_create E (run E st' calls) p src b col splits)).
Proof.
  intros E K auto so st st' calls IN A A' H P. destruct (run_shown E K auto so IN calls st st' A A' H P) as (R & AN). split; [symmetry; exact AN|]. split; [exact R|].
  pose proof (any_state_run E st calls A P) as B. pose proof (any_state_run E st' calls A' P) as B'. split.
  - intros p c q. pose proof (tree_shows_find p _ _ (proj1 R)) as X. destruct (find p (st_root (run E st calls))) as [u|] eqn:F, (find p (st_root (run E st' calls))) as [u'|] eqn:F'; try contradiction.
    + eapply C69_sessions_agree; [exact B|exact B'|exists u; split; [exact F|reflexivity]|exists u'; split; [exact F'|reflexivity]|]. apply same_for; [apply tree_shows_data, X|apply R].
    + unfold answer, session_at. rewrite F, F'. reflexivity.
  - intros p src b col splits. symmetry. apply (partition_shown E); assumption.
Qed.
Print Assumptions C76_same_future.

(** ** Trees that show the same *)

Lemma tree_shows_refl : forall t, tree_shows t t.
Proof.
  apply acct_ind'. intros st s parts IH. constructor; [apply shows_refl|]. apply MoreBudget.forall2_refl. intros part I. apply MoreBudget.forall2_refl. intros c J. exact (IH part c I J).
Qed.
Lemma state_shows_refl st : state_shows st st.
Proof. split; [apply tree_shows_refl|reflexivity]. Qed.

(** The calls of a builder can be made in any order. *)
Lemma spaces_sources l2 (l : dict (sframe * change)) s : NoDup (dkeys l) -> In s (id_spaces (tree_of_sources l2 l)) <-> exists n f i, In (n, (f, AddRowsWithID i s)) l.
Proof.
  intros N. assert (NC : NoDup (map fst (changes l))) by (rewrite keys_changes; exact N). pose proof (relation_fold (changes l) NC) as (_ & _ & _ & R).
  unfold tree_of_sources, tree_of. cbn [id_spaces]. rewrite in_flat_map. transitivity (In s (dkeys (spaces_of (changes l)))).
  - split.
    + intros ((k, y) & I & J). apply in_map_iff in I as (r & EQ & I). pose proof (f_equal fst EQ) as Q. rewrite child_tree_id in Q. cbn in Q, J. subst k. unfold children_of in I. apply in_app_iff in I as [I|I].
      * apply in_flat_map in I as ((n, c) & _ & I). unfold row_relation in I. destruct c; cbn in I; try contradiction; destruct I as [<-|[]]; cbn in J; contradiction.
      * apply in_map_iff in I as ((s0, d) & <- & I). cbn in J. destruct J as [->|[]]. apply in_map_iff. exists (s, d). auto.
    + intros I. apply in_map_iff in I as ((s0, d) & Q & I). cbn in Q. subst s0. exists (child_tree l2 (frames l) (AddRemoveKeys s d 1)). split.
      * apply in_map, in_app_iff. right. apply in_map_iff. exists (s, d). auto.
      * rewrite child_tree_id. left. reflexivity.
  - rewrite R. split; [intros (n & c & I); apply in_changes in I as (f & I); eauto|intros (n & f & i & I); exists n, i; apply in_changes; eauto].
Qed.
Lemma nullable_perm l l' s : Permutation l l' -> space_nullable l s = space_nullable l' s.
Proof.
  intros P. unfold space_nullable. apply Bool.eq_iff_eq_true. rewrite !existsb_exists. split; intros (e & I & B); exists e; (split; [|exact B]); eapply Permutation_in; try exact I; [exact P|symmetry; exact P].
Qed.
Lemma perm_get {V} (d d' : dict V) n : NoDup (dkeys d) -> Permutation d d' -> dget n d = dget n d'.
Proof.
  intros N P. assert (N' : NoDup (dkeys d')) by (eapply Permutation_NoDup; [apply (Permutation_map fst P)|exact N]). destruct (dget n d) as [v|] eqn:G.
  - symmetry. apply In_dget; [exact N'|]. eapply Permutation_in; [exact P|apply dget_In, G].
  - symmetry. apply dget_None. apply dget_None in G. intros I. apply G. eapply Permutation_in; [symmetry; apply (Permutation_map fst P)|exact I].
Qed.
Theorem C76_built_in_any_order : forall E l l' o, ~ In Build l -> Permutation l l' -> build_by E l = Ok o ->
  exists o', build_by E l' = Ok o' /\ state_shows (o_state o) (o_state o') /\ any_state E (o_state o) /\ any_state E (o_state o').
Proof.
  intros E l l' o NB P H. assert (NB' : ~ In Build l') by (intros I; apply NB; eapply Permutation_in; [symmetry; exact P|exact I]).
  pose proof (proj1 (build_by_iff E l NB) (ex_intro _ o H)) as BU. pose proof (buildable_perm E l l' P BU) as BU'. destruct (proj2 (build_by_iff E l' NB') BU') as (o' & H'). exists o'. split; [exact H'|].
  split; [|split; [exists l, o, []|exists l', o', []]; auto].
  destruct (build_by_result E l o NB H) as (x & names & B & NN & IN & PS & ->). destruct (build_by_result E l' o' NB' H') as (x' & names' & B' & NN' & IN' & PS' & ->).
  pose proof (perm_flat_map (fun c => match c with WithBudget x => [x] | _ => [] end) _ _ P) as P1. fold (BuilderCalls.budgets l) (BuilderCalls.budgets l') in P1. rewrite B, B' in P1. apply Permutation_length_1 in P1. subst x'.
  pose proof (perm_flat_map (fun c => match c with WithPrivate n f p => [(n, (f, p))] | _ => [] end) _ _ P) as P2. fold (privates l) (privates l') in P2.
  pose proof (perm_flat_map (fun c => match c with WithPublic n f => [(n, f)] | _ => [] end) _ _ P) as P3. fold (publics l) (publics l') in P3.
  destruct (nodup_append_inv _ _ (by_names E l BU)) as (N1 & N2 & _). destruct (nodup_append_inv _ _ (by_names E l' BU')) as (N1' & _ & _). rewrite <- stored_keys in N1, N1'. rewrite <- stored_public_keys in N2.
  assert (P2' : Permutation (stored_private (privates l)) (stored_private (privates l'))) by (apply Permutation_map, P2).
  cbn [o_state]. split; cbn [start_state st_root st_public]; [|intros n; apply perm_get; [exact N2|apply Permutation_map, P3]].
  constructor; [|constructor]. pose proof (sources_layout (is_rho x) _ N1) as L. pose proof (sources_layout (is_rho x) _ N1') as L'. split; cbn; try reflexivity.
  - split.
    + apply (same_named _ _ L L'). intros n. rewrite (named_sources _ _ n N1), (named_sources _ _ n N1'), (perm_get _ _ n N1 P2'). destruct (dget n (stored_private (privates l'))) as [(f, c)|]; [|reflexivity]. cbn [option_map fst snd].
      unfold source_table. destruct c; try reflexivity. rewrite (nullable_perm _ _ _ P2'). reflexivity.
    + intros s. rewrite (spaces_sources _ _ s N1), (spaces_sources _ _ s N1'). split; intros (n & f & i & I); exists n, f, i; eapply Permutation_in; try exact I; [exact P2'|symmetry; exact P2'].
  - intros n. assert (X : forall ns : list string, NoDup ns -> dget n (dict_of (map (fun m => (m, [] : list constraint)) ns)) = if smem n ns then Some [] else None).
    { intros ns NS. rewrite dict_of_NoDup by (rewrite map_map, map_id; exact NS). clear. induction ns as [|m ns IH]; [reflexivity|]. cbn. destruct (String.eqb n m); [reflexivity|exact IH]. }
    rewrite !X by assumption. assert (Q : smem n names = smem n names'); [|rewrite Q; reflexivity]. apply Bool.eq_iff_eq_true. rewrite !smem_In, IN, IN'.
    split; intros I; eapply Permutation_in; try exact I; [apply (Permutation_map fst P2)|symmetry; apply (Permutation_map fst P2)].
Qed.
Print Assumptions C76_built_in_any_order.

(** Whether a view is cached makes no difference. *)
Theorem C76_caching_does_not_matter : forall E K auto so st p q v cache cache',
  indifferent E K auto so -> any_state E st ->
  snd (step E st (CreateView p q v cache)) = snd (step E st (CreateView p q v cache'))
  /\ state_shows (fst (step E st (CreateView p q v cache))) (fst (step E st (CreateView p q v cache'))).
Proof.
  intros E K auto so st p q v cache cache' IN A. destruct (view_shown E K auto so IN st st p q v cache cache' A A (state_shows_refl st)) as (X & Y). split; [symmetry; exact Y|exact X].
Qed.
Print Assumptions C76_caching_does_not_matter.

(** A view that was just created can be deleted, and then leaves no trace. *)
Lemma put_back p s' : forall t c, find p t = Some c -> shows (a_data c) s' -> tree_shows t (Accountant.change p (set_data s') t).
Proof.
  induction p as [|(k, i) p IH]; intros t c F S.
  - injection F as ->. destruct c as (a, s, l). cbn. constructor; [exact S|]. apply MoreBudget.forall2_refl. intros x _. apply MoreBudget.forall2_refl. intros y _. apply tree_shows_refl.
  - cbn [find] in F. destruct (nth_error (a_parts t) k) as [part|] eqn:N; [|discriminate]. destruct (nth_error part i) as [d|] eqn:M; [|discriminate]. cbn [Accountant.change]. destruct t as (a, s, l). cbn [a_state a_data a_parts] in *.
    constructor; [apply shows_refl|]. assert (U : forall {A} (R : A -> A -> Prop) (f : A -> A), (forall x, R x x) -> forall l n y, nth_error l n = Some y -> R y (f y) -> Forall2 R l (upd n f l)).
    { intros X R f RR. induction l0 as [|x0 l0 IHl]; intros [|n] y NE RY; try discriminate; cbn in *.
      - injection NE as ->. constructor; [exact RY|]. apply MoreBudget.forall2_refl. auto.
      - constructor; [apply RR|]. eapply IHl; eassumption. }
    assert (RF : forall x : list (acct sess), Forall2 tree_shows x x) by (intros x; apply MoreBudget.forall2_refl; intros y _; apply tree_shows_refl).
    eapply U; [exact RF|exact N|]. eapply U; [exact tree_shows_refl|exact M|]. eapply IH; eassumption.
Qed.
Lemma change_twice p (s1 s2 : sess) : forall t, Accountant.change p (set_data s2) (Accountant.change p (set_data s1) t) = Accountant.change p (set_data s2) t.
Proof.
  induction p as [|(k, i) p IH]; intros t; [reflexivity|]. cbn [Accountant.change a_state a_data a_parts]. f_equal.
  assert (U : forall {A} (f g h : A -> A), (forall x, f (g x) = h x) -> forall l n, upd n f (upd n g l) = upd n h l).
  { intros X f g h Q. induction l as [|x l IHl]; intros [|n]; cbn; try reflexivity; [rewrite Q; reflexivity|rewrite IHl; reflexivity]. }
  apply U. intros l. apply U. exact IH.
Qed.
Theorem C76_views_leave_no_trace : forall E st p q v cache st1,
  any_state E st -> state_at (st_root st) p ACTIVE -> step E st (CreateView p q v cache) = (st1, Ok tt) ->
  exists st2, step E st1 (DeleteView p v) = (st2, Ok tt) /\ state_shows st st2.
Proof.
  intros E st p q v cache st1 A SA H. pose proof (any_state_ok E st A) as O. pose proof (step_effect E _ _ _ _ O H) as EF. inversion EF as [| | | |p0 q0 name c0 s names cat data y x1 z z' x4 sx SE ID PS SM DM CA DA BT AT AR RN RN2 RD| |]; subst; clear EF; try (match goal with X : _ \/ _ |- _ => destruct X; discriminate end).
  destruct (any_state_facts E st A) as (TA & _ & _). pose proof (proj1 (session_at_iff _ _ _) SE) as S. pose proof (TA p s S) as T. pose proof (tk_layout _ T) as L.
  destruct RD as ((_ & PB & _) & _ & _ & AC). pose proof (proj1 (state_at_iff _ _ _) SA) as SA'. unfold activate in AC. rewrite SA' in AC. apply pair_equal_spec in AC as (RT & _).
  destruct S as (c & F & DC). destruct (view_tables E q v cache _ x1 cat data y z z' x4 names L PS SM DA _ BT AT AR RN RN2) as (LX & PX).
  pose proof (spaces_view _ _ _ _ _ _ _ _ _ _ _ _ _ BT AT AR RN RN2) as SX.
  assert (NI : ~ In v (dkeys (named (s_tree s)))) by (intros I; apply (mem_names _ names v L PS) in I; congruence).
  set (s1 := with_tables s x4 (dset v (snd y) (s_cons s))). cbn [step]. unfold delete_view. unfold session_at at 1. cbn [set_root st_root]. rewrite <- RT, find_change, F. cbn [option_map attempt]. cbn [set_data a_data].
  assert (ST : option_map a_state (find p (Accountant.change p (set_data s1) (st_root st))) = Some ACTIVE) by (rewrite find_change, F; cbn; rewrite F in SA'; cbn in SA'; injection SA' as ->; reflexivity).
  unfold activated. cbn [set_root st_root]. unfold activate. rewrite ST. cbn [s_tree s1 with_tables].
  assert (G : dget v (named x4) = Some (fst y)) by (rewrite (perm_dget _ _ v (layout_nodup _ LX) PX); cbn; rewrite String.eqb_refl; reflexivity). pose proof (dget_In _ _ _ G) as I.
  rewrite (find_reference_named _ v LX), G. cbn [option_map]. rewrite (layout_domain _ v _ LX I). cbn [attempt raise_if].
  assert (V : exists n u, dget n (named (s_tree s)) = Some u /\ v_coll (fst y) = v_coll u /\ placed (fst y)).
  { unfold build_transformation in BT. apply bind_ok in BT as (sc & _ & BT). apply bind_ok in BT as ((t, cs) & VI & BT). apply bind_ok in BT as (? & _ & BT). injection BT as <-. cbn [fst].
    destruct (visit_coll _ _ _ _ _ _ _ VI) as (n & u & GU & CU). destruct (data_of_spec _ L) as (d0 & D0 & DG). rewrite DA in D0. injection D0 as <-. exists n, u. rewrite <- DG. split; [exact GU|]. split; [exact CU|].
    eapply visit_placed; [|exact VI]. exact (data_placed _ _ L DA). }
  destruct V as (n & u & GU & CU & PT). assert (NV : n <> v) by (intros ->; apply NI, in_dkeys; eauto).
  destruct (rename_exists (v_coll (fst y)) (NamedTable v) (fst y) x4 (fresh x4) LX (layout_get x4 v _ LX I)) as (x5 & R5).
  { unfold has_collection. destruct (v_coll (fst y)) eqn:C; [|exact Logic.I]. exists v, (fst y). auto. }
  { apply unused_fresh. }
  { unfold placed in PT. intros NC. cbn. destruct (v_place (fst y)); try reflexivity; contradiction. }
  destruct (rename_layout _ _ _ _ _ _ LX (layout_get x4 v _ LX I) R5 (fresh_addable _ _ _ _)) as (L5 & P5 & _). cbn in P5.
  assert (S5 : id_spaces x5 = id_spaces x4) by (eapply spaces_rename; [exact R5|unfold fresh; discriminate]).
  change (collection_ref (v_coll (fst y)) ++ [NamedTable v])%list with (table_ref v (fst y)) in R5. rewrite R5. cbn [attempt].
  assert (I5 : In (v, fst y) (named x5)) by (eapply Permutation_in; [symmetry; exact P5|exact I]).
  assert (CR : crowded v (fst y) x5).
  { left. exists n, u. split; [exact NV|]. split; [|congruence]. rewrite (perm_dget _ _ n (layout_nodup _ L5) P5), (perm_dget _ _ n (layout_nodup _ LX) PX). cbn. apply String.eqb_neq in NV. rewrite NV. exact GU. }
  destruct (delete_cases (e_empty_ok E) (e_shuffle E) x5 v (fst y) (e_shuffle_ok E) L5 I5) as (Y & _).
  destruct Y as (x6 & D6 & S6); [destruct (e_empty_ok E); auto|]. rewrite D6. cbn [attempt]. destruct (delete_layout _ _ _ _ _ _ (e_shuffle_ok E) L5 I5 D6) as (L6 & P6).
  eexists. split; [reflexivity|]. split; cbn [set_root st_root st_public]; [|rewrite PB; reflexivity]. rewrite change_twice. eapply put_back; [exact F|]. rewrite DC.
  assert (P06 : Permutation (named (s_tree s)) (named x6)).
  { apply (Permutation_cons_inv (a := (v, fst y))). etransitivity; [symmetry; exact PX|]. etransitivity; [symmetry; exact P5|exact P6]. }
  split; cbn; try reflexivity.
  - split; [|intros k; rewrite S6, S5, SX; reflexivity]. apply (same_named _ _ L L6). intros m. apply perm_dget; [apply layout_nodup, L|exact P06].
  - intros m. destruct (string_dec m v) as [->|NE].
    + assert (X : dget v (s_cons s) = None) by (apply dget_None; intros J; apply NI, (tk_names _ T), J). rewrite X. symmetry. apply dget_None. intros J. apply (ddel_spec v) in J as (J & _); [congruence|]. apply dset_keys, (tk_nodup _ T).
    + transitivity (dget m (ddel v (dset v (snd y) (s_cons s)))); [|reflexivity]. rewrite SessionSound.dget_ddel_other, dget_dset_other by congruence. reflexivity.
Qed.
Print Assumptions C76_views_leave_no_trace.

(** ** A case *)

(** Two sessions whose tables were added in opposite orders: their trees of tables differ, but
    they show the same, before and after calls of every kind. *)
Definition two_tables : list bcall := WithPrivate "stays" trips (AddRowsWithID "id" "people") :: trips_calls'.
Definition begun (l : list bcall) : state := match build_by E1 l with Ok o => o_state o | Err _ => st0 (Pure (XFin 0)) end.
Lemma indifferent_E1 : indifferent E1 K0 true idl.
Proof. split; [intros cat x q b; reflexivity|reflexivity|]. intros x q _. exists x. reflexivity. Qed.
Definition later : list op := (first_calls ++ other_calls ++ [Stop [(0, 0)]; DeleteView [] "few"; Evaluate [] (by_city (coded "few")) (Zcdp (XFin 1))])%list.
Example C76_case :
  indifferent E1 K0 true idl /\ any_state E1 (begun two_tables) /\ any_state E1 (begun (rev two_tables)) /\ state_shows (begun two_tables) (begun (rev two_tables)) /\ Forall proper later
  /\ a_data (st_root (begun two_tables)) <> a_data (st_root (begun (rev two_tables)))
  /\ a_data (st_root (run E1 (begun two_tables) later)) <> a_data (st_root (run E1 (begun (rev two_tables)) later))
  /\ In (Ok tt) (answers E1 (begun two_tables) later) /\ In (Err KeyError) (answers E1 (begun two_tables) later).
Proof.
  assert (NB : ~ In Build two_tables) by (cbn; intuition discriminate). assert (B : exists o, build_by E1 two_tables = Ok o) by (eexists; vm_compute; reflexivity). destruct B as (o & B).
  destruct (C76_built_in_any_order E1 two_tables (rev two_tables) o NB (Permutation_rev _) B) as (o' & B' & S & A & A').
  assert (Q : (begun two_tables) = o_state o) by (unfold begun; rewrite B; reflexivity). assert (Q' : (begun (rev two_tables)) = o_state o') by (unfold begun; rewrite B'; reflexivity).
  split; [apply indifferent_E1|]. rewrite <- Q in A, S. rewrite <- Q' in A', S. split; [exact A|]. split; [exact A'|]. split; [exact S|]. split; [repeat constructor; discriminate|].
  split; [intros H; apply (f_equal (fun s => private_sources (s_tree s))) in H; vm_compute in H; discriminate|].
  split; [intros H; apply (f_equal (fun s => private_sources (s_tree s))) in H; vm_compute in H; discriminate|].
  split; vm_compute; tauto.
Qed.
(** A view that is created, cached, and deleted again. *)
Example C76_views_case : exists st1,
  state_at (st_root (run E1 started first_calls)) [] ACTIVE
  /\ step E1 (run E1 started first_calls) (CreateView [] (coded "few") "coded" true) = (st1, Ok tt)
  /\ state_shows (run E1 started first_calls) (run E1 st1 [DeleteView [] "coded"])
  /\ ~ state_shows (run E1 started first_calls) st1.
Proof.
  assert (A : any_state E1 (run E1 started first_calls)) by (apply started_any; repeat constructor). assert (SA : state_at (st_root (run E1 started first_calls)) [] ACTIVE) by (eexists; split; vm_compute; reflexivity).
  assert (S : snd (step E1 (run E1 started first_calls) (CreateView [] (coded "few") "coded" true)) = Ok tt) by (vm_compute; reflexivity).
  assert (N : dget "coded" (s_cons (a_data (st_root (fst (step E1 (run E1 started first_calls) (CreateView [] (coded "few") "coded" true)))))) <> None) by (vm_compute; discriminate).
  destruct (step E1 _ (CreateView _ _ _ _)) as (st1, r) eqn:H. cbn [snd fst] in S, N. subst r. exists st1. split; [exact SA|]. split; [reflexivity|].
  destruct (C76_views_leave_no_trace E1 _ [] (coded "few") "coded" true st1 A SA H) as (st2 & D & SH). split.
  - cbn [run]. rewrite D. exact SH.
  - intros (T & _). apply N. rewrite <- (sh_cons _ _ (tree_shows_data _ _ T)). vm_compute. reflexivity.
Qed.
