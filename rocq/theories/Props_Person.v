(** Property C52: what the rows of some people can change in a tree of sessions. *)
From Coq Require Import String Bool Arith ZArith QArith Qcanon Lia Permutation List.
From Verif Require Import Prelude Budget Value Rows Constraints Schema SchemaProofs Query Transform TransformSpec Tables TablesProofs
  TransformConform Accountant AccountantProofs Session SessionSpec SessionMoney SessionSteps SessionTables SessionInv SessionWell SessionSound
  Neighboring NeighboringProofs Builder BuilderCalls BuilderNeighbours
  BlindSpec Blind BlindSession BlindBuilder PersonSpec PersonSession PersonStart Props_Query Props_Session Props_Measure Props_Sound.
Import ListNotations.
Local Open Scope string_scope.
Local Open Scope nat_scope.

(** Two sessions built by the same calls over datasets that differ only in the rows of IDs
    outside [keep], in tables of the ID space [k]; then the same history of calls on both.
    View definitions and frames are what users promise them to be. *)
Record two_histories (E : env) (k : string) (keep : value -> bool) (l l' : list bcall) (h : list op) (st st' : state) : Prop := {
  th_blind : blind E;
  th_calls : ~ In Build l /\ ~ In Build l' /\ Forall2 (same_call_for k keep) l l';
  th_frames : forall n f c, In (n, (f, c)) (privates l) \/ In (n, (f, c)) (privates l') -> frame_conforms f;
  th_publics : forall n f, In (n, f) (publics l) \/ In (n, f) (publics l') -> frame_conforms f;
  th_runs : exists o o', build_by E l = Ok o /\ build_by E l' = Ok o' /\ honest E true (o_state o) h /\ honest E true (o_state o') h
     /\ st = run E (o_state o) h /\ st' = run E (o_state o') h
}.
Lemma histories_follow E k keep l l' h st st' : two_histories E k keep l l' h st st' -> follows k keep st st' /\ same_but_rows st st'.
Proof.
  intros [BL (NB & NB' & F) FC FP (o & o' & B & B' & H & H' & -> & ->)].
  destruct (start_sound E true l o NB B) as (O1 & T1 & F1 & _ & S1). destruct S1 as (A1 & P1); [intros n f c I; apply (FC n f c); left; exact I|intros n f I; apply (FP n f); left; exact I|].
  destruct (start_sound E true l' o' NB' B') as (O2 & T2 & F2 & _ & S2). destruct S2 as (A2 & P2); [intros n f c I; apply (FC n f c); right; exact I|intros n f I; apply (FP n f); right; exact I|].
  pose proof (calls_same E k keep l l' o o' NB NB' F B B') as SB. split.
  - apply run_follows; try assumption; [constructor; assumption|constructor; assumption|].
    apply (start_follows E k keep l l'); try assumption; intros n f c I; apply (FC n f c); [left|right]; exact I.
  - unfold same_but_rows. rewrite <- !run_hide by exact BL. unfold same_but_rows in SB. now rewrite SB.
Qed.

(** In every session of the tree, whatever was called, a table of the ID space has the same
    rows for all the people whose data did not change, in the same order. *)
Theorem C52_other_people_unaffected : forall E k keep l l' h st st' p s s' n t t' i,
  two_histories E k keep l l' h st st' -> session st p s -> session st' p s' ->
  dget n (named (s_tree s)) = Some t -> dget n (named (s_tree s')) = Some t' ->
  v_coll t = Some k -> v_place t = PKeys i ->
  v_coll t' = Some k /\ v_place t' = PKeys i /\ v_dom t' = v_dom t
  /\ filter (fun r => keep (getv i r)) (v_rows t) = filter (fun r => keep (getv i r)) (v_rows t').
Proof.
  intros E k keep l l' h st st' p s s' n t t' i TH S S' G G' C P. destruct (histories_follow _ _ _ _ _ _ _ _ TH) as (FW & SB).
  pose proof (pair_hide st st' p s s' SB S S') as HS. pose proof (hide_get _ _ n (f_equal s_tree HS)) as HG. rewrite G, G' in HG. cbn in HG. assert (HT : hide t = hide t') by congruence.
  assert (C' : v_coll t' = Some k) by (rewrite <- C; symmetry; exact (f_equal v_coll HT)). assert (P' : v_place t' = PKeys i) by (rewrite <- P; symmetry; exact (f_equal v_place HT)).
  split; [exact C'|]. split; [exact P'|]. split; [symmetry; exact (f_equal v_dom HT)|].
  destruct (FW p s s' S S') as [LK|(_ & WO)]; [|exfalso; exact (WO n t G C)].
  specialize (LK n). rewrite G, G' in LK. cbn in LK. assert (RT : restrict (Some k) keep t = restrict (Some k) keep t') by congruence. apply (f_equal v_rows) in RT.
  unfold restrict in RT. rewrite P, P', C, C' in RT. cbn in RT. rewrite String.eqb_refl in RT. exact RT.
Qed.
Print Assumptions C52_other_people_unaffected.

(** Tables outside the ID space are not changed at all, in the session that was built and in
    every session that still has a table of the ID space. *)
Theorem C52_other_tables_unaffected : forall E k keep l l' h st st' p s s' n t t',
  two_histories E k keep l l' h st st' -> session st p s -> session st' p s' ->
  p = [] \/ (exists m u, dget m (named (s_tree s)) = Some u /\ v_coll u = Some k) ->
  dget n (named (s_tree s)) = Some t -> dget n (named (s_tree s')) = Some t' -> v_coll t <> Some k -> t = t'.
Proof.
  intros E k keep l l' h st st' p s s' n t t' TH S S' Q G G' C. destruct (histories_follow _ _ _ _ _ _ _ _ TH) as (FW & _).
  destruct (FW p s s' S S') as [LK|(NP & WO)].
  - specialize (LK n). rewrite G, G' in LK. cbn in LK. apply (R_other k keep t t' C). congruence.
  - destruct Q as [Q|(m & u & GU & CU)]; [contradiction|]. exfalso. exact (WO m u GU CU).
Qed.
Print Assumptions C52_other_tables_unaffected.

(** Both histories give the same answers and leave the same tables, columns, constraints,
    budgets and public tables. *)
Theorem C52_same_sessions : forall E k keep l l' h st st', two_histories E k keep l l' h st st' ->
  same_but_rows st st' /\ (forall p, (exists s, session st p s) <-> (exists s', session st' p s'))
  /\ forall p s s', session st p s -> session st' p s' -> s_left s = s_left s' /\ s_log s = s_log s' /\ s_cons s = s_cons s'
       /\ forall n, (exists t, dget n (named (s_tree s)) = Some t) <-> (exists t', dget n (named (s_tree s')) = Some t').
Proof.
  intros E k keep l l' h st st' TH. destruct (histories_follow _ _ _ _ _ _ _ _ TH) as (_ & SB). split; [exact SB|]. split.
  - assert (X : forall a b p, same_but_rows a b -> (exists s, session a p s) -> exists s', session b p s').
    { clear. intros a b p SB (s & S). apply session_at_iff in S. pose proof (session_hide a p) as H1. pose proof (session_hide b p) as H2. rewrite SB, H2, S in H1. destruct (session_at b p) as [s'|] eqn:SA; [|discriminate].
      exists s'. apply session_at_iff. exact SA. }
    intros p. split; apply X; [exact SB|symmetry; exact SB].
  - intros p s s' S S'. pose proof (pair_hide st st' p s s' SB S S') as HS. split; [exact (f_equal s_left HS)|]. split; [exact (f_equal s_log HS)|]. split; [exact (f_equal s_cons HS)|].
    intros n. pose proof (hide_get _ _ n (f_equal s_tree HS)) as HG. destruct (dget n (named (s_tree s))), (dget n (named (s_tree s'))); try discriminate; split; intros (t & T); try discriminate; eauto.
Qed.
Print Assumptions C52_same_sessions.

(** Non-vacuity: person 1 has other rows in the second dataset; two views and a partition. *)
Definition trips3 : sframe := {| sd_fields := sd_fields trips;
  sd_rows := [[VInt 1; VStr "b"; VFloat (z_to_f 9)]; [VInt 2; VStr "b"; VFloat FPInf]; [VNull; VStr "a"; VNull]] |}.
Lemma trips3_conform : frame_conforms trips3.
Proof. eapply frame_check; [repeat constructor; cbn; intuition discriminate|reflexivity|vm_compute; reflexivity]. Qed.
Definition trips_calls3 : list bcall :=
  [WithIdSpace "people"; WithBudget (Zcdp (XFin 4)); WithPrivate "trips" trips3 (AddRowsWithID "id" "people"); WithPublic "codes" codes;
   WithPrivate "log" codes (AddMaxRowsInMaxGroups "city" 1 2)].
Definition not1 (v : value) : bool := negb (value_eqb v (VInt 1)).
Lemma E0_blind : blind E0. Proof. constructor; reflexivity. Qed.
Definition trips_state3 : state := match build_by E0 trips_calls3 with Ok o => o_state o | Err _ => trips_state end.
Example C52_case : two_histories E0 "people" not1 trips_calls' trips_calls3 trips_plan (run E0 trips_state trips_plan) (run E0 trips_state3 trips_plan)
  /\ exists s s' t t', session (run E0 trips_state trips_plan) [] s /\ session (run E0 trips_state3 trips_plan) [] s'
       /\ dget "few" (named (s_tree s)) = Some t /\ dget "few" (named (s_tree s')) = Some t' /\ v_coll t = Some "people" /\ v_place t = PKeys "id"
       /\ length (v_rows t) = 4 /\ length (v_rows t') = 3 /\ length (filter (fun r => not1 (getv "id" r)) (v_rows t)) = 2.
Proof.
  split.
  - assert (B : exists o, build_by E0 trips_calls' = Ok o) by (eexists; vm_compute; reflexivity). destruct B as (o & B).
    assert (B' : exists o, build_by E0 trips_calls3 = Ok o) by (eexists; vm_compute; reflexivity). destruct B' as (o' & B'). constructor.
    + exact E0_blind.
    + split; [cbn; intuition discriminate|]. split; [cbn; intuition discriminate|]. repeat constructor.
    + intros n f c [H|H]; cbn in H; destruct H as [H|[H|[]]]; injection H as <- <- <-; first [apply trips_conform|apply codes_conform|apply trips3_conform].
    + intros n f [H|H]; cbn in H; destruct H as [H|[]]; injection H as <- <-; apply codes_conform.
    + exists o, o'. split; [exact B|]. split; [exact B'|]. split; [|split; [|split]].
      * unfold trips_plan. cbn [honest honest_op]. split; [source_views|]. split; [apply codes_conform|]. split; [source_views|]. split; [exact I|]. split; [source_views|exact I].
      * unfold trips_plan. cbn [honest honest_op]. split; [source_views|]. split; [apply codes_conform|]. split; [source_views|]. split; [exact I|]. split; [source_views|exact I].
      * unfold trips_state. rewrite B. reflexivity.
      * unfold trips_state3. rewrite B'. reflexivity.
  - eexists _, _, _, _. split; [eexists; split; [vm_compute; reflexivity|reflexivity]|]. split; [eexists; split; [vm_compute; reflexivity|reflexivity]|].
    split; [vm_compute; reflexivity|]. split; [vm_compute; reflexivity|]. vm_compute. repeat split; reflexivity.
Qed.
