(** Which sessions can be used, over all histories. *)
From Coq Require Import String Bool Arith ZArith QArith Lia Permutation List.
From Verif Require Import Prelude Budget BudgetProofs Value Rows Constraints Schema SchemaProofs Query Transform TransformVisit Tables TablesProofs
  Accountant AccountantProofs Session SessionSpec SessionMoney SessionSteps SessionTables SessionInv.
Import ListNotations.
Local Open Scope string_scope.
Local Open Scope nat_scope.

Section Use.
Variable E : env.

Lemma set_data_states (s' : sess) p t q : option_map a_state (find q (change p (set_data s') t)) = option_map a_state (find q t).
Proof.
  destruct (path_cases p q) as [->|[(r & NR & ->)|NB]].
  - rewrite find_change. destruct (find p t) as [[? ? ?]|]; reflexivity.
  - rewrite find_change_below, find_app. destruct (find p t) as [c|]; [|reflexivity]. destruct r as [|(k, i) r]; [now destruct NR|]. reflexivity.
  - pose proof (find_change_other (set_data s') p q t NB) as F. destruct (find q (change p (set_data s') t)), (find q t); cbn in *; congruence.
Qed.
Lemma state_at_iff (t : acct sess) p a : state_at t p a <-> option_map a_state (find p t) = Some a.
Proof.
  unfold state_at. split.
  - intros (c & -> & <-). reflexivity.
  - destruct (find p t) as [c|]; [|discriminate]. intros [= <-]. eauto.
Qed.
Lemma set_data_state_at (s' : sess) p t q a : state_at (change p (set_data s') t) q a <-> state_at t q a.
Proof. rewrite !state_at_iff, set_data_states. reflexivity. Qed.
Lemma split_state_at (s' : sess) l p t c q a : find p t = Some c -> state_at t q a -> q <> p -> state_at (change p (split_at s' l) t) q a.
Proof.
  intros F ST NE. apply state_at_iff in ST. apply state_at_iff. destruct (path_cases p q) as [->|[(r & NR & ->)|NB]]; [congruence| |].
  - rewrite find_change_below, F. rewrite find_app, F in ST. destruct r as [|(k, i) r]; [now destruct NR|]. rewrite find_step in *. cbn [split_at a_parts].
    destruct (Nat.lt_ge_cases k (length (a_parts c))) as [LT|GE].
    + rewrite nth_error_app1 by exact LT. exact ST.
    + rewrite (proj2 (nth_error_None _ _) GE) in ST. discriminate.
  - pose proof (find_change_other (split_at s' l) p q t NB) as FO. destruct (find q (change p (split_at s' l) t)), (find q t); cbn in *; congruence.
Qed.
Lemma keeps_retired t t' q : keeps t t' -> state_at t q RETIRED -> @state_at sess t' q RETIRED.
Proof. intros K. apply K. Qed.
Lemma ready_keeps st st1 p : ready st st1 p -> keeps (st_root st) (st_root st1). Proof. intros H. apply H. Qed.
Lemma keeps_data t t' q (s : sess) : keeps t t' -> data_at t q s -> data_at t' q s.
Proof.
  intros K (c & F & D). destruct (K q) as (X & _). rewrite F in X. destruct (find q t') as [c'|] eqn:F'; [|discriminate]. injection X as X. exists c'. split; [exact F'|congruence].
Qed.
Lemma not_active_retired (t : acct sess) p q : state_at t p ACTIVE -> state_at t q RETIRED -> q <> p.
Proof. intros A R ->. apply state_at_iff in A, R. congruence. Qed.
Lemma data_set_other (s' s : sess) p t q : q <> p -> data_at t q s -> data_at (change p (set_data s') t) q s.
Proof.
  intros NE (c & F & D). destruct (path_cases p q) as [->|[(r & NR & ->)|NB]]; [congruence| |].
  - exists c. split; [|exact D]. rewrite find_change_below. rewrite find_app in F. destruct (find p t) as [c0|]; [|discriminate]. destruct r as [|(k, i) r]; [now destruct NR|]. exact F.
  - pose proof (find_change_other (set_data s') p q t NB) as FO. rewrite F in FO. destruct (find q (change p (set_data s') t)) as [c'|] eqn:F'; [|discriminate].
    injection FO as _ FO. exists c'. split; [exact F'|congruence].
Qed.
Lemma data_split_other (s' s : sess) l p t q : q <> p -> data_at t q s -> data_at (change p (split_at s' l) t) q s.
Proof.
  intros NE (c & F & D). destruct (path_cases p q) as [->|[(r & NR & ->)|NB]]; [congruence| |].
  - exists c. split; [|exact D]. rewrite find_change_below. rewrite find_app in F. destruct (find p t) as [c0|]; [|discriminate]. destruct r as [|(k, i) r]; [now destruct NR|].
    rewrite find_step in *. cbn [split_at a_parts]. destruct (Nat.lt_ge_cases k (length (a_parts c0))) as [LT|GE].
    + rewrite nth_error_app1 by exact LT. exact F.
    + rewrite (proj2 (nth_error_None _ _) GE) in F. discriminate.
  - pose proof (find_change_other (split_at s' l) p q t NB) as FO. rewrite F in FO. destruct (find q (change p (split_at s' l) t)) as [c'|] eqn:F'; [|discriminate].
    injection FO as _ FO. exists c'. split; [exact F'|congruence].
Qed.
(** A retired session stays as it is. *)
Lemma effect_retired st o st' r q : effect E st o st' r -> state_at (st_root st) q RETIRED ->
  state_at (st_root st') q RETIRED /\ forall s, session st q s -> session st' q s.
Proof.
  intros H R. destruct H as [o st' e Q|p st' r Q _|p q0 b s adj rest st1 o K S C SP RE RD|p n f f' s names S I PS D M CS
    |p q0 n c s names cat data y x1 z z' x4 st1 S I PS M D CA DA BT AT AR RN RN2 RD|p n s r cols x1 x2 st1 S F L RN DT RD
    |p src b col sp s b1 adj y rest space r st1 S LP V I PB CP SP RD G]; unfold session; cbn [st_root set_root].
  - split; [eapply keeps_retired; [apply Q|exact R]|]. intros s X. eapply keeps_data; [apply Q|exact X].
  - split; [eapply keeps_retired; [apply Q|exact R]|]. intros s X. eapply keeps_data; [apply Q|exact X].
  - pose proof (keeps_retired _ _ q (ready_keeps _ _ _ RD) R) as R1. assert (NE : q <> p) by (eapply not_active_retired; [apply RD|exact R1]).
    split; [apply set_data_state_at, R1|]. intros s0 X. apply data_set_other; [exact NE|]. eapply keeps_data; [apply RD|exact X].
  - auto.
  - pose proof (keeps_retired _ _ q (ready_keeps _ _ _ RD) R) as R1. assert (NE : q <> p) by (eapply not_active_retired; [apply RD|exact R1]).
    split; [apply set_data_state_at, R1|]. intros s0 X. apply data_set_other; [exact NE|]. eapply keeps_data; [apply RD|exact X].
  - pose proof (keeps_retired _ _ q (ready_keeps _ _ _ RD) R) as R1. assert (NE : q <> p) by (eapply not_active_retired; [apply RD|exact R1]).
    split; [apply set_data_state_at, R1|]. intros s0 X. apply data_set_other; [exact NE|]. eapply keeps_data; [apply RD|exact X].
  - pose proof (keeps_retired _ _ q (ready_keeps _ _ _ RD) R) as R1. assert (NE : q <> p) by (eapply not_active_retired; [apply RD|exact R1]).
    destruct (ready_session _ _ _ _ S RD) as (c0 & F0 & _). split; [eapply split_state_at; eassumption|]. intros s0 X. apply data_split_other; [exact NE|]. eapply keeps_data; [apply RD|exact X].
Qed.
Lemma run_retired l : forall st q, ok (st_root st) -> state_at (st_root st) q RETIRED ->
  state_at (st_root (run E st l)) q RETIRED /\ forall s, session st q s -> session (run E st l) q s.
Proof.
  induction l as [|o l IH]; intros st q O R; [auto|]. cbn. destruct (step E st o) as (st', r) eqn:H. cbn [fst]. apply step_effect in H; [|exact O].
  destruct (effect_retired _ _ _ _ q H R) as (R' & D'). destruct (IH st' q (effect_ok _ _ _ _ _ O H) R') as (R2 & D2). split; [exact R2|auto].
Qed.
(** An operation that needs the session fails on a retired one. *)
Definition needs_session (o : op) : bool := match o with AddPublic _ _ _ | Stop _ => false | _ => true end.
Lemma activate_retired p (t : acct sess) : state_at t p RETIRED -> activate p t = (t, Err RuntimeError).
Proof. intros R. apply state_at_iff in R. unfold activate. now rewrite R. Qed.
Lemma retired_refuses st o : needs_session o = true -> state_at (st_root st) (target o) RETIRED ->
  exists e, step E st o = (st, Err e).
Proof.
  assert (X : forall A p (k : state -> state * res A), state_at (st_root st) p RETIRED -> activated p st k = (st, Err RuntimeError)).
  { intros A p k R. unfold activated. rewrite (activate_retired p _ R), set_root_id. reflexivity. }
  intros N R. destruct o as [p q b|p q b|p n f|p q n c|p n|p src b col sp|p]; try discriminate N; cbn [step target] in *.
  - unfold evaluate, attempt, fails. destruct (session_at st p) as [s|]; [|eauto]. destruct (compile_and_get_info E s (st_public st) q b) as [adj|]; [|eauto]. rewrite (X _ p _ R). eauto.
  - unfold spend_without_executing, attempt, fails. destruct (session_at st p) as [s|]; [|eauto]. destruct (compile_and_get_info E s (st_public st) q b) as [adj|]; [|eauto]. rewrite (X _ p _ R). eauto.
  - unfold create_view. unfold attempt at 1. destruct (session_at st p) as [s|]; [|unfold fails; eauto]. unfold attempt at 1. destruct (raise_if _ _); [|unfold fails; eauto]. rewrite (X _ p _ R). eauto.
  - unfold delete_view. unfold attempt at 1. destruct (session_at st p) as [s|]; [|unfold fails; eauto]. rewrite (X _ p _ R). eauto.
  - unfold partition_and_create, attempt, fails. destruct (session_at st p) as [s|]; [|cbn; eauto].
    destruct (lift_pure E (s_left s) b) as [b1|]; [|cbn; eauto]. destruct (validate_type (s_left s) b1); [|cbn; eauto]. destruct (raise_if _ _); [|cbn; eauto].
    destruct (process_budget E (s_left s) b1) as [adj|]; [|cbn; eauto]. destruct (create_partition_transformation E s (st_public st) src col sp) as [y|]; [|cbn; eauto].
    rewrite (X _ p _ R). cbn. eauto.
Qed.
(** After a successful operation the session is the active one, after a partition the
    first part is. *)
Definition makes_parts (o : op) : bool := match o with Partition _ _ _ _ _ => true | _ => false end.
Lemma effect_active st o st' : all_sessions tables_ok st -> effect E st o st' (Ok tt) -> needs_session o = true -> makes_parts o = false -> state_at (st_root st') (target o) ACTIVE.
Proof.
  intros TK H N M. inversion H as [|p st1 r Q EQ|p q0 b s adj rest st1 o0 K S C SP RE RD|
    |p q0 n c s names cat data y x1 z z' x4 st1 S I PS M0 D CA DA BT AT AR RN RN2 RD|p n s r cols x1 x2 st1 S F L RN DT RD
    |p src b col sp s b1 adj y rest space r st1 S LP V I PB CP SP RD G]; subst; try discriminate N; try discriminate M; cbn [st_root set_root].
  - destruct K as [-> | ->]; cbn [target]; apply set_data_state_at, RD.
  - apply set_data_state_at, RD.
  - apply set_data_state_at, RD.
Qed.
(** Returned places. *)
Lemma partition_places st p src b col sp st' l : ok (st_root st) -> all_sessions tables_ok st -> partition_and_create E st p src b col sp = (st', Ok l) ->
  exists n, l = combine (dkeys sp) (map (fun i => (p ++ [(n, i)])%list) (seq 0 (length sp)))
    /\ sp <> [] /\ state_at (st_root st') (p ++ [(n, 0)])%list ACTIVE /\ live (st_root st')
    /\ forall i name v, nth_error sp i = Some (name, v) -> exists s, session st' (p ++ [(n, i)])%list s.
Proof.
  intros O TK P. unfold partition_and_create in P.
  apply attempt_inv in P as [(e & _ & _ & ?)|(s & S1 & P)]; [discriminate|].
  apply attempt_inv in P as [(e & _ & _ & ?)|(b1 & S2 & P)]; [discriminate|].
  apply attempt_inv in P as [(e & _ & _ & ?)|([] & S3 & P)]; [discriminate|].
  apply attempt_inv in P as [(e & _ & _ & ?)|([] & S4 & P)]; [discriminate|].
  apply attempt_inv in P as [(e & _ & _ & ?)|(adj & S5 & P)]; [discriminate|].
  apply attempt_inv in P as [(e & _ & _ & ?)|(y & S6 & P)]; [discriminate|].
  apply activated_inv in P as [(e & _ & ? & _)|(st1 & RD & P)]; [discriminate| |exact O].
  destruct (spend (s_left s) adj) as [rest|] eqn:SP; [|discriminate]. destruct (ready_session _ _ _ _ S1 RD) as (c & F & D & A). rewrite F in P.
  destruct (get_id_space (s_tree s) (st_public st1) src) as [space|e] eqn:G; [|discriminate]. injection P as <- <-.
  destruct (parts_nonempty E s (st_public st) src col sp y S6) as (NE & LY).
  assert (NS : sp <> []) by (intros ->; apply NE; reflexivity).
  assert (LC : length (combine (dkeys sp) (snd y)) = length sp) by (unfold dkeys; rewrite combine_length, map_length, LY; lia).
  exists (length (a_parts c)). rewrite map_length, LC. split; [reflexivity|]. split; [exact NS|]. cbn [st_root set_root].
  assert (FP : forall i, find (p ++ [(length (a_parts c), i)])%list (change p (split_at (charged s rest (Split adj))
    (map (fun x => part_session adj space (fst y) (fst x) (snd x)) (combine (dkeys sp) (snd y)))) (st_root st1))
    = nth_error (new_parts (map (fun x => part_session adj space (fst y) (fst x) (snd x)) (combine (dkeys sp) (snd y)))) i).
  { intros i. rewrite find_change_below, F. cbn [find split_at a_parts]. rewrite nth_mid. destruct (nth_error _ i); reflexivity. }
  split; [|split].
  - destruct (combine (dkeys sp) (snd y)) as [|x l] eqn:CB; [now destruct NE|]. exists (Acct ACTIVE (part_session adj space (fst y) (fst x) (snd x)) []). split; [rewrite FP; reflexivity|reflexivity].
  - apply change_live; [apply RD|apply RD|]. intros c0 L0 A0. apply split_live; [|assumption|assumption]. intros N. apply map_eq_nil in N. exact (NE N).
  - intros i name v NI. assert (LI : i < length sp) by (apply nth_error_Some; congruence).
    destruct (nth_error (new_parts (map (fun x => part_session adj space (fst y) (fst x) (snd x)) (combine (dkeys sp) (snd y)))) i) as [d|] eqn:ND.
    + exists (a_data d). exists d. split; [cbn [st_root set_root]; rewrite FP; exact ND|reflexivity].
    + exfalso. apply nth_error_None in ND. destruct (combine (dkeys sp) (snd y)) as [|x l]; [now destruct NE|]. cbn [map new_parts length] in ND. cbn [length] in LC. rewrite !map_length in ND. lia.
Qed.
(** *** Stopping *)
Lemma retire_active_retires : forall p (t : acct sess) c, find p t = Some c -> state_at (retire_active p t) p RETIRED.
Proof.
  induction p as [|(k, i) p IH]; intros t c F.
  - eexists. split; [reflexivity|]. destruct t. reflexivity.
  - rewrite find_step in F. destruct (nth_error (a_parts t) k) as [part|] eqn:NK; [|discriminate]. destruct (nth_error part i) as [d|] eqn:NI; [|discriminate].
    destruct p as [|x p].
    + cbn [retire_active]. unfold retire_part. rewrite NK. exists (retire_all d). split; [|destruct d; reflexivity].
      destruct (Nat.ltb_spec (S i) (length part)); cbn [find a_parts].
      * rewrite !nth_upd_same, NK. cbn [option_map]. rewrite nth_upd_other by lia. rewrite nth_upd_same, NI. reflexivity.
      * rewrite nth_upd_same, NK. cbn [option_map]. rewrite nth_upd_same, NI. reflexivity.
    + rewrite retire_nonnil by discriminate. destruct (IH d c F) as (e & FE & SE). exists e. split; [|exact SE].
      rewrite find_step. cbn [a_parts]. rewrite nth_upd_same, NK. cbn [option_map]. rewrite nth_upd_same, NI. exact FE.
Qed.
Lemma stop_retires st p st' : ok (st_root st) -> step E st (Stop p) = (st', Ok tt) -> state_at (st_root st') p RETIRED.
Proof.
  intros O. cbn [step]. unfold stop, retire. destruct (find p (st_root st)) as [c|] eqn:F; cbn [option_map]; [|discriminate].
  destruct (a_state c) eqn:SC.
  - intros [= <-]. apply retire_active_retires with c, F.
  - intros [= <-]. exists c. auto.
  - destruct (e_retires_waiting E); [|discriminate]. intros [= <-]. cbn [st_root set_root].
    assert (X : exists c', find p (force_activate p (st_root st)) = Some c').
    { destruct (evolves_force p (st_root st) p) as (D & _). rewrite F in D. destruct (find p (force_activate p (st_root st))); [eauto|discriminate]. }
    destruct X as (c' & F'). eapply retire_active_retires, F'.
  - destruct (e_retires_waiting E); [|discriminate]. intros [= <-]. cbn [st_root set_root].
    assert (X : exists c', find p (force_activate p (st_root st)) = Some c').
    { destruct (evolves_force p (st_root st) p) as (D & _). rewrite F in D. destruct (find p (force_activate p (st_root st))); [eauto|discriminate]. }
    destruct X as (c' & F'). eapply retire_active_retires, F'.
Qed.
Lemma active_stops st p : state_at (st_root st) p ACTIVE -> exists st', step E st (Stop p) = (st', Ok tt).
Proof. intros A. apply state_at_iff in A. cbn [step]. unfold stop, retire. rewrite A. eauto. Qed.
End Use.
