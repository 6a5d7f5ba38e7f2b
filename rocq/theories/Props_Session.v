(** Properties C25, C26 and C27: budgets, failures and schedules of sessions. *)
From Coq Require Import String Bool Arith ZArith QArith Lia Permutation List.
From Verif Require Import Prelude Budget BudgetProofs BudgetScale Value Rows Constraints Schema SchemaProofs Query Transform TransformVisit Tables TablesProofs
  Accountant AccountantProofs Session SessionSpec SessionMoney SessionSteps SessionTables SessionInv SessionUse SessionCharge Props_Query.
Import ListNotations.
Local Open Scope string_scope.
Local Open Scope nat_scope.

(** ** Reachable states *)

(** A session is made with a budget and private tables, and then any calls are made on it
    and on the sessions that come out of its partitions.  [layout] says that tables with
    privacy IDs are in the collection of their ID space and that names differ. *)
Definition reachable (E : env) (b : budget) (x : tree) (st : state) : Prop :=
  exists st0 calls, valid b /\ layout x /\ new_session b x = Ok st0 /\ st = run E st0 calls.

Lemma reachable_ok E b x st : reachable E b x st -> ok (st_root st).
Proof. intros (st0 & l & V & L & N & ->). apply run_ok. eapply new_ok, N. Qed.
Lemma reachable_balanced E b x st : reachable E b x st -> balanced (payload (st_root st)) /\ s_initial (d_data (payload (st_root st))) = b.
Proof.
  intros (st0 & l & V & L & N & ->). destruct (run_balanced E l st0 (new_ok _ _ _ N) (new_balanced _ _ _ V N)) as (B & I). split; [exact B|].
  rewrite I. unfold new_session in N. apply bind_ok in N as (names & _ & N). injection N as <-. reflexivity.
Qed.
Lemma reachable_tables E b x st : reachable E b x st -> all_sessions tables_ok st.
Proof. intros (st0 & l & V & L & N & ->). apply run_tables; [eapply new_ok, N|eapply new_tables; eassumption]. Qed.
Lemma reachable_step E b x st o : reachable E b x st -> reachable E b x (fst (step E st o)).
Proof.
  intros (st0 & l & V & L & N & ->). exists st0, (l ++ [o])%list. split; [exact V|]. split; [exact L|]. split; [exact N|].
  clear. revert st0. induction l as [|a l IH]; intros st0; [reflexivity|]. cbn. apply IH.
Qed.
Lemma session_dfind st p s : session st p s -> exists d, dfind p (payload (st_root st)) = Some d /\ d_data d = s.
Proof. intros (c & F & D). exists (payload c). rewrite dfind_payload, F. split; [reflexivity|]. destruct c; exact D. Qed.
Lemma reachable_books E b x st p s : reachable E b x st -> session st p s -> books s.
Proof.
  intros RE S. destruct (reachable_balanced _ _ _ _ RE) as (B & _). destruct (session_dfind _ _ _ S) as (d & F & <-). eapply balanced_books, balanced_find; eassumption.
Qed.

(** *** Material for the examples *)
Definition E0 : env.
Proof.
  refine {| e_world := W0; e_round := exact_rounding; e_down := fun q => q; e_identifier := fun n => negb (String.eqb n "");
            e_compiles := fun _ _ _ _ => Ok tt; e_relation := fun _ _ _ => true; e_temps := fun _ _ => [];
            e_shuffle := fun l => l; e_empty_ok := false; e_retires_waiting := false |}.
  - intros q H. split; [exact H|apply Qle_refl].
  - intros l. apply Permutation_refl.
Defined.
Definition cities : schema := sch0 [("city", dsc VARCHAR false false false); ("n", dsc INTEGER false false false)] None.
Definition crow (c : string) (n : Z) : rec := [("city", VStr c); ("n", VInt n)].
Definition x0 : tree :=
  TDict false [(TableCollection "people", TDict true [(NamedTable "people", TLeaf (tab0 people people_rows))]);
               (NamedTable "cities", TLeaf (tab0 cities [crow "x" 1; crow "y" 2; crow "x" 3]))].
Lemma layout_x0 : layout x0.
Proof.
  constructor.
  - repeat constructor; cbn; intuition discriminate.
  - intros e [<-|[<-|[]]]; cbn; [|split; [reflexivity|reflexivity]]. split; [repeat constructor; intros []|]. intros e [<-|[]]. split; [reflexivity|]. discriminate.
  - repeat constructor; cbn; intuition discriminate.
Qed.
Definition st0 (b : budget) : state := match new_session b x0 with Ok st => st | Err _ => {| st_root := Acct ACTIVE (part_session b None [] "" {| t_place := PSym; t_rows := [] |}) []; st_public := [] |} end.
Lemma reachable_run b l : valid b -> reachable E0 b x0 (run E0 (st0 b) l).
Proof. intros V. exists (st0 b), l. split; [exact V|]. split; [exact layout_x0|]. split; reflexivity. Qed.

(** ** C25: spending never exceeds the session's budget *)

(** The privacy loss of everything that was computed, by sequential composition of queries
    and partitions and parallel composition of the parts, is within the budget. *)
Theorem C25_spending_within_budget : forall E b x st f, reachable E b x st -> ~ infinite b -> f = loss \/ f = delta ->
  xle (spent_at f st []) (f b).
Proof.
  intros E b x st f RE NI CF. destruct (reachable_balanced _ _ _ _ RE) as (B & I). unfold spent_at. cbn [dfind].
  rewrite <- I. apply spent_le_charges; [exact CF|exact B|]. rewrite I. exact NI.
Qed.
Print Assumptions C25_spending_within_budget.

Theorem C25_every_session_within_budget : forall E b x st f p s, reachable E b x st -> session st p s -> ~ infinite (s_initial s) ->
  f = loss \/ f = delta -> xle (spent_at f st p) (f (s_initial s)).
Proof.
  intros E b x st f p s RE S NI CF. destruct (reachable_balanced _ _ _ _ RE) as (B & _). destruct (session_dfind _ _ _ S) as (d & F & <-).
  unfold spent_at. rewrite F. apply spent_le_charges; [exact CF|eapply balanced_find; eassumption|exact NI].
Qed.
Print Assumptions C25_every_session_within_budget.

(** The reported remaining budget is what the session started with minus its charges, and
    never negative. *)
Theorem C25_remaining_budget : forall E b x st p s, reachable E b x st -> session st p s -> ~ infinite (s_initial s) ->
  valid (remaining_privacy_budget s)
  /\ forall f, f = loss \/ f = delta -> xeq (xadd (f (remaining_privacy_budget s)) (charges f s)) (f (s_initial s)).
Proof.
  intros E b x st p s RE S NI. pose proof (reachable_books _ _ _ _ _ _ RE S) as BK. split; [apply BK|]. intros f CF. apply BK; assumption.
Qed.
Print Assumptions C25_remaining_budget.

(** The first session starts with the budget given, and every part of a partition with
    what its parent was charged for that partition. *)
Theorem C25_initial_budgets : forall E b x st, reachable E b x st ->
  (forall s, session st [] s -> s_initial s = b)
  /\ forall p k i s c, session st p s -> session st (p ++ [(k, i)])%list c -> nth_error (splits_of (s_log s)) k = Some (s_initial c).
Proof.
  intros E b x st RE. destruct (reachable_balanced _ _ _ _ RE) as (B & I). split.
  - intros s (c & F & <-). injection F as <-. destruct (st_root st). exact I.
  - intros p k i s c S C. destruct (session_dfind _ _ _ S) as (d & F & <-). destruct (session_dfind _ _ _ C) as (d' & F' & <-).
    rewrite dfind_app, F in F'. pose proof (balanced_find _ _ _ B F) as BD. destruct BD as [s parts BK F2]. cbn [dfind d_parts d_data] in *.
    destruct (nth_error parts k) as [part|] eqn:NP; [|discriminate]. destruct (nth_error part i) as [e|] eqn:NI; [|discriminate]. injection F' as ->.
    clear - F2 NP NI. revert k NP. induction F2 as [|b0 part0 l l' H F2 IH]; intros [|k] NP; try discriminate; cbn in *.
    + injection NP as ->. f_equal. symmetry. apply H. eapply nth_error_In, NI.
    + apply IH, NP.
Qed.
Print Assumptions C25_initial_budgets.

Theorem C25_infinite_budgets_stay : forall E b x st p s, reachable E b x st -> session st p s -> infinite (s_initial s) -> remaining_privacy_budget s = s_initial s.
Proof. intros E b x st p s RE S I. apply (reachable_books _ _ _ _ _ _ RE S), I. Qed.
Print Assumptions C25_infinite_budgets_stay.

(** A successful evaluation or partition charges the session it was called on, once, with
    what was asked for ([charge_for]: or with what is left if that is at most one part in
    10^9 less), and takes exactly that from what is left. *)
Theorem C25_charge : forall E b x st p s o st' want, reachable E b x st -> session st p s ->
  (exists q, o = Evaluate p q want) \/ (exists q, o = SpendOnly p q want) \/ (exists src col l, o = Partition p src want col l) ->
  step E st o = (st', Ok tt) ->
  exists s' c, session st' p s' /\ s_log s' = (s_log s ++ [c])%list /\ s_initial s' = s_initial s /\ s_tree s' = s_tree s
    /\ (match o with Partition _ _ _ _ _ => c = Split (amount c) | _ => c = Measured (amount c) end)
    /\ charge_for (s_left s) (request (s_left s) want) (amount c)
    /\ (~ infinite (s_initial s) -> forall f, f = loss \/ f = delta -> xeq (xadd (f (s_left s')) (f (amount c))) (f (s_left s))).
Proof.
  intros E b x st p s o st' want RE S OP H. pose proof (reachable_ok _ _ _ _ RE) as O. pose proof (reachable_tables _ _ _ _ RE) as TK.
  pose proof (reachable_books _ _ _ _ _ _ RE S) as BK. apply step_effect in H; [|exact O].
  assert (FIN : forall adj rest, valid adj -> same_kind (s_left s) adj -> spend (s_left s) adj = Some rest -> ~ infinite (s_initial s) ->
     forall f, f = loss \/ f = delta -> xeq (xadd (f rest) (f adj)) (f (s_left s))).
  { intros adj rest V K SP NI f CF. destruct (spend_spec _ _ _ (bk_left _ BK) V K SP) as [(I & _)|(_ & _ & _ & _ & X)]; [|apply X, CF].
    destruct (bk_finite _ BK NI I). }
  inversion H as [| |p1 q0 b0 s0 adj rest st1 o0 K S0 C SP RL RD| | | |p1 src b0 col sp s0 b1 adj y rest space r st1 S0 LP V I PB CP SP RD G]; subst;
    try (destruct OP as [(?q & [=])|[(?q & [=])|(?src & ?col & ?l & [=])]]; fail).
  - assert (p1 = p /\ b0 = want) as (-> & ->) by (destruct K as [-> | ->], OP as [(?q & [=])|[(?q & [=])|(?src & ?col & ?l & [=])]]; auto).
    assert (M : match o with Partition _ _ _ _ _ => False | _ => True end) by (destruct K as [-> | ->]; exact I).
    destruct (ready_session _ _ _ _ S0 RD) as (c & F & D & A). apply session_at_iff in S0. assert (s0 = s) as -> by (destruct S as (c1 & F1 & <-), S0 as (c2 & F2 & <-); congruence).
    destruct (compile_adj E _ _ _ _ _ C) as (VA & KA).
    exists (charged s rest (Measured adj)), (Measured adj). split; [|split; [reflexivity|split; [reflexivity|split; [reflexivity|split; [|split]]]]].
    + eexists. split; [cbn [st_root set_root]; rewrite find_change, F; reflexivity|reflexivity].
    + destruct o; try destruct M; reflexivity.
    + apply (compile_charge E _ _ _ _ _ (bk_left _ BK) C).
    + exact (FIN adj rest VA KA SP).
  - assert (p1 = p /\ b0 = want) as (-> & ->) by (destruct OP as [(?q & [=])|[(?q & [=])|(?src & ?col & ?l & [=])]]; auto).
    destruct (ready_session _ _ _ _ S0 RD) as (c & F & D & A). apply session_at_iff in S0. assert (s0 = s) as -> by (destruct S as (c1 & F1 & <-), S0 as (c2 & F2 & <-); congruence).
    destruct (process_valid E _ _ _ PB) as (VA & KA). pose proof (validate_kind _ _ _ V) as KV.
    exists (charged s rest (Split adj)), (Split adj). split; [|split; [reflexivity|split; [reflexivity|split; [reflexivity|split; [reflexivity|split]]]]].
    + eexists. split; [cbn [st_root set_root]; rewrite find_change, F; reflexivity|reflexivity].
    + pose proof (lift_request E _ _ _ LP) as EQ. subst b1. apply (process_charge E); [apply BK|exact KV|exact PB].
    + exact (FIN adj rest VA (same_kind_trans _ _ _ KV KA) SP).
Qed.
Print Assumptions C25_charge.

(** Nothing else is charged: a call that is not one of these, or fails, leaves every
    session's account alone, and so does any call on another session. *)
Theorem C25_nothing_else_charged : forall E b x st o st' r q s, reachable E b x st -> session st q s -> step E st o = (st', r) ->
  q <> target o \/ charged_op o = false \/ (exists e, r = Err e) ->
  exists s', session st' q s' /\ account s' = account s.
Proof.
  intros E b x st o st' r q s RE S H NT. pose proof (reachable_ok _ _ _ _ RE) as O. pose proof (reachable_tables _ _ _ _ RE) as TK.
  apply step_effect in H; [|exact O]. assert (D : (q <> target o \/ charged_op o = false) \/ exists e, r = Err e) by tauto. clear NT.
  destruct D as [D|(e & ->)]; [eapply effect_others; eassumption|]. exists s. split; [|reflexivity].
  inversion H as [o0 st1 e0 Q|p st1 r Q _| | | | |p src b0 col sp s0 b1 adj y rest space r st1 S0 LP V I PB CP SP RD G]; subst.
  - eapply keeps_data; [apply Q|exact S].
  - eapply keeps_data; [apply Q|exact S].
  - exfalso. destruct (split_space _ _ _ _ _ _ _ _ _ _ TK S0 CP G) as (X & _). discriminate.
Qed.
Print Assumptions C25_nothing_else_charged.

(** A session of budget 3: a query, a partition on whose parts queries are run, and
    another query. *)
Definition plan0 : list op :=
  [Evaluate [] (PrivateSource "cities") (Pure (XFin 1));
   Partition [] "cities" (Pure (XFin 1)) "city" [("xs", VStr "x"); ("ys", VStr "y")];
   Evaluate [(0, 0)] (PrivateSource "xs") (Pure (XFin (1 # 2)));
   Evaluate [(0, 1)] (PrivateSource "ys") (Pure (XFin 1));
   Evaluate [(0, 1)] (PrivateSource "ys") (Pure (XFin 1));
   Evaluate [] (PrivateSource "cities") (Pure (XFin (1 # 2)))].
Example C25_case :
  reachable E0 (Pure (XFin 3)) x0 (run E0 (st0 (Pure (XFin 3))) plan0)
  /\ ~ infinite (Pure (XFin 3))
  /\ xeq (spent_at loss (run E0 (st0 (Pure (XFin 3))) plan0) []) (XFin (5 # 2))
  /\ xeq (spent_at loss (run E0 (st0 (Pure (XFin 3))) plan0) [(0, 0)]) (XFin (1 # 2))
  /\ (exists s, session (run E0 (st0 (Pure (XFin 3))) plan0) [(0, 1)] s /\ s_initial s = Pure (XFin 1) /\ xeq (loss (s_left s)) (XFin 0) /\ length (s_log s) = 1)
  /\ (exists s, session (run E0 (st0 (Pure (XFin 3))) plan0) [] s /\ xeq (loss (remaining_privacy_budget s)) (XFin (1 # 2)) /\ length (s_log s) = 3).
Proof.
  split; [apply reachable_run; cbn; discriminate|]. split; [discriminate|].
  split; [vm_compute; reflexivity|]. split; [vm_compute; reflexivity|]. split.
  - eexists. split; [eexists; split; [vm_compute; reflexivity|reflexivity]|]. vm_compute. auto.
  - eexists. split; [eexists; split; [vm_compute; reflexivity|reflexivity]|]. vm_compute. auto.
Qed.

(** ** C26: a failed operation costs nothing *)

(** Whatever is called in whatever state: if it raises, the budget and history of every
    session, all tables, views and constraints, and the public tables are as before. *)
Theorem C26_failed_calls_change_nothing : forall E b x st o st' e, reachable E b x st -> step E st o = (st', Err e) -> contents st' = contents st.
Proof.
  intros E b x st o st' e RE H. pose proof (reachable_ok _ _ _ _ RE) as O. pose proof (reachable_tables _ _ _ _ RE) as TK. apply step_effect in H; [|exact O].
  unfold contents. inversion H as [o0 st1 e0 Q|p st1 r Q _| | | | |p src b0 col sp s0 b1 adj y rest space r st1 S0 LP V I PB CP SP RD G]; subst.
  - destruct Q as (-> & -> & _). reflexivity.
  - destruct Q as (-> & -> & _). reflexivity.
  - exfalso. destruct (split_space _ _ _ _ _ _ _ _ _ _ TK S0 CP G) as (X & _). discriminate.
Qed.
Print Assumptions C26_failed_calls_change_nothing.
(** In particular what is left of any session's budget. *)
Corollary C26_failed_calls_are_free : forall E b x st o st' e p s, reachable E b x st -> step E st o = (st', Err e) ->
  session st p s -> session st' p s.
Proof.
  intros E b x st o st' e p s RE H S. pose proof (C26_failed_calls_change_nothing _ _ _ _ _ _ _ RE H) as C. unfold contents in C. injection C as C _.
  eapply quiet_session; [symmetry; exact C|exact S].
Qed.
Print Assumptions C26_failed_calls_are_free.

(** Calls fail in many ways, here after the session was activated: the failing create_view
    on the first session leaves all data alone, but it does retire the parts. *)
Definition parted : state := run E0 (st0 (Pure (XFin 3))) (firstn 3 plan0).
Example C26_case :
  reachable E0 (Pure (XFin 3)) x0 parted
  /\ (exists st', step E0 parted (CreateView [] (PrivateSource "cities") "people" false) = (st', Err ValueError)
      /\ contents st' = contents parted
      /\ state_at (st_root parted) [(0, 0)] ACTIVE /\ state_at (st_root st') [(0, 0)] RETIRED)
  /\ (exists st', step E0 parted (Evaluate [(0, 0)] (PrivateSource "xs") (Pure (XFin 1))) = (st', Err RuntimeError))
  /\ (exists st', step E0 parted (Evaluate [(0, 0)] (PrivateSource "cities") (Pure (XFin (1 # 4)))) = (st', Err ValueError))
  /\ (exists st', step E0 parted (DeleteView [] "xs") = (st', Err KeyError)).
Proof.
  split; [apply reachable_run; cbn; discriminate|]. split; [|split; [|split]].
  - eexists. split; [vm_compute; reflexivity|]. split; [vm_compute; reflexivity|]. split; eexists; (split; [vm_compute; reflexivity|reflexivity]).
  - eexists. vm_compute. reflexivity.
  - eexists. vm_compute. reflexivity.
  - eexists. vm_compute. reflexivity.
Qed.

(** ** C27: one session at a time, in order *)

(** At most one session is active, and it determines who can still be used: its ancestors
    wait for their children, later parts of the same partitions wait for their siblings,
    and all others are retired. *)
Theorem C27_one_active_session : forall E b x st p q, reachable E b x st ->
  state_at (st_root st) p ACTIVE -> state_at (st_root st) q ACTIVE -> p = q.
Proof.
  intros E b x st p q RE A B. destruct (reachable_ok _ _ _ _ RE) as [L|RT]; [eapply live_active_unique; eassumption|].
  destruct A as (c & F & S). rewrite (retired_state _ (retired_find _ _ _ RT F)) in S. discriminate.
Qed.
Print Assumptions C27_one_active_session.
Theorem C27_states : forall E b x st p, reachable E b x st -> state_at (st_root st) p ACTIVE ->
  forall q c, find q (st_root st) = Some c -> a_state c = expected p q.
Proof.
  intros E b x st p RE A q c F. destruct (reachable_ok _ _ _ _ RE) as [L|RT]; [eapply live_states; eassumption|].
  destruct A as (c' & F' & S). rewrite (retired_state _ (retired_find _ _ _ RT F')) in S. discriminate.
Qed.
Print Assumptions C27_states.
(** What [expected] says, case by case. *)
Lemma C27_expected_itself p : expected p p = ACTIVE.
Proof. induction p as [|(k, i) p IH]; [reflexivity|]. cbn. now rewrite !Nat.eqb_refl. Qed.
Lemma C27_expected_ancestor p r : r <> [] -> expected (p ++ r)%list p = WAITING_FOR_CHILDREN.
Proof. intros N. induction p as [|(k, i) p IH]; [destruct r as [|(k, i) r]; [now destruct N|reflexivity]|]. cbn. now rewrite !Nat.eqb_refl. Qed.
Lemma C27_expected_descendant p r : r <> [] -> expected p (p ++ r)%list = RETIRED.
Proof. intros N. induction p as [|(k, i) p IH]; [destruct r as [|(k, i) r]; [now destruct N|reflexivity]|]. cbn. now rewrite !Nat.eqb_refl. Qed.
Lemma C27_expected_earlier p k i j r r' : j < i -> expected (p ++ (k, i) :: r)%list (p ++ (k, j) :: r')%list = RETIRED.
Proof.
  intros LT. induction p as [|(k', i') p IH]; cbn [app expected]; [|now rewrite !Nat.eqb_refl]. rewrite Nat.eqb_refl.
  destruct (Nat.eqb_spec i j) as [->|_]; [lia|]. destruct (Nat.ltb_spec i j); [lia|reflexivity].
Qed.
Lemma C27_expected_later p k i j r : i < j -> expected (p ++ (k, i) :: r)%list (p ++ [(k, j)])%list = WAITING_FOR_SIBLING.
Proof.
  intros LT. induction p as [|(k', i') p IH]; cbn [app expected]; [|now rewrite !Nat.eqb_refl]. rewrite Nat.eqb_refl.
  destruct (Nat.eqb_spec i j) as [->|_]; [lia|]. destruct (Nat.ltb_spec i j); [reflexivity|lia].
Qed.

(** A successful use of a session makes it the active one, which by [C27_states] retires
    its descendants and the earlier parts for good. *)
Theorem C27_using_activates : forall E b x st o st', reachable E b x st -> step E st o = (st', Ok tt) ->
  needs_session o = true -> makes_parts o = false -> state_at (st_root st') (target o) ACTIVE.
Proof.
  intros E b x st o st' RE H N M. eapply effect_active; [exact (reachable_tables _ _ _ _ RE)| |exact N|exact M]. apply step_effect; [eapply reachable_ok, RE|exact H].
Qed.
Print Assumptions C27_using_activates.
(** Partitioning suspends the parent and makes the first part the active one; the parts
    come in the order of the splits. *)
Theorem C27_partition_suspends_parent : forall E b x st p src want col splits st' l, reachable E b x st ->
  partition_and_create E st p src want col splits = (st', Ok l) ->
  exists n, l = combine (dkeys splits) (map (fun i => (p ++ [(n, i)])%list) (seq 0 (length splits)))
    /\ state_at (st_root st') (p ++ [(n, 0)])%list ACTIVE
    /\ state_at (st_root st') p WAITING_FOR_CHILDREN
    /\ forall i, 0 < i -> i < length splits -> state_at (st_root st') (p ++ [(n, i)])%list WAITING_FOR_SIBLING.
Proof.
  intros E b x st p src want col splits st' l RE H. pose proof (reachable_ok _ _ _ _ RE) as O.
  destruct (partition_places E st p src want col splits st' l O (reachable_tables _ _ _ _ RE) H) as (n & EQ & NE & A & L & P). exists n. split; [exact EQ|]. split; [exact A|].
  assert (X : forall q c, find q (st_root st') = Some c -> state_at (st_root st') q (expected (p ++ [(n, 0)])%list q)) by (intros q c F; exists c; split; [exact F|eapply live_states; eassumption]).
  split.
  - destruct A as (c0 & F0 & _). rewrite find_app in F0. destruct (find p (st_root st')) as [c|] eqn:F; [|discriminate]. apply X in F. rewrite C27_expected_ancestor in F; [exact F|discriminate].
  - intros i LT LI. destruct (nth_error splits i) as [(name, v)|] eqn:NI; [|apply nth_error_None in NI; lia]. destruct (P i name v NI) as (s & c & F & _).
    apply X in F. rewrite C27_expected_later in F; assumption.
Qed.
Print Assumptions C27_partition_suspends_parent.

(** A retired session stays retired whatever is called, and nothing of it ever changes. *)
Theorem C27_retired_forever : forall E b x st q calls, reachable E b x st -> state_at (st_root st) q RETIRED ->
  state_at (st_root (run E st calls)) q RETIRED /\ forall s, session st q s -> session (run E st calls) q s.
Proof. intros E b x st q calls RE R. apply run_retired; [eapply reachable_ok, RE|exact R]. Qed.
Print Assumptions C27_retired_forever.
(** It answers no query, and makes no view and no partition: every such call raises and
    changes nothing at all. *)
Theorem C27_retired_sessions_refuse : forall E b x st o, reachable E b x st -> needs_session o = true ->
  state_at (st_root st) (target o) RETIRED -> exists e, step E st o = (st, Err e).
Proof. intros E b x st o _. apply retired_refuses. Qed.
Print Assumptions C27_retired_sessions_refuse.

(** Stopping retires a session; the active one can always be stopped. *)
Theorem C27_stop_retires : forall E b x st p, reachable E b x st ->
  (forall st', step E st (Stop p) = (st', Ok tt) -> state_at (st_root st') p RETIRED)
  /\ (state_at (st_root st) p ACTIVE -> exists st', step E st (Stop p) = (st', Ok tt)).
Proof. intros E b x st p RE. split; [intros st'; apply stop_retires; eapply reachable_ok, RE|apply active_stops]. Qed.
Print Assumptions C27_stop_retires.

Example C27_case :
  reachable E0 (Pure (XFin 3)) x0 parted
  /\ state_at (st_root parted) [(0, 0)] ACTIVE
  /\ state_at (st_root parted) [] WAITING_FOR_CHILDREN
  /\ state_at (st_root parted) [(0, 1)] WAITING_FOR_SIBLING
  /\ (let st := run E0 parted [Evaluate [(0, 1)] (PrivateSource "ys") (Pure (XFin 1))] in
      state_at (st_root st) [(0, 0)] RETIRED /\ state_at (st_root st) [(0, 1)] ACTIVE
      /\ step E0 st (Evaluate [(0, 0)] (PrivateSource "xs") (Pure (XFin (1 # 4)))) = (st, Err RuntimeError))
  /\ (let st := run E0 parted [Evaluate [] (PrivateSource "cities") (Pure (XFin 1))] in
      state_at (st_root st) [(0, 0)] RETIRED /\ state_at (st_root st) [(0, 1)] RETIRED /\ state_at (st_root st) [] ACTIVE)
  /\ (let st := run E0 parted [Stop [(0, 0)]; Stop [(0, 1)]] in
      state_at (st_root st) [(0, 0)] RETIRED /\ state_at (st_root st) [(0, 1)] RETIRED /\ state_at (st_root st) [] ACTIVE).
Proof.
  split; [apply reachable_run; cbn; discriminate|].
  repeat match goal with |- _ /\ _ => split | |- state_at _ _ _ => eexists; split; vm_compute; reflexivity | |- _ = _ => vm_compute; reflexivity | |- _ => cbv zeta end.
Qed.
