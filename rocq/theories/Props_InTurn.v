(** C79: sessions used in turn, each after the ones that have to be finished before it, do not
    interfere: every question is answered as if it were the only one. *)
From Coq Require Import String Bool Arith ZArith QArith Lqa Lia Permutation List.
From Verif Require Import Prelude Budget BudgetProofs BudgetScale Value Rows Constraints Schema Query Transform Tables
  Accountant AccountantProofs Session SessionSpec SessionMoney SessionSteps SessionTables SessionInv SessionCharge SessionUse BlindSpec MoreBudget AnyOrder
  Measure Props_Query Props_Session Props_Measure Props_Footprint Props_AnyOrder.
Import ListNotations.
Local Open Scope string_scope.
Local Open Scope nat_scope.

(** ** Specification *)
(** The session at [q] may be used after the one at [p]: [p] is in a partition of [q], perhaps
    in a partition of a part of it and so on; or [p] is, or is below, a part of a partition of
    which [q] is a later part. *)
Definition may_follow (p q : path) : Prop :=
  (exists r, r <> [] /\ p = (q ++ r)%list)
  \/ exists r n i j rest, p = (r ++ (n, i) :: rest)%list /\ q = (r ++ [(n, j)])%list /\ i < j.
(** Turns: the questions asked of one session after the other. *)
Definition turns : Type := list (path * list question).
Definition all_asked (t : turns) : list op := concat (map (fun x => asked (fst x) (snd x)) t).
(** Every session of the turns exists, is not retired, and can pay for its questions. *)
Definition fair (E : env) (st : state) (t : turns) : Prop := forall p plan, In (p, plan) t ->
  ~ state_at (st_root st) p RETIRED /\ exists s, session st p s /\ affordable_together E s plan.

(** ** Proofs *)
Lemma follow_expected p q : may_follow p q -> expected p q <> RETIRED.
Proof.
  intros [(r & NE & ->)|(r & n & i & j & rest & -> & -> & L)].
  - induction q as [|(k, i) q IH]; [destruct r as [|(k, i) r]; [destruct NE; reflexivity|discriminate]|]. cbn. rewrite !Nat.eqb_refl. exact IH.
  - induction r as [|(k, i0) r IH]; cbn [app expected]; rewrite !Nat.eqb_refl; [|exact IH]. destruct (Nat.eqb_spec i j); [lia|]. destruct (Nat.ltb_spec i j) as [_|LL]; [discriminate|lia].
Qed.
Lemma follow_other p q : may_follow p q -> q <> p.
Proof.
  intros [(r & NE & ->)|(r & n & i & j & rest & -> & -> & L)] H.
  - apply NE. rewrite <- (app_nil_r q) in H at 1. apply app_inv_head in H. auto.
  - apply app_inv_head in H. injection H. lia.
Qed.
Lemma not_retired_active (t : acct sess) q s : data_at t q s -> ~ state_at t q RETIRED -> snd (activate q t) = Ok tt.
Proof.
  intros (c & F & _) NR. unfold activate. rewrite F. cbn. destruct (a_state c) eqn:A; try reflexivity. destruct NR. exists c. auto.
Qed.
Section InTurn.
Variable E : env.
(** An evaluation changes no other session, and retires none that may follow. *)
Lemma other_session p x q s st : ok (st_root st) -> q <> p -> session st q s ->
  session (fst (step E st (Evaluate p (fst x) (snd x)))) q s
  /\ ok (st_root (fst (step E st (Evaluate p (fst x) (snd x))))) /\ st_public (fst (step E st (Evaluate p (fst x) (snd x)))) = st_public st
  /\ (~ state_at (st_root st) q RETIRED -> expected p q <> RETIRED -> ~ state_at (st_root (fst (step E st (Evaluate p (fst x) (snd x))))) q RETIRED).
Proof.
  intros O NE S. destruct x as (y, b). cbn [fst snd step]. unfold evaluate. destruct (session_at st p) as [sp|e]; cbn [attempt]; [|cbn; auto].
  destruct (compile_and_get_info E sp (st_public st) y b) as [adj|e]; cbn [attempt]; [|cbn; auto].
  unfold activated. destruct (activate p (st_root st)) as (t, [[]|e]) eqn:A.
  2:{ pose proof (activate_err p _ _ _ A) as ->. cbn [fst]. rewrite set_root_id. auto. }
  destruct (activate_ok p _ _ O A) as (L1 & A1 & P1 & K1). pose proof (keeps_data _ _ q s K1 S) as S1.
  assert (NR : expected p q <> RETIRED -> ~ state_at t q RETIRED).
  { intros X (c & F & R). rewrite (live_states p t L1 A1 q c F) in R. contradiction. }
  assert (Z : session (set_root st t) q s /\ ok (st_root (set_root st t)) /\ st_public (set_root st t) = st_public st
     /\ (~ state_at (st_root st) q RETIRED -> expected p q <> RETIRED -> ~ state_at (st_root (set_root st t)) q RETIRED)).
  { split; [exact S1|]. split; [left; exact L1|]. split; [reflexivity|]. intros _. exact NR. }
  destruct (negb (e_relation E (s_tree sp) y adj)); cbn [fails fst]; [exact Z|]. destruct (spend (s_left sp) adj) as [rest|]; cbn [fails fst]; [|exact Z].
  split; [apply data_set_other; [exact NE|exact S1]|]. cbn [st_root set_root st_public]. split; [left; apply change_live; [exact L1|exact A1|intros; apply set_data_live; assumption]|]. split; [reflexivity|].
  intros _ X R. exact (NR X (proj1 (set_data_state_at _ _ _ _ _) R)).
Qed.
Lemma others_kept p q s plan : forall st, ok (st_root st) -> q <> p -> session st q s ->
  session (run E st (asked p plan)) q s /\ ok (st_root (run E st (asked p plan))) /\ st_public (run E st (asked p plan)) = st_public st
  /\ (~ state_at (st_root st) q RETIRED -> expected p q <> RETIRED -> ~ state_at (st_root (run E st (asked p plan))) q RETIRED).
Proof.
  induction plan as [|x plan IH]; intros st O NE S; [auto|]. cbn [asked map run]. destruct (other_session p x q s st O NE S) as (S1 & O1 & P1 & R1).
  destruct (IH _ O1 NE S1) as (S2 & O2 & P2 & R2). split; [exact S2|]. split; [exact O2|]. split; [exact (eq_trans P2 P1)|]. auto.
Qed.
Lemma answers_app l : forall l' st, answers E st (l ++ l')%list = (answers E st l ++ answers E (run E st l) l')%list.
Proof. induction l as [|o l IH]; intros l' st; [reflexivity|]. cbn. rewrite IH. reflexivity. Qed.
Lemma run_app l : forall l' st, run E st (l ++ l')%list = run E (run E st l) l'.
Proof. induction l as [|o l IH]; intros l' st; [reflexivity|]. cbn. apply IH. Qed.
Lemma later_kept q s t : forall st, ok (st_root st) -> session st q s -> (forall p plan, In (p, plan) t -> q <> p) -> session (run E st (all_asked t)) q s /\ ok (st_root (run E st (all_asked t))).
Proof.
  induction t as [|(p, plan) t IH]; intros st O S H; [auto|]. unfold all_asked. cbn [map concat fst snd]. rewrite run_app.
  destruct (others_kept p q s plan st O (H p plan (or_introl eq_refl)) S) as (S1 & O1 & _). apply IH; [exact O1|exact S1|]. intros; eapply H; right; eassumption.
Qed.
End InTurn.

(** What became of the session at [p], which was [s], when the questions of [plan] were asked of
    it: tables and constraints are as before, it was charged for the answered questions, and what
    is left is what was left before without these charges. *)
Definition charged_for (E : env) (st : state) (p : path) (s : sess) (plan : list question) (s' : sess) : Prop :=
  s_tree s' = s_tree s /\ s_cons s' = s_cons s /\ s_initial s' = s_initial s
  /\ (exists cs, s_log s' = (s_log s ++ cs)%list /\ Forall2 (paid (s_left s)) (filter (answered E st p) plan) cs)
  /\ (infinite (s_left s) -> s_left s' = s_left s)
  /\ (~ infinite (s_left s) -> forall f, f = loss \/ f = delta ->
        xeq (xadd (f (s_left s')) (together f (s_left s) (filter (answered E st p) plan))) (f (s_left s))).

Lemma turns_taken E st : rounds_in_order E -> ok (st_root st) ->
  (forall p s, session st p s -> valid (s_left s)) ->
  forall t st', ok (st_root st') -> fair E st t -> ForallOrdPairs (fun a b => may_follow (fst a) (fst b)) t ->
  (forall p plan s, In (p, plan) t -> session st p s -> like p st s st' s) ->
  answers E st' (all_asked t) = concat (map (fun x => map (alone E st (fst x)) (snd x)) t)
  /\ forall p plan s, In (p, plan) t -> session st p s -> exists s', session (run E st' (all_asked t)) p s' /\ charged_for E st p s plan s'.
Proof.
  intros MO O VA t. induction t as [|(p, plan) t IH]; intros st' O' FA OP LK; [split; [reflexivity|intros ? ? ? []]|].
  inversion OP as [|? ? FO OP']; subst. rewrite Forall_forall in FO. destruct (FA p plan (or_introl eq_refl)) as (NR & s & S & AF). pose proof (VA p s S) as V.
  pose proof (each_fits E s plan MO AF) as FT. destruct AF as (VS & FS & TG). pose proof (LK p plan s (or_introl eq_refl) S) as LP.
  destruct (all_questions E MO p st s S O V plan st' s LP VS FS FT TG) as (A & s1 & cs & LK1 & LG & PD & I1 & I2).
  unfold all_asked. cbn [map concat fst snd]. rewrite answers_app, run_app. fold (all_asked t). rewrite A.
  destruct (IH (run E st' (asked p plan))) as (A2 & C2).
  - apply (lk_ok _ _ _ _ _ LK1).
  - intros p' plan' I'. apply FA. right. exact I'.
  - exact OP'.
  - intros q plan' sq Iq Sq. pose proof (FO (q, plan') Iq) as MF. cbn [fst] in MF. pose proof (LK q plan' sq (or_intror Iq) Sq) as LQ.
    destruct (FA q plan' (or_intror Iq)) as (NRq & _). pose proof (not_retired_active _ _ _ Sq NRq) as AQ.
    assert (NR' : ~ state_at (st_root st') q RETIRED).
    { intros R. pose proof (lk_active _ _ _ _ _ LQ) as X. rewrite AQ, (activate_retired q _ R) in X. discriminate. }
    destruct (others_kept E p q sq plan st' O' (follow_other _ _ MF) (lk_session _ _ _ _ _ LQ)) as (S2 & O2 & P2 & R2). destruct LQ. constructor; try assumption.
    + rewrite P2. assumption.
    + rewrite AQ. apply (not_retired_active _ q sq S2). apply R2; [exact NR'|]. apply follow_expected, MF.
  - split; [f_equal; exact A2|]. intros q plan' sq [Q|Iq] Sq; [|apply C2; assumption]. injection Q as <- <-.
    destruct Sq as (c1 & F1 & <-), S as (c2 & F2 & <-). rewrite F1 in F2. injection F2 as ->. exists s1. destruct LK1 as [S1 O1 P1 N1 T1 K1 KK V1 _]. split.
    + apply later_kept; [exact O1|exact S1|]. intros q plan' Iq X. exact (follow_other _ _ (FO (q, plan') Iq) (eq_sym X)).
    + split; [exact T1|]. split; [exact K1|]. split; [exact N1|]. split; [exists cs; auto|]. auto.
Qed.

(** ** C79 *)
(** Every question has the outcome it has if it is asked first, and every session is charged for
    its own answered questions only. *)
Theorem C79_turns_do_not_interfere : forall E b x st t,
  rounds_in_order E -> reachable E b x st -> fair E st t -> ForallOrdPairs (fun a b => may_follow (fst a) (fst b)) t ->
  answers E st (all_asked t) = concat (map (fun x => map (alone E st (fst x)) (snd x)) t)
  /\ forall p plan s, In (p, plan) t -> session st p s -> exists s', session (run E st (all_asked t)) p s' /\ charged_for E st p s plan s'.
Proof.
  intros E b x st t MO RE FA OP. pose proof (reachable_ok _ _ _ _ RE) as O.
  assert (VA : forall p s, session st p s -> valid (s_left s)) by (intros p s S; exact (bk_left _ (reachable_books _ _ _ _ _ _ RE S))).
  apply turns_taken; try assumption. intros p plan s _ S. apply same_start; [exact O|exact (VA p s S)|exact S].
Qed.
Print Assumptions C79_turns_do_not_interfere.

(** The parts of a partition, in their order, and then the session that was split. *)
Lemma ordered_parts p n plan : forall (plans : list (list question)) m a,
  ForallOrdPairs (fun x y : path * list question => may_follow (fst x) (fst y)) (combine (map (fun i => (p ++ [(n, i)])%list) (seq a m)) plans ++ [(p, plan)])%list.
Proof.
  induction plans as [|pl plans IH]; intros m a; [rewrite combine_nil; cbn; repeat constructor|]. destruct m as [|m]; [cbn; repeat constructor|].
  cbn [seq map combine app]. constructor; [|apply IH]. apply Forall_forall. intros (q, pl') I. apply in_app_or in I as [I|[I|[]]].
  - apply in_combine_l, in_map_iff in I as (j & <- & J). apply in_seq in J. right. exists p, n, a, j, []. cbn [fst]. split; [reflexivity|]. split; [reflexivity|]. lia.
  - injection I as <- <-. left. exists [(n, a)]. split; [discriminate|reflexivity].
Qed.
Lemma map_snd_combine {A B} (b : list B) : forall a : list A, length a = length b -> map snd (combine a b) = b.
Proof. induction b as [|y b IH]; intros [|x a] H; try discriminate; [reflexivity|]. cbn. f_equal. apply IH. injection H. auto. Qed.
Theorem C79_parts_then_parent : forall E b x st p src want col splits st' l plans plan s,
  rounds_in_order E -> reachable E b x st -> partition_and_create E st p src want col splits = (st', Ok l) -> length plans = length l ->
  (forall q plan', In (q, plan') (combine (map snd l) plans) -> exists s, session st' q s /\ affordable_together E s plan') ->
  session st' p s -> affordable_together E s plan ->
  let t := (combine (map snd l) plans ++ [(p, plan)])%list in
  answers E st' (all_asked t) = concat (map (fun x => map (alone E st' (fst x)) (snd x)) t)
  /\ forall q plan s, In (q, plan) t -> session st' q s -> exists s', session (run E st' (all_asked t)) q s' /\ charged_for E st' q s plan s'.
Proof.
  intros E b x st p src want col splits st' l plans plan s MO RE P LE AF S AP. cbv zeta.
  assert (RE' : reachable E b x st').
  { assert (X : st' = fst (step E st (Partition p src want col splits))) by (cbn [step]; rewrite P; reflexivity). rewrite X. apply reachable_step, RE. }
  destruct (C27_partition_suspends_parent E b x st p src want col splits st' l RE P) as (n & EQ & A0 & WP & WS).
  assert (SN : map snd l = map (fun i => (p ++ [(n, i)])%list) (seq 0 (length splits))).
  { rewrite EQ. apply map_snd_combine. unfold dkeys. rewrite !map_length, seq_length. reflexivity. }
  assert (ST : forall q a a', state_at (st_root st') q a -> state_at (st_root st') q a' -> a = a') by (intros q a a' (c & F & <-) (c' & F' & <-); congruence).
  apply (C79_turns_do_not_interfere E b x st' _ MO RE').
  - intros q plan' I. apply in_app_or in I as [I|[I|[]]].
    + split; [|apply AF, I]. apply in_combine_l in I. rewrite SN in I. apply in_map_iff in I as (i & <- & I). apply in_seq in I. intros R.
      destruct i as [|i]; [pose proof (ST _ _ _ A0 R); discriminate|]. pose proof (ST _ _ _ (WS (Datatypes.S i) (Nat.lt_0_succ i) (proj2 I)) R). discriminate.
    + injection I as <- <-. split; [|eauto]. intros R. pose proof (ST _ _ _ WP R). discriminate.
  - rewrite SN. apply ordered_parts.
Qed.
Print Assumptions C79_parts_then_parent.

(** The order is needed: once a question was answered in a session, those before it are retired,
    and asking them raises and changes nothing. *)
Theorem C79_no_turning_back : forall E b x st p q y st' s, reachable E b x st -> may_follow p q -> session st p s ->
  step E st (Evaluate q (fst y) (snd y)) = (st', Ok tt) ->
  forall z, exists e, step E st' (Evaluate p (fst z) (snd z)) = (st', Err e).
Proof.
  intros E b x st p q y st' s RE MF S H z.
  assert (RE' : reachable E b x st') by (pose proof (reachable_step E b x st (Evaluate q (fst y) (snd y)) RE) as X; rewrite H in X; exact X).
  pose proof (C27_using_activates E b x st _ st' RE H eq_refl eq_refl) as A. cbn [target] in A.
  assert (S1 : session st' p s).
  { pose proof (other_session E q y p s st (reachable_ok _ _ _ _ RE) (fun X => follow_other _ _ MF (eq_sym X)) S) as (X & _). rewrite H in X. exact X. }
  apply (C27_retired_sessions_refuse E b x st' (Evaluate p (fst z) (snd z)) RE' eq_refl). cbn [target]. destruct S1 as (c & F & _). exists c. split; [exact F|].
  rewrite (C27_states E b x st' q RE' A p c F). destruct MF as [(r & NE & ->)|(r & n & i & j & rest & -> & -> & L)].
  - clear -NE. induction q as [|(k, i) q IH]; [destruct r; [destruct NE; reflexivity|reflexivity]|]. cbn [app expected]. rewrite !Nat.eqb_refl. exact IH.
  - clear -L. induction r as [|(k, i0) r IH]; cbn [app expected]; rewrite !Nat.eqb_refl; [|exact IH]. destruct (Nat.eqb_spec j i); [lia|]. destruct (Nat.ltb_spec j i); [lia|reflexivity].
Qed.
Print Assumptions C79_no_turning_back.

(** Two parts and then their parent; in the second part one question is refused. *)
Definition split_once : state * res (list (string * path)) :=
  partition_and_create E0 (st0 (Pure (XFin 3))) [] "cities" (Pure (XFin 1)) "city" [("xs", VStr "x"); ("ys", VStr "y")].
Definition three_turns : list (list question) := [[how_many "xs" (1 # 2); how_many "xs" (1 # 4)]; [how_many "cities" (1 # 4); how_many "ys" (3 # 4)]].
Example C79_case : exists l s, let st := fst split_once in
  rounds_in_order E0 /\ reachable E0 (Pure (XFin 3)) x0 (st0 (Pure (XFin 3))) /\ snd split_once = Ok l /\ length three_turns = length l
  /\ (forall q plan, In (q, plan) (combine (map snd l) three_turns) -> exists s, session st q s /\ affordable_together E0 s plan)
  /\ session st [] s /\ affordable_together E0 s [how_many "cities" 2]
  /\ answers E0 st (all_asked (combine (map snd l) three_turns ++ [([], [how_many "cities" 2])])%list) = [Ok tt; Ok tt; Err ValueError; Ok tt; Ok tt]
  /\ (exists e, snd (step E0 (run E0 st (asked [(0, 1)] [how_many "ys" 1])) (Evaluate [(0, 0)] (fst (how_many "xs" 1)) (snd (how_many "xs" 1)))) = Err e).
Proof.
  assert (AF : forall s plan, Forall (fun x => valid (snd x)) plan -> Forall (fun x => float_budget E0 (snd x)) plan ->
    xle (together loss (s_left s) plan) (loss (s_left s)) -> xle (together delta (s_left s) plan) (delta (s_left s)) -> affordable_together E0 s plan).
  { intros s plan A B C D. split; [exact A|]. split; [exact B|]. intros f [-> | ->]; assumption. }
  eexists _, _. cbv zeta. split; [intros x y H; exact H|]. split; [apply (reachable_run (Pure (XFin 3)) []); cbn; lra|]. split; [vm_compute; reflexivity|]. split; [reflexivity|]. split.
  { intros q plan I. cbn in I. destruct I as [I|[I|[]]]; injection I as <- <-; (eexists; split; [eexists; split; [vm_compute; reflexivity|reflexivity]|]);
      (apply AF; [unfold how_many; repeat first [apply Forall_nil|apply Forall_cons; [cbn; lra|]]|unfold how_many; repeat first [apply Forall_nil|apply Forall_cons; [split; vm_compute; reflexivity|]]|vm_compute; intros X; discriminate X|vm_compute; intros X; discriminate X]). }
  split; [eexists; split; [vm_compute; reflexivity|reflexivity]|]. split.
  { apply AF; [unfold how_many; repeat first [apply Forall_nil|apply Forall_cons; [cbn; lra|]]|unfold how_many; repeat first [apply Forall_nil|apply Forall_cons; [split; vm_compute; reflexivity|]]|vm_compute; discriminate|vm_compute; discriminate]. }
  split; [vm_compute; reflexivity|]. eexists. vm_compute. reflexivity.
Qed.
