(** C75: a session that can pay for all the questions asked answers each of them as if it were
    the only one, so their order does not matter.  The specification is at the top of
    AnyOrder.v. *)
From Coq Require Import String Bool Arith ZArith QArith Lqa Lia Permutation List.
From Verif Require Import Prelude Budget BudgetProofs BudgetScale Value Rows Constraints Schema Query Transform Tables
  Accountant AccountantProofs Session SessionSpec SessionMoney SessionSteps SessionTables SessionInv SessionCharge SessionUse BlindSpec MoreBudget AnyOrder
  Measure Props_Query Props_Session Props_Measure Props_Footprint.
Import ListNotations.
Local Open Scope string_scope.
Local Open Scope nat_scope.

(** Questions of valid budgets that are floats and together ask for no more than what is left. *)
Definition affordable_together (E : env) (s : sess) (plan : list question) : Prop :=
  Forall (fun x => valid (snd x)) plan /\ Forall (fun x => float_budget E (snd x)) plan
  /\ forall f, f = loss \/ f = delta -> xle (together f (s_left s) plan) (f (s_left s)).

Lemma each_fits E s plan : rounds_in_order E -> affordable_together E s plan -> Forall (fun x => fits E (s_left s) (snd x)) plan.
Proof.
  intros MO (VS & FS & TG).
  assert (G : forall p l, Forall (fun x : question => valid (snd x)) p -> Forall (fun x => float_budget E (snd x)) p ->
     (forall f, f = loss \/ f = delta -> xle (together f l p) (f l)) -> Forall (fun x => fits E l (snd x)) p).
  { intros p l. induction p as [|x p IH]; intros V F T; [constructor|]. apply Forall_cons_iff in V as (V & VS'), F as (F & FS'). cbn [together] in T. constructor.
    - apply request_fits; [exact MO|exact F|]. intros f C. eapply part_le; [apply (together_nonneg l f p C VS')|]. apply T, C.
    - apply IH; [exact VS'|exact FS'|]. intros f C. eapply rest_le; [apply (request_nonneg l (snd x) f C V)|apply T, C]. }
  exact (G plan (s_left s) VS FS TG).
Qed.
Lemma same_start p st s : ok (st_root st) -> valid (s_left s) -> session st p s -> like p st s st s.
Proof. intros O V S. constructor; try reflexivity; try assumption. destruct (s_left s); exact I. Qed.

(** The outcome of each question is that of asking it first.  Afterwards the session has the
    tables and constraints it had, and was charged for the answered questions, for each what it
    asked for. *)
Theorem C75_as_if_alone : forall E b x st p s plan,
  rounds_in_order E -> reachable E b x st -> session st p s -> affordable_together E s plan ->
  answers E st (asked p plan) = map (alone E st p) plan
  /\ exists s' cs, session (run E st (asked p plan)) p s'
     /\ s_tree s' = s_tree s /\ s_cons s' = s_cons s /\ s_initial s' = s_initial s /\ st_public (run E st (asked p plan)) = st_public st
     /\ s_log s' = (s_log s ++ cs)%list /\ Forall2 (paid (s_left s)) (filter (answered E st p) plan) cs
     /\ (infinite (s_left s) -> s_left s' = s_left s)
     /\ (~ infinite (s_left s) -> forall f, f = loss \/ f = delta ->
           xeq (xadd (f (s_left s')) (together f (s_left s) (filter (answered E st p) plan))) (f (s_left s))).
Proof.
  intros E b x st p s plan MO RE S AF. pose proof (reachable_ok _ _ _ _ RE) as O. pose proof (bk_left _ (reachable_books _ _ _ _ _ _ RE S)) as V.
  pose proof (each_fits E s plan MO AF) as FT. destruct AF as (VS & FS & TG).
  destruct (all_questions E MO p st s S O V plan st s (same_start p st s O V S) VS FS FT TG) as (A & s1 & cs & LK & LG & PD & I1 & I2).
  split; [exact A|]. exists s1, cs. destruct LK. auto 12.
Qed.
Print Assumptions C75_as_if_alone.

Lemma reachable_more E b x : forall l st, reachable E b x st -> reachable E b x (run E st l).
Proof. induction l as [|o l IH]; intros st H; [exact H|]. cbn [run]. apply IH, reachable_step, H. Qed.
(** Asked in another order: the same outcome for each question, charges for the same questions,
    and as much left. *)
Lemma together_perm f l plan plan' : Forall (fun x : question => valid (snd x)) plan -> f = loss \/ f = delta -> Permutation plan plan' ->
  xeq (together f l plan) (together f l plan').
Proof.
  intros V C P. revert V. induction P as [|x p p' P IH|x y p|p p' p'' P1 IH1 P2 IH2]; intros V.
  - cbn. reflexivity.
  - apply Forall_cons_iff in V as (_ & V). specialize (IH V). cbn [together]. revert IH. generalize (together f l p), (together f l p'), (f (request l (snd x))). intros; xq_solve.
  - apply Forall_cons_iff in V as (V1 & V). apply Forall_cons_iff in V as (V2 & V). cbn [together].
    pose proof (request_nonneg l _ f C V1) as N1. pose proof (request_nonneg l _ f C V2) as N2. pose proof (together_nonneg l f p C V) as N3. revert N1 N2 N3.
    generalize (together f l p), (f (request l (snd x))), (f (request l (snd y))). intros; xq_solve.
  - eapply xeq_trans; [apply IH1, V|]. apply IH2. rewrite Forall_forall in *. intros z I. apply V. eapply Permutation_in; [apply Permutation_sym, P1|exact I].
Qed.
Lemma filter_perm {A} (g : A -> bool) l l' : Permutation l l' -> Permutation (filter g l) (filter g l').
Proof.
  induction 1 as [|x l l' P IH|x y l|l l' l'' P1 IH1 P2 IH2]; cbn; [constructor| | |etransitivity; eassumption].
  - destruct (g x); [constructor|]; exact IH.
  - destruct (g x), (g y); try apply Permutation_refl. constructor.
Qed.
Lemma same_rest l1 l2 t1 t2 l : xle (XFin 0) l1 -> xle (XFin 0) l2 -> xle (XFin 0) t1 -> l <> XPInf -> xeq t1 t2 -> xeq (xadd l1 t1) l -> xeq (xadd l2 t2) l -> xeq l1 l2.
Proof. intros; xq_solve. Qed.
Theorem C75_any_order : forall E b x st p s plan plan',
  rounds_in_order E -> reachable E b x st -> session st p s -> affordable_together E s plan -> Permutation plan plan' ->
  Permutation (combine plan (answers E st (asked p plan))) (combine plan' (answers E st (asked p plan')))
  /\ exists s1 s2, session (run E st (asked p plan)) p s1 /\ session (run E st (asked p plan')) p s2
     /\ s_tree s1 = s_tree s2 /\ s_cons s1 = s_cons s2 /\ s_initial s1 = s_initial s2
     /\ st_public (run E st (asked p plan)) = st_public (run E st (asked p plan'))
     /\ forall f, f = loss \/ f = delta -> xeq (f (remaining_privacy_budget s1)) (f (remaining_privacy_budget s2)).
Proof.
  intros E b x st p s plan plan' MO RE S AF P.
  assert (AF' : affordable_together E s plan').
  { destruct AF as (VS & FS & TG). split; [eapply Permutation_Forall; eassumption|]. split; [eapply Permutation_Forall; eassumption|].
    intros f C. eapply xle_trans; [|apply (TG f C)]. apply xeq_xle, xeq_sym, together_perm; assumption. }
  destruct (C75_as_if_alone E b x st p s plan MO RE S AF) as (A & s1 & cs1 & S1 & T1 & C1 & N1 & P1 & _ & _ & I1 & F1).
  destruct (C75_as_if_alone E b x st p s plan' MO RE S AF') as (A' & s2 & cs2 & S2 & T2 & C2 & N2 & P2 & _ & _ & I2 & F2).
  split.
  - rewrite A, A'. clear - P.
    assert (G : forall l : list question, combine l (map (alone E st p) l) = map (fun x => (x, alone E st p x)) l) by (induction l as [|y l IH]; [reflexivity|]; cbn; rewrite IH; reflexivity).
    rewrite !G. apply Permutation_map, P.
  - exists s1, s2. split; [exact S1|]. split; [exact S2|]. split; [congruence|]. split; [congruence|]. split; [congruence|]. split; [congruence|].
    intros f C. unfold remaining_privacy_budget. destruct (infinite_dec (s_left s)) as [I|NI].
    + rewrite (I1 I), (I2 I). apply xeq_refl.
    + pose proof (bk_left _ (reachable_books _ _ _ _ _ _ RE S)) as V.
      pose proof (bk_left _ (reachable_books _ _ _ _ _ _ (reachable_more E b x _ st RE) S1)) as V1.
      pose proof (bk_left _ (reachable_books _ _ _ _ _ _ (reachable_more E b x _ st RE) S2)) as V2.
      eapply (same_rest _ _ (together f (s_left s) (filter (answered E st p) plan)) (together f (s_left s) (filter (answered E st p) plan')) (f (s_left s))).
      * apply component_nonneg; assumption.
      * apply component_nonneg; assumption.
      * apply together_nonneg; [exact C|]. apply filter_valid, AF.
      * apply component_finite; assumption.
      * apply together_perm; [apply filter_valid, AF|exact C|apply filter_perm, P].
      * apply F1; assumption.
      * apply F2; assumption.
Qed.
Print Assumptions C75_any_order.

(** What each query computes, with whatever it is charged, is what it would have computed first. *)
Theorem C75_same_answers : forall E b x st p s plan K auto so c q,
  rounds_in_order E -> reachable E b x st -> session st p s -> affordable_together E s plan ->
  answer E K auto so (run E st (asked p plan)) p c q = answer E K auto so st p c q.
Proof.
  intros E b x st p s plan K auto so c q MO RE S AF. destruct (C75_as_if_alone E b x st p s plan MO RE S AF) as (_ & s1 & cs & S1 & T & C & _ & P & _).
  unfold answer. rewrite (proj2 (session_at_iff _ _ _) S), (proj2 (session_at_iff _ _ _) S1). cbn [bind]. rewrite T, C, P. reflexivity.
Qed.
Print Assumptions C75_same_answers.

(** A session with 3 left; of four questions one is refused, for its schema. *)
Definition how_many (n : string) (e : Q) : question := (GroupByCount (PrivateSource n) (KSet [] [[]]) "n" MDefault None, Pure (XFin e)).
Definition four : list question := [how_many "cities" 1; how_many "nowhere" (1 # 2); how_many "cities" (1 # 2); how_many "cities" 1].
Example C75_case : let st := st0 (Pure (XFin 3)) in
  rounds_in_order E0 /\ reachable E0 (Pure (XFin 3)) x0 st /\ exists s, session st [] s /\ affordable_together E0 s four
  /\ answers E0 st (asked [] four) = [Ok tt; Err ValueError; Ok tt; Ok tt]
  /\ answers E0 st (asked [] (rev four)) = [Ok tt; Ok tt; Err ValueError; Ok tt]
  /\ exists s', session (run E0 st (asked [] (rev four))) [] s' /\ xeq (loss (s_left s')) (XFin (1 # 2)).
Proof.
  cbn zeta. split; [intros x y H; exact H|]. split; [apply (reachable_run (Pure (XFin 3)) []); cbn; lra|].
  eexists. split; [eexists; split; reflexivity|]. split.
  - split; [repeat constructor; cbn; lra|]. split; [repeat constructor; vm_compute; reflexivity|].
    intros f [-> | ->]; vm_compute; discriminate.
  - split; [vm_compute; reflexivity|]. split; [vm_compute; reflexivity|]. eexists. split; [eexists; split; [vm_compute; reflexivity|reflexivity]|]. vm_compute. reflexivity.
Qed.
(** The premise is needed: with more than what is left, the order decides who is answered. *)
Theorem C75_order_matters_beyond_the_budget : exists E b x st p s plan plan',
  rounds_in_order E /\ reachable E b x st /\ session st p s /\ Permutation plan plan' /\ Forall (fun x => alone E st p x = Ok tt) plan
  /\ ~ Permutation (combine plan (answers E st (asked p plan))) (combine plan' (answers E st (asked p plan'))).
Proof.
  exists E0, (Pure (XFin 3)), x0, (st0 (Pure (XFin 3))), []. eexists. exists [how_many "cities" 2; how_many "cities" (3 # 2)], [how_many "cities" (3 # 2); how_many "cities" 2].
  split; [intros x y H; exact H|]. split; [apply (reachable_run (Pure (XFin 3)) []); cbn; lra|].
  split; [eexists; split; reflexivity|]. split; [constructor|]. split; [repeat constructor; vm_compute; reflexivity|].
  intros P. apply (Permutation_in (how_many "cities" 2, Ok tt)) in P; [|vm_compute; auto].
  vm_compute in P. destruct P as [P|[P|[]]]; discriminate P.
Qed.
Print Assumptions C75_order_matters_beyond_the_budget.
