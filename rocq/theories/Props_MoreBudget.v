(** C68: raising a session's budget breaks nothing.  What "affordable" means is at the top of
    MoreBudget.v. *)
From Coq Require Import String Bool Arith ZArith QArith Lqa Lia Permutation List.
From Verif Require Import Prelude Budget BudgetProofs Value Rows Constraints Schema Query Transform Tables
  Accountant AccountantProofs Session SessionSpec SessionTables BlindSpec MoreBudget Props_Session.
Import ListNotations.
Local Open Scope string_scope.
Local Open Scope nat_scope.

Lemma raised_session st st' p s : raised st st' -> session st p s -> exists s', session st' p s' /\ richer s s'.
Proof.
  intros (H & _) (c & F & <-). pose proof (arel_find p _ _ H) as X. rewrite F in X. destruct (find p (st_root st')) as [c'|] eqn:F'; [|contradiction].
  exists (a_data c'). split; [exists c'; auto|apply arel_data, X].
Qed.
Lemma raised_session_back st st' p s' : raised st st' -> session st' p s' -> exists s, session st p s /\ richer s s'.
Proof.
  intros (H & _) (c' & F & <-). pose proof (arel_find p _ _ H) as X. rewrite F in X. destruct (find p (st_root st)) as [c|] eqn:F'; [|contradiction].
  exists (a_data c). split; [exists c; auto|apply arel_data, X].
Qed.

(** The same calls on two sessions made from the same tables, where the first can afford them
    and the second has a budget that is at least as large: every call has the same outcome,
    and afterwards there are the same sessions, in the same states, with the same tables and
    constraints, and charged for the same things; only what is left may be more. *)
Theorem C68_raising_the_budget_breaks_nothing : forall E b b' x st st' l,
  rounds_in_order E -> valid b -> valid b' -> ble b b' ->
  new_session b x = Ok st -> new_session b' x = Ok st' -> affordable E st l ->
  answers E st' l = answers E st l
  /\ st_public (run E st' l) = st_public (run E st l)
  /\ (forall p, option_map a_state (find p (st_root (run E st' l))) = option_map a_state (find p (st_root (run E st l))))
  /\ forall p s, session (run E st l) p s -> exists s', session (run E st' l) p s'
       /\ s_tree s' = s_tree s /\ s_cons s' = s_cons s /\ s_log s' = s_log s /\ ble (s_left s) (s_left s').
Proof.
  intros E b b' x st st' l MO V V' B N N' A.
  assert (H : raised st st').
  { unfold new_session in *. apply bind_ok in N as (names & P & N). rewrite P in N'. cbn [bind] in N'. injection N as <-. injection N' as <-.
    split; [|reflexivity]. cbn [st_root]. constructor; [|constructor]. repeat (split; [try reflexivity; assumption|]). exact B. }
  destruct (run_same E MO l st st' H A) as (X & Y). split; [exact Y|]. split; [apply X|]. split.
  - intros p. pose proof (arel_find p _ _ (proj1 X)) as Z. destruct (find p (st_root (run E st l))) as [c|], (find p (st_root (run E st' l))) as [c'|]; try contradiction; [|reflexivity].
    cbn [option_map]. rewrite (arel_state _ _ Z). reflexivity.
  - intros p s S. destruct (raised_session _ _ p s X S) as (s' & S' & (L & T & C & _ & _ & BL)). exists s'. auto.
Qed.
Print Assumptions C68_raising_the_budget_breaks_nothing.

(** The same from any two states of this kind, so also for budgets raised between calls; the
    next affordable call has the same outcome. *)
Theorem C68_next_call : forall E st st' o, rounds_in_order E -> raised st st' -> within E st o ->
  snd (step E st' o) = snd (step E st o) /\ raised (fst (step E st o)) (fst (step E st' o)).
Proof. intros E st st' o MO H W. destruct (step_same E MO st st' o H W) as (A & B). auto. Qed.
Print Assumptions C68_next_call.

(** Non-vacuity: evaluations, views and a partition with a budget of 3, and with 7/2. *)
Definition plan1 : list op :=
  [Evaluate [] (PrivateSource "cities") (Pure (XFin 1));
   CreateView [] (PrivateSource "cities") "towns" false;
   Partition [] "towns" (Pure (XFin 1)) "city" [("xs", VStr "x"); ("ys", VStr "y")];
   Evaluate [(0, 0)] (PrivateSource "xs") (Pure (XFin (1 # 2)));
   Evaluate [(0, 1)] (PrivateSource "ys") (Pure (XFin 1));
   Evaluate [(0, 0)] (PrivateSource "xs") (Pure (XFin (1 # 4)));
   Evaluate [] (PrivateSource "towns") (Pure (XFin (1 # 2)))].
Example C68_case :
  rounds_in_order E0 /\ new_session (Pure (XFin 3)) x0 = Ok (st0 (Pure (XFin 3))) /\ affordable E0 (st0 (Pure (XFin 3))) plan1
  /\ answers E0 (st0 (Pure (XFin (7 # 2)))) plan1 = [Ok tt; Ok tt; Ok tt; Ok tt; Ok tt; Err RuntimeError; Ok tt]
  /\ (exists s, session (run E0 (st0 (Pure (XFin (7 # 2)))) plan1) [] s /\ xeq (loss (s_left s)) (XFin 1) /\ length (s_log s) = 3).
Proof.
  split; [intros x y H; exact H|]. split; [reflexivity|]. split.
  - cbn [affordable plan1]. repeat split; try (cbn [within]; exact I); try (cbn [within]; intros s H; vm_compute in H; injection H as <-; vm_compute; discriminate).
  - split; [vm_compute; reflexivity|]. eexists. split; [eexists; split; [vm_compute; reflexivity|reflexivity]|]. vm_compute. auto.
Qed.
