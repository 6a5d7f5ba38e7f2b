(** Several evaluations in a session that can pay for all of them: each is answered or refused
    as if it were the only one. *)
From Coq Require Import String Bool Arith ZArith QArith Lqa Lia Permutation List.
From Verif Require Import Prelude Budget BudgetProofs Value Rows Constraints Schema Query Transform TransformVisit Tables
  Accountant AccountantProofs Session SessionSpec SessionMoney SessionSteps SessionTables SessionCharge SessionSound SessionUse BlindSpec MoreBudget SessionInv.
Import ListNotations.
Local Open Scope string_scope.
Local Open Scope nat_scope.

(** ** Specification *)

(** Questions: a query with the budget that may be spent on it. *)
Definition question : Type := (query * budget)%type.
(** Evaluating each of them in turn in the session at [p]. *)
Definition asked (p : path) (plan : list question) : list op := map (fun x => Evaluate p (fst x) (snd x)) plan.
(** What they ask for together; a PureDPBudget asks for a delta of zero. *)
Fixpoint together (f : budget -> xq) (left : budget) (plan : list question) : xq :=
  match plan with [] => XFin 0 | x :: plan => xadd (f (request left (snd x))) (together f left plan) end.
(** A number that is a float, so that rounding it down to one changes nothing. *)
Definition float_number (E : env) (x : xq) : Prop := xeq (as_float E x) x.
Definition float_budget (E : env) (b : budget) : Prop := float_number E (loss b) /\ float_number E (delta b).
(** The outcome of a question that is asked first. *)
Definition alone (E : env) (st : state) (p : path) (x : question) : res unit := snd (step E st (Evaluate p (fst x) (snd x))).
Definition answered (E : env) (st : state) (p : path) (x : question) : bool := is_ok (alone E st p x).
(** What is recorded as spent on an answered question: what it asked for. *)
Definition paid (left : budget) (x : question) (c : charge) : Prop :=
  exists b, c = Measured b /\ (b = request left (snd x) \/ (infinite (request left (snd x)) /\ infinite b)).

(** ** Proofs *)
Section AnyOrder.
Variable E : env.
Hypothesis MO : rounds_in_order E.
Notation R := (e_round E).

Lemma kind_request l l' b : same_kind l l' -> request l' b = request l b.
Proof. destruct l, l', b; cbn; tauto. Qed.
Lemma request_nonneg l b f : component f -> valid b -> xle (XFin 0) (f (request l b)).
Proof. intros [-> | ->] V; destruct l, b; cbn in *; try tauto; lra. Qed.
Lemma together_nonneg l f plan : component f -> Forall (fun x : question => valid (snd x)) plan -> xle (XFin 0) (together f l plan).
Proof.
  intros C. induction 1 as [|x plan V _ IH]; cbn [together]; [cbn; lra|]. pose proof (request_nonneg l (snd x) f C V) as H.
  destruct (f (request l (snd x))), (together f l plan); cbn in *; try tauto. lra.
Qed.
Lemma together_kind l l' f plan : same_kind l l' -> together f l' plan = together f l plan.
Proof. intros K. induction plan as [|x plan IH]; [reflexivity|]. cbn [together]. rewrite (kind_request l l' (snd x) K), IH. reflexivity. Qed.
Lemma float_fits x l : float_number E x -> xle x l -> xle x (as_float E l).
Proof. intros F H. pose proof (as_float_mono E MO x l H) as M. unfold float_number in F. eapply xle_trans; [apply xeq_xle, xeq_sym, F|exact M]. Qed.
Lemma request_fits l b : float_budget E b -> (forall f, component f -> xle (f (request l b)) (f l)) -> fits E l b.
Proof.
  intros (F1 & F2) H. pose proof (H loss (or_introl eq_refl)) as H1. pose proof (H delta (or_intror eq_refl)) as H2.
  destruct l as [l|l d|l], b as [x|x y|x]; cbn in *; try exact I; try (apply float_fits; assumption). split; apply float_fits; assumption.
Qed.
Lemma plain_is b adj : plain_charge E b = Ok adj -> adj = b \/ (infinite b /\ infinite adj).
Proof.
  destruct b as [x|x d|x]; cbn [plain_charge]; intros H.
  - apply mk_pure_inv in H as (y & -> & Y). injection Y as <-. auto.
  - destruct (is_infinite (Approx x d)) eqn:I.
    + right. apply is_infinite_iff in I. split; [exact I|]. apply mk_approx_inv in H as (y & z & -> & Y & Z). cbn in Y. injection Y as <-. left. reflexivity.
    + left. apply bind_ok in H as (? & _ & H). apply mk_approx_inv in H as (y & z & -> & Y & Z). injection Y as <-. injection Z as <-. reflexivity.
  - apply mk_zcdp_inv in H as (y & -> & Y). injection Y as <-. auto.
Qed.

(** The session at [p] has the same tables and is as usable as before. *)
Record like (p : path) (st : state) (s : sess) (st' : state) (s' : sess) : Prop := {
  lk_session : session st' p s';
  lk_ok : ok (st_root st');
  lk_public : st_public st' = st_public st;
  lk_initial : s_initial s' = s_initial s;
  lk_tree : s_tree s' = s_tree s;
  lk_cons : s_cons s' = s_cons s;
  lk_kind : same_kind (s_left s) (s_left s');
  lk_left : valid (s_left s');
  lk_active : snd (activate p (st_root st')) = snd (activate p (st_root st)) }.
Lemma active_again p (t : acct sess) : state_at t p ACTIVE -> snd (activate p t) = Ok tt.
Proof. intros A. apply state_at_iff in A. unfold activate. rewrite A. reflexivity. Qed.

Lemma compile_like s s' pub q b : s_tree s' = s_tree s -> s_cons s' = s_cons s -> valid (s_left s) -> valid (s_left s') -> same_kind (s_left s) (s_left s') ->
  fits E (s_left s) b -> fits E (s_left s') b ->
  compile_and_get_info E s' pub q b = compile_and_get_info E s pub q b
  /\ forall adj, compile_and_get_info E s pub q b = Ok adj ->
       valid adj /\ same_kind (s_left s') (request (s_left s) b) /\ plain_charge E (request (s_left s) b) = Ok adj
       /\ exists r r', spend (s_left s) adj = Some r /\ spend (s_left s') adj = Some r'.
Proof.
  intros T C V V' K F F'. unfold compile_and_get_info. rewrite T, C.
  assert (PS : forall b1, lift_pure E (s_left s) b = Ok b1 -> validate_type (s_left s) b1 = Ok tt ->
     process_budget E (s_left s) b1 = plain_charge E b1 /\ process_budget E (s_left s') b1 = plain_charge E b1 /\ same_kind (s_left s) b1 /\ same_kind (s_left s') b1
     /\ fits E (s_left s) b1 /\ fits E (s_left s') b1).
  { intros b1 L VT. pose proof (validated _ _ _ VT) as K1. assert (K2 : same_kind (s_left s') b1) by (eapply same_kind_trans; [apply same_kind_sym, K|exact K1]).
    pose proof (lift_fits E _ _ _ V L F) as F1. rewrite <- (kind_lift E _ _ b K) in L. pose proof (lift_fits E _ _ _ V' L F') as F2.
    split; [apply process_fits; assumption|]. split; [apply process_fits; assumption|]. auto. }
  split.
  - apply bind_congr; [apply kind_lift, K|]. intros b1 L. apply bind_congr; [apply kind_validate, K|]. intros [] VT.
    apply bind_congr; [reflexivity|]. intros _ _. destruct (PS b1 L VT) as (P1 & P2 & _). rewrite P1, P2. reflexivity.
  - intros adj X. apply bind_ok in X as (b1 & L & X). apply bind_ok in X as ([] & VT & X). apply bind_ok in X as (? & _ & X). apply bind_ok in X as (a & P & X).
    repeat (apply bind_ok in X as (? & _ & X)). injection X as <-. destruct (PS b1 L VT) as (P1 & P2 & K1 & K2 & F1 & F2). rewrite P1 in P.
    pose proof (lift_request E _ _ _ L) as ->. destruct (plain_valid E _ _ P) as (VA & KA). split; [exact VA|]. split; [exact K2|]. split; [exact P|].
    assert (SP : forall l, valid l -> same_kind l (request (s_left s) b) -> fits E l (request (s_left s) b) -> exists r, spend l a = Some r).
    { intros l Vl Kl Fl. destruct (infinite_dec l) as [I|NI]; [exists l; apply spend_infinite, I|]. apply spend_below; [exact Vl|exact NI| |exact VA].
      eapply plain_below; eassumption. }
    destruct (SP _ V K1 F1) as (r & S1), (SP _ V' K2 F2) as (r' & S2). eauto.
Qed.

(** One question, asked later. *)
Lemma one_question p st s st' s' q b : session st p s -> ok (st_root st) -> valid (s_left s) -> like p st s st' s' ->
  fits E (s_left s) b -> fits E (s_left s') b ->
  let x := (q, b) in
  snd (step E st' (Evaluate p q b)) = alone E st p x
  /\ exists s1, like p st s (fst (step E st' (Evaluate p q b))) s1
    /\ if answered E st p x
       then exists adj, s_log s1 = (s_log s' ++ [Measured adj])%list /\ plain_charge E (request (s_left s) b) = Ok adj
              /\ same_kind (s_left s') (request (s_left s) b) /\ spend (s_left s') adj = Some (s_left s1)
       else s_log s1 = s_log s' /\ s_left s1 = s_left s'.
Proof.
  intros S O V LK F F' x. destruct LK as [S' O' PU IN TR CO KI VL AC]. unfold answered, alone, x. cbn [fst snd step].
  destruct (compile_like s s' (st_public st) q b TR CO V VL KI F F') as (CE & CS).
  pose proof (proj2 (session_at_iff st p s) S) as SA. pose proof (proj2 (session_at_iff st' p s') S') as SA'.
  unfold evaluate. rewrite SA, SA'. cbn [attempt]. rewrite PU, CE. rewrite TR.
  destruct (compile_and_get_info E s (st_public st) q b) as [adj|e] eqn:CA; cbn [attempt fails fst snd is_ok].
  2:{ split; [reflexivity|]. exists s'. split; [constructor; assumption|]. auto. }
  destruct (CS adj eq_refl) as (VA & KR & PC & r & r' & SP & SP'). rewrite SP, SP'.
  unfold activated. destruct (activate p (st_root st)) as (t, a) eqn:A0, (activate p (st_root st')) as (t', a') eqn:A0'. cbn [snd] in AC. subst a'.
  destruct a as [[]|e].
  2:{ pose proof (activate_err p _ _ _ A0') as ->. cbn [fst snd is_ok]. split; [reflexivity|]. exists s'. rewrite set_root_id. split; [|auto]. constructor; try assumption. rewrite A0', A0. reflexivity. }
  destruct (activate_ok p _ _ O' A0') as (L1 & A1 & P1 & K1).
  assert (RD : ready st' (set_root st' t') p).
  { split; [split; [exact P1|split; [reflexivity|split; [left; exact L1|exact K1]]]|]. split; [exact L1|]. split; [exact A1|exact A0']. }
  destruct (ready_session _ _ _ _ SA' RD) as (c & FC & DC & SC). cbn [st_root set_root] in FC.
  destruct (negb (e_relation E (s_tree s) q adj)); cbn [fails fst snd is_ok].
  - split; [reflexivity|]. exists s'. split; [|auto]. constructor; try assumption; cbn [st_root set_root st_public].
    + exists c. auto.
    + left. exact L1.
    + rewrite A0. cbn [snd]. apply active_again, A1.
  - split; [reflexivity|]. exists (charged s' r' (Measured adj)). split.
    + constructor; cbn [st_root set_root st_public charged s_initial s_tree s_cons s_left]; try assumption.
      * eexists. split; [cbn [st_root set_root]; rewrite find_change, FC; reflexivity|reflexivity].
      * left. apply change_live; [exact L1|exact A1|]. intros c0 L0 AA. apply set_data_live; assumption.
      * destruct (spend_spec _ _ _ VL VA (same_kind_trans _ _ _ KR (proj2 (plain_valid E _ _ PC))) SP') as [(_ & ->)|(_ & _ & _ & KK & _)]; [exact KI|]. eapply same_kind_trans; eassumption.
      * eapply spend_valid; [exact VL|exact VA| |exact SP']. exact (same_kind_trans _ _ _ KR (proj2 (plain_valid E _ _ PC))).
      * rewrite A0. cbn [snd]. apply active_again, set_data_state_at, A1.
    + exists adj. cbn [charged s_log s_left]. auto.
Qed.

Lemma part_le r t l : xle (XFin 0) t -> xle (xadd r t) l -> xle r l.
Proof. intros; xq_solve. Qed.
Lemma rest_le r t l : xle (XFin 0) r -> xle (xadd r t) l -> xle t l.
Proof. intros; xq_solve. Qed.
Lemma rest_left r t l l1 : xle (XFin 0) r -> xle (XFin 0) l1 -> l <> XPInf -> xle (xadd r t) l -> xeq (xadd l1 r) l -> xle t l1.
Proof. intros; xq_solve. Qed.
Lemma sum_left r t l l1 l2 : xle (XFin 0) r -> xeq (xadd l1 r) l -> xeq (xadd l2 t) l1 -> xle (XFin 0) l2 -> xle (XFin 0) t -> xeq (xadd l2 (xadd r t)) l.
Proof. intros; xq_solve. Qed.
Lemma xadd_zero l : xeq (xadd l (XFin 0)) l.
Proof. xq_solve. Qed.
Lemma component_finite f l : component f -> valid l -> ~ infinite l -> f l <> XPInf.
Proof. intros [-> | ->] V NI; destruct l as [x|x d|x]; cbn in *; try discriminate; try tauto. destruct d; try discriminate. tauto. Qed.
Lemma component_nonneg f l : component f -> valid l -> xle (XFin 0) (f l).
Proof. intros [-> | ->] V; destruct l as [x|x d|x]; cbn in *; try tauto; lra. Qed.
Lemma below a l : same_kind l a -> (forall f, component f -> xle (f a) (f l)) -> ble a l.
Proof.
  intros K H. pose proof (H loss (or_introl eq_refl)) as H1. pose proof (H delta (or_intror eq_refl)) as H2. destruct l, a; cbn in *; tauto.
Qed.
Lemma filter_valid g (plan : list question) : Forall (fun x => valid (snd x)) plan -> Forall (fun x => valid (snd x)) (filter g plan).
Proof. rewrite !Forall_forall. intros H x I. apply filter_In in I. apply H, I. Qed.

Lemma all_questions p st s : session st p s -> ok (st_root st) -> valid (s_left s) ->
  forall plan st' s', like p st s st' s' -> Forall (fun x => valid (snd x)) plan -> Forall (fun x => float_budget E (snd x)) plan ->
  Forall (fun x => fits E (s_left s) (snd x)) plan -> (forall f, component f -> xle (together f (s_left s) plan) (f (s_left s'))) ->
  answers E st' (asked p plan) = map (alone E st p) plan
  /\ exists s1 cs, like p st s (run E st' (asked p plan)) s1
    /\ s_log s1 = (s_log s' ++ cs)%list /\ Forall2 (paid (s_left s)) (filter (answered E st p) plan) cs
    /\ (infinite (s_left s') -> s_left s1 = s_left s')
    /\ (~ infinite (s_left s') -> forall f, component f -> xeq (xadd (f (s_left s1)) (together f (s_left s) (filter (answered E st p) plan))) (f (s_left s'))).
Proof.
  intros S O V. induction plan as [|(q, b) plan IH]; intros st' s' LK VS FS FT TG.
  { split; [reflexivity|]. exists s', []. split; [exact LK|]. split; [symmetry; apply app_nil_r|]. split; [constructor|]. split; [reflexivity|]. intros _ f _. apply xadd_zero. }
  apply Forall_cons_iff in VS as (VB & VS). apply Forall_cons_iff in FS as (FB & FS). apply Forall_cons_iff in FT as (FI & FT). cbn [snd] in VB, FB, FI.
  pose proof (lk_kind _ _ _ _ _ LK) as KI. pose proof (lk_left _ _ _ _ _ LK) as VL.
  assert (LE : forall f, component f -> xle (f (request (s_left s) b)) (f (s_left s'))).
  { intros f C. eapply part_le; [|apply (TG f C)]. apply together_nonneg; assumption. }
  assert (F' : fits E (s_left s') b).
  { apply request_fits; [exact FB|]. intros f C. rewrite (kind_request _ _ b KI). apply LE, C. }
  destruct (one_question p st s st' s' q b S O V LK FI F') as (OUT & s1 & LK1 & AF).
  assert (NN : forall f, component f -> xle (XFin 0) (f (request (s_left s) b))) by (intros f C; apply request_nonneg; assumption).
  cbn [asked map answers run fst snd filter]. rewrite OUT.
  destruct (answered E st p (q, b)) eqn:AN.
  - destruct AF as (adj & LG & PC & KR & SP). destruct (plain_valid E _ _ PC) as (VA & KA).
    assert (CH : Measured adj = Measured adj /\ (adj = request (s_left s) b \/ (infinite (request (s_left s) b) /\ infinite adj))) by (split; [reflexivity|apply plain_is, PC]).
    destruct (spend_spec _ _ _ VL VA (same_kind_trans _ _ _ KR KA) SP) as [(INF & EQ)|(NI & NI1 & V1 & K1 & SUM)].
    + assert (TG1 : forall f, component f -> xle (together f (s_left s) plan) (f (s_left s1))).
      { intros f C. rewrite EQ. eapply rest_le; [apply (NN f C)|apply (TG f C)]. }
      destruct (IH _ s1 LK1 VS FS FT TG1) as (A & s2 & cs & LK2 & LG2 & PD & I2 & _). split; [f_equal; exact A|]. exists s2, (Measured adj :: cs).
      split; [exact LK2|]. split; [rewrite LG2, LG, <- app_assoc; reflexivity|]. split; [constructor; [exists adj; exact CH|exact PD]|].
      split; [intros _; rewrite I2; [exact EQ|rewrite EQ; exact INF]|]. intros NI. destruct (NI INF).
    + assert (ADJ : adj = request (s_left s) b).
      { destruct CH as (_ & [H|(H & _)]); [exact H|]. exfalso. apply NI. eapply infinite_more; [exact VL| |exact H]. apply below; assumption. }
      assert (TG1 : forall f, component f -> xle (together f (s_left s) plan) (f (s_left s1))).
      { intros f C. eapply (rest_left (f (request (s_left s) b)) _ (f (s_left s'))); [apply (NN f C)|apply component_nonneg; assumption|apply component_finite; assumption|apply (TG f C)|].
        rewrite <- ADJ. apply SUM, C. }
      destruct (IH _ s1 LK1 VS FS FT TG1) as (A & s2 & cs & LK2 & LG2 & PD & _ & I2). split; [f_equal; exact A|]. exists s2, (Measured adj :: cs).
      split; [exact LK2|]. split; [rewrite LG2, LG, <- app_assoc; reflexivity|]. split; [constructor; [exists adj; exact CH|exact PD]|].
      split; [intros INF; destruct (NI INF)|]. intros _ f C. cbn [together snd]. eapply sum_left; [apply (NN f C)| |apply (I2 NI1 f C)| |].
      * rewrite <- ADJ. apply SUM, C.
      * apply component_nonneg; [exact C|apply (lk_left _ _ _ _ _ LK2)].
      * apply together_nonneg; [exact C|]. apply filter_valid, VS.
  - destruct AF as (LG & EQ).
    assert (TG1 : forall f, component f -> xle (together f (s_left s) plan) (f (s_left s1))).
    { intros f C. rewrite EQ. eapply rest_le; [apply (NN f C)|apply (TG f C)]. }
    destruct (IH _ s1 LK1 VS FS FT TG1) as (A & s2 & cs & LK2 & LG2 & PD & I1 & I2). split; [f_equal; exact A|]. exists s2, cs.
    split; [exact LK2|]. split; [rewrite LG2, LG; reflexivity|]. split; [exact PD|]. rewrite <- EQ. split; [exact I1|exact I2].
Qed.
End AnyOrder.
