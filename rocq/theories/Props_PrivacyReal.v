(** Property C54 for pure, approximate and zero-concentrated differential privacy.  This file
    uses the real numbers of the standard library, and its axioms. *)
From Coq Require Import String Bool Arith ZArith QArith Qcanon Reals Qreals Lra Lia Permutation List.
From Verif Require Import Prelude Budget BudgetProofs BudgetScale Value Rows Constraints Schema Query Transform TransformSpec Tables
  Accountant AccountantProofs Session SessionSpec SessionMoney SessionSteps SessionTables SessionInv SessionSound
  Neighboring Builder BuilderCalls BuilderNeighbours Measure
  BlindSpec BlindMeasure PersonSpec PersonSession PersonStart PersonAbsent
  Distance SensitivitySpec Props_Query Props_Session Props_Measure Props_Blind Props_Sound Props_Person Props_Sensitivity PrivacySpec PrivacyProofs Props_Privacy PrivacyReal.
Import ListNotations.
Local Open Scope string_scope.
Local Open Scope nat_scope.

(** The guarantee that a privacy budget states.  [prob d S] is the probability of the event
    [S]; [concentrated rho d d'] bounds the Renyi divergences (see [concentrated_renyi]). *)
Definition within (b : budget) {A} (d d' : distribution A) : Prop :=
  match b with
  | Pure (XFin e) => forall S, (prob d S <= exp (Q2R e) * prob d' S)%R
  | Approx (XFin e) (XFin dl) => forall S, (prob d S <= exp (Q2R e) * prob d' S + Q2R dl)%R
  | Zcdp (XFin r) => concentrated (Q2R r) d d'
  | _ => True
  end.
Lemma dp_within b A (d d' : distribution A) : valid b -> dp b d d' -> within b d d'.
Proof.
  intros V H. destruct b as [e|e dl|r]; cbn [dp within valid] in *.
  - destruct e as [e| |]; try exact I. cbn [amount] in H. rewrite Rmax_right in H by (apply Q2R_0, V). intros S. apply private_events with (S := S) in H. lra.
  - destruct e as [e| |]; try exact I. destruct dl as [dl| |]; try exact I. cbn [amount] in H. destruct V as (V1 & V2 & V3). rewrite !Rmax_right in H by (apply Q2R_0; assumption).
    intros S. apply private_events with (S := S) in H. exact H.
  - destruct r as [r| |]; try exact I. cbn [amount] in H. rewrite Rmax_right in H by (apply Q2R_0, V). exact H.
Qed.

(** Whatever calls an analyst makes, and however they depend on the replies so far, the
    distributions of all replies for the two datasets satisfy the privacy definition of the
    session's budget, in both directions: if core's noise does so for each measurement.
    Missing: as for [C54_session_privacy_partial]. *)
Theorem C54_differential_privacy_partial : forall E K auto so noisy sp j b l l' st st' n a,
  blind E -> blind_core K -> compiles_with E K auto so -> calibrated E K auto so differential_privacy noisy ->
  neighbours E sp j b l l' st st' ->
  fair E auto sp n a [] st -> fair E auto sp n a [] st' ->
  within b (play E K auto so differential_privacy noisy n a [] st) (play E K auto so differential_privacy noisy n a [] st')
  /\ within b (play E K auto so differential_privacy noisy n a [] st') (play E K auto so differential_privacy noisy n a [] st).
Proof.
  intros E K auto so noisy sp j b l l' st st' n a BL BK CW CAL NB F F'. pose proof (nb_budget _ _ _ _ _ _ _ _ NB) as (_ & V & _).
  destruct (C54_session_privacy_partial _ _ _ _ _ _ _ _ _ _ _ _ _ n a BL BK CW CAL NB F F') as (H1 & H2). split; apply dp_within; assumption.
Qed.
Print Assumptions C54_differential_privacy_partial.

(** Non-vacuity.  Randomised response about whether more than three rows are read, with the
    full privacy loss for pure and approximate differential privacy. *)
Definition tilt (b : budget) : R := match b with Pure e | Approx e _ => match amount e with Some e => e | None => 0 end | Zcdp _ => 0 end.
Lemma tilt_0 b : (0 <= tilt b)%R.
Proof. destruct b as [e|e d|r]; cbn [tilt]; try (destruct (amount e) as [x|] eqn:A; [eapply amount_0; exact A|]); lra. Qed.
Definition coin {A} (x : R) (truth : bool) (yes no : A) : distribution A.
Proof.
  exists (let w := (exp x / (1 + exp x))%R in let v := (1 / (1 + exp x))%R in if truth then [(yes, w); (no, v)] else [(yes, v); (no, w)]).
  assert (P : (0 < exp x)%R) by apply exp_pos. assert (Q : (0 < / (1 + exp x))%R) by (apply Rinv_0_lt_compat; lra).
  assert (W : (0 <= exp x / (1 + exp x))%R) by (unfold Rdiv; nra). assert (V : (0 <= 1 / (1 + exp x))%R) by (unfold Rdiv; nra).
  split; destruct truth; cbn [expect fst snd]; try (intros y [<-|[<-|[]]]; cbn [snd]; assumption); field; lra.
Defined.
Lemma coin_private A x (u v : bool) (yes no : A) : (0 <= x)%R -> private x 0 (coin x u yes no) (coin x v yes no).
Proof.
  intros X g T. destruct (T yes), (T no). unfold mean, coin. cbn [proj1_sig]. pose proof (exp_ge_1 x X) as E.
  assert (Q : (0 < / (1 + exp x))%R) by (apply Rinv_0_lt_compat; lra). unfold Rdiv. rewrite Rmult_1_l. set (q := (/ (1 + exp x))%R) in *. set (e := exp x) in *.
  assert (N : (forall y, 0 <= y -> e * q * y <= e * (q * y) /\ q * y <= e * (q * y) /\ q * y <= e * (e * q * y) /\ e * q * y <= e * (e * q * y))%R).
  { intros y Y. assert (Z : (0 <= q * y)%R) by nra. assert (e * (q * y) <= e * (e * (q * y)))%R by (assert (q * y <= e * (q * y))%R by nra; nra).
    repeat split; nra. }
  destruct (N (g yes)) as (N1 & N2 & N3 & N4); [assumption|]. destruct (N (g no)) as (N5 & N6 & N7 & N8); [assumption|].
  destruct u, v; cbn [expect fst snd]; lra.
Qed.
Lemma coin_0 A u v (yes no : A) r : (0 <= r)%R -> concentrated r (coin 0 u yes no) (coin 0 v yes no).
Proof.
  intros R al g X G. pose proof (concentrated_same r _ (coin 0 v yes no) R al g X G) as H. eapply Rle_trans; [|exact H]. right. unfold mean, coin. cbn [proj1_sig]. rewrite exp_0. destruct u, v; cbn [expect fst snd]; field.
Qed.
Definition coins (m : measurement) : distribution table := coin (tilt (privacy_loss K0 m)) (3 <? length (v_rows (table_of m))) [[("yes", VInt 1)]] [].
Lemma coins_calibrated : calibrated E1 K0 true idl differential_privacy coins.
Proof.
  assert (D : forall b u v, dp b (coin (tilt b) u [[("yes", VInt 1)]] []) (coin (tilt b) v [[("yes", VInt 1)]] [])).
  { intros b u v. pose proof (tilt_0 b) as T. destruct b as [e|e d|r]; cbn [dp tilt] in *.
    - destruct (amount e); [apply coin_private, T|exact I].
    - destruct (amount e); [|exact I]. destruct (amount d) as [q|] eqn:DD; [|exact I]. eapply private_more; [apply Rle_refl| |apply coin_private, T]. eapply amount_0; exact DD.
    - destruct (amount r) as [q|] eqn:DD; [|exact I]. apply coin_0. eapply amount_0; exact DD. }
  intros cat data data' b q m m' c x cs _ _ _ HM _ _ _. unfold coins. rewrite <- (privacy_loss_hidden K0 m m' K0_blind HM). split; apply D.
Qed.
(** The calls of [curious] under pure differential privacy. *)
Definition pure : budget := Pure (XFin (3 # 4)).
Definition here' : list bcall := with_budget pure trips_calls'.
Definition gone' : list bcall := with_budget pure trips_calls4.
Lemma pure_neighbours : neighbours E1 "people" (VInt 1) pure here' gone' (trips_start here') (trips_start gone').
Proof.
  constructor.
  - split; [cbn; intuition discriminate|]. split; [cbn; intuition discriminate|]. repeat constructor.
  - intros n f i H r I. cbn in H. destruct H as [H|[H|[]]]; [|discriminate H]. injection H as <- <- <-. cbn in I. destruct I as [<-|[<-|[]]]; reflexivity.
  - intros n f c [H|H]; cbn in H; destruct H as [H|[H|[]]]; injection H as <- <- <-; first [apply trips_conform|apply codes_conform|apply trips4_conform].
  - intros n f [H|H]; cbn in H; destruct H as [H|[]]; injection H as <- <-; apply codes_conform.
  - split; [cbn; auto|]. cbn. split; [discriminate|discriminate].
  - assert (B : exists o, build_by E1 here' = Ok o) by (eexists; vm_compute; reflexivity). destruct B as (o & B).
    assert (B' : exists o, build_by E1 gone' = Ok o) by (eexists; vm_compute; reflexivity). destruct B' as (o' & B').
    exists o, o'. unfold trips_start. rewrite B, B'. auto.
Qed.
Lemma pure_fair l : l = here' \/ l = gone' -> fair E1 true "people" 5 (curious_with Pure) [] (trips_start l).
Proof. intros [-> | ->]; fair_curious. Qed.
(** The two probabilities of the first answer being yes differ. *)
Definition says_yes (r : list reply) : bool := match r with [_; Answer [_]] => true | _ => false end.
Lemma first_answer (u : bool) l : (u = true /\ l = here') \/ (u = false /\ l = gone') ->
  exists m, play E1 K0 true idl differential_privacy coins 2 (curious_with Pure) [] (trips_start l) = then_ (coins m) (fun t => sure [Done (Ok tt); Answer t])
  /\ privacy_loss K0 m = Pure (XFin (1 # 4)) /\ (3 <? length (v_rows (table_of m))) = u.
Proof.
  intros H. cbn [play curious_with]. set (st1 := fst (step E1 (trips_start l) (CreateView [] few "few" false))).
  assert (V : snd (step E1 (trips_start l) (CreateView [] few "few" false)) = Ok tt) by (destruct H as [(-> & ->)|(-> & ->)]; vm_compute; reflexivity). rewrite V. cbn [app curious_with].
  assert (W : snd (step E1 st1 (Evaluate [] visits (Pure (XFin (1 # 4))))) = Ok tt) by (destruct H as [(-> & ->)|(-> & ->)]; vm_compute; reflexivity). rewrite W.
  assert (M : exists m, measurement_of E1 K0 true idl st1 [] visits (Pure (XFin (1 # 4))) = Ok m /\ privacy_loss K0 m = Pure (XFin (1 # 4)) /\ (3 <? length (v_rows (table_of m))) = u)
    by (destruct H as [(-> & ->)|(-> & ->)]; eexists; (split; [vm_compute; reflexivity|split; vm_compute; reflexivity])).
  destruct M as (m & -> & PL & U). exists m. split; [reflexivity|split; assumption].
Qed.
Example C54_pure_case : blind E1 /\ blind_core K0 /\ compiles_with E1 K0 true idl /\ calibrated E1 K0 true idl differential_privacy coins
  /\ neighbours E1 "people" (VInt 1) pure here' gone' (trips_start here') (trips_start gone')
  /\ fair E1 true "people" 5 (curious_with Pure) [] (trips_start here') /\ fair E1 true "people" 5 (curious_with Pure) [] (trips_start gone')
  /\ (prob (play E1 K0 true idl differential_privacy coins 2 (curious_with Pure) [] (trips_start here')) says_yes
      > prob (play E1 K0 true idl differential_privacy coins 2 (curious_with Pure) [] (trips_start gone')) says_yes)%R.
Proof.
  assert (CW : compiles_with E1 K0 true idl) by (intros cat x q b; reflexivity).
  split; [exact E1_blind|]. split; [exact K0_blind|]. split; [exact CW|]. split; [exact coins_calibrated|]. split; [exact pure_neighbours|].
  split; [apply pure_fair; auto|]. split; [apply pure_fair; auto|].
  destruct (first_answer true here' (or_introl (conj eq_refl eq_refl))) as (m & -> & PL & U). destruct (first_answer false gone' (or_intror (conj eq_refl eq_refl))) as (m' & -> & PL' & U').
  unfold prob. rewrite !mean_then. unfold coins. rewrite PL, PL', U, U'. cbn [tilt amount].
  assert (X : (0 < Q2R (1 # 4))%R) by (unfold Q2R; cbn; lra). rewrite Rmax_right by lra. unfold mean, coin, sure. cbn [proj1_sig expect fst snd says_yes].
  pose proof (exp_ineq1 (Q2R (1 # 4)) ltac:(lra)) as Y. assert (Q : (0 < / (1 + exp (Q2R (1 # 4))))%R) by (apply Rinv_0_lt_compat; lra). unfold Rdiv. nra.
Qed.
