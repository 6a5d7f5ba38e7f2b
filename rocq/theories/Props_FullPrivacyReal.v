(** Property C54 under every protected change, for pure, approximate and zero-concentrated
    differential privacy.  This file uses the real numbers of the standard library, and its
    axioms. *)
From Coq Require Import String Bool Arith ZArith QArith Qcanon Reals Qreals Lra Lia Permutation List.
From Verif Require Import Prelude Budget BudgetProofs BudgetScale Value Rows Constraints ConstraintsSpec Schema Query Transform TransformSpec Tables
  Accountant AccountantProofs Session SessionSpec SessionMoney SessionSteps SessionTables SessionInv SessionSound
  Neighboring NeighboringSpec Builder BuilderCalls BuilderNeighbours Measure
  BlindSpec BlindMeasure PersonSpec PersonSession PersonStart PersonAbsent
  Distance SensitivitySpec Props_Query Props_Session Props_Measure Props_Blind Props_Sound Props_Person Props_Sensitivity PrivacySpec PrivacyProofs Props_Privacy
  FullPrivacySpec FullSessionSpec FullPlay FullStart Props_FullPrivacy PrivacyReal Props_PrivacyReal.
Import ListNotations.
Local Open Scope string_scope.
Local Open Scope nat_scope.

(** The distributions of everything an analyst sees satisfy the privacy definition of the
    session's budget, in both directions, if core's noise does so in proportion to how far the
    tables of each measurement are apart. *)
Theorem C54_differential_privacy : forall E K auto so noisy b l l' tr st st' n a,
  blind E -> blind_core K -> compiles_with E K auto so -> proportionate E K auto so differential_privacy noisy ->
  adjacent E b l l' tr st st' ->
  honest_analyst E auto n a [] st -> honest_analyst E auto n a [] st' ->
  within b (converse E K auto so differential_privacy noisy n a [] tr st) (converse E K auto so differential_privacy noisy n a [] tr st')
  /\ within b (converse E K auto so differential_privacy noisy n a [] tr st') (converse E K auto so differential_privacy noisy n a [] tr st).
Proof.
  intros E K auto so noisy b l l' tr st st' n a BL BK CW PRO AD H H'. destruct (ad_budget _ _ _ _ _ _ _ AD) as (_ & V & _).
  destruct (C54_session_privacy _ _ _ _ _ _ _ _ _ _ _ _ n a BL BK CW PRO AD H H') as (H1 & H2). split; apply dp_within; assumption.
Qed.
Print Assumptions C54_differential_privacy.

(** Non-vacuity.  Randomised response about the second bit of the number of rows, with the
    privacy loss divided by the distance that the measurement is made for. *)
Definition tossed (N : nat) (m : measurement) : distribution table :=
  coin (tilt (share_of (1 # Pos.of_nat N) (privacy_loss K0 m))) (1 <? length (v_rows (table_of m)) mod 4) [[("yes", VInt 1)]] [].
Lemma share_le f g q : (0 <= f)%Q -> (f <= g)%Q -> (Rmax 0 (Q2R (f * q)) <= Rmax 0 (Q2R (g * q)))%R.
Proof.
  intros F L. rewrite !Q2R_mult. apply Qle_Rle in F, L. replace (Q2R 0) with 0%R in F by (unfold Q2R; cbn; field).
  destruct (Rle_dec 0 (Q2R q)) as [P|N]; [apply Rle_max_compat_l; nra|]. rewrite (Rmax_left 0 (Q2R f * Q2R q)) by nra. apply Rmax_l.
Qed.
Lemma dp_share f g b A (d d' : distribution A) : (0 <= f)%Q -> (f <= g)%Q -> dp (share_of f b) d d' -> dp (share_of g b) d d'.
Proof.
  intros F L. pose proof (fun q => share_le f g q F L) as M.
  destruct b as [[e| |]|[e| |] [x| |]|[e| |]]; cbn; auto; intros H; first [eapply private_more; [| |exact H]|eapply concentrated_more; [|exact H]]; first [apply M|apply Rle_refl].
Qed.
Lemma coin_dp b u v : dp b (coin (tilt b) u [[("yes", VInt 1)]] []) (coin (tilt b) v [[("yes", VInt 1)]] []).
Proof.
  pose proof (tilt_0 b) as T. destruct b as [e|e d|r]; cbn [dp tilt] in *.
  - destruct (amount e); [apply coin_private, T|exact I].
  - destruct (amount e); [|exact I]. destruct (amount d) as [q|] eqn:DD; [|exact I]. eapply private_more; [apply Rle_refl| |apply coin_private, T]. eapply amount_0; exact DD.
  - destruct (amount r) as [q|] eqn:DD; [|exact I]. apply coin_0. eapply amount_0; exact DD.
Qed.
Lemma tossed_proportionate : proportionate E1 K0 true idl differential_privacy tossed.
Proof.
  intros cat data data' b q m m' c x cs N f VB (F0 & F1) _ _ HM _ _ AL. change (dp (share_of f (privacy_loss K0 m)) (tossed N m) (tossed N m')).
  unfold tossed. rewrite <- (privacy_loss_hidden K0 m m' K0_blind HM).
  destruct (allowed_reach _ _ _ _ _ _ _ _ _ _ AL) as [->|L].
  - set (z := share_of f (privacy_loss K0 m)). destruct z as [e|e dl|r]; cbn [dp].
    + destruct (amount e) as [p|] eqn:A; [|exact I]. apply private_same; [eapply amount_0; exact A|lra].
    + destruct (amount e) as [p|] eqn:A; [|exact I]. destruct (amount dl) as [p'|] eqn:A'; [|exact I]. apply private_same; eapply amount_0; eassumption.
    + destruct (amount r) as [p|] eqn:A; [|exact I]. apply concentrated_same. eapply amount_0; exact A.
  - eapply dp_share; [|exact L|apply coin_dp]. discriminate.
Qed.
(** The calls of [splitting] under pure differential privacy. *)
Definition apart_calls' : list bcall := near_calls pure.
Definition start_distance' (l : list bcall) : tracked := match build_by E1 l with Ok o => start_tracked false (o_din o) | Err _ => [] end.
Lemma pure_adjacent : adjacent E1 pure here' apart_calls' (start_distance' here') (trips_start here') (trips_start apart_calls').
Proof.
  constructor.
  - split; [cbn; intuition discriminate|]. split; [cbn; intuition discriminate|]. exists (fun _ => true), (fun _ => VInt 1). apply near_changed.
  - intros n f c [H|H]; cbn in H; destruct H as [H|[H|[]]]; injection H as <- <- <-; first [apply trips_conform|apply codes_conform|apply trips4_conform|apply more_codes_conform].
  - intros n f [H|H]; cbn in H; destruct H as [H|[]]; injection H as <- <-; apply codes_conform.
  - split; [cbn; auto|]. cbn. split; [discriminate|discriminate].
  - assert (B : exists o, build_by E1 here' = Ok o) by (eexists; vm_compute; reflexivity). destruct B as (o & B).
    assert (B' : exists o, build_by E1 apart_calls' = Ok o) by (eexists; vm_compute; reflexivity). destruct B' as (o' & B').
    exists o, o'. unfold trips_start, start_distance'. rewrite B, B'. auto 6.
Qed.
Lemma pure_honest l : l = here' \/ l = apart_calls' -> honest_analyst E1 true 6 (splitting_with Pure) [] (trips_start l).
Proof. intros [-> | ->]; honest_splitting. Qed.
(** The two probabilities of the answer for the first part being yes differ. *)
Definition part_yes (r : list reply) : bool := match r with [_; _; Answer [_]] => true | _ => false end.
Lemma first_part (u : bool) l : (u = true /\ l = here') \/ (u = false /\ l = apart_calls') ->
  exists m, converse E1 K0 true idl differential_privacy tossed 3 (splitting_with Pure) [] (start_distance' here') (trips_start l) = then_ (tossed 3 m) (fun t => sure [Done (Ok tt); Done (Ok tt); Answer t])
  /\ privacy_loss K0 m = Pure (XFin (1 # 2)) /\ (1 <? length (v_rows (table_of m)) mod 4) = u.
Proof.
  intros H. cbn [converse splitting_with]. set (o1 := CreateView [] some "some" false). set (st1 := fst (step E1 (trips_start l) o1)).
  assert (V : snd (step E1 (trips_start l) o1) = Ok tt) by (destruct H as [(-> & ->)|(-> & ->)]; vm_compute; reflexivity). unfold o1 at 1. rewrite V. cbn [app splitting_with].
  set (o2 := Partition [] "some" (Pure (XFin (1 # 2))) "city" [("as", VStr "a"); ("bs", VStr "b")]). set (st2 := fst (step E1 st1 o2)).
  assert (V2 : snd (step E1 st1 o2) = Ok tt) by (destruct H as [(-> & ->)|(-> & ->)]; vm_compute; reflexivity). rewrite V2. cbn [app splitting_with].
  assert (W : snd (step E1 st2 (Evaluate [(0, 0)] (once "as") (Pure (XFin (1 # 2))))) = Ok tt) by (destruct H as [(-> & ->)|(-> & ->)]; vm_compute; reflexivity). rewrite W.
  assert (M : exists m, measurement_of E1 K0 true idl st2 [(0, 0)] (once "as") (Pure (XFin (1 # 2))) = Ok m /\ privacy_loss K0 m = Pure (XFin (1 # 2)) /\ (1 <? length (v_rows (table_of m)) mod 4) = u)
    by (destruct H as [(-> & ->)|(-> & ->)]; eexists; (split; [vm_compute; reflexivity|split; vm_compute; reflexivity])).
  destruct M as (m & -> & PL & U). exists m. split; [|split; assumption].
  assert (ND : noise_distance E1 (track E1 (track E1 (start_distance' here') (trips_start l) o1) st1 o2) st2 [(0, 0)] (once "as") = 3) by (destruct H as [(-> & ->)|(-> & ->)]; vm_compute; reflexivity).
  rewrite ND. reflexivity.
Qed.
Example C54_full_pure_case : blind E1 /\ blind_core K0 /\ compiles_with E1 K0 true idl /\ proportionate E1 K0 true idl differential_privacy tossed
  /\ adjacent E1 pure here' apart_calls' (start_distance' here') (trips_start here') (trips_start apart_calls')
  /\ honest_analyst E1 true 6 (splitting_with Pure) [] (trips_start here') /\ honest_analyst E1 true 6 (splitting_with Pure) [] (trips_start apart_calls')
  /\ (prob (converse E1 K0 true idl differential_privacy tossed 3 (splitting_with Pure) [] (start_distance' here') (trips_start here')) part_yes
      > prob (converse E1 K0 true idl differential_privacy tossed 3 (splitting_with Pure) [] (start_distance' here') (trips_start apart_calls')) part_yes)%R.
Proof.
  split; [exact E1_blind|]. split; [exact K0_blind|]. split; [intros cat x q b; reflexivity|]. split; [exact tossed_proportionate|]. split; [exact pure_adjacent|].
  split; [apply pure_honest; auto|]. split; [apply pure_honest; auto|].
  destruct (first_part true here' (or_introl (conj eq_refl eq_refl))) as (m & -> & PL & U). destruct (first_part false apart_calls' (or_intror (conj eq_refl eq_refl))) as (m' & -> & PL' & U').
  unfold prob. rewrite !mean_then. unfold tossed. rewrite PL, PL', U, U'. cbn [share_of tilt amount].
  set (x := Q2R ((1 # Pos.of_nat 3) * (1 # 2))). assert (X : (0 < x)%R) by (unfold x, Q2R; cbn; lra). rewrite Rmax_right by lra. unfold mean, coin, sure. cbn [proj1_sig expect fst snd part_yes].
  pose proof (exp_ineq1 x ltac:(lra)) as Y. assert (Q : (0 < / (1 + exp x))%R) by (apply Rinv_0_lt_compat; lra). unfold Rdiv. nra.
Qed.
