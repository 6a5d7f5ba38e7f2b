(** Property C54: what an analyst who chooses every call from the answers so far can learn
    about neighbouring datasets, under every protected change. *)
From Coq Require Import String Bool Arith ZArith QArith Qcanon Lia Lqa Permutation List.
From Verif Require Import Prelude Budget BudgetProofs BudgetScale Value Rows Constraints ConstraintsSpec ConstraintsStab Schema Query Transform TransformSpec Tables
  Accountant AccountantProofs Session SessionSpec SessionMoney SessionSteps SessionNames SessionTables SessionInv SessionSound
  Neighboring NeighboringSpec NeighboringDistance Builder BuilderCalls BuilderNeighbours Measure
  BlindSpec BlindMeasure PersonSpec PersonSession PersonStart PersonAbsent
  Distance RowStability SensitivitySpec Props_Query Props_Session Props_Measure Props_Blind Props_Sound Props_Person Props_Sensitivity PrivacySpec PrivacyProofs PrivacyInstance Props_Privacy
  FullPrivacySpec FullSessionSpec FullPlay FullStart.
Import ListNotations.
Local Open Scope string_scope.
Local Open Scope nat_scope.

(** Whatever calls an analyst makes (views, partitions of any table, evaluations in any part,
    publication, deletion, stopping), and however they depend on the replies so far, the
    distributions of all replies for two neighbouring datasets are within the privacy budget of
    the session, in both directions.  The datasets differ as far as the protected changes of
    all their private tables allow at once: rows, rows in groups, and one ID in every ID space.
    This holds for any notion of closeness that composes, and any noise whose loss is
    proportional to how far the tables are apart. *)
Theorem C54_session_privacy : forall E K auto so C noisy b l l' tr st st' n a,
  blind E -> blind_core K -> compiles_with E K auto so -> proportionate E K auto so C noisy ->
  adjacent E b l l' tr st st' ->
  honest_analyst E auto n a [] st -> honest_analyst E auto n a [] st' ->
  close C b (converse E K auto so C noisy n a [] tr st) (converse E K auto so C noisy n a [] tr st')
  /\ close C b (converse E K auto so C noisy n a [] tr st') (converse E K auto so C noisy n a [] tr st).
Proof.
  assert (ONE : forall E K auto so C noisy b l l' tr st st' n a, blind E -> blind_core K -> compiles_with E K auto so -> proportionate E K auto so C noisy -> adjacent E b l l' tr st st' ->
    honest_analyst E auto n a [] st -> honest_analyst E auto n a [] st' -> close C b (converse E K auto so C noisy n a [] tr st) (converse E K auto so C noisy n a [] tr st')).
  { intros E K auto so C noisy b l l' tr st st' n a BL BK CW PRO AD H H'. destruct (start_linked E b l l' tr st st' AD) as (gone & who & LK & AK & TO).
    destruct (ad_budget _ _ _ _ _ _ _ AD) as (_ & VB & FB). eapply converse_close; eassumption. }
  intros E K auto so C noisy b l l' tr st st' n a BL BK CW PRO AD H H'. split; eapply ONE; try eassumption. exact (adjacent_sym _ _ _ _ _ _ _ AD).
Qed.
Print Assumptions C54_session_privacy.

(** Non-vacuity.  Noise: the second bit of the number of rows read, by randomised response; the
    loss is divided by the distance that the measurement is made for. *)
Definition spread (N : nat) (m : measurement) : finite_dist table :=
  respond (loss (share_of (1 # Pos.of_nat N) (privacy_loss K0 m))) (1 <? length (v_rows (table_of m)) mod 4) [[("yes", VInt 1)]] [].
Lemma grouped_zero g a b : grouped_distance_squared g a b = 0 -> Permutation a b.
Proof.
  intros H. apply (by_ids g). intros j. apply distance_zero. unfold rows_of. destruct (in_dec value_eq_dec j (map (getv g) (a ++ b)%list)) as [I|NI].
  - unfold grouped_distance_squared in H. pose proof (sum_zero_in _ _ H j (proj2 (nodup_In value_eq_dec _ j) I)) as Z. cbv zeta beta in Z. apply Nat.mul_eq_0 in Z as [Z|Z]; exact Z.
  - assert (Z : forall l : table, incl l (a ++ b)%list -> filter (has_value g j) l = []).
    { induction l as [|r l IH]; intros IN; [reflexivity|]. cbn [filter]. destruct (has_value g j r) eqn:EJ; [|apply IH; intros x X; apply IN; right; exact X].
      exfalso. apply NI. apply value_eqb_eq in EJ. subst j. apply in_map, IN. left. reflexivity. }
    rewrite (Z a), (Z b); [reflexivity|apply incl_appr, incl_refl|apply incl_appl, incl_refl].
Qed.
Lemma measured_zero rho p a b : measured_distance rho p a b = 0 -> length a = length b.
Proof.
  intros H. apply Permutation_length. unfold measured_distance in H. destruct rho; [|apply distance_zero, H]. destruct p as [i| |g [|] i|g [|]]; cbn [distance_squared] in H;
    first [apply (grouped_zero g), H|apply distance_zero; nia].
Qed.
Lemma portion_reach f n N : n <> 0 -> portion f n N -> (1 # Pos.of_nat N <= f)%Q.
Proof.
  unfold portion. intros NZ P. destruct N as [|N].
  - exfalso. change (inject_Z (Z.of_nat 0)) with 0%Q in P. assert (inject_Z (Z.of_nat n) <= 0)%Q by lra. change 0%Q with (inject_Z 0) in H. rewrite <- Zle_Qle in H. lia.
  - assert (1 <= inject_Z (Z.of_nat n))%Q by (change 1%Q with (inject_Z 1); rewrite <- Zle_Qle; lia).
    assert (EQ : (inject_Z (Z.of_nat (S N)) == inject_Z (Zpos (Pos.of_nat (S N))))%Q) by (rewrite <- (Nat2Pos.id (S N)) at 1 by lia; rewrite positive_nat_Z; reflexivity).
    rewrite EQ in P. set (p := Pos.of_nat (S N)) in *. assert (X : (inject_Z (Zpos p) * (1 # p) == 1)%Q) by (unfold Qeq; cbn; lia).
    assert (0 < inject_Z (Zpos p))%Q by reflexivity. nra.
Qed.
Lemma amount_share f g q : (0 <= f)%Q -> (f <= g)%Q -> (cap (f * q) <= cap (g * q))%Q.
Proof. intros F L. destruct (Qlt_le_dec q 0) as [N|P]; [|apply cap_le; nra]. unfold cap at 1. destruct (Qle_bool 0 (f * q)) eqn:B; [|apply cap_0]. apply Qle_bool_iff in B. pose proof (cap_0 (g * q)). nra. Qed.
Lemma near_share f g b A (d d' : finite_dist A) : (0 <= f)%Q -> (f <= g)%Q -> PrivacyInstance.near (share_of f b) d d' -> PrivacyInstance.near (share_of g b) d d'.
Proof.
  intros F L. unfold PrivacyInstance.near. assert (M : forall q, (cap (f * q) <= cap (g * q))%Q) by (intros q; apply amount_share; assumption).
  destruct b as [[e| |]|[e| |] [x| |]|[e| |]]; cbn; auto; intros H; eapply PrivacyInstance.within_more; try exact H; try apply M; try apply Qle_refl.
Qed.
Lemma allowed_reach so mu rho gr cs x f N t t' : allowed so mu rho gr cs x f N t t' -> length (v_rows t) = length (v_rows t') \/ (1 # Pos.of_nat N <= f)%Q.
Proof.
  unfold allowed. destruct (v_coll x).
  - intros (P & _). right. apply (portion_reach f 1 N); [discriminate|exact P].
  - intros (a & a' & g & W & -> & -> & _). rewrite !map_length. destruct (measured_distance rho (v_place x) a a') eqn:M; [left; apply measured_zero in M; exact M|].
    right. unfold FullPrivacySpec.within in W. rewrite M in W. apply (portion_reach f (S n) N); [discriminate|exact W].
Qed.
Lemma spread_proportionate : proportionate E1 K0 true idl nearness spread.
Proof.
  intros cat data data' b q m m' c x cs N f VB (F0 & F1) _ _ HM _ _ AL. change (PrivacyInstance.near (share_of f (privacy_loss K0 m)) (spread N m) (spread N m')).
  unfold spread. rewrite <- (privacy_loss_hidden K0 m m' K0_blind HM).
  destruct (allowed_reach _ _ _ _ _ _ _ _ _ _ AL) as [->|L].
  - unfold PrivacyInstance.near. destruct (amount (loss (share_of f (privacy_loss K0 m)))) as [e|] eqn:LE; [|exact I]. destruct (amount (delta (share_of f (privacy_loss K0 m)))) as [dl|] eqn:D; [|exact I].
    apply within_same; eapply amount_0; eassumption.
  - eapply near_share; [|exact L|apply respond_near]. discriminate.
Qed.

(** The person 1 is missing in the second dataset, and the table "log" has two more rows in one
    group. *)
Definition more_codes : sframe := {| sd_fields := sd_fields codes; sd_rows := [[VStr "a"; VInt 1]; [VStr "b"; VInt 1]; [VStr "c"; VNull]; [VStr "b"; VNull]] |}.
Lemma more_codes_conform : frame_conforms more_codes.
Proof. eapply frame_check; [repeat constructor; cbn; intuition discriminate|reflexivity|vm_compute; reflexivity]. Qed.
Definition near_calls (b : budget) : list bcall :=
  [WithIdSpace "people"; WithBudget b; WithPrivate "trips" trips4 (AddRowsWithID "id" "people"); WithPublic "codes" codes;
   WithPrivate "log" more_codes (AddMaxRowsInMaxGroups "city" 1 2)].
Lemma near_changed b : Forall2 (changed_call (fun _ => true) (fun _ => VInt 1)) (with_budget b trips_calls') (near_calls b).
Proof.
  cbn [with_budget map trips_calls' trips_calls]. repeat apply Forall2_cons; try apply Forall2_nil; try reflexivity.
  - cbn [changed_call]. split; [reflexivity|]. split; [reflexivity|]. split; [reflexivity|]. vm_compute. split; reflexivity.
  - cbn [changed_call]. split; [reflexivity|]. split; [reflexivity|]. split; [reflexivity|].
    exists [], [[("city", VStr "b"); ("code", VInt 1)]; [("city", VStr "b"); ("code", VNull)]], [VStr "b"]. split; [|split; [|split]].
    + exists (frame_rows codes). split; [rewrite app_nil_r; apply Permutation_refl|]. vm_compute. apply perm_skip.
      match goal with |- Permutation [?x; ?y; ?z] _ => eapply perm_trans; [apply perm_swap|]; apply Permutation_refl end.
    + vm_compute. lia.
    + intros r [<-|[<-|[]]]; left; reflexivity.
    + intros v. cbn [app]. eapply Nat.le_trans; [apply filter_length_le|]. vm_compute. lia.
Qed.
Definition apart_calls : list bcall := near_calls small.
Definition start_distance (l : list bcall) : tracked := match build_by E1 l with Ok o => start_tracked true (o_din o) | Err _ => [] end.
Lemma trips_adjacent : adjacent E1 small here apart_calls (start_distance here) (trips_start here) (trips_start apart_calls).
Proof.
  constructor.
  - split; [cbn; intuition discriminate|]. split; [cbn; intuition discriminate|]. exists (fun _ => true), (fun _ => VInt 1). apply near_changed.
  - intros n f c [H|H]; cbn in H; destruct H as [H|[H|[]]]; injection H as <- <- <-; first [apply trips_conform|apply codes_conform|apply trips4_conform|apply more_codes_conform].
  - intros n f [H|H]; cbn in H; destruct H as [H|[]]; injection H as <- <-; apply codes_conform.
  - split; [cbn; auto|]. cbn. split; [discriminate|discriminate].
  - assert (B : exists o, build_by E1 here = Ok o) by (eexists; vm_compute; reflexivity). destruct B as (o & B).
    assert (B' : exists o, build_by E1 apart_calls = Ok o) by (eexists; vm_compute; reflexivity). destruct B' as (o' & B').
    exists o, o'. unfold trips_start, start_distance. rewrite B, B'. auto 6.
Qed.
(** A view of the person's table, its partition by city, and counts in both parts; where the
    first answer is "no", the table "log" is counted as well. *)
Definition once (n : string) : query := GroupByCount (EnforceConstraint (PrivateSource n) (MaxRowsPerID 1)) (KSet [] [[]]) "n" MDefault None.
Definition log_count : query := GroupByCount (PrivateSource "log") (KSet [("city", dsc VARCHAR false false false)] [[("city", VStr "a")]; [("city", VStr "b")]]) "n" MDefault None.
Definition some : query := EnforceConstraint (PrivateSource "trips") (MaxGroupsPerID "city" 3).
Definition splitting_with (mk : xq -> budget) (hist : list reply) : option op :=
  match hist with
  | [] => Some (CreateView [] some "some" false)
  | [_] => Some (Partition [] "some" (mk (XFin (1 # 2))) "city" [("as", VStr "a"); ("bs", VStr "b")])
  | [_; Done (Ok tt)] => Some (Evaluate [(0, 0)] (once "as") (mk (XFin (1 # 2))))
  | [_; _; Answer _] => Some (Evaluate [(0, 1)] (once "bs") (mk (XFin (1 # 2))))
  | [_; _; Answer []; Answer _] => Some (Evaluate [] log_count (mk (XFin (1 # 4))))
  | _ => None
  end.
Definition splitting : analyst := splitting_with Zcdp.
Ltac honest_evaluate := split; [exact I|]; intros s cat data _ _ _; cbv zeta; split; [vm_compute; auto|]; split; [cbn; auto|]; split; [cbn; auto|]; split; [cbn; auto|]; left; destruct (s_left s); reflexivity.
Ltac honest_splitting := cbn [honest_analyst splitting_with]; (split; [split; [cbn [honest_op]; source_views|intros; cbn; auto]|]);
    intros r1 _; cbn [app]; (split; [split; exact I|]); intros r2 P; cbn [app]; (assert (r2 = Done (Ok tt)) as -> by (vm_compute in P; exact P)); clear P;
    (split; [honest_evaluate|]); intros r3 P; cbn [app]; (assert (exists t, r3 = Answer t) as (t & ->) by (vm_compute in P; exact P)); clear P; destruct t as [|x t];
    (split; [honest_evaluate|]); intros r4 P; cbn [app]; (assert (exists t, r4 = Answer t) as (t4 & ->) by (vm_compute in P; exact P)); clear P;
    try exact I; (split; [honest_evaluate|]); intros r5 P; cbn [app]; (assert (exists t, r5 = Answer t) as (t5 & ->) by (vm_compute in P; exact P)); exact I.
Lemma splitting_honest l : l = here \/ l = apart_calls -> honest_analyst E1 true 6 splitting [] (trips_start l).
Proof. unfold splitting. intros [-> | ->]; honest_splitting. Qed.
Local Notation yes := (Answer [[("yes", VInt 1)]]).
Local Notation no := (Answer []).
Example C54_full_case : blind E1 /\ blind_core K0 /\ compiles_with E1 K0 true idl /\ proportionate E1 K0 true idl nearness spread
  /\ adjacent E1 small here apart_calls (start_distance here) (trips_start here) (trips_start apart_calls)
  /\ honest_analyst E1 true 6 splitting [] (trips_start here) /\ honest_analyst E1 true 6 splitting [] (trips_start apart_calls)
  /\ proj1_sig (converse E1 K0 true idl nearness spread 6 splitting [] (start_distance here) (trips_start here))
     = [([Done (Ok tt); Done (Ok tt); yes; yes], 572 # 2304); ([Done (Ok tt); Done (Ok tt); yes; no], 676 # 2304);
        ([Done (Ok tt); Done (Ok tt); no; yes; yes], 31944 # 294912); ([Done (Ok tt); Done (Ok tt); no; yes; no], 30008 # 294912);
        ([Done (Ok tt); Done (Ok tt); no; no; yes], 37752 # 294912); ([Done (Ok tt); Done (Ok tt); no; no; no], 35464 # 294912)]
  /\ proj1_sig (converse E1 K0 true idl nearness spread 6 splitting [] (start_distance here) (trips_start apart_calls))
     = [([Done (Ok tt); Done (Ok tt); yes; yes], 484 # 2304); ([Done (Ok tt); Done (Ok tt); yes; no], 572 # 2304);
        ([Done (Ok tt); Done (Ok tt); no; yes; yes], 35464 # 294912); ([Done (Ok tt); Done (Ok tt); no; yes; no], 37752 # 294912);
        ([Done (Ok tt); Done (Ok tt); no; no; yes], 41912 # 294912); ([Done (Ok tt); Done (Ok tt); no; no; no], 44616 # 294912)]%Q.
Proof.
  split; [exact E1_blind|]. split; [exact K0_blind|]. split; [intros cat x q b; reflexivity|]. split; [exact spread_proportionate|]. split; [exact trips_adjacent|].
  split; [apply splitting_honest; auto|]. split; [apply splitting_honest; auto|]. split; vm_compute; reflexivity.
Qed.
