(** Property C54: what an analyst who chooses every call from the answers so far can learn
    about one person. *)
From Coq Require Import String Bool Arith ZArith QArith Qcanon Lia Permutation List.
From Verif Require Import Prelude Budget BudgetProofs BudgetScale Value Rows Constraints Schema Query Transform TransformSpec Tables
  Accountant AccountantProofs Session SessionSpec SessionMoney SessionSteps SessionTables SessionInv SessionSound
  Neighboring Builder BuilderCalls BuilderNeighbours Measure
  BlindSpec BlindMeasure PersonSpec PersonSession PersonStart PersonAbsent
  Distance SensitivitySpec Props_Query Props_Session Props_Measure Props_Blind Props_Sound Props_Person Props_Sensitivity PrivacySpec PrivacyProofs PrivacyInstance.
Import ListNotations.
Local Open Scope string_scope.
Local Open Scope nat_scope.

(** Two datasets for the same calls on a builder: the second one lacks the rows that the person
    [j] has in the tables of the ID space [sp].  An infinite budget promises nothing. *)
Record neighbours (E : env) (sp : string) (j : value) (b : budget) (l l' : list bcall) (st st' : state) : Prop := {
  nb_calls : ~ In Build l /\ ~ In Build l' /\ Forall2 (same_call_for sp (everyone_but j)) l l';
  nb_absent : calls_lack sp (everyone_but j) l';
  nb_frames : forall n f c, In (n, (f, c)) (privates l) \/ In (n, (f, c)) (privates l') -> frame_conforms f;
  nb_publics : forall n f, In (n, f) (publics l) \/ In (n, f) (publics l') -> frame_conforms f;
  nb_budget : In (WithBudget b) l /\ valid b /\ ~ infinite b;
  nb_built : exists o o', build_by E l = Ok o /\ build_by E l' = Ok o' /\ st = o_state o /\ st' = o_state o'
}.
Lemma budget_in b l : In (WithBudget b) l -> In b (BuilderCalls.budgets l).
Proof. intros H. unfold BuilderCalls.budgets. apply in_flat_map. exists (WithBudget b). split; [exact H|]. now left. Qed.
Lemma start_twin E sp j b l l' st st' : neighbours E sp j b l l' st st' -> twin sp j st st' /\ s_left (a_data (st_root st)) = b.
Proof.
  intros [(NB & NB' & F) LA FC FP (IB & VB & FB) (o & o' & B & B' & -> & ->)].
  destruct (start_sound E true l o NB B) as (O1 & T1 & F1 & _ & S1). destruct S1 as (A1 & P1); [intros n f c I; apply (FC n f c); left; exact I|intros n f I; apply (FP n f); left; exact I|].
  destruct (start_sound E true l' o' NB' B') as (O2 & T2 & F2 & _ & S2). destruct S2 as (A2 & P2); [intros n f c I; apply (FC n f c); right; exact I|intros n f I; apply (FP n f); right; exact I|].
  pose proof (calls_same E sp (everyone_but j) l l' o o' NB NB' F B B') as SB.
  pose proof (start_follows E sp (everyone_but j) l l' o o' NB NB' F B B' (fun n f c I => FC n f c (or_introl I)) (fun n f c I => FC n f c (or_intror I))) as FW.
  pose proof (start_lacks E sp (everyone_but j) l' o' NB' B' (fun n f c I => FC n f c (or_intror I)) LA) as LK.
  assert (ST : forall l o, ~ In Build l -> build_by E l = Ok o -> (forall p s, session (o_state o) p s -> p = []) /\ exists x, BuilderCalls.budgets l = [x] /\ s_left (a_data (st_root (o_state o))) = accountant_budget x
     /\ (valid x -> balanced (payload (st_root (o_state o))))).
  { clear. intros l o NB B. destruct (build_by_result E l o NB B) as (x & names & BX & _ & _ & _ & ->). cbn [o_state]. split.
    - intros p s (c & FD & _). cbn in FD. destruct p as [|(a, i) p]; [reflexivity|]. destruct a; discriminate.
    - exists x. split; [exact BX|]. split; [reflexivity|]. intros V. cbn. constructor; [apply books_new, accountant_valid, V|constructor]. }
  destruct (ST l o NB B) as (R1 & x & X1 & L1 & BA). destruct (ST l' o' NB' B') as (_ & x' & X1' & L1' & BA').
  apply budget_in in IB. rewrite X1 in IB. destruct IB as [<-|[]].
  assert (AF : accountant_budget x = x) by (destruct x; try reflexivity; cbn [accountant_budget]; apply is_infinite_false in FB; now rewrite FB).
  assert (VX : valid x').
  { pose proof (pair_hide _ _ [] _ _ SB (root_session (o_state o)) (root_session (o_state o'))) as HS. apply (f_equal s_left) in HS. cbn [hide_sess s_left] in HS. rewrite L1, L1', AF in HS. destruct x' as [e|e d|r]; cbn [accountant_budget] in HS; try (rewrite <- HS; exact VB).
    destruct (is_infinite (Approx e d)) eqn:IX; [|rewrite <- HS; exact VB]. exfalso. rewrite HS in FB. apply FB. cbn. left. reflexivity. }
  split; [|congruence]. constructor; try assumption; [constructor; assumption|constructor; assumption| | |apply BA, VB|apply BA', VX].
  - intros p s s' S S'. destruct (FW p s s' S S') as [L|(NP & _)]; [exact L|]. destruct NP. exact (R1 p s S).
  - intros p s S NP. destruct NP. exact (R1 p s S).
Qed.

(** Whatever calls an analyst makes, and however they depend on the replies so far, the
    distributions of all replies for the two datasets are within the privacy budget of the
    session, in both directions: for any notion of closeness that composes, and any noise that
    keeps to the privacy loss of a measurement when the tables read are as far apart as its
    truncation allows.
    Missing: partitions of the person's own tables (parallel composition of their parts);
    protected changes given as rows instead of IDs. *)
Theorem C54_session_privacy_partial : forall E K auto so C noisy sp j b l l' st st' n a,
  blind E -> blind_core K -> compiles_with E K auto so -> calibrated E K auto so C noisy ->
  neighbours E sp j b l l' st st' ->
  fair E auto sp n a [] st -> fair E auto sp n a [] st' ->
  close C b (play E K auto so C noisy n a [] st) (play E K auto so C noisy n a [] st')
  /\ close C b (play E K auto so C noisy n a [] st') (play E K auto so C noisy n a [] st).
Proof.
  intros E K auto so C noisy sp j b l l' st st' n a BL BK CW CAL NB F F'. destruct (start_twin _ _ _ _ _ _ _ _ NB) as (T & <-). eapply play_both; eassumption.
Qed.
Print Assumptions C54_session_privacy_partial.

(** Non-vacuity.  Noise: whether more than three rows are read, by randomised response. *)
Definition yes_no (m : measurement) : finite_dist table :=
  respond (loss (privacy_loss K0 m)) (3 <? length (v_rows (table_of m))) [[("yes", VInt 1)]] [].
Lemma privacy_loss_hidden K m m' : blind_core K -> hide_measurement m = hide_measurement m' -> privacy_loss K m = privacy_loss K m'.
Proof. intros BK H. rewrite <- (privacy_loss_hide K BK m), H, (privacy_loss_hide K BK m'). reflexivity. Qed.
Lemma yes_no_calibrated : calibrated E1 K0 true idl nearness yes_no.
Proof.
  intros cat data data' b q m m' c x cs _ _ _ HM _ _ _. unfold yes_no. rewrite <- (privacy_loss_hidden K0 m m' K0_blind HM). split; apply respond_near.
Qed.
(** A view, visits per city, and then either visits again or a partition of the table "log",
    and a count in its first part. *)
Definition in_part : query := GroupByCount (PrivateSource "as") (KSet [("code", dsc INTEGER true false false)] [[("code", VInt 1)]]) "n" MDefault None.
Definition curious_with (mk : xq -> budget) (hist : list reply) : option op :=
  match hist with
  | [] => Some (CreateView [] few "few" false)
  | [_] => Some (Evaluate [] visits (mk (XFin (1 # 4))))
  | [_; Answer []] => Some (Evaluate [] visits (mk (XFin (1 # 2))))
  | [_; Answer _] => Some (Partition [] "log" (mk (XFin (1 # 4))) "city" [("as", VStr "a"); ("bs", VStr "b")])
  | [_; Answer _; Done (Ok tt)] => Some (Evaluate [(0, 0)] in_part (mk (XFin (1 # 4))))
  | _ => None
  end.
Definition curious : analyst := curious_with Zcdp.
Definition with_budget (b : budget) (l : list bcall) : list bcall := map (fun c => match c with WithBudget _ => WithBudget b | c => c end) l.
Definition small : budget := Zcdp (XFin (3 # 4)).
Definition here : list bcall := with_budget small trips_calls'.
Definition gone : list bcall := with_budget small trips_calls4.
Definition trips_start (l : list bcall) : state := match build_by E1 l with Ok o => o_state o | Err _ => st0 (Pure (XFin 0)) end.
Lemma trips_neighbours : neighbours E1 "people" (VInt 1) small here gone (trips_start here) (trips_start gone).
Proof.
  constructor.
  - split; [cbn; intuition discriminate|]. split; [cbn; intuition discriminate|]. repeat constructor.
  - intros n f i H r I. cbn in H. destruct H as [H|[H|[]]]; [|discriminate H]. injection H as <- <- <-. cbn in I. destruct I as [<-|[<-|[]]]; reflexivity.
  - intros n f c [H|H]; cbn in H; destruct H as [H|[H|[]]]; injection H as <- <- <-; first [apply trips_conform|apply codes_conform|apply trips4_conform].
  - intros n f [H|H]; cbn in H; destruct H as [H|[]]; injection H as <- <-; apply codes_conform.
  - split; [cbn; auto|]. cbn. split; [discriminate|discriminate].
  - assert (B : exists o, build_by E1 here = Ok o) by (eexists; vm_compute; reflexivity). destruct B as (o & B).
    assert (B' : exists o, build_by E1 gone = Ok o) by (eexists; vm_compute; reflexivity). destruct B' as (o' & B').
    exists o, o'. unfold trips_start. rewrite B, B'. auto.
Qed.
Lemma log_outside st p s t : session_at st p = Ok s -> dget "log" (named (s_tree s)) = Some t -> v_coll t = None -> forall s' t', session st p s' -> dget "log" (named (s_tree s')) = Some t' -> v_coll t' <> Some "people".
Proof. intros S G N s' t' S' G'. apply session_at_iff in S. rewrite (session_inj st p s' s S' S) in G'. congruence. Qed.
Ltac fair_evaluate := split; [exact I|]; intros s cat data _ _ _; cbv zeta; split; [vm_compute; auto|]; split; [cbn; auto|]; split; [cbn; auto|]; left; destruct (s_left s); reflexivity.
Ltac fair_curious := cbn [fair curious_with]; (split; [split; [cbn [honest_op]; source_views|exact I]|]);
    intros r1 _; cbn [app]; (split; [fair_evaluate|]); intros r2 P; cbn [app];
    (assert (exists t, r2 = Answer t) as (t & ->) by (vm_compute in P; exact P)); clear P;
    (destruct t as [|x t]; [split; [fair_evaluate|intros r3 P3; cbn [app]; assert (exists t, r3 = Answer t) as (t & ->) by (vm_compute in P3; exact P3); exact I]|]);
    (split; [split; [exact I|]; eapply log_outside; [vm_compute; reflexivity|vm_compute; reflexivity|reflexivity]|]); intros r3 P3; cbn [app];
    (assert (r3 = Done (Ok tt)) as -> by (vm_compute in P3; exact P3)); (split; [fair_evaluate|]);
    intros r4 P4; cbn [app]; (assert (exists t, r4 = Answer t) as (t4 & ->) by (vm_compute in P4; exact P4)); exact I.
Lemma trips_fair l : l = here \/ l = gone -> fair E1 true "people" 5 curious [] (trips_start l).
Proof. unfold curious. intros [-> | ->]; fair_curious. Qed.
Example C54_case : blind E1 /\ blind_core K0 /\ compiles_with E1 K0 true idl /\ calibrated E1 K0 true idl nearness yes_no
  /\ neighbours E1 "people" (VInt 1) small here gone (trips_start here) (trips_start gone)
  /\ fair E1 true "people" 5 curious [] (trips_start here) /\ fair E1 true "people" 5 curious [] (trips_start gone)
  /\ proj1_sig (play E1 K0 true idl nearness yes_no 5 curious [] (trips_start here))
     = [([Done (Ok tt); Answer [[("yes", VInt 1)]]; Done (Ok tt); Answer [[("yes", VInt 1)]]], 252 # 1024);
        ([Done (Ok tt); Answer [[("yes", VInt 1)]]; Done (Ok tt); Answer []], 324 # 1024);
        ([Done (Ok tt); Answer []; Answer [[("yes", VInt 1)]]], 140 # 512); ([Done (Ok tt); Answer []; Answer []], 84 # 512)]
  /\ proj1_sig (play E1 K0 true idl nearness yes_no 5 curious [] (trips_start gone))
     = [([Done (Ok tt); Answer [[("yes", VInt 1)]]; Done (Ok tt); Answer [[("yes", VInt 1)]]], 196 # 1024);
        ([Done (Ok tt); Answer [[("yes", VInt 1)]]; Done (Ok tt); Answer []], 252 # 1024);
        ([Done (Ok tt); Answer []; Answer [[("yes", VInt 1)]]], 108 # 512); ([Done (Ok tt); Answer []; Answer []], 180 # 512)]%Q.
Proof.
  assert (CW : compiles_with E1 K0 true idl) by (intros cat x q b; reflexivity).
  split; [|split; [exact K0_blind|split; [exact CW|split; [exact yes_no_calibrated|split; [exact trips_neighbours|split; [apply trips_fair; auto|split; [apply trips_fair; auto|split; vm_compute; reflexivity]]]]]]].
  exact E1_blind.
Qed.
