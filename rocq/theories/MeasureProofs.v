(** Proofs about compiled measurements: budgets, and what is counted. *)
From Coq Require Import String Bool Arith ZArith QArith Qcanon Lqa Lia Permutation List.
From Verif Require Import Prelude Budget BudgetProofs Value Rows Constraints ConstraintsSpec ConstraintsProofs ConstraintsStab
  Schema SchemaProofs Query Rewrite RewriteSpec RewriteProofs Transform TransformSpec TransformVisit TransformAgree
  QueryProofs PropagateProofs Session SessionSpec Measure.
Import ListNotations.
Local Open Scope string_scope.
Local Open Scope nat_scope.

(** The groupby aggregation of a measurement, with its total budget. *)
Fixpoint plan_of (m : measurement) : option (budget * plan) :=
  match m with
  | MGroupBy total g => Some (total, g)
  | MGroups _ _ _ => None
  | MSuppress m _ _ => plan_of m
  end.

Section Proofs.
Variable R : rounding.
Variable W : world.
Variable K : core.
Variable auto : bool.
Variable so : list string -> list string.
Variable mu : measure.
Variable cat : catalog.
Variable data : dict vtab.
Notation sch := (schema_of (w_cond_ok W) cat).
Notation mq := (measure_query R W K auto so mu cat data).
Notation cmp := (compile R W K auto so mu cat data).
Notation ploss := (privacy_loss K).

(** ** Budgets *)

Lemma raise_ok c e x : raise_if c e = Ok x -> c = false.
Proof. destruct c; [discriminate|reflexivity]. Qed.

Lemma mk_approx_inv a d b : mk_approx R a d = Ok b ->
  exists x y, b = Approx x y /\ to_exact_number R a = Ok x /\ to_exact_number R d = Ok y.
Proof. unfold mk_approx. intros H. repeat (apply bind_ok in H as (? & ? & H)). injection H as <-. eauto 6. Qed.
Lemma mk_pure_inv a b : mk_pure R a = Ok b -> exists x, b = Pure x /\ to_exact_number R a = Ok x.
Proof. unfold mk_pure. intros H. repeat (apply bind_ok in H as (? & ? & H)). injection H as <-. eauto. Qed.
Lemma mk_zcdp_inv a b : mk_zcdp R a = Ok b -> exists x, b = Zcdp x /\ to_exact_number R a = Ok x.
Proof. unfold mk_zcdp. intros H. repeat (apply bind_ok in H as (? & ? & H)). injection H as <-. eauto. Qed.

Definition zero_of (b : budget) : budget :=
  match b with Pure _ => Pure (XFin 0) | Approx _ _ => Approx (XFin 0) (XFin 0) | Zcdp _ => Zcdp (XFin 0) end.
Lemma zero_budget_inv b z : zero_budget R b = Ok z -> z = zero_of b.
Proof.
  destruct b; cbn [zero_budget zero_of]; intros H.
  - apply mk_pure_inv in H as (x & -> & [= <-]). reflexivity.
  - apply mk_approx_inv in H as (x & y & -> & [= <-] & [= <-]). reflexivity.
  - apply mk_zcdp_inv in H as (x & -> & [= <-]). reflexivity.
Qed.

(** The budget of a query with known keys, and with keys to be found. *)
Definition without_delta (b : budget) : budget := match b with Approx e _ => Approx e (XFin 0) | _ => b end.
Lemma adjust_inv b k m adj : adjust R b k m = Ok adj ->
  match k with
  | KSet _ _ => adj = without_delta b
  | KCols _ => if Budget.is_infinite b then adj = without_delta b
               else adj = b /\ match b with Approx e d => ~ xle e (XFin 0) /\ ~ xle d (XFin 0) | _ => True end
  end.
Proof.
  unfold adjust. destruct b as [e|e d|r].
  - intros [= <-]. destruct k, (Budget.is_infinite (Pure e)); auto.
  - intros H. assert (G : match k, Budget.is_infinite (Approx e d) with
          | KCols _, false =>
              let* _ := raise_if (xleb e (XFin 0)) ValueError in
              let* _ := raise_if (xleb d (XFin 0)) ValueError in Ok (Approx e d)
          | _, _ => mk_approx R (AExact e) zero
          end = Ok adj) by (destruct m as [[]|]; try discriminate; exact H). clear H.
    destruct k as [cols rows|cols]; [|destruct (Budget.is_infinite (Approx e d)) eqn:I].
    + destruct (Budget.is_infinite (Approx e d)); apply mk_approx_inv in G as (x & y & -> & [= <-] & [= <-]); reflexivity.
    + apply mk_approx_inv in G as (x & y & -> & [= <-] & [= <-]); reflexivity.
    + apply bind_ok in G as (? & E1 & G). apply bind_ok in G as (? & E2 & G). injection G as <-. split; [reflexivity|].
      apply raise_ok in E1, E2. split; intros C; apply xleb_iff in C; congruence.
  - intros [= <-]. destruct k, (Budget.is_infinite (Zcdp r)); auto.
Qed.

Definition shape (b : budget) (m : measurement) (adj : budget) : Prop :=
  mismatch (ploss m) adj = false
  /\ match plan_of m with
     | Some (total, g) =>
         total = adj /\ ploss m = total /\ (exists mm, adjust R b (g_keys g) mm = Ok adj)
         /\ match g_keys g with
            | KSet _ _ => zero_budget R b = Ok (g_keys_budget g) /\ g_budget g = adj
            | KCols _ => split_budget R adj = Ok (g_keys_budget g, g_budget g)
            end
     | None => adj = b /\ is_approx b = true
     end.

Lemma budgets_inv b q k mm adj kb qb : budgets R W cat b q k mm = Ok (adj, kb, qb) ->
  adjust R b k mm = Ok adj
  /\ match k with
     | KSet _ _ => zero_budget R b = Ok kb /\ qb = adj
     | KCols _ => split_budget R adj = Ok (kb, qb)
     end.
Proof.
  unfold budgets. intros H. apply bind_ok in H as (a & E & H). apply bind_ok in H as (s & _ & H). destruct k.
  - apply bind_ok in H as (z & Z & H). injection H as <- <- <-. auto.
  - apply bind_ok in H as ((x & y) & Z & H). injection H as <- <- <-. auto.
Qed.
Lemma finish_inv bs k c a outs t m adj : finish K bs k c a outs t = Ok (m, adj) ->
  exists kb qb, bs = (adj, kb, qb)
    /\ m = MGroupBy adj {| g_table := t; g_keys := k; g_keys_budget := kb; g_agg := a; g_mech := c; g_budget := qb; g_outs := outs |}
    /\ mismatch (ploss m) adj = false.
Proof.
  unfold finish. destruct bs as [[ad kb] qb]. intros H. apply bind_ok in H as (? & _ & H). apply bind_ok in H as (? & MM & H).
  injection H as <- <-. exists kb, qb. repeat split. apply raise_ok in MM. exact MM.
Qed.
Lemma finish_shape b q mm bs k c a outs t m adj : budgets R W cat b q k mm = Ok bs ->
  finish K bs k c a outs t = Ok (m, adj) -> shape b m adj.
Proof.
  intros B F. apply finish_inv in F as (kb & qb & -> & -> & MM). apply budgets_inv in B as (A & B).
  split; [exact MM|]. cbn [plan_of g_keys g_keys_budget g_budget privacy_loss]. split; [reflexivity|]. split; [reflexivity|].
  split; [exists mm; exact A|exact B].
Qed.
Lemma count_shape b c k o m co r adj : visit_count R W K so mu cat data b c k o m co = Ok (r, adj) -> shape b r adj.
Proof.
  unfold visit_count. intros H. apply bind_ok in H as (bs & B & H). repeat (apply bind_ok in H as (? & _ & H)).
  exact (finish_shape _ _ _ _ _ _ _ _ _ _ _ B H).
Qed.
Lemma measure_shape q : forall b m adj, mq b q = Ok (m, adj) -> shape b m adj.
Proof.
  induction q; intros b0 m0 adj H; cbn [measure_query] in H; try discriminate H.
  - unfold visit_groups in H. apply bind_ok in H as (? & A & H). apply raise_ok in A.
    repeat (apply bind_ok in H as (? & ? & H)). injection H as <- <-. split; [|cbn [plan_of]; split; [reflexivity|destruct (is_approx b0); [reflexivity|discriminate]]].
    match goal with E : raise_if (mismatch _ _) _ = Ok _ |- _ => apply raise_ok in E; exact E end.
  - unfold visit_bounds in H. apply bind_ok in H as (bs & B & H). repeat (apply bind_ok in H as (? & _ & H)).
    exact (finish_shape _ _ _ _ _ _ _ _ _ _ _ B H).
  - exact (count_shape _ _ _ _ _ _ _ _ H).
  - unfold visit_count_distinct in H. apply bind_ok in H as (bs & B & H). apply bind_ok in H as (cm & _ & H).
    apply bind_ok in H as (x & _ & H). apply bind_ok in H as (s & _ & H). destruct (constrained_child _ _ _ _ _).
    + apply bind_ok in H as (? & _ & H). exact (count_shape _ _ _ _ _ _ _ _ H).
    + repeat (apply bind_ok in H as (? & _ & H)). exact (finish_shape _ _ _ _ _ _ _ _ _ _ _ B H).
  - unfold visit_quantile in H. apply bind_ok in H as (bs & B & H). repeat (apply bind_ok in H as (? & _ & H)).
    exact (finish_shape _ _ _ _ _ _ _ _ _ _ _ B H).
  - unfold visit_bounded in H. apply bind_ok in H as (bs & B & H). repeat (apply bind_ok in H as (? & _ & H)).
    exact (finish_shape _ _ _ _ _ _ _ _ _ _ _ B H).
  - apply bind_ok in H as (? & _ & H). apply bind_ok in H as ((m1 & a1) & M & H). injection H as <- <-.
    specialize (IHq _ _ _ M). destruct IHq as (A & B). split; [exact A|]. cbn [plan_of privacy_loss fst snd]. exact B.
Qed.
Lemma compile_inv b q m : cmp b q = Ok m ->
  exists s q' adj, sch q = Ok s /\ rewrite auto (w_cond_ok W) mu cat q = Ok q' /\ mq b q' = Ok (m, adj).
Proof.
  unfold compile. intros H. apply bind_ok in H as (s & S & H). apply bind_ok in H as (q' & RW & H).
  apply bind_ok in H as ((m' & adj) & M & H). apply bind_ok in H as (? & _ & H). injection H as <-. eauto 7.
Qed.
Lemma compile_shape b q m : cmp b q = Ok m -> exists adj, shape b m adj.
Proof. intros H. apply compile_inv in H as (s & q' & adj & _ & _ & M). exists adj. exact (measure_shape _ _ _ _ M). Qed.


(** *** Charges *)
Lemma valid_delta e d : valid (Approx e d) -> xle (XFin 0) d.
Proof. intros (_ & H & _). exact H. Qed.
Lemma without_delta_le b : valid b -> ble (without_delta b) b.
Proof. destruct b; cbn; intros V; [apply xle_refl|split; [apply xle_refl|apply V]|apply xle_refl]. Qed.
Lemma ble_refl b : ble b b.
Proof. destruct b; cbn; repeat split; apply xle_refl. Qed.
Lemma ble_trans a b c : ble a b -> ble b c -> ble a c.
Proof.
  destruct a, b, c; cbn; try tauto; try apply xle_trans.
  intros (A & B) (C & D). split; eapply xle_trans; eassumption.
Qed.
Lemma mismatch_le l b : mismatch l b = false -> ble l b.
Proof.
  unfold mismatch. destruct b as [e|e d|r].
  - intros H. apply negb_false_iff in H. destruct l; try discriminate. cbn in *. apply xeq_xle, xeqb_iff, H.
  - destruct l as [|e' d'|]; try discriminate. intros H. apply orb_false_iff in H as (A & B). apply xltb_false in A, B. split; assumption.
  - intros H. apply negb_false_iff in H. destruct l; try discriminate. cbn in *. apply xeq_xle, xeqb_iff, H.
Qed.
Lemma shape_le b m adj : valid b -> shape b m adj -> ble (ploss m) adj /\ ble adj b.
Proof.
  intros V (MM & H). split; [apply mismatch_le, MM|]. destruct (plan_of m) as [[total g]|].
  - destruct H as (-> & _ & (mm & A) & _). apply adjust_inv in A. destruct (g_keys g).
    + subst. apply without_delta_le, V.
    + destruct (Budget.is_infinite b); [subst; apply without_delta_le, V|destruct A as (-> & _); apply ble_refl].
  - destruct H as (-> & _). apply ble_refl.
Qed.

(** *** Splits *)
Lemma half x : (x * (1 # 2) + x * (1 # 2) == x)%Q.
Proof. ring. Qed.
Lemma split_finite e d kb qb : Budget.is_infinite (Approx e d) = false -> split_budget R (Approx e d) = Ok (kb, qb) ->
  kb = Approx (xhalf e) d /\ qb = Approx (xhalf e) (XFin 0).
Proof.
  unfold split_budget. intros -> H. apply bind_ok in H as (x & X & H). apply bind_ok in H as (y & Y & H). injection H as <- <-.
  apply mk_approx_inv in X as (? & ? & -> & [= <-] & [= <-]). apply mk_approx_inv in Y as (? & ? & -> & [= <-] & [= <-]). auto.
Qed.
Lemma split_infinite e d kb qb : Budget.is_infinite (Approx e d) = true -> split_budget R (Approx e d) = Ok (kb, qb) ->
  kb = Approx XPInf (XFin (inject_Z 1)) /\ qb = Approx XPInf (XFin 0).
Proof.
  unfold split_budget. intros -> H. apply bind_ok in H as (x & X & H). apply bind_ok in H as (y & Y & H). injection H as <- <-.
  apply mk_approx_inv in X as (? & ? & -> & [= <-] & [= <-]). apply mk_approx_inv in Y as (? & ? & -> & [= <-] & [= <-]). auto.
Qed.
Lemma auto_split b m adj total g cols : valid b -> shape b m adj -> plan_of m = Some (total, g) -> g_keys g = KCols cols -> ~ infinite b ->
  total = b /\ exists x y h, b = Approx (XFin x) (XFin y) /\ (0 < x)%Q /\ (0 < y)%Q
    /\ g_keys_budget g = Approx (XFin h) (XFin y) /\ g_budget g = Approx (XFin h) (XFin 0) /\ (h + h == x)%Q.
Proof.
  intros V (_ & H) P KC NI. rewrite P in H. destruct H as (-> & _ & (mm & A) & H). rewrite KC in H. apply adjust_inv in A. rewrite KC in A.
  assert (IF : Budget.is_infinite b = false).
  { destruct (Budget.is_infinite b) eqn:E; [|reflexivity]. exfalso. apply NI. apply is_infinite_iff, E. }
  rewrite IF in A. destruct A as (-> & A). split; [reflexivity|].
  destruct b as [e|e d|r]; [discriminate| |discriminate].
  apply (split_finite _ _ _ _ IF) in H as (-> & ->).
  destruct V as (V1 & V2 & V3). destruct (nonneg_cases _ V1) as [(x & -> & X)| ->]; [|exfalso; apply NI; left; reflexivity].
  destruct (nonneg_cases _ V2) as [(y & -> & Y)| ->]; [|destruct V3].
  exists x, y, (x * (1 # 2))%Q. cbn [xle] in A. destruct A as (A1 & A2). repeat split; try lra.
Qed.
Lemma auto_split_infinite b m adj total g cols : shape b m adj -> plan_of m = Some (total, g) -> g_keys g = KCols cols ->
  loss b = XPInf ->
  exists d, b = Approx XPInf d /\ total = Approx XPInf (XFin 0)
    /\ g_keys_budget g = Approx XPInf (XFin 1) /\ g_budget g = Approx XPInf (XFin 0).
Proof.
  intros (_ & H) P KC L. rewrite P in H. destruct H as (-> & _ & (mm & A) & H). rewrite KC in H. apply adjust_inv in A. rewrite KC in A.
  destruct b as [e|e d|r]; cbn [loss] in L; subst; cbn in A; subst adj; try discriminate H.
  apply split_infinite in H as (-> & ->); [|reflexivity]. exists d. auto.
Qed.
Lemma known_keys b m adj total g cols rows : shape b m adj -> plan_of m = Some (total, g) -> g_keys g = KSet cols rows ->
  total = without_delta b /\ g_keys_budget g = zero_of b /\ g_budget g = total.
Proof.
  intros (_ & H) P KC. rewrite P in H. destruct H as (-> & _ & (mm & A) & H). rewrite KC in H. apply adjust_inv in A. rewrite KC in A.
  destruct H as (Z & ->). apply zero_budget_inv in Z. auto.
Qed.
(** Only approximate DP has keys to be found. *)
Lemma auto_approx b m adj total g cols : shape b m adj -> plan_of m = Some (total, g) -> g_keys g = KCols cols -> is_approx b = true.
Proof.
  intros (_ & H) P KC. rewrite P in H. destruct H as (-> & _ & (mm & A) & H). rewrite KC in H. apply adjust_inv in A. rewrite KC in A.
  destruct b as [e|e d|r]; [|reflexivity|]; (destruct (Budget.is_infinite _); [|destruct A as (A & _)]); subst adj; discriminate H.
Qed.

(** *** Running *)
Lemma run_known total g cols rows : g_keys g = KSet cols rows -> g_keys_budget g = zero_of total -> g_budget g = total ->
  valid total -> exists t, run_plan R K total g = Ok t.
Proof.
  intros KC Z B V. unfold run_plan, find_keys. rewrite KC, Z.
  assert (HZ : is_zero R (XFin 0) = true) by reflexivity.
  assert (match zero_of total with Pure e => is_zero R e | Approx e d => is_zero R e && is_zero R d | Zcdp r => is_zero R r end = true) as ->
    by (destruct total; cbn [zero_of]; rewrite ?HZ; reflexivity).
  cbn [negb raise_if bind]. unfold ask. rewrite B.
  assert (exists left, spend total (zero_of total) = Some left /\ exists rest, spend left total = Some rest) as (left & -> & rest & ER).
  2: { cbn [bind]. rewrite ER. cbn [bind]. eexists. reflexivity. }
  unfold spend at 1. destruct (Budget.is_infinite total) eqn:I.
  { exists total. split; [reflexivity|]. unfold spend. rewrite I. eauto. }
  destruct total as [e|e d|e]; cbn [zero_of].
  - change (xle (XFin 0) e) in V. pose proof V as V'. apply xleb_iff in V'. rewrite V'. eexists. split; [reflexivity|].
    destruct (nonneg_cases _ V) as [(x & -> & X)| ->]; [|discriminate I]. cbn [xminus]. unfold spend. cbn [Budget.is_infinite xeqb].
    assert (xleb (XFin x) (XFin (x - 0)) = true) as -> by (apply xleb_iff; cbn; lra). eauto.
  - destruct V as (V & V2 & V3). pose proof V as V'. apply xleb_iff in V'. rewrite V'. pose proof V2 as V2'. apply xleb_iff in V2'. rewrite V2'.
    cbn [andb]. eexists. split; [reflexivity|]. cbn in I. apply orb_false_iff in I as (I1 & I2).
    destruct (nonneg_cases _ V) as [(x & -> & X)| ->]; [|discriminate I1]. destruct (nonneg_cases _ V2) as [(y & -> & Y)| ->]; [|destruct V3].
    cbn [xminus]. unfold spend. destruct (Budget.is_infinite _); [eauto|].
    assert (xleb (XFin x) (XFin (x - 0)) = true) as -> by (apply xleb_iff; cbn; lra).
    assert (xleb (XFin y) (XFin (y - 0)) = true) as -> by (apply xleb_iff; cbn; lra). cbn [andb]. eauto.
  - change (xle (XFin 0) e) in V. pose proof V as V'. apply xleb_iff in V'. rewrite V'. eexists. split; [reflexivity|].
    destruct (nonneg_cases _ V) as [(x & -> & X)| ->]; [|discriminate I]. cbn [xminus]. unfold spend. cbn [Budget.is_infinite xeqb].
    assert (xleb (XFin x) (XFin (x - 0)) = true) as -> by (apply xleb_iff; cbn; lra). eauto.
Qed.

(** tmlt.core accepts the search for keys: the columns can be selected, and partition
    selection accepts the result. *)
Definition search_accepted (g : plan) (cols : list string) : Prop :=
  exists y, visit_select cols (g_table g, []) = Ok y /\ k_groups_builds K (fst y) (g_keys_budget g) = Ok tt.
(** Budgets for keys that are to be found can be spent; their float values must be positive. *)
Lemma run_auto total g cols x y h : g_keys g = KCols cols -> total = Approx (XFin x) (XFin y) -> (0 < x)%Q -> (0 < y)%Q ->
  g_keys_budget g = Approx (XFin h) (XFin y) -> g_budget g = Approx (XFin h) (XFin 0) -> (h + h == x)%Q ->
  positive R (XFin h) = true -> positive R (XFin y) = true -> search_accepted g cols -> exists t, run_plan R K total g = Ok t.
Proof.
  intros KC -> X Y KB QB HH PH PY (v & VS & GB). unfold run_plan, find_keys. rewrite KC. rewrite KB in GB |- *. rewrite PH, PY. cbn [andb negb raise_if bind]. rewrite VS. cbn [bind]. rewrite GB. cbn [bind]. unfold ask. rewrite QB.
  unfold spend at 1. destruct (Budget.is_infinite (Approx (XFin x) (XFin y))) eqn:I.
  { cbn [bind]. unfold spend. rewrite I. cbn [bind]. (eexists; reflexivity). }
  assert (xleb (XFin h) (XFin x) = true) as -> by (apply xleb_iff; cbn; lra).
  assert (xleb (XFin y) (XFin y) = true) as -> by (apply xleb_iff; cbn; lra). cbn [andb xminus bind].
  unfold spend. destruct (Budget.is_infinite (Approx (XFin (x - h)) (XFin (y - y)))); [cbn [bind]; (eexists; reflexivity)|].
  assert (xleb (XFin h) (XFin (x - h)) = true) as -> by (apply xleb_iff; cbn; lra).
  assert (xleb (XFin 0) (XFin (y - y)) = true) as -> by (apply xleb_iff; cbn; lra). cbn [andb bind]. (eexists; reflexivity).
Qed.
Lemma run_auto_infinite total g cols : g_keys g = KCols cols -> total = Approx XPInf (XFin 0) ->
  g_keys_budget g = Approx XPInf (XFin 1) -> g_budget g = Approx XPInf (XFin 0) -> search_accepted g cols -> exists t, run_plan R K total g = Ok t.
Proof.
  intros KC -> KB QB (v & VS & GB). unfold run_plan, find_keys. rewrite KC. rewrite KB in GB |- *. rewrite QB, VS. cbn [bind positive andb]. rewrite GB. eexists. reflexivity.
Qed.
Lemma run_suppressed m total g : plan_of m = Some (total, g) -> (exists t, run_plan R K total g = Ok t) -> exists t, run_measurement R K m = Ok t.
Proof.
  induction m as [tot g'|t c b|m IH c th]; cbn [plan_of run_measurement]; intros P H; try discriminate.
  - injection P as -> ->. exact H.
  - destruct (IH P H) as (t & ->). cbn [bind]. eauto.
Qed.
Lemma run_groups m : plan_of m = None -> exists t, run_measurement R K m = Ok t.
Proof.
  induction m as [tot g'|t c b|m IH c th]; cbn [plan_of run_measurement]; intros P; try discriminate; [eauto|].
  destruct (IH P) as (t & ->). cbn [bind]. eauto.
Qed.
End Proofs.
