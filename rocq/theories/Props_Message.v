(** Property C59: calls that the budget does not allow, and what they say. *)
From Coq Require Import String Bool Arith ZArith QArith Qabs Qround Lqa Lia Permutation List.
From Verif Require Import Prelude Budget BudgetProofs BudgetScale Value Rows Constraints Schema SchemaProofs Query Transform TransformVisit Tables TablesProofs
  Accountant AccountantProofs Session SessionSpec SessionMoney SessionSteps SessionTables SessionInv SessionUse SessionCharge Props_Query Props_Session Message.
Import ListNotations.
Local Open Scope string_scope.
Local Open Scope nat_scope.

(** ** Specification *)

(** What is left allows the request; or the request is more than what is left, by more
    than the tolerated part in 10^9. *)
Definition allowed (left want : budget) : Prop := infinite left \/ ble want left.
Definition exceeded (left want : budget) : Prop :=
  ~ infinite left /\ (~ within_tolerance (loss want) (loss left) \/ ~ within_tolerance (delta want) (delta left)).
(** The numbers of a budget, by the symbols that stand for them. *)
Definition figures (b : budget) : list (string * xq) :=
  match b with
  | Pure e => [("ε", e)]
  | Approx e d => [("ε", e); ("δ", d)]
  | Zcdp r => [("𝝆", r)]
  end.
Definition figure (s : string) (b : budget) : option xq := dget s (figures b).
(** A number that was written, and what it stands for to within half a thousandth. *)
Definition reading (w : written) : xq := match w with Fixed x | Scientific x => x end.
Definition about (x y : xq) : Prop :=
  match x, y with XFin a, XFin b => (Qabs (a - b) <= 1 # 2000)%Q | XPInf, XPInf => True | _, _ => False end.

(** ** Lemmas *)
Section Refused.
Variable E : env.

Lemma allowed_spends left want adj : valid left -> valid adj -> same_kind left adj -> same_kind left want ->
  charge_for left want adj -> allowed left want -> exists rest, spend left adj = Some rest.
Proof.
  intros VL VA K KW C A. unfold spend. destruct (is_infinite left) eqn:I; [eauto|]. apply is_infinite_false in I.
  destruct A as [A|A]; [contradiction|]. destruct C as [(X & _)|(rem & _ & C)].
  - exfalso. apply I. destruct left as [x|x d|x], want as [y|y d'|y]; cbn [ble infinite same_kind] in *; try contradiction; subst.
    + destruct x; cbn in A; tauto.
    + destruct A as (A & B). destruct X as [->|X]; [left; destruct x; cbn in A; tauto|right]. destruct VL as (_ & _ & VL).
      destruct d as [d| |], d' as [d'| |]; cbn in *; try tauto. lra.
    + destruct x; cbn in A; tauto.
  - apply adjusted_componentwise_le in C.
    assert (B : ble adj left) by (destruct left, want, adj; cbn [ble same_kind] in *; try contradiction;
      [eapply xle_trans; eassumption| |eapply xle_trans; eassumption]; destruct C, A; split; eapply xle_trans; eassumption).
    destruct left as [x|x d|x], adj as [y|y d'|y]; cbn [ble same_kind] in *; try contradiction.
    + apply xleb_iff in B. rewrite B. eauto.
    + destruct B as (B1 & B2). apply xleb_iff in B1, B2. rewrite B1, B2. cbn. eauto.
    + apply xleb_iff in B. rewrite B. eauto.
Qed.

Lemma keeps_request l q r c : ~ within_tolerance q l -> xle r l -> adjusted_to q r c -> c = q.
Proof.
  intros N L [(S & ->)|(_ & ->)]; [|reflexivity]. exfalso. apply N. destruct S as (a & b & -> & -> & S1 & S2).
  destruct l as [l| |]; cbn in *; try tauto. right. assert (X : (a / inject_Z 1000000000 <= l / inject_Z 1000000000)%Q).
  { unfold Qdiv. apply Qmult_le_compat_r; [exact L|]. apply Qlt_le_weak. reflexivity. } lra.
Qed.
Lemma over_not_le q l : ~ within_tolerance q l -> xleb q l = false.
Proof.
  intros N. destruct (xleb q l) eqn:X; [|reflexivity]. apply xleb_iff in X. exfalso. apply N. destruct q, l; cbn in *; try tauto.
Qed.
Lemma exceeded_refused left want adj : valid left -> valid adj -> same_kind left adj -> same_kind left want ->
  charge_for left want adj -> exceeded left want -> spend left adj = None.
Proof.
  intros VL VA K KW C (I & X). unfold spend. pose proof I as I'. apply is_infinite_false in I'. rewrite I'. destruct C as [(_ & C)|(rem & L & C)].
  - destruct left as [x|x d|x], adj as [y|y d'|y]; cbn [infinite same_kind] in *; try contradiction; subst.
    + destruct x; cbn in *; try tauto. 
    + assert (Y : xleb y x && xleb d' d = false); [|rewrite Y; reflexivity].
      destruct C as [->|C].
      * destruct x; cbn in *; try tauto.
      * apply andb_false_iff. right. destruct (xleb d' d) eqn:Z; [|reflexivity]. apply xleb_iff in Z. exfalso. apply I. right.
        destruct VL as (_ & _ & VL). destruct d as [d| |], d' as [d'| |]; cbn in *; try tauto. lra.
    + destruct x; cbn in *; try tauto.
  - destruct left as [x|x d|x], want as [y|y d'|y], adj as [z|z d''|z], rem as [r|r d'''|r]; cbn [same_kind ble adjusted_componentwise loss delta] in *; try contradiction.
    + destruct X as [X|X]; [|exfalso; apply X; cbn; left; apply Qle_refl]. rewrite (keeps_request _ _ _ _ X L C), (over_not_le _ _ X). reflexivity.
    + destruct L as (L1 & L2), C as (C1 & C2). assert (Y : xleb z x && xleb d'' d = false); [|rewrite Y; reflexivity]. apply andb_false_iff. destruct X as [X|X].
      * left. rewrite (keeps_request _ _ _ _ X L1 C1). apply over_not_le. exact X.
      * right. rewrite (keeps_request _ _ _ _ X L2 C2). apply over_not_le. exact X.
    + destruct X as [X|X]; [|exfalso; apply X; cbn; left; apply Qle_refl]. rewrite (keeps_request _ _ _ _ X L C), (over_not_le _ _ X). reflexivity.
Qed.

Lemma activates st p (s : sess) a : session st p s -> state_at (st_root st) p a -> a <> RETIRED ->
  session_at st p = Ok s /\ exists t, activate p (st_root st) = (t, Ok tt).
Proof.
  intros (c & F & D) SA N. unfold session_at. rewrite F, D. split; [reflexivity|]. apply state_at_iff in SA. unfold activate. rewrite SA.
  destruct a; try contradiction; eauto.
Qed.
End Refused.

Lemma compile_kind E s pub q b adj : compile_and_get_info E s pub q b = Ok adj -> same_kind (s_left s) (request (s_left s) b).
Proof.
  unfold compile_and_get_info. intros H. destruct (lift_pure E (s_left s) b) as [b1|] eqn:L; [|discriminate]. cbn [bind] in H.
  destruct (validate_type (s_left s) b1) eqn:V; [|discriminate]. rewrite <- (lift_request _ _ _ _ L). eapply validate_kind. exact V.
Qed.

(** ** Theorems *)

(** A query that compiles, on a session that was not stopped, is answered if what is left
    allows the budget asked for, and refused if that is exceeded.  A refusal changes no
    data and no account.  It is a RuntimeError, except that a PureDPBudget in a session
    with an ApproxDPBudget ends in an internal error. *)
Theorem C59_answered_or_refused_partial : forall E b x st p s a q want o,
  reachable E b x st -> session st p s -> state_at (st_root st) p a -> a <> RETIRED ->
  o = Evaluate p q want /\ (forall adj, e_relation E (s_tree s) q adj = true) \/ o = SpendOnly p q want ->
  (exists adj, compile_and_get_info E s (st_public st) q want = Ok adj) ->
  (allowed (s_left s) (request (s_left s) want) -> exists st', step E st o = (st', Ok tt))
  /\ (exceeded (s_left s) (request (s_left s) want) -> exists st' e, step E st o = (st', Err e) /\ contents st' = contents st
        /\ (want = request (s_left s) want -> e = RuntimeError)).
Proof.
  intros E b x st p s a q want o RE S SA N O (adj & C). destruct (activates _ _ _ _ S SA N) as (S1 & t & A).
  pose proof (reachable_books _ _ _ _ _ _ RE S) as BK. assert (VL : valid (s_left s)) by apply BK.
  destruct (compile_adj _ _ _ _ _ _ C) as (VA & K). pose proof (compile_kind _ _ _ _ _ _ C) as KW.
  pose proof (compile_charge _ _ _ _ _ _ VL C) as CH.
  assert (X : step E st o = match spend (s_left s) adj with
              | None => fails (set_root st t) (refusal (s_left s) want)
              | Some rest => (set_root (set_root st t) (change p (set_data (charged s rest (Measured adj))) t), Ok tt) end).
  { destruct O as [(-> & R)| ->]; cbn [step]; unfold evaluate, spend_without_executing, attempt, activated; rewrite S1, C, A; [rewrite R|]; reflexivity. }
  split.
  - intros AL. destruct (allowed_spends _ _ _ VL VA K KW CH AL) as (rest & SP). rewrite X, SP. eauto.
  - intros EX. pose proof (exceeded_refused _ _ _ VL VA K KW CH EX) as SP. rewrite SP in X. exists (set_root st t), (refusal (s_left s) want).
    split; [exact X|]. split; [eapply C26_failed_calls_change_nothing; [exact RE|exact X]|]. intros W. rewrite <- W in KW.
    destruct (s_left s), want; cbn in KW; try contradiction; reflexivity.
Qed.
Print Assumptions C59_answered_or_refused_partial.

(** A partition is refused with a RuntimeError if its budget exceeds what is left. *)
Theorem C59_partitions_refused : forall E b x st p s a source want column splits adj y,
  reachable E b x st -> session st p s -> state_at (st_root st) p a -> a <> RETIRED ->
  (forall n, In n (dkeys splits) -> e_identifier E n = true) ->
  same_kind (s_left s) (request (s_left s) want) -> lift_pure E (s_left s) want = Ok (request (s_left s) want) ->
  process_budget E (s_left s) (request (s_left s) want) = Ok adj ->
  create_partition_transformation E s (st_public st) source column splits = Ok y ->
  exceeded (s_left s) (request (s_left s) want) ->
  exists st', step E st (Partition p source want column splits) = (st', Err RuntimeError) /\ contents st' = contents st.
Proof.
  intros E b x st p s a source want column splits adj y RE S SA N ID KW LP PB CP EX. destruct (activates _ _ _ _ S SA N) as (S1 & t & A).
  pose proof (reachable_books _ _ _ _ _ _ RE S) as BK. assert (VL : valid (s_left s)) by apply BK.
  destruct (process_valid _ _ _ _ PB) as (VA & K1). pose proof (same_kind_trans _ _ _ KW K1) as K.
  pose proof (process_charge _ _ _ _ VL KW PB) as CH. pose proof (exceeded_refused _ _ _ VL VA K KW CH EX) as SP.
  assert (V : validate_type (s_left s) (request (s_left s) want) = Ok tt) by (destruct (s_left s), want; cbn in KW |- *; try contradiction; reflexivity).
  assert (I : existsb (fun n => negb (e_identifier E n)) (dkeys splits) = false).
  { destruct (existsb _ _) eqn:X; [|reflexivity]. apply existsb_exists in X as (n & X1 & X2). rewrite (ID n X1) in X2. discriminate. }
  assert (X : step E st (Partition p source want column splits) = (set_root st t, Err RuntimeError)).
  { cbn [step]. unfold partition_and_create, attempt, activated. rewrite S1, LP, V, I. cbn [raise_if]. rewrite PB, CP, A, SP. cbn. f_equal. f_equal.
    destruct (s_left s), want; cbn in KW |- *; try contradiction; reflexivity. }
  exists (set_root st t). split; [exact X|]. eapply C26_failed_calls_change_nothing; [exact RE|exact X].
Qed.
Print Assumptions C59_partitions_refused.

(** The exception of a refusal is the one that making the message leads to. *)
Theorem C59_refusals_have_messages : forall R up left adj want, same_kind left adj ->
  match insufficient_budget_msg R up adj left want with
  | Ok _ => refusal left want = RuntimeError
  | Err e => refusal left want = e
  end.
Proof. intros R up left adj want K. destruct left, adj, want; cbn in K |- *; try contradiction; reflexivity. Qed.
Print Assumptions C59_refusals_have_messages.

(** *** The text *)

Lemma nearest_close q : (Qabs (inject_Z (nearest q) - q) <= 1 # 2)%Q.
Proof.
  unfold nearest. pose proof (Qfloor_le q) as L. pose proof (Qlt_floor q) as U. rewrite inject_Z_plus in U.
  set (n := Qfloor q) in *. apply Qabs_Qle_condition.
  destruct (Qcompare (q - inject_Z n) (1 # 2)) eqn:C.
  - apply Qeq_alt in C. destruct (Z.even n); [|rewrite inject_Z_plus]; change (inject_Z 1) with 1%Q in *; split; lra.
  - apply Qlt_alt in C. split; lra.
  - apply Qgt_alt in C. rewrite inject_Z_plus. change (inject_Z 1) with 1%Q in *. split; lra.
Qed.
Lemma decimals_about x : x <> XNInf -> about (to_3_decimals x) x.
Proof.
  intros N. destruct x as [q| |]; [|exact I|contradiction]. unfold about, to_3_decimals. pose proof (nearest_close (q * 1000)) as H.
  apply Qabs_Qle_condition in H as (H1 & H2). apply Qabs_Qle_condition.
  assert (X : (inject_Z (nearest (q * 1000)) / 1000 * 1000 == inject_Z (nearest (q * 1000)))%Q) by field.
  set (z := (inject_Z (nearest (q * 1000)) / 1000)%Q) in *. split; lra.
Qed.
Lemma decimals_twice x : reading (fixed (to_3_decimals x)) = to_3_decimals (to_3_decimals x). Proof. reflexivity. Qed.
Lemma nearest_int z : nearest (inject_Z z) = z.
Proof. unfold nearest. rewrite Qfloor_Z. assert (X : (inject_Z z - inject_Z z ?= 1 # 2)%Q = Lt) by (apply -> Qlt_alt; lra). rewrite X. reflexivity. Qed.
Lemma nearest_eq a b : (a == b)%Q -> nearest a = nearest b.
Proof. intros H. unfold nearest. rewrite (Qfloor_comp _ _ H). assert (X : (a - inject_Z (Qfloor b) ?= 1 # 2)%Q = (b - inject_Z (Qfloor b) ?= 1 # 2)%Q) by (rewrite H; reflexivity). rewrite X. reflexivity. Qed.
Lemma decimals_idem x : to_3_decimals (to_3_decimals x) = to_3_decimals x.
Proof.
  destruct x as [q| |]; try reflexivity. unfold to_3_decimals. do 3 f_equal. rewrite (nearest_eq _ (inject_Z (nearest (q * 1000)))); [|field]. rewrite nearest_int. reflexivity.
Qed.

(** The message for budgets of one kind: it shows the numbers of both budgets as floats
    rounded up ([up]), and under "Difference" the numbers that are short as floats, each
    with by how much.  All are rounded to three decimals. *)
Theorem C59_message_tells_partial : forall R (up : Q -> Q) adj left want,
  same_kind left adj -> same_kind left want -> exceeded left adj -> (forall q r, (q <= r)%Q -> (up q <= up r)%Q) ->
  (forall s v, figure s adj = Some v \/ figure s left = Some v -> v <> XNInf) ->
  let float v := match v with XFin q => XFin (up q) | _ => v end in
  let shows l b := Forall2 (fun w f => fst w = fst f /\ about (reading (snd w)) (float (snd f))) l (figures b) in
  exists m, insufficient_budget_msg R up adj left want = Ok m /\ shows (requested m) adj /\ shows (remaining m) left
    /\ (forall s w, In (s, w) (difference m) -> exists q r, figure s adj = Some q /\ figure s left = Some r /\ ~ xle q r
          /\ (forall x y d, q = XFin x -> r = XFin y -> rnd R (up y - up x) = XFin d -> about (reading w) (XFin (Qabs d)))
          /\ (q = XPInf -> reading w = XPInf))
    /\ (forall s q r, figure s adj = Some q -> figure s left = Some r -> ~ xle (float q) (float r) -> exists w, In (s, w) (difference m)).
Proof.
  intros R up adj left want K KW EX UM FIN float shows.
  assert (AB : forall x, x <> XNInf -> about (reading (fixed (float x))) (float x)).
  { intros x N. unfold fixed. cbn [reading]. apply decimals_about. destruct x; cbn; congruence. }
  assert (WR : forall q r w, (w = Fixed (rounded_difference R (float r) (float q)) \/ w = Scientific (rounded_difference R (float r) (float q)) \/ w = fixed (rounded_difference R (float r) (float q)))
     -> (forall x y d, q = XFin x -> r = XFin y -> rnd R (up y - up x) = XFin d -> about (reading w) (XFin (Qabs d)))).
  { intros q r w W x y d -> -> D. cbn [float] in W. assert (X : reading w = to_3_decimals (XFin (Qabs d))).
    { assert (Y : rounded_difference R (XFin (up y)) (XFin (up x)) = to_3_decimals (XFin (Qabs d))) by (unfold rounded_difference, float_minus; rewrite D; reflexivity).
      rewrite Y in W. destruct W as [->|[->| ->]]; cbn [reading fixed]; [reflexivity|reflexivity|apply decimals_idem]. }
    rewrite X. apply decimals_about. discriminate. }
  assert (WI : forall q r w, ~ xle q r -> r <> XNInf -> (w = Fixed (rounded_difference R (float r) (float q)) \/ w = Scientific (rounded_difference R (float r) (float q)) \/ w = fixed (rounded_difference R (float r) (float q)))
     -> q = XPInf -> reading w = XPInf).
  { intros q r w L N W ->. destruct r as [r| |]; [|exfalso; apply L; exact I|contradiction]. cbn in W. destruct W as [->|[->| ->]]; reflexivity. }
  assert (MONO : forall q r, ~ xle (float q) (float r) -> ~ xle q r).
  { intros q r N L. apply N. destruct q, r; cbn in *; try tauto. apply UM. exact L. }
  assert (WT : forall q l, ~ within_tolerance q l -> ~ xle q l).
  { intros q l N X. apply N. destruct q, l; cbn in *; try tauto. }
  destruct EX as (NI & EX).
  destruct left as [x|x d|x], adj as [y|y e|y], want as [z|z f|z]; cbn [same_kind] in K, KW; try contradiction.
  - assert (L : ~ xle y x). { destruct EX as [EX|EX]; [apply WT, EX|]. exfalso. apply EX. cbn. left. apply Qle_refl. }
    assert (NX : x <> XNInf) by (apply (FIN "ε"); right; reflexivity). assert (NY : y <> XNInf) by (apply (FIN "ε"); left; reflexivity).
    eexists. split; [reflexivity|]. cbn [requested remaining difference]. fold float. unfold shows.
    split; [repeat constructor; apply AB, NY|]. split; [repeat constructor; apply AB, NX|]. split.
    + intros s w [X|[]]. injection X as SX WX. subst s. exists y, x. split; [reflexivity|]. split; [reflexivity|]. split; [exact L|].
      assert (W : w = Fixed (rounded_difference R (float x) (float y)) \/ w = Scientific (rounded_difference R (float x) (float y)) \/ w = fixed (rounded_difference R (float x) (float y))).
      { rewrite <- WX. unfold write_difference. destruct (at_least_threshold _); auto. }
      split; [eapply WR; exact W|eapply WI; eassumption].
    + intros s q r A B _. unfold figure in A. cbn [figures] in A. cbn [dget] in A. destruct (String.eqb s "ε") eqn:SE; [|discriminate]. apply String.eqb_eq in SE. subst s. eexists. left. reflexivity.
  - assert (NX : x <> XNInf) by (apply (FIN "ε"); right; reflexivity). assert (NY : y <> XNInf) by (apply (FIN "ε"); left; reflexivity).
    assert (ND : d <> XNInf) by (apply (FIN "δ"); right; reflexivity). assert (NE : e <> XNInf) by (apply (FIN "δ"); left; reflexivity).
    eexists. split; [reflexivity|]. cbn [requested remaining difference]. fold float. unfold shows.
    change (to_float_up up x) with (float x). change (to_float_up up y) with (float y). change (to_float_up up d) with (float d). change (to_float_up up e) with (float e).
    split; [repeat constructor; apply AB; assumption|]. split; [repeat constructor; apply AB; assumption|].
    assert (IT : forall s q r w, (s = "ε" /\ q = y /\ r = x \/ s = "δ" /\ q = e /\ r = d) -> xltb (float r) (float q) = true ->
      (w = Fixed (rounded_difference R (float r) (float q)) \/ w = Scientific (rounded_difference R (float r) (float q)) \/ w = fixed (rounded_difference R (float r) (float q))) ->
      exists q r, figure s (Approx y e) = Some q /\ figure s (Approx x d) = Some r /\ ~ xle q r
          /\ (forall x y d, q = XFin x -> r = XFin y -> rnd R (up y - up x) = XFin d -> about (reading w) (XFin (Qabs d)))
          /\ (q = XPInf -> reading w = XPInf)).
    { intros s q r w S L W. exists q, r. apply xltb_iff, MONO in L. 
      split; [destruct S as [(-> & -> & ->)|(-> & -> & ->)]; reflexivity|]. split; [destruct S as [(-> & -> & ->)|(-> & -> & ->)]; reflexivity|].
      split; [exact L|]. split; [eapply WR; exact W|eapply WI; [exact L| |exact W]]. destruct S as [(-> & -> & ->)|(-> & -> & ->)]; assumption. }
    split.
    + intros s w H. destruct (xltb (float x) (float y)) eqn:LE, (xltb (float d) (float e)) eqn:LD; cbn [andb] in H.
      * assert (HH : s = "ε" /\ (w = Fixed (rounded_difference R (float x) (float y)) \/ w = Scientific (rounded_difference R (float x) (float y)) \/ w = fixed (rounded_difference R (float x) (float y)))
           \/ s = "δ" /\ (w = Fixed (rounded_difference R (float d) (float e)) \/ w = Scientific (rounded_difference R (float d) (float e)) \/ w = fixed (rounded_difference R (float d) (float e)))).
        { destruct (at_least_threshold _ && at_least_threshold _)%bool; [|destruct (negb (at_least_threshold _))];
            destruct H as [H|[H|[]]]; inversion H; subst; auto 6. }
        destruct HH as [(-> & W)|(-> & W)]; [eapply IT; [left; auto|exact LE|exact W]|eapply IT; [right; auto|exact LD|exact W]].
      * destruct H as [H|[]]. injection H as SX WX. subst s. eapply IT; [left; auto|exact LE|]. rewrite <- WX. unfold write_difference. destruct (at_least_threshold _); auto.
      * destruct H as [H|[]]. injection H as SX WX. subst s. eapply IT; [right; auto|exact LD|]. rewrite <- WX. unfold write_difference. destruct (at_least_threshold _); auto.
      * destruct H.
    + intros s q r A B N. unfold figure in A, B. cbn [figures dget] in A, B. apply xltb_iff in N. destruct (String.eqb s "ε") eqn:SE.
      * apply String.eqb_eq in SE. subst s. inversion A; inversion B; subst q r. rewrite N. destruct (xltb (float d) (float e)); cbn [andb];
          [destruct (at_least_threshold _ && at_least_threshold _)%bool; [|destruct (negb (at_least_threshold _))]|]; eexists; left; reflexivity.
      * destruct (String.eqb s "δ") eqn:SD; [|discriminate]. apply String.eqb_eq in SD. subst s. inversion A; inversion B; subst q r. rewrite N. destruct (xltb (float x) (float y)); cbn [andb];
          [destruct (at_least_threshold _ && at_least_threshold _)%bool; [|destruct (negb (at_least_threshold _))]; eexists; right; left; reflexivity|]; eexists; left; reflexivity.
  - assert (L : ~ xle y x). { destruct EX as [EX|EX]; [apply WT, EX|]. exfalso. apply EX. cbn. left. apply Qle_refl. }
    assert (NX : x <> XNInf) by (apply (FIN "𝝆"); right; reflexivity). assert (NY : y <> XNInf) by (apply (FIN "𝝆"); left; reflexivity).
    eexists. split; [reflexivity|]. cbn [requested remaining difference]. fold float. unfold shows.
    split; [repeat constructor; apply AB, NY|]. split; [repeat constructor; apply AB, NX|]. split.
    + intros s w [X|[]]. injection X as SX WX. subst s. exists y, x. split; [reflexivity|]. split; [reflexivity|]. split; [exact L|].
      assert (W : w = Fixed (rounded_difference R (float x) (float y)) \/ w = Scientific (rounded_difference R (float x) (float y)) \/ w = fixed (rounded_difference R (float x) (float y))).
      { rewrite <- WX. unfold write_difference. destruct (at_least_threshold _); auto. }
      split; [eapply WR; exact W|eapply WI; eassumption].
    + intros s q r A B _. unfold figure in A. cbn [figures dget] in A. destruct (String.eqb s "𝝆") eqn:SE; [|discriminate]. apply String.eqb_eq in SE. subst s. eexists. left. reflexivity.
Qed.
Print Assumptions C59_message_tells_partial.

(** A PureDPBudget is accepted in a session with an ApproxDPBudget, as (ε, 0).  If it
    exceeds what is left, the caller gets an internal error and not a RuntimeError. *)
Theorem C59_pure_request_refuted : exists E b x st p s q want,
  reachable E b x st /\ session st p s /\ state_at (st_root st) p ACTIVE
  /\ (exists adj, compile_and_get_info E s (st_public st) q want = Ok adj)
  /\ exceeded (s_left s) (request (s_left s) want) /\ (exists st', step E st (Evaluate p q want) = (st', Err InternalError)).
Proof.
  exists E0, (Approx (XFin 1) (XFin (1 # 10))), x0, (st0 (Approx (XFin 1) (XFin (1 # 10)))), [].
  eexists. exists (PrivateSource "cities"), (Pure (XFin 2)).
  split; [apply (reachable_run _ []); repeat split; cbn; try discriminate; lra|].
  split; [eexists; split; reflexivity|]. split; [apply state_at_iff; reflexivity|]. split; [eexists; vm_compute; reflexivity|].
  split; [|eexists; vm_compute; reflexivity]. split.
  - vm_compute. intros [X|X]; discriminate.
  - left. vm_compute. intros [X|X]; apply X; reflexivity.
Qed.
Print Assumptions C59_pure_request_refuted.

(** A shortfall below half a thousandth is reported as a difference of 0, and both amounts
    read the same; for a δ this is the usual case. *)
Theorem C59_shortfall_shown_as_zero_refuted :
  (exists E b x st p s q want st', reachable E b x st /\ session st p s
     /\ exceeded (s_left s) (request (s_left s) want) /\ step E st (Evaluate p q want) = (st', Err RuntimeError)
     /\ exists m w d, insufficient_budget_msg exact_rounding (fun q => q) want (s_left s) want = Ok m
        /\ requested m = [("ε", w)] /\ remaining m = [("ε", w)] /\ difference m = [("ε", d)] /\ xeq (reading d) (XFin 0))
  /\ exists m w d, insufficient_budget_msg exact_rounding (fun q => q) (Approx (XFin 1) (XFin (1 # 10000))) (Approx (XFin 1) (XFin (1 # 1000000))) (Approx (XFin 1) (XFin (1 # 10000))) = Ok m
        /\ requested m = w /\ remaining m = w /\ difference m = [("δ", d)] /\ xeq (reading d) (XFin 0).
Proof.
  split.
  - exists E0, (Pure (XFin 1)), x0, (st0 (Pure (XFin 1))), []. eexists. exists (PrivateSource "cities"), (Pure (XFin (10004 # 10000))). eexists.
    split; [apply (reachable_run _ []); cbn; lra|]. split; [eexists; split; reflexivity|]. split; [|split; [vm_compute; reflexivity|]].
    + split; [vm_compute; discriminate|]. left. vm_compute. intros [X|X]; apply X; reflexivity.
    + do 3 eexists. split; [vm_compute; reflexivity|]. repeat split.
  - do 3 eexists. split; [vm_compute; reflexivity|]. repeat split.
Qed.
Print Assumptions C59_shortfall_shown_as_zero_refuted.

Example C59_example :
  let st := st0 (Pure (XFin 3)) in
  reachable E0 (Pure (XFin 3)) x0 st
  /\ (exists s, session st [] s /\ state_at (st_root st) [] ACTIVE
      /\ (exists adj, compile_and_get_info E0 s (st_public st) (PrivateSource "cities") (Pure (XFin 2)) = Ok adj) /\ allowed (s_left s) (Pure (XFin 2))
      /\ (exists adj, compile_and_get_info E0 s (st_public st) (PrivateSource "cities") (Pure (XFin 4)) = Ok adj) /\ exceeded (s_left s) (Pure (XFin 4)))
  /\ (forall t adj, e_relation E0 t (PrivateSource "cities") adj = true)
  /\ (exists st', step E0 st (Evaluate [] (PrivateSource "cities") (Pure (XFin 2))) = (st', Ok tt))
  /\ (exists st', step E0 st (Evaluate [] (PrivateSource "cities") (Pure (XFin 4))) = (st', Err RuntimeError)).
Proof.
  cbn zeta. split; [apply (reachable_run _ []); cbn; lra|].
  split; [|split; [reflexivity|split; eexists; vm_compute; reflexivity]].
  eexists. split; [eexists; split; reflexivity|]. split; [apply state_at_iff; reflexivity|]. split; [eexists; vm_compute; reflexivity|].
  split; [right; vm_compute; discriminate|]. split; [eexists; vm_compute; reflexivity|].
  split; [vm_compute; discriminate|]. left. vm_compute. intros [X|X]; apply X; reflexivity.
Qed.
Example C59_message_example :
  let left := Approx (XFin 1) (XFin (1 # 10)) in
  let adj := Approx (XFin (3 # 2)) (XFin (3 # 20)) in
  same_kind left adj /\ exceeded left adj /\ (forall s v, figure s adj = Some v \/ figure s left = Some v -> v <> XNInf)
  /\ exists m e d, insufficient_budget_msg exact_rounding (fun q => q) adj left adj = Ok m
      /\ difference m = [("ε", Fixed e); ("δ", Scientific d)] /\ xeq e (XFin (1 # 2)) /\ xeq d (XFin (1 # 20))
      /\ (exists q d, requested m = [("ε", Fixed q); ("δ", Fixed d)] /\ xeq q (XFin (3 # 2)) /\ xeq d (XFin (3 # 20))).
Proof.
  cbn zeta. split; [exact I|]. split; [split; [vm_compute; intros [X|X]; discriminate|left; vm_compute; intros [X|X]; apply X; reflexivity]|].
  split.
  - intros s v H. unfold figure in H. cbn [figures dget] in H. destruct (String.eqb s "ε"); [|destruct (String.eqb s "δ")]; destruct H as [H|H]; inversion H; discriminate.
  - do 3 eexists. split; [vm_compute; reflexivity|]. split; [reflexivity|]. split; [reflexivity|]. split; [reflexivity|]. do 2 eexists. repeat split.
Qed.
Example C59_partition_example :
  let st := st0 (Pure (XFin 3)) in
  exists s adj y, session st [] s /\ process_budget E0 (s_left s) (Pure (XFin 4)) = Ok adj
    /\ create_partition_transformation E0 s (st_public st) "cities" "city" [("xs", VStr "x"); ("ys", VStr "y")] = Ok y
    /\ exceeded (s_left s) (Pure (XFin 4)).
Proof.
  cbn zeta. do 3 eexists. split; [eexists; split; reflexivity|]. split; [vm_compute; reflexivity|]. split; [vm_compute; reflexivity|].
  split; [vm_compute; discriminate|]. left. vm_compute. intros [X|X]; apply X; reflexivity.
Qed.
