(** Property C83: exact answers add up.  With an unlimited budget, the answer for a coarse key is
    the total of the answers for the fine keys below it. *)
From Coq Require Import String Bool Arith ZArith QArith Qcanon Lia Permutation List.
From Verif Require Import Prelude Budget BudgetScale Value Rows Constraints ConstraintsSpec ConstraintsStab Schema SchemaProofs Query RewriteSpec Transform TransformSpec Tables TablesProofs
  TransformConform QueryProofs Accountant AccountantProofs Session SessionSpec SessionMoney SessionSteps SessionTables SessionInv SessionViews SessionWell SessionSound
  Builder BuilderCalls Measure MeasureProofs MeasureCount MeasureRows
  Props_Query Props_Session Props_Measure Props_Sound Props_Sensitivity AnswerSchema AnswerKeys Props_AnswerKeys Props_Rewrite Exact Props_Exact Props_ExactSession.
Import ListNotations.
Local Open Scope string_scope.
Local Open Scope nat_scope.

(** ** Specification *)
(** A grouping leaves none of the [rows] out: a KeySet has each key once, and the key of each row
    is in it.  Without columns there is one key for all rows, and grouping by columns takes the
    keys from the rows. *)
Definition leaves_none_out (k : gkeys) (rows : table) : Prop :=
  match k with
  | KCols _ => True
  | KSet cols keys => dkeys cols = []
      \/ (NoDup (cells_in (dkeys cols) keys)
          /\ forall vs, In vs (cells_in (dkeys cols) rows) -> In vs (cells_in (dkeys cols) keys))
  end.
(** The whole number [n] stands in the column [o] of the row [r]. *)
Definition whole_number (o : string) (r : rec) (n : nat) : Prop := number (getv o r) = Some (z_to_f (Z.of_nat n)).
(** The finite number [x] stands in the column [o] of the row [r]. *)
Definition finite_number (o : string) (r : rec) (x : Qc) : Prop := number (getv o r) = Some (FFin x).
Definition total (xs : list Qc) : Qc := fold_right Qcplus (Q2Qc 0) xs.
(** The aggregation [a] adds up what each row contributes. *)
Definition adds_up (A : agg -> table -> list value) (a : agg) : Prop :=
  exists f : rec -> Qc, forall rows, exists v, A a rows = [v] /\ number v = Some (FFin (total (map f rows))).

(** ** Rows by key *)
Definition same_key (cols : list string) (r r' : rec) : bool := forallb (fun c => value_eqb (getv c r) (getv c r')) cols.
Lemma same_key_iff cols r r' : same_key cols r r' = true <-> map (fun c => getv c r) cols = map (fun c => getv c r') cols.
Proof.
  unfold same_key. rewrite forallb_forall. split.
  - intros H. apply map_ext_in. intros c I. apply value_eqb_eq. exact (H c I).
  - intros H c I. apply value_eqb_eq. revert c I. induction cols as [|c0 cols IH]; [intros c []|]. injection H as H0 H1.
    intros c [<-|I]; [exact H0|exact (IH H1 c I)].
Qed.

Lemma filter_or (p q : rec -> bool) : forall T : table, (forall x, p x = true -> q x = true -> False) ->
  Permutation (filter (fun x => p x || q x) T) (filter p T ++ filter q T)%list.
Proof.
  intros T D. induction T as [|x T IH]; [constructor|]. cbn [filter]. destruct (p x) eqn:P, (q x) eqn:Q; cbn [orb].
  - destruct (D x P Q).
  - constructor. exact IH.
  - apply Permutation_cons_app. exact IH.
  - exact IH.
Qed.

Lemma split_by cols (T : table) : forall L : table, NoDup (cells_in cols L) ->
  Permutation (filter (fun x => existsb (fun r => same_key cols r x) L) T) (flat_map (fun r => rows_with_key cols r T) L).
Proof.
  induction L as [|r L IH]; intros ND.
  - cbn. induction T; [constructor|exact IHT].
  - inversion ND as [|? ? N1 N2]. subst. cbn [existsb flat_map].
    eapply Permutation_trans; [|apply Permutation_app_head; exact (IH N2)].
    apply (filter_or (fun x => same_key cols r x) (fun x => existsb (fun r0 => same_key cols r0 x) L)).
    intros x X Y. apply existsb_exists in Y as (r0 & I0 & Y). apply same_key_iff in X, Y. apply N1. rewrite X, <- Y.
    unfold cells_in. apply in_map_iff. exists r0. split; [reflexivity|exact I0].
Qed.

(** The rows of a coarse key are those of the fine keys below it. *)
Lemma rows_roll_up cols1 cols2 r1 (t2 T : table) : incl cols1 cols2 -> NoDup (cells_in cols2 t2) ->
  (forall vs, In vs (cells_in cols2 T) -> In vs (cells_in cols2 t2)) ->
  Permutation (rows_with_key cols1 r1 T) (flat_map (fun r => rows_with_key cols2 r T) (rows_with_key cols1 r1 t2)).
Proof.
  intros INC ND COV. eapply Permutation_trans.
  2:{ apply split_by. clear COV. induction t2 as [|r t2 IH]; [constructor|]. inversion ND as [|? ? N1 N2]. subst.
      cbn [rows_with_key filter]. unfold rows_with_key in *. cbn [filter]. destruct (forallb _ cols1); [|exact (IH N2)].
      constructor; [|exact (IH N2)]. intros J. apply N1. unfold cells_in in *. apply in_map_iff in J as (x & J1 & J2).
      apply filter_In in J2 as (J2 & _). apply in_map_iff. exists x. split; assumption. }
  assert (EQ : forall x, In x T -> forallb (fun c => value_eqb (getv c r1) (getv c x)) cols1
     = existsb (fun r => same_key cols2 r x) (rows_with_key cols1 r1 t2)).
  { intros x I. apply eq_true_iff_eq. change (same_key cols1 r1 x = true <-> existsb (fun r => same_key cols2 r x) (rows_with_key cols1 r1 t2) = true).
    rewrite existsb_exists. split.
    - intros S1. assert (J : In (map (fun c => getv c x) cols2) (cells_in cols2 t2)).
      { apply COV. apply in_map_iff. exists x. split; [reflexivity|exact I]. }
      apply in_map_iff in J as (r & J1 & J2). exists r. split; [|apply same_key_iff; exact J1].
      apply filter_In. split; [exact J2|]. apply forallb_forall. intros c C.
      assert (G : getv c r = getv c x).
      { apply (proj2 (same_key_iff cols2 r x)) in J1. unfold same_key in J1. rewrite forallb_forall in J1. apply value_eqb_eq. exact (J1 c (INC c C)). }
      rewrite G. unfold same_key in S1. rewrite forallb_forall in S1. exact (S1 c C).
    - intros (r & J1 & J2). apply filter_In in J1 as (_ & J1). unfold same_key in *. rewrite forallb_forall in *. intros c C.
      specialize (J1 c C). specialize (J2 c (INC c C)). apply value_eqb_eq in J2. rewrite <- J2. exact J1. }
  clear COV. unfold rows_with_key at 1. rewrite (filter_ext_in _ _ T EQ). apply Permutation_refl.
Qed.

Lemma length_flat {X Y} (f : X -> list Y) : forall l, length (flat_map f l) = list_sum (map (fun x => length (f x)) l).
Proof. induction l as [|x l IH]; [reflexivity|]. cbn [flat_map map list_sum fold_right]. rewrite app_length, IH. reflexivity. Qed.
Lemma total_app xs ys : total (xs ++ ys)%list = (total xs + total ys)%Qc.
Proof. induction xs as [|x xs IH]; cbn [app total fold_right]; [fold (total ys); ring|]. fold (total (xs ++ ys)%list) (total xs). rewrite IH. ring. Qed.
Lemma total_perm xs ys : Permutation xs ys -> total xs = total ys.
Proof.
  unfold total. induction 1 as [|x l l' P IH|x y l|l l' l'' P1 IH1 P2 IH2]; cbn [fold_right]; [reflexivity|rewrite IH; reflexivity|ring|congruence].
Qed.
Lemma total_flat {X} (f : rec -> Qc) (h : X -> table) : forall l,
  total (map f (flat_map h l)) = total (map (fun x => total (map f (h x))) l).
Proof. induction l as [|x l IH]; [reflexivity|]. cbn [flat_map map]. rewrite map_app, total_app, IH. reflexivity. Qed.
Lemma Forall2_map {X Y} (P : X -> Y -> Prop) (f : X -> Y) : forall l, (forall x, In x l -> P x (f x)) -> Forall2 P l (map f l).
Proof. induction l as [|x l IH]; intros H; constructor; [apply H; left; reflexivity|apply IH; intros y J; apply H; right; exact J]. Qed.

Lemma distinct_app cols a b : distinct_count cols (a ++ b)%list <= distinct_count cols a + distinct_count cols b.
Proof.
  unfold distinct_count. rewrite <- app_length. apply NoDup_incl_length; [apply NoDup_nodup|].
  intros x I. apply nodup_In in I. rewrite map_app in I. apply in_app_iff in I. apply in_app_iff.
  destruct I as [I|I]; [left|right]; apply nodup_In; exact I.
Qed.
Lemma distinct_perm cols a b : Permutation a b -> distinct_count cols a = distinct_count cols b.
Proof.
  intros P. unfold distinct_count. apply Nat.le_antisymm; (apply NoDup_incl_length; [apply NoDup_nodup|]); intros x I; apply nodup_In in I; apply nodup_In;
    [exact (Permutation_in x (Permutation_map _ P) I)|exact (Permutation_in x (Permutation_map _ (Permutation_sym P)) I)].
Qed.
Lemma distinct_flat {X} cols (h : X -> table) : forall l,
  distinct_count cols (flat_map h l) <= list_sum (map (fun x => distinct_count cols (h x)) l).
Proof.
  induction l as [|x l IH]; [apply Nat.le_refl|]. cbn [flat_map map list_sum fold_right]. fold (list_sum (map (fun x => distinct_count cols (h x)) l)).
  pose proof (distinct_app cols (h x) (flat_map h l)). lia.
Qed.

(** The keys of an answer: each once, and each row's among them. *)
Lemma keys_complete R W K auto so mu cat data b q c k m t (rows : table) :
  catalog_made cat -> built auto q -> grouped_by q = Some (c, k) -> keys_as_declared k -> leaves_none_out k rows ->
  compile R W K auto so mu cat data b q = Ok m -> run_measurement R K m = Ok t ->
  (forall l, k = KCols l -> NoDup (cells_in l t) /\ forall vs, In vs (cells_in l t) <-> In vs (cells_in l rows)) ->
  NoDup (cells_in (keys_columns k) t) /\ (forall vs, In vs (cells_in (keys_columns k) rows) -> In vs (cells_in (keys_columns k) t)).
Proof.
  intros MADE B G KD LN C RUN F. destruct k as [cols keys|l].
  - destruct (keyed_rows R W K auto so mu cat data MADE b q c cols keys m t B G C RUN) as (g & _ & _ & T). cbn [keys_columns].
    destruct LN as [Z|(N1 & N2)].
    + rewrite Z in *. rewrite T. cbn [map cells_in]. split; [repeat constructor; intros []|].
      intros vs I. apply in_map_iff in I as (x & <- & _). left. reflexivity.
    + destruct (dkeys cols) as [|c0 cl] eqn:D.
      { rewrite T. cbn [map cells_in]. split; [repeat constructor; intros []|]. intros vs I. apply in_map_iff in I as (x & <- & _). left. reflexivity. }
      rewrite <- D in *.
      assert (RK : cells_in (dkeys cols) t = cells_in (dkeys cols) keys).
      { rewrite T. unfold cells_in. rewrite map_map. apply map_ext_in. intros r I. apply map_ext_in. intros x J.
        apply getv_app_in. destruct KD as (_ & CF). apply (proj1 (proj2 (CF r I))). exact J. }
      rewrite RK. split; assumption.
  - destruct (F l eq_refl) as (F1 & F2). split; [exact F1|]. intros vs I. apply F2. exact I.
Qed.

(** The query [q] was built, and [t] is its answer for an unlimited budget in the measure [mu]. *)
Definition exact_answer R W K auto so mu cat data (q : query) (t : table) : Prop :=
  exists q0 b m, Query.build auto q0 = Ok q /\ loss b = XPInf
    /\ compile R W K auto so mu cat data b q = Ok m /\ run_measurement R K m = Ok t.

(** Counts: the count for a key is the total of the counts for the keys of a finer grouping
    that agree with it.  The two queries may use different privacy measures. *)
Theorem C83_counts : forall R W K A auto so mu1 mu2 cat data c k1 k2 o1 o2 m1 m2 co1 co2 t1 t2 T cs,
  exact_core K A -> (forall l, Permutation (so l) l) -> constraints_hold cat data -> catalog_made cat ->
  exact_answer R W K auto so mu1 cat data (GroupByCount c k1 o1 m1 co1) t1 ->
  exact_answer R W K auto so mu2 cat data (GroupByCount c k2 o2 m2 co2) t2 ->
  asks_gaussian mu1 m1 = asks_gaussian mu2 m2 -> holds_for W cat data (asks_gaussian mu2 m2) c ->
  build_transformation W (asks_gaussian mu2 m2) cat data c = Ok (T, cs) ->
  keys_as_declared k1 -> keys_as_declared k2 -> ~ In o1 (keys_columns k1) -> ~ In o2 (keys_columns k2) ->
  incl (keys_columns k1) (keys_columns k2) -> leaves_none_out k2 (v_rows T) ->
  forall r, In r t1 -> exists ns, Forall2 (whole_number o2) (rows_with_key (keys_columns k1) r t2) ns /\ whole_number o1 r (list_sum ns).
Proof.
  intros R W K A auto so mu1 mu2 cat data c k1 k2 o1 o2 m1 m2 co1 co2 t1 t2 T cs EC SO HOLD MADE (q1 & b1 & a1 & B1 & L1 & C1 & R1) (q2 & b2 & a2 & B2 & L2 & C2 & R2)
    EQ HF BT D1 D2 N1 N2 INC LN r I.
  assert (HF1 : holds_for W cat data (asks_gaussian mu1 m1) c) by (rewrite EQ; exact HF).
  destruct (C66_counts_exact R W K A auto so mu1 cat data b1 q1 c k1 o1 m1 co1 a1 t1 EC SO HOLD MADE B1 HF1 D1 N1 L1 C1 R1) as (T1 & cs1 & BT1 & X1 & _).
  destruct (C66_counts_exact R W K A auto so mu2 cat data b2 q2 c k2 o2 m2 co2 a2 t2 EC SO HOLD MADE B2 HF D2 N2 L2 C2 R2) as (T2 & cs2 & BT2 & X2 & F2).
  rewrite EQ, BT in BT1. injection BT1 as <- <-. rewrite BT in BT2. injection BT2 as <- <-.
  destruct (keys_complete R W K auto so mu2 cat data b2 _ c k2 a2 t2 (v_rows T) MADE (build_built _ _ _ B2) eq_refl D2 LN C2 R2 F2) as (ND & COV).
  exists (map (fun x => length (rows_with_key (keys_columns k2) x (v_rows T))) (rows_with_key (keys_columns k1) r t2)). split.
  - apply Forall2_map. intros x J. apply X2. apply filter_In in J as (J & _). exact J.
  - unfold whole_number. rewrite (X1 r I), <- length_flat.
    rewrite (Permutation_length (rows_roll_up (keys_columns k1) (keys_columns k2) r t2 (v_rows T) INC ND COV)). reflexivity.
Qed.
Print Assumptions C83_counts.

(** Counts of different rows: no more than the total, as a row can occur under several keys. *)
Theorem C83_distinct_counts : forall R W K A auto so mu1 mu2 cat data c k1 k2 cols o1 o2 m1 m2 co1 co2 t1 t2 T cs,
  exact_core K A -> (forall l, Permutation (so l) l) -> constraints_hold cat data -> catalog_made cat ->
  exact_answer R W K auto so mu1 cat data (GroupByCountDistinct c k1 cols o1 m1 co1) t1 ->
  exact_answer R W K auto so mu2 cat data (GroupByCountDistinct c k2 cols o2 m2 co2) t2 ->
  asks_gaussian mu1 m1 = asks_gaussian mu2 m2 -> holds_for W cat data (asks_gaussian mu2 m2) c ->
  build_transformation W (asks_gaussian mu2 m2) cat data c = Ok (T, cs) ->
  keys_as_declared k1 -> keys_as_declared k2 -> ~ In o1 (keys_columns k1) -> ~ In o2 (keys_columns k2) ->
  incl (keys_columns k1) (keys_columns k2) -> leaves_none_out k2 (v_rows T) ->
  forall r, In r t1 -> exists n ns, Forall2 (whole_number o2) (rows_with_key (keys_columns k1) r t2) ns /\ whole_number o1 r n
    /\ n <= list_sum ns /\ forall m, In m ns -> m <= n.
Proof.
  intros R W K A auto so mu1 mu2 cat data c k1 k2 cols o1 o2 m1 m2 co1 co2 t1 t2 T cs EC SO HOLD MADE (q1 & b1 & a1 & B1 & L1 & C1 & R1) (q2 & b2 & a2 & B2 & L2 & C2 & R2)
    EQ HF BT D1 D2 N1 N2 INC LN r I.
  assert (HF1 : holds_for W cat data (asks_gaussian mu1 m1) c) by (rewrite EQ; exact HF).
  destruct (C66_distinct_counts_exact R W K A auto so mu1 cat data b1 q1 c k1 cols o1 m1 co1 a1 t1 EC SO HOLD MADE B1 HF1 D1 N1 L1 C1 R1) as (T1 & cs1 & s1 & BT1 & S1 & X1 & _).
  destruct (C66_distinct_counts_exact R W K A auto so mu2 cat data b2 q2 c k2 cols o2 m2 co2 a2 t2 EC SO HOLD MADE B2 HF D2 N2 L2 C2 R2) as (T2 & cs2 & s2 & BT2 & S2 & X2 & F2).
  rewrite EQ, BT in BT1. injection BT1 as <- <-. rewrite BT in BT2. injection BT2 as <- <-. rewrite S1 in S2. injection S2 as <-.
  destruct (keys_complete R W K auto so mu2 cat data b2 _ c k2 a2 t2 (v_rows T) MADE (build_built _ _ _ B2) eq_refl D2 LN C2 R2 F2) as (ND & COV).
  set (cl := match cols with [] => _ | _ => _ end) in *.
  pose proof (rows_roll_up (keys_columns k1) (keys_columns k2) r t2 (v_rows T) INC ND COV) as P.
  exists (distinct_count cl (rows_with_key (keys_columns k1) r (v_rows T))),
    (map (fun x => distinct_count cl (rows_with_key (keys_columns k2) x (v_rows T))) (rows_with_key (keys_columns k1) r t2)).
  split; [|split; [exact (X1 r I)|split]].
  - apply Forall2_map. intros x J. apply X2. apply filter_In in J as (J & _). exact J.
  - rewrite (distinct_perm cl _ _ P). apply distinct_flat.
  - intros m J. apply in_map_iff in J as (x & <- & J). rewrite (distinct_perm cl _ _ P).
    unfold distinct_count. apply NoDup_incl_length; [apply NoDup_nodup|]. intros vs V. apply nodup_In in V. apply nodup_In.
    apply in_map_iff in V as (y & <- & V). apply in_map_iff. exists y. split; [reflexivity|]. apply in_flat_map. exists x. split; assumption.
Qed.
Print Assumptions C83_distinct_counts.

(** Sums, of the rows that have a usable value in the measure column. *)
Theorem C83_sums : forall R W K A auto so mu1 mu2 cat data c me lo hi k1 k2 o1 o2 m1 m2 co1 co2 t1 t2 T cs,
  let q1 := GroupByBounded BSum c k1 me lo hi o1 m1 co1 in let q2 := GroupByBounded BSum c k2 me lo hi o2 m2 co2 in
  let cleaned := flat_map (clean_row me (bounds_of q2)) (v_rows T) in
  exact_core K A -> adds_up A (ABounded BSum me lo hi) -> (forall l, Permutation (so l) l) -> constraints_hold cat data -> catalog_made cat ->
  exact_answer R W K auto so mu1 cat data q1 t1 -> exact_answer R W K auto so mu2 cat data q2 t2 ->
  query_l2 mu1 q1 = query_l2 mu2 q2 -> holds_for W cat data (query_l2 mu2 q2) c ->
  build_transformation W (query_l2 mu2 q2) cat data c = Ok (T, cs) ->
  keys_as_declared k1 -> keys_as_declared k2 ->
  NoDup (keys_columns k1 ++ [o1])%list -> NoDup (keys_columns k2 ++ [o2])%list ->
  incl (keys_columns k1) (keys_columns k2) -> leaves_none_out k2 cleaned ->
  forall r, In r t1 -> exists xs, Forall2 (finite_number o2) (rows_with_key (keys_columns k1) r t2) xs /\ finite_number o1 r (total xs).
Proof.
  intros R W K A auto so mu1 mu2 cat data c me lo hi k1 k2 o1 o2 m1 m2 co1 co2 t1 t2 T cs q1 q2 cleaned EC (f & AU) SO HOLD MADE
    (q10 & b1 & a1 & B1 & L1 & C1 & R1) (q20 & b2 & a2 & B2 & L2 & C2 & R2) EQ HF BT D1 D2 N1 N2 INC LN r I.
  assert (HF1 : holds_for W cat data (query_l2 mu1 q1) c) by (rewrite EQ; exact HF).
  assert (BT1 : build_transformation W (query_l2 mu1 q1) cat data c = Ok (T, cs)) by (rewrite EQ; exact BT).
  destruct (C66_measures_exact R W K A auto so mu1 cat data b1 q10 q1 c me k1 _ T cs a1 t1 EC SO HOLD MADE B1 eq_refl eq_refl eq_refl HF1 BT1 D1 N1 L1 C1 R1) as (X1 & _).
  destruct (C66_measures_exact R W K A auto so mu2 cat data b2 q20 q2 c me k2 _ T cs a2 t2 EC SO HOLD MADE B2 eq_refl eq_refl eq_refl HF BT D2 N2 L2 C2 R2) as (X2 & F2).
  destruct (keys_complete R W K auto so mu2 cat data b2 q2 c k2 a2 t2 cleaned MADE (build_built _ _ _ B2) eq_refl D2 LN C2 R2 F2) as (ND & COV).
  pose proof (rows_roll_up (keys_columns k1) (keys_columns k2) r t2 cleaned INC ND COV) as P.
  exists (map (fun x => total (map f (rows_with_key (keys_columns k2) x cleaned))) (rows_with_key (keys_columns k1) r t2)). split.
  - apply Forall2_map. intros x J. apply filter_In in J as (J & _). specialize (X2 x J). destruct (AU (rows_with_key (keys_columns k2) x cleaned)) as (v & V1 & V2).
    fold cleaned in X2. cbn [output_names map] in X2. unfold q2 in X2. cbn [output_names map] in X2. fold q2 cleaned in X2. rewrite V1 in X2. injection X2 as X2.
    unfold finite_number. rewrite X2. exact V2.
  - specialize (X1 r I). change (flat_map (clean_row me (bounds_of q1)) (v_rows T)) with cleaned in X1.
    destruct (AU (rows_with_key (keys_columns k1) r cleaned)) as (v & V1 & V2). unfold q1 in X1. cbn [output_names map] in X1. rewrite V1 in X1. injection X1 as X1.
    unfold finite_number. rewrite X1, V2, <- total_flat, (total_perm _ _ (Permutation_map f P)). reflexivity.
Qed.
Print Assumptions C83_sums.

(** In a session: in every state it reaches, whatever was called before. *)
Theorem C83_session_counts : forall E K A auto so st p s cat data mu1 mu2 c k1 k2 o1 o2 m1 m2 co1 co2 t1 t2 T cs,
  exact_core K A -> (forall l, Permutation (so l) l) -> honest_state true E st -> session st p s ->
  catalog_of (s_tree s) (st_public st) (s_cons s) = Ok cat -> data_of (s_tree s) = Ok data ->
  exact_answer (e_round E) (e_world E) K auto so mu1 cat data (GroupByCount c k1 o1 m1 co1) t1 ->
  exact_answer (e_round E) (e_world E) K auto so mu2 cat data (GroupByCount c k2 o2 m2 co2) t2 ->
  asks_gaussian mu1 m1 = asks_gaussian mu2 m2 -> metric_fits (asks_gaussian mu2 m2) s ->
  promises (e_world E) (asks_gaussian mu2 m2) cat data c -> finite_ids (e_world E) (asks_gaussian mu2 m2) cat data c ->
  trackable (e_world E) (asks_gaussian mu2 m2) cat data c ->
  build_transformation (e_world E) (asks_gaussian mu2 m2) cat data c = Ok (T, cs) ->
  keys_as_declared k1 -> keys_as_declared k2 -> ~ In o1 (keys_columns k1) -> ~ In o2 (keys_columns k2) ->
  incl (keys_columns k1) (keys_columns k2) -> leaves_none_out k2 (v_rows T) ->
  forall r, In r t1 -> exists ns, Forall2 (whole_number o2) (rows_with_key (keys_columns k1) r t2) ns /\ whole_number o1 r (list_sum ns).
Proof.
  intros E K A auto so st p s cat data mu1 mu2 c k1 k2 o1 o2 m1 m2 co1 co2 t1 t2 T cs EC SO H S CA DA A1 A2 EQ ME P FI TR BT D1 D2 N1 N2 INC LN.
  destruct (session_meets E st p s cat data _ H S CA DA ME) as (HO & MADE & IN).
  eapply C83_counts; try eassumption. repeat (split; try assumption).
Qed.
Print Assumptions C83_session_counts.

Theorem C83_session_distinct_counts : forall E K A auto so st p s cat data mu1 mu2 c k1 k2 cols o1 o2 m1 m2 co1 co2 t1 t2 T cs,
  exact_core K A -> (forall l, Permutation (so l) l) -> honest_state true E st -> session st p s ->
  catalog_of (s_tree s) (st_public st) (s_cons s) = Ok cat -> data_of (s_tree s) = Ok data ->
  exact_answer (e_round E) (e_world E) K auto so mu1 cat data (GroupByCountDistinct c k1 cols o1 m1 co1) t1 ->
  exact_answer (e_round E) (e_world E) K auto so mu2 cat data (GroupByCountDistinct c k2 cols o2 m2 co2) t2 ->
  asks_gaussian mu1 m1 = asks_gaussian mu2 m2 -> metric_fits (asks_gaussian mu2 m2) s ->
  promises (e_world E) (asks_gaussian mu2 m2) cat data c -> finite_ids (e_world E) (asks_gaussian mu2 m2) cat data c ->
  trackable (e_world E) (asks_gaussian mu2 m2) cat data c ->
  build_transformation (e_world E) (asks_gaussian mu2 m2) cat data c = Ok (T, cs) ->
  keys_as_declared k1 -> keys_as_declared k2 -> ~ In o1 (keys_columns k1) -> ~ In o2 (keys_columns k2) ->
  incl (keys_columns k1) (keys_columns k2) -> leaves_none_out k2 (v_rows T) ->
  forall r, In r t1 -> exists n ns, Forall2 (whole_number o2) (rows_with_key (keys_columns k1) r t2) ns /\ whole_number o1 r n
    /\ n <= list_sum ns /\ forall m, In m ns -> m <= n.
Proof.
  intros E K A auto so st p s cat data mu1 mu2 c k1 k2 cols o1 o2 m1 m2 co1 co2 t1 t2 T cs EC SO H S CA DA A1 A2 EQ ME P FI TR BT D1 D2 N1 N2 INC LN.
  destruct (session_meets E st p s cat data _ H S CA DA ME) as (HO & MADE & IN).
  eapply C83_distinct_counts; try eassumption. repeat (split; try assumption).
Qed.
Print Assumptions C83_session_distinct_counts.

Theorem C83_session_sums : forall E K A auto so st p s cat data mu1 mu2 c me lo hi k1 k2 o1 o2 m1 m2 co1 co2 t1 t2 T cs,
  let q1 := GroupByBounded BSum c k1 me lo hi o1 m1 co1 in let q2 := GroupByBounded BSum c k2 me lo hi o2 m2 co2 in
  let cleaned := flat_map (clean_row me (bounds_of q2)) (v_rows T) in
  exact_core K A -> adds_up A (ABounded BSum me lo hi) -> (forall l, Permutation (so l) l) -> honest_state true E st -> session st p s ->
  catalog_of (s_tree s) (st_public st) (s_cons s) = Ok cat -> data_of (s_tree s) = Ok data ->
  exact_answer (e_round E) (e_world E) K auto so mu1 cat data q1 t1 -> exact_answer (e_round E) (e_world E) K auto so mu2 cat data q2 t2 ->
  query_l2 mu1 q1 = query_l2 mu2 q2 -> metric_fits (query_l2 mu2 q2) s ->
  promises (e_world E) (query_l2 mu2 q2) cat data c -> finite_ids (e_world E) (query_l2 mu2 q2) cat data c ->
  trackable (e_world E) (query_l2 mu2 q2) cat data c ->
  build_transformation (e_world E) (query_l2 mu2 q2) cat data c = Ok (T, cs) ->
  keys_as_declared k1 -> keys_as_declared k2 ->
  NoDup (keys_columns k1 ++ [o1])%list -> NoDup (keys_columns k2 ++ [o2])%list ->
  incl (keys_columns k1) (keys_columns k2) -> leaves_none_out k2 cleaned ->
  forall r, In r t1 -> exists xs, Forall2 (finite_number o2) (rows_with_key (keys_columns k1) r t2) xs /\ finite_number o1 r (total xs).
Proof.
  intros E K A auto so st p s cat data mu1 mu2 c me lo hi k1 k2 o1 o2 m1 m2 co1 co2 t1 t2 T cs q1 q2 cleaned EC AU SO H S CA DA A1 A2 EQ ME P FI TR BT D1 D2 N1 N2 INC LN.
  destruct (session_meets E st p s cat data _ H S CA DA ME) as (HO & MADE & IN).
  exact (C83_sums _ _ K A auto so mu1 mu2 cat data c me lo hi k1 k2 o1 o2 m1 m2 co1 co2 t1 t2 T cs EC AU SO HO MADE A1 A2 EQ (conj IN (conj P (conj FI TR))) BT D1 D2 N1 N2 INC LN).
Qed.
Print Assumptions C83_session_sums.

(** ** The choice of keys *)
(** Two groupings by the same columns, such as two KeySets, or a KeySet and the columns themselves. *)
Definition same_columns (k1 k2 : gkeys) : Prop := forall c, In c (keys_columns k1) <-> In c (keys_columns k2).
(** Two rows of answers are for the same key. *)
Definition for_same_key (k : gkeys) (r1 r2 : rec) : Prop := forall c, In c (keys_columns k) -> getv c r1 = getv c r2.
Lemma key_rows k1 k2 r1 r2 (T : table) : same_columns k1 k2 -> for_same_key k1 r1 r2 -> rows_with_key (keys_columns k1) r1 T = rows_with_key (keys_columns k2) r2 T.
Proof.
  intros SC SK. unfold rows_with_key. apply filter_ext. intros x. apply eq_true_iff_eq. rewrite !forallb_forall. split; intros H c I.
  - rewrite <- (SK c (proj2 (SC c) I)). apply H. apply SC. exact I.
  - rewrite (SK c I). apply H. apply SC. exact I.
Qed.
(** The answer for a key does not depend on which other keys are asked for. *)
Theorem C83_choice_of_keys : forall R W K A auto so mu1 mu2 cat data c k1 k2 o1 o2 m1 m2 co1 co2 t1 t2,
  exact_core K A -> (forall l, Permutation (so l) l) -> constraints_hold cat data -> catalog_made cat ->
  exact_answer R W K auto so mu1 cat data (GroupByCount c k1 o1 m1 co1) t1 ->
  exact_answer R W K auto so mu2 cat data (GroupByCount c k2 o2 m2 co2) t2 ->
  asks_gaussian mu1 m1 = asks_gaussian mu2 m2 -> holds_for W cat data (asks_gaussian mu2 m2) c ->
  keys_as_declared k1 -> keys_as_declared k2 -> ~ In o1 (keys_columns k1) -> ~ In o2 (keys_columns k2) -> same_columns k1 k2 ->
  forall r1 r2, In r1 t1 -> In r2 t2 -> for_same_key k1 r1 r2 -> exists n, whole_number o1 r1 n /\ whole_number o2 r2 n.
Proof.
  intros R W K A auto so mu1 mu2 cat data c k1 k2 o1 o2 m1 m2 co1 co2 t1 t2 EC SO HOLD MADE (q10 & b1 & a1 & B1 & L1 & C1 & R1) (q20 & b2 & a2 & B2 & L2 & C2 & R2) EQ HF D1 D2 N1 N2 SC r1 r2 I1 I2 SK.
  assert (HF1 : holds_for W cat data (asks_gaussian mu1 m1) c) by (rewrite EQ; exact HF).
  destruct (C66_counts_exact R W K A auto so mu1 cat data b1 q10 _ k1 o1 m1 co1 a1 t1 EC SO HOLD MADE B1 HF1 D1 N1 L1 C1 R1) as (T & cs & BT & X1 & _).
  destruct (C66_counts_exact R W K A auto so mu2 cat data b2 q20 _ k2 o2 m2 co2 a2 t2 EC SO HOLD MADE B2 HF D2 N2 L2 C2 R2) as (T' & cs' & BT' & X2 & _).
  rewrite EQ, BT' in BT. injection BT as <- <-. exists (length (rows_with_key (keys_columns k2) r2 (v_rows T'))). split; [|exact (X2 r2 I2)].
  unfold whole_number. rewrite <- (key_rows k1 k2 r1 r2 _ SC SK). exact (X1 r1 I1).
Qed.
Print Assumptions C83_choice_of_keys.
Theorem C83_choice_of_keys_distinct : forall R W K A auto so mu1 mu2 cat data c k1 k2 cols o1 o2 m1 m2 co1 co2 t1 t2,
  exact_core K A -> (forall l, Permutation (so l) l) -> constraints_hold cat data -> catalog_made cat ->
  exact_answer R W K auto so mu1 cat data (GroupByCountDistinct c k1 cols o1 m1 co1) t1 ->
  exact_answer R W K auto so mu2 cat data (GroupByCountDistinct c k2 cols o2 m2 co2) t2 ->
  asks_gaussian mu1 m1 = asks_gaussian mu2 m2 -> holds_for W cat data (asks_gaussian mu2 m2) c ->
  keys_as_declared k1 -> keys_as_declared k2 -> ~ In o1 (keys_columns k1) -> ~ In o2 (keys_columns k2) -> same_columns k1 k2 ->
  forall r1 r2, In r1 t1 -> In r2 t2 -> for_same_key k1 r1 r2 -> exists n, whole_number o1 r1 n /\ whole_number o2 r2 n.
Proof.
  intros R W K A auto so mu1 mu2 cat data c k1 k2 cols o1 o2 m1 m2 co1 co2 t1 t2 EC SO HOLD MADE (q10 & b1 & a1 & B1 & L1 & C1 & R1) (q20 & b2 & a2 & B2 & L2 & C2 & R2) EQ HF D1 D2 N1 N2 SC r1 r2 I1 I2 SK.
  assert (HF1 : holds_for W cat data (asks_gaussian mu1 m1) c) by (rewrite EQ; exact HF).
  destruct (C66_distinct_counts_exact R W K A auto so mu1 cat data b1 q10 _ k1 cols o1 m1 co1 a1 t1 EC SO HOLD MADE B1 HF1 D1 N1 L1 C1 R1) as (T & cs & s & BT & S & X1 & _).
  destruct (C66_distinct_counts_exact R W K A auto so mu2 cat data b2 q20 _ k2 cols o2 m2 co2 a2 t2 EC SO HOLD MADE B2 HF D2 N2 L2 C2 R2) as (T' & cs' & s' & BT' & S' & X2 & _).
  rewrite EQ, BT' in BT. injection BT as <- <-. rewrite S' in S. injection S as <-. specialize (X1 r1 I1). rewrite (key_rows k1 k2 r1 r2 _ SC SK) in X1.
  eexists. split; [exact X1|exact (X2 r2 I2)].
Qed.
Print Assumptions C83_choice_of_keys_distinct.
(** Sums, averages, variances, quantiles and bounds. *)
Theorem C83_choice_of_keys_measures : forall R W K A auto so mu1 mu2 cat data q1 q2 c k1 k2 me a t1 t2 T cs,
  exact_core K A -> (forall l, Permutation (so l) l) -> constraints_hold cat data -> catalog_made cat ->
  measure_of q1 = Some (c, me) -> measure_of q2 = Some (c, me) -> aggregation_of q1 = Some a -> aggregation_of q2 = Some a ->
  grouped_by q1 = Some (c, k1) -> grouped_by q2 = Some (c, k2) ->
  exact_answer R W K auto so mu1 cat data q1 t1 -> exact_answer R W K auto so mu2 cat data q2 t2 ->
  query_l2 mu1 q1 = query_l2 mu2 q2 -> holds_for W cat data (query_l2 mu2 q2) c -> build_transformation W (query_l2 mu2 q2) cat data c = Ok (T, cs) ->
  keys_as_declared k1 -> keys_as_declared k2 -> NoDup (keys_columns k1 ++ output_names q1)%list -> NoDup (keys_columns k2 ++ output_names q2)%list -> same_columns k1 k2 ->
  forall r1 r2, In r1 t1 -> In r2 t2 -> for_same_key k1 r1 r2 -> map (fun o => getv o r1) (output_names q1) = map (fun o => getv o r2) (output_names q2).
Proof.
  intros R W K A auto so mu1 mu2 cat data q1 q2 c k1 k2 me a t1 t2 T cs EC SO HOLD MADE M1 M2 A1 A2 G1 G2 (q10 & b1 & a1 & B1 & L1 & C1 & R1) (q20 & b2 & a2 & B2 & L2 & C2 & R2) EQ HF BT D1 D2 N1 N2 SC r1 r2 I1 I2 SK.
  assert (HF1 : holds_for W cat data (query_l2 mu1 q1) c) by (rewrite EQ; exact HF). pose proof BT as BT1. rewrite <- EQ in BT1.
  destruct (C66_measures_exact R W K A auto so mu1 cat data b1 q10 q1 c me k1 a T cs a1 t1 EC SO HOLD MADE B1 M1 A1 G1 HF1 BT1 D1 N1 L1 C1 R1) as (X1 & _).
  destruct (C66_measures_exact R W K A auto so mu2 cat data b2 q20 q2 c me k2 a T cs a2 t2 EC SO HOLD MADE B2 M2 A2 G2 HF BT D2 N2 L2 C2 R2) as (X2 & _).
  assert (BO : bounds_of q1 = bounds_of q2).
  { clear -A1 A2. destruct q1; try discriminate A1; injection A1 as <-; destruct q2; try discriminate A2; injection A2; intros; subst; reflexivity. }
  rewrite (X1 r1 I1), (X2 r2 I2), BO, (key_rows k1 k2 r1 r2 _ SC SK). reflexivity.
Qed.
Print Assumptions C83_choice_of_keys_measures.
Theorem C83_session_choice_of_keys : forall E K A auto so st p s cat data mu1 mu2 c k1 k2 o1 o2 m1 m2 co1 co2 t1 t2,
  exact_core K A -> (forall l, Permutation (so l) l) -> honest_state true E st -> session st p s ->
  catalog_of (s_tree s) (st_public st) (s_cons s) = Ok cat -> data_of (s_tree s) = Ok data ->
  exact_answer (e_round E) (e_world E) K auto so mu1 cat data (GroupByCount c k1 o1 m1 co1) t1 ->
  exact_answer (e_round E) (e_world E) K auto so mu2 cat data (GroupByCount c k2 o2 m2 co2) t2 ->
  asks_gaussian mu1 m1 = asks_gaussian mu2 m2 -> metric_fits (asks_gaussian mu2 m2) s ->
  promises (e_world E) (asks_gaussian mu2 m2) cat data c -> finite_ids (e_world E) (asks_gaussian mu2 m2) cat data c ->
  trackable (e_world E) (asks_gaussian mu2 m2) cat data c ->
  keys_as_declared k1 -> keys_as_declared k2 -> ~ In o1 (keys_columns k1) -> ~ In o2 (keys_columns k2) -> same_columns k1 k2 ->
  forall r1 r2, In r1 t1 -> In r2 t2 -> for_same_key k1 r1 r2 -> exists n, whole_number o1 r1 n /\ whole_number o2 r2 n.
Proof.
  intros E K A auto so st p s cat data mu1 mu2 c k1 k2 o1 o2 m1 m2 co1 co2 t1 t2 EC SO H S CA DA A1 A2 EQ ME P FI TR D1 D2 N1 N2 SC.
  destruct (session_meets E st p s cat data _ H S CA DA ME) as (HO & MADE & IN).
  exact (C83_choice_of_keys _ _ K A auto so mu1 mu2 cat data c k1 k2 o1 o2 m1 m2 co1 co2 t1 t2 EC SO HO MADE A1 A2 EQ (conj IN (conj P (conj FI TR))) D1 D2 N1 N2 SC).
Qed.
Print Assumptions C83_session_choice_of_keys.

(** ** A concrete case *)
Definition all_people : query := GroupByCount (PrivateSource "people") (KSet [] [[]]) "n" MDefault None.
Definition sum_by (k : gkeys) : query := GroupByBounded BSum (PrivateSource "people") k "x" (Query.PInt 0) (Query.PInt 10) "total" MDefault None.
Example C83_case : exists T cs,
  exact_core K2 A0 /\ constraints_hold pcat pdata /\ catalog_made pcat
  /\ (forall l2, holds_for W0 pcat pdata l2 (PrivateSource "people"))
  /\ exact_answer exact_rounding W0 K2 true idl PureDP pcat pdata all_people [[("n", VInt 4)]]
  /\ exact_answer exact_rounding W0 K2 true idl ApproxDP pcat pdata (count_q (KCols ["grp"]))
       [[("grp", VNull); ("n", VInt 1)]; [("grp", VStr "x"); ("n", VInt 2)]; [("grp", VStr "y"); ("n", VInt 1)]]
  /\ build_transformation W0 false pcat pdata (PrivateSource "people") = Ok (T, cs)
  /\ keys_as_declared (KSet [] [[]]) /\ leaves_none_out (KCols ["grp"]) (v_rows T) /\ leaves_none_out (KSet [] [[]]) (v_rows T)
  /\ ~ leaves_none_out grp_keys (v_rows T)
  /\ adds_up A0 (ABounded BSum "x" (Query.PInt 0) (Query.PInt 10))
  /\ exact_answer exact_rounding W0 K2 true idl PureDP pcat pdata (sum_by (KSet [] [[]])) [[("total", VFloat (z_to_f 13))]]
  /\ exact_answer exact_rounding W0 K2 true idl ApproxDP pcat pdata (sum_by (KCols ["grp"]))
       [[("grp", VStr "x"); ("total", VFloat (z_to_f 10))]; [("grp", VStr "y"); ("total", VFloat (z_to_f 3))]].
Proof.
  eexists _, _. split; [exact K2_exact|]. split; [exact pcat_holds|]. split; [exact pcat_made|]. split; [exact people_holds|].
  split. { exists all_people, (Pure XPInf). eexists. split; [reflexivity|]. split; [reflexivity|]. split; vm_compute; reflexivity. }
  split. { exists (count_q (KCols ["grp"])), (Approx XPInf (XFin 1)). eexists. split; [reflexivity|]. split; [reflexivity|]. split; vm_compute; reflexivity. }
  split; [vm_compute; reflexivity|].
  split. { split; [constructor|]. intros r [<-|[]]. apply row_conformsb_ok. reflexivity. }
  split; [exact Logic.I|]. split; [left; reflexivity|].
  split. { intros [Z|(_ & Z)]; [discriminate Z|]. specialize (Z [VStr "y"]). cbv in Z. intuition discriminate. }
  split. { exists (fun r => finite_part (getv "x" r)). intros rows. eexists. split; [reflexivity|]. reflexivity. }
  split. { exists (sum_by (KSet [] [[]])), (Pure XPInf). eexists. split; [reflexivity|]. split; [reflexivity|]. split; vm_compute; reflexivity. }
  exists (sum_by (KCols ["grp"])), (Approx XPInf (XFin 1)). eexists. split; [reflexivity|]. split; [reflexivity|]. split; vm_compute; reflexivity.
Qed.

(** In a session: counts, and counts of different people, of a view, in total and by city. *)
Definition few_in_total : query := GroupByCount few_rows (KSet [] [[]]) "n" MDefault None.
Definition city_keys : gkeys := KSet [("city", dsc VARCHAR true false false)] [[("city", VNull)]; [("city", VStr "")]; [("city", VStr "a")]; [("city", VStr "b")]].
Definition few_by_city : query := GroupByCount few_rows city_keys "n" MDefault None.
Definition few_people (k : gkeys) : query := GroupByCountDistinct few_rows k ["id"] "n" MDefault None.
Example C83_session_case : exists s cat data T cs,
  let st := run E0 trips_state trips_plan in
  honest_state true E0 st /\ session st [] s
  /\ catalog_of (s_tree s) (st_public st) (s_cons s) = Ok cat /\ data_of (s_tree s) = Ok data
  /\ exact_answer (e_round E0) (e_world E0) K2 true idl RhoZCDP cat data few_in_total [[("n", VInt 4)]]
  /\ exact_answer (e_round E0) (e_world E0) K2 true idl RhoZCDP cat data few_by_city
       [[("city", VNull); ("n", VInt 1)]; [("city", VStr ""); ("n", VInt 1)]; [("city", VStr "a"); ("n", VInt 1)]; [("city", VStr "b"); ("n", VInt 1)]]
  /\ exact_answer (e_round E0) (e_world E0) K2 true idl RhoZCDP cat data (few_people (KSet [] [[]])) [[("n", VInt 3)]]
  /\ exact_answer (e_round E0) (e_world E0) K2 true idl RhoZCDP cat data (few_people city_keys)
       [[("city", VNull); ("n", VInt 1)]; [("city", VStr ""); ("n", VInt 1)]; [("city", VStr "a"); ("n", VInt 1)]; [("city", VStr "b"); ("n", VInt 1)]]
  /\ metric_fits (asks_gaussian RhoZCDP MDefault) s
  /\ promises (e_world E0) true cat data few_rows /\ finite_ids (e_world E0) true cat data few_rows /\ trackable (e_world E0) true cat data few_rows
  /\ build_transformation (e_world E0) true cat data few_rows = Ok (T, cs)
  /\ keys_as_declared city_keys /\ keys_as_declared (KSet [] [[]]) /\ leaves_none_out city_keys (v_rows T).
Proof.
  eexists _, _, _, _, _. cbv zeta. split; [exact trips_honest|]. split; [eexists; split; [vm_compute; reflexivity|reflexivity]|].
  split; [vm_compute; reflexivity|]. split; [vm_compute; reflexivity|].
  split. { exists few_in_total, (Zcdp XPInf). eexists. split; [reflexivity|]. split; [reflexivity|]. split; [vm_compute; reflexivity|]. vm_compute. reflexivity. }
  split. { exists few_by_city, (Zcdp XPInf). eexists. split; [reflexivity|]. split; [reflexivity|]. split; [vm_compute; reflexivity|]. vm_compute. reflexivity. }
  split. { exists (few_people (KSet [] [[]])), (Zcdp XPInf). eexists. split; [reflexivity|]. split; [reflexivity|]. split; [vm_compute; reflexivity|]. vm_compute. reflexivity. }
  split. { exists (few_people city_keys), (Zcdp XPInf). eexists. split; [reflexivity|]. split; [reflexivity|]. split; [vm_compute; reflexivity|]. vm_compute. reflexivity. }
  split; [left; vm_compute; reflexivity|]. split; [repeat split|]. split; [repeat split|]. split; [repeat split|]. split; [vm_compute; reflexivity|].
  split. { split; [repeat constructor; intros []|]. intros r [<-|[<-|[<-|[<-|[]]]]]; apply row_conformsb_ok; reflexivity. }
  split. { split; [constructor|]. intros r [<-|[]]. apply row_conformsb_ok. reflexivity. }
  right. split; [repeat constructor; cbn; intuition discriminate|]. intros vs. vm_compute. tauto.
Qed.

(** Two KeySets that share the key "a" and "b": C66_session_case answers few_count, and C83_session_case few_by_city. *)
Example C83_choice_case : same_columns few_keys city_keys /\ for_same_key few_keys [("city", VStr "a"); ("n", VInt 1)] [("city", VStr "a"); ("n", VInt 1)]
  /\ exists cat data s, let st := run E0 trips_state trips_plan in
     session st [] s /\ catalog_of (s_tree s) (st_public st) (s_cons s) = Ok cat /\ data_of (s_tree s) = Ok data
     /\ exact_answer (e_round E0) (e_world E0) K2 true idl RhoZCDP cat data few_count
          [[("city", VStr "a"); ("n", VInt 1)]; [("city", VStr "b"); ("n", VInt 1)]; [("city", VStr "z"); ("n", VInt 0)]]
     /\ exact_answer (e_round E0) (e_world E0) K2 true idl RhoZCDP cat data few_by_city
          [[("city", VNull); ("n", VInt 1)]; [("city", VStr ""); ("n", VInt 1)]; [("city", VStr "a"); ("n", VInt 1)]; [("city", VStr "b"); ("n", VInt 1)]].
Proof.
  split; [intros c; reflexivity|]. split; [intros c _; reflexivity|]. eexists _, _, _. cbv zeta. split; [eexists; split; [vm_compute; reflexivity|reflexivity]|].
  split; [vm_compute; reflexivity|]. split; [vm_compute; reflexivity|].
  split. { exists few_count, (Zcdp XPInf). eexists. split; [reflexivity|]. split; [reflexivity|]. split; [vm_compute; reflexivity|]. vm_compute. reflexivity. }
  exists few_by_city, (Zcdp XPInf). eexists. split; [reflexivity|]. split; [reflexivity|]. split; [vm_compute; reflexivity|]. vm_compute. reflexivity.
Qed.
