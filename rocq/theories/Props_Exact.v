(** Property C66: with an unlimited budget answers are exact.
    What tmlt.core does with an infinite epsilon or rho is assumed ([exact_core], Exact.v):
    it adds no noise.  What is proved is that Analytics then loses nothing either: no row is
    truncated away, no part of the budget becomes finite, no group is missed. *)
From Coq Require Import String Bool Arith ZArith QArith Qcanon Lia Permutation List.
From Verif Require Import Prelude Budget Value Rows Constraints ConstraintsSpec ConstraintsProofs
  Schema SchemaProofs Query Rewrite RewriteSpec Transform TransformSpec TransformVisit QueryProofs
  BudgetScale Session SessionSpec Measure MeasureProofs MeasureCount MeasureRows Props_Query Props_Rewrite Props_Session Props_Measure
  AnswerSchema Props_AnswerSchema AnswerKeys Exact.
Import ListNotations.
Local Open Scope string_scope.
Local Open Scope nat_scope.

Lemma with_key_row cols outs (key : rec) vs t : (forall c, In c outs -> ~ In c cols) ->
  group cols key t = rows_with_key cols (key ++ combine outs vs)%list t.
Proof. intros DIS. change (group cols key t = group cols (key ++ combine outs vs)%list t). apply group_same. intros c I. symmetry. apply getv_key. intros J. exact (DIS c J I). Qed.
Lemma counted_is_count g key : counted g key = count_of g (group (keys_columns (g_keys g)) key (v_rows (g_table g))).
Proof. unfold counted, count_of. destruct (g_agg g); reflexivity. Qed.
Lemma count_of_zero g rows : count_of g rows = 0 <-> rows = [].
Proof.
  unfold count_of. destruct (g_agg g); try apply length_zero_iff_nil.
  split; [|intros ->; reflexivity]. unfold distinct_count. intros H. apply length_zero_iff_nil in H. destruct rows as [|r rows]; [reflexivity|exfalso].
  assert (J : In (map (fun c => getv c r) (dkeys (v_dom (g_table g)))) []); [|destruct J].
  rewrite <- H. apply nodup_In. left. reflexivity.
Qed.
Lemma distinct_zero cols rows : distinct_count cols rows = 0 <-> rows = [].
Proof.
  split; [|intros ->; reflexivity]. unfold distinct_count. intros H. apply length_zero_iff_nil in H. destruct rows as [|r rows]; [reflexivity|exfalso].
  assert (J : In (map (fun c => getv c r) cols) []); [|destruct J]. rewrite <- H. apply nodup_In. left. reflexivity.
Qed.

(** What both kinds of counts share; [n] is what is to be counted. *)
Lemma counts_exact R W K A auto so mu cat data b q c k o meas t total g (n : table -> nat) T :
  exact_core K A -> catalog_made cat -> built auto q -> asks_count q -> grouped_by q = Some (c, k) -> output_names q = [o] ->
  keys_as_declared k -> ~ In o (keys_columns k) -> loss b = XPInf ->
  compile R W K auto so mu cat data b q = Ok meas -> run_measurement R K meas = Ok t ->
  plan_of meas = Some (total, g) ->
  (forall rows, n rows = 0 <-> rows = []) -> (forall key, counted g key = n (rows_with_key (keys_columns k) key T)) ->
  (forall r, In r t -> number (getv o r) = Some (z_to_f (Z.of_nat (n (rows_with_key (keys_columns k) r T)))))
  /\ (forall l, k = KCols l -> NoDup (cells_in l t) /\ forall vs, In vs (cells_in l t) <-> In vs (cells_in l T)).
Proof.
  intros EC MADE B AC G ON KD NO L C RUN P NZ CNT.
  destruct (answer_rows R W K auto so mu cat data MADE A b q c k meas t EC B G KD L C RUN) as (adj & g' & -> & GK & GO & U & ROWS & FOUND).
  injection P as <- <-. pose proof (plan_counts R W K auto so mu cat data MADE b q _ adj g' B AC C eq_refl) as AG. rewrite ON in *.
  assert (DIS : forall x, In x [o] -> ~ In x (keys_columns k)) by (intros x [<-|[]]; exact NO). split.
  - intros r I. destruct (ROWS r I) as (key & KC & ->).
    destruct (ec_count K A EC g' key (group (keys_columns k) key (v_rows (g_table g'))) U AG) as (v & -> & NV).
    assert (WK : rows_with_key (keys_columns k) (key ++ combine [o] [v])%list T = rows_with_key (keys_columns k) key T).
    { symmetry. exact (with_key_row (keys_columns k) [o] key [v] T DIS). }
    rewrite WK. clear WK.
    + rewrite <- CNT, counted_is_count, GK. cbn [combine]. unfold getv at 1.
      assert (X : dget o (key ++ [(o, v)])%list = Some v); [|rewrite X; exact NV].
      assert (NK : ~ In o (dkeys key)) by (intros J; exact (NO (KC o J))). clear - NK. induction key as [|(x & w) key IH]; cbn [app dget fst].
      * rewrite String.eqb_refl. reflexivity.
      * destruct (String.eqb_spec o x) as [->|]; [exfalso; apply NK; left; reflexivity|]. apply IH. intros J. apply NK. right. exact J.
  - intros l ->. destruct (FOUND l eq_refl) as (keys & ND & KEYS & ->). cbn [keys_columns] in *.
    destruct (found_cells l (v_rows (g_table g')) keys [o] (fun key => k_answer K g' key (group l key (v_rows (g_table g')))) DIS ND KEYS) as (F1 & F2).
    split; [exact F1|]. intros vs. rewrite F2. apply same_counts_same_keys. intros key.
    rewrite <- (NZ (rows_with_key l key T)), <- CNT, counted_is_count, GK. cbn [keys_columns]. rewrite count_of_zero. reflexivity.
Qed.

(** A count with an unlimited budget: in every row of the answer stands the number of rows of
    the transformed table with that key.  And with columns to group by, the answer has one
    row for every key that occurs in it, and no others. *)
Theorem C66_counts_exact : forall R W K A auto so mu cat data b q0 c k o m co meas t,
  exact_core K A -> (forall l, Permutation (so l) l) -> constraints_hold cat data -> catalog_made cat ->
  build auto q0 = Ok (GroupByCount c k o m co) -> holds_for W cat data (asks_gaussian mu m) c ->
  keys_as_declared k -> ~ In o (keys_columns k) -> loss b = XPInf ->
  compile R W K auto so mu cat data b (GroupByCount c k o m co) = Ok meas -> run_measurement R K meas = Ok t ->
  exists T cs, build_transformation W (asks_gaussian mu m) cat data c = Ok (T, cs)
    /\ (forall r, In r t -> number (getv o r) = Some (z_to_f (Z.of_nat (length (rows_with_key (keys_columns k) r (v_rows T))))))
    /\ (forall l, k = KCols l -> NoDup (cells_in l t) /\ forall vs, In vs (cells_in l t) <-> In vs (cells_in l (v_rows T))).
Proof.
  intros R W K A auto so mu cat data b q0 c k o m co meas t EC SO HOLD MADE B HF KD NO L C RUN.
  destruct (C38_row_counts_exact R W K auto so mu cat data b q0 c k o m co meas SO HOLD MADE B HF C) as (T & cs & total & g & BT & P & _ & _ & CNT).
  exists T, cs. split; [exact BT|].
  exact (counts_exact R W K A auto so mu cat data b _ c k o meas t total g (@length rec) (v_rows T) EC MADE (build_built _ _ _ B) Logic.I
           eq_refl eq_refl KD NO L C RUN P (@length_zero_iff_nil rec) CNT).
Qed.
Print Assumptions C66_counts_exact.

(** A distinct count: the number of different rows, or of different values of the columns
    asked for. *)
Theorem C66_distinct_counts_exact : forall R W K A auto so mu cat data b q0 c k cols o m co meas t,
  exact_core K A -> (forall l, Permutation (so l) l) -> constraints_hold cat data -> catalog_made cat ->
  build auto q0 = Ok (GroupByCountDistinct c k cols o m co) -> holds_for W cat data (asks_gaussian mu m) c ->
  keys_as_declared k -> ~ In o (keys_columns k) -> loss b = XPInf ->
  compile R W K auto so mu cat data b (GroupByCountDistinct c k cols o m co) = Ok meas -> run_measurement R K meas = Ok t ->
  exists T cs s, build_transformation W (asks_gaussian mu m) cat data c = Ok (T, cs) /\ schema_of (w_cond_ok W) cat c = Ok s
    /\ (forall r, In r t -> number (getv o r) = Some (z_to_f (Z.of_nat
          (distinct_count (match cols with [] => dkeys (sc_cols s) | _ => cols end) (rows_with_key (keys_columns k) r (v_rows T))))))
    /\ (forall l, k = KCols l -> NoDup (cells_in l t) /\ forall vs, In vs (cells_in l t) <-> In vs (cells_in l (v_rows T))).
Proof.
  intros R W K A auto so mu cat data b q0 c k cols o m co meas t EC SO HOLD MADE B HF KD NO L C RUN.
  destruct (C38_distinct_counts_exact R W K auto so mu cat data b q0 c k cols o m co meas SO HOLD MADE B HF C) as (T & cs & s & total & g & BT & S & P & _ & _ & CNT).
  exists T, cs, s. split; [exact BT|]. split; [exact S|].
  exact (counts_exact R W K A auto so mu cat data b _ c k o meas t total g (distinct_count (match cols with [] => dkeys (sc_cols s) | _ => cols end)) (v_rows T)
           EC MADE (build_built _ _ _ B) Logic.I eq_refl eq_refl KD NO L C RUN P (distinct_zero _) CNT).
Qed.
Print Assumptions C66_distinct_counts_exact.

(** Sums, averages, variances, quantiles and bounds with an unlimited budget: the answer for
    a key is the aggregation [A] of exactly the rows with that key whose measure is a number,
    infinities having been replaced by the bounds (dropped, where there are no bounds).
    With columns to group by, the keys are those of these rows: a group in which the measure
    is always null or NaN is not answered. *)
Theorem C66_measures_exact : forall R W K A auto so mu cat data b q0 q c me k a T cs meas t,
  exact_core K A -> (forall l, Permutation (so l) l) -> constraints_hold cat data -> catalog_made cat ->
  build auto q0 = Ok q -> measure_of q = Some (c, me) -> aggregation_of q = Some a -> grouped_by q = Some (c, k) ->
  holds_for W cat data (query_l2 mu q) c -> build_transformation W (query_l2 mu q) cat data c = Ok (T, cs) ->
  keys_as_declared k -> NoDup (keys_columns k ++ output_names q)%list -> loss b = XPInf ->
  compile R W K auto so mu cat data b q = Ok meas -> run_measurement R K meas = Ok t ->
  let cleaned := flat_map (clean_row me (bounds_of q)) (v_rows T) in
  (forall r, In r t -> map (fun o => getv o r) (output_names q) = A a (rows_with_key (keys_columns k) r cleaned))
  /\ (forall l, k = KCols l -> NoDup (cells_in l t) /\ forall vs, In vs (cells_in l t) <-> In vs (cells_in l cleaned)).
Proof.
  intros R W K A auto so mu cat data b q0 q c me k a T cs meas t EC SO HOLD MADE B MO AO G HF BT KD ND L C RUN cleaned.
  destruct (C46_measures_see_all_rows R W K auto so mu cat data b q0 q c me T cs meas SO HOLD MADE B MO HF BT C) as (total & g & P & PERM).
  apply build_built in B.
  destruct (answer_rows R W K auto so mu cat data MADE A b q c k meas t EC B G KD L C RUN) as (adj & g' & -> & GK & GO & U & ROWS & FOUND).
  injection P as <- <-. pose proof (plan_aggregation R W K auto so mu cat data MADE b q a _ adj g' B AO C eq_refl) as AG. fold cleaned in PERM.
  assert (DIS : forall x, In x (output_names q) -> ~ In x (keys_columns k)).
  { clear - ND. intros x I J. induction (keys_columns k) as [|y l IH]; [destruct J|]. cbn [app] in ND. inversion ND as [|? ? NI ND']; subst.
    destruct J as [-> | J]; [apply NI, in_or_app; right; exact I|exact (IH ND' J)]. }
  assert (NDO : NoDup (output_names q)).
  { clear - ND. induction (keys_columns k) as [|y l IH]; [exact ND|]. cbn [app] in ND. inversion ND; subst. auto. }
  assert (LEN : forall rows, length (A a rows) = length (output_names q)).
  { intros rows. rewrite (ec_length K A EC). destruct q; try discriminate AO; injection AO as <-; reflexivity. }
  assert (NC : a <> ACount /\ a <> ACountDistinct) by (destruct q; try discriminate AO; injection AO as <-; split; discriminate).
  assert (ANS : forall key rows, k_answer K g' key rows = A a rows).
  { intros key rows. rewrite (ec_other K A EC g' key rows U); rewrite AG; [reflexivity|apply NC|apply NC]. }
  split.
  - intros r I. destruct (ROWS r I) as (key & KC & ->). rewrite ANS, getv_outs; [|exact NDO|intros x J X; exact (DIS x J (KC x X))|apply LEN].
    rewrite (with_key_row (keys_columns k) (output_names q) key (A a (group (keys_columns k) key (v_rows (g_table g')))) (v_rows (g_table g')) DIS) at 1.
    apply (ec_bags K A EC). unfold rows_with_key. apply Permutation_filter. exact PERM.
  - intros l ->. destruct (FOUND l eq_refl) as (keys & NDK & KEYS & ->). cbn [keys_columns] in *.
    destruct (found_cells l (v_rows (g_table g')) keys (output_names q) (fun key => k_answer K g' key (group l key (v_rows (g_table g')))) DIS NDK KEYS) as (F1 & F2).
    split; [exact F1|]. intros vs. rewrite F2. unfold cells_in. split; apply Permutation_in; apply Permutation_map; [exact PERM|symmetry; exact PERM].
Qed.
Print Assumptions C66_measures_exact.

(** get_groups with an unlimited budget: every combination of values that occurs, once. *)
Theorem C66_groups_exact : forall R W K A auto so mu cat data b q0 c cols T cs meas t,
  exact_core K A -> (forall l, Permutation (so l) l) -> constraints_hold cat data -> catalog_made cat ->
  build auto q0 = Ok (GetGroups c cols) -> holds_for W cat data false c ->
  build_transformation W false cat data c = Ok (T, cs) -> loss b = XPInf ->
  compile R W K auto so mu cat data b (GetGroups c cols) = Ok meas -> run_measurement R K meas = Ok t ->
  exists out s, schema_of (w_cond_ok W) cat c = Ok s
    /\ (cols <> [] -> out = cols) /\ (cols = [] -> forall x, In x out <-> In x (dkeys (sc_cols s)) /\ sc_id s <> Some x)
    /\ NoDup t /\ forall r, In r t <-> exists r0, In r0 (v_rows T) /\ r = map (fun x => (x, getv x r0)) out.
Proof.
  intros R W K A auto so mu cat data b q0 c cols T cs meas t EC SO HOLD MADE B HF BT L C RUN.
  destruct (C46_groups_see_all_rows R W K auto so mu cat data b q0 c cols T cs meas SO HOLD MADE B HF BT C) as (t' & out & s & S & -> & PERM & O1 & O2).
  cbn [run_measurement] in RUN. injection RUN as <-. exists out, s. split; [exact S|]. split; [exact O1|]. split; [exact O2|].
  destruct (ec_select K A EC b (v_rows t') L) as (N & I). split; [exact N|]. intros r. rewrite I. split.
  - intros J. apply (Permutation_in _ PERM) in J. apply in_map_iff in J as (r0 & <- & J). exists r0. split; [exact J|reflexivity].
  - intros (r0 & J & ->). apply (Permutation_in _ (Permutation_sym PERM)). apply in_map_iff. exists r0. split; [reflexivity|exact J].
Qed.
Print Assumptions C66_groups_exact.

(** ** A case: a core without noise that sums the finite values of the measure. *)
Definition finite_part (v : value) : Qc := match v with VFloat (FFin x) => x | VInt z => Q2Qc (inject_Z z) | _ => Q2Qc 0 end.
Definition total_of (me : string) (rows : table) : Qc := fold_right Qcplus (Q2Qc 0) (map (fun r => finite_part (getv me r)) rows).
Definition A0 (a : agg) (rows : table) : list value :=
  match a with
  | ABounded _ me _ _ | AQuantile me _ _ _ => [VFloat (FFin (total_of me rows))]
  | ABounds me => [VFloat (FFin (total_of me rows)); VFloat (FFin (total_of me rows))]
  | _ => [VNull]
  end.
Definition K2 : core :=
  {| k_builds := fun _ => Ok tt; k_groups_builds := fun _ _ => Ok tt; k_groups_loss := fun _ b => b; k_select := k_select K0;
     k_answer := fun g _ t => match g_agg g with
       | ACount | ACountDistinct => [VInt (Z.of_nat (count_of g t))]
       | a => A0 a t end |}.
Lemma total_bag me rows rows' : Permutation rows rows' -> total_of me rows = total_of me rows'.
Proof.
  intros P. unfold total_of. induction P; cbn [map fold_right]; try congruence.
  rewrite !Qcplus_assoc. f_equal. apply Qcplus_comm.
Qed.
Lemma K2_exact : exact_core K2 A0.
Proof.
  constructor.
  - intros g key rows _ [E|E]; cbn [k_answer K2]; rewrite E; eexists; split; reflexivity.
  - intros g key rows _ N N'. cbn [k_answer K2]. destruct (g_agg g); try congruence; reflexivity.
  - intros [| | | |]; reflexivity.
  - intros a rows rows' P. destruct a; cbn [A0]; try reflexivity; rewrite (total_bag _ _ _ P); reflexivity.
  - intros b t _. cbn [k_select K2 K0]. split; [apply NoDup_nodup|]. intros r. apply nodup_In.
Qed.
Definition exactly (mu : measure) (b : budget) (q : query) : res table :=
  let* m := compile exact_rounding W0 K2 true idl mu pcat pdata b q in run_measurement exact_rounding K2 m.
Definition found_sum : query := GroupByBounded BSum (PrivateSource "people") (KCols ["grp"]) "x" (Query.PInt 0) (Query.PInt 10) "total" MDefault None.
(** The count finds the group without a name, in which the measure is null; the sum does
    not.  In the sum the infinite value of b counts as ten. *)
Example C66_case :
  exact_core K2 A0 /\ (forall l, Permutation (idl l) l) /\ constraints_hold pcat pdata /\ catalog_made pcat
  /\ (forall l2, holds_for W0 pcat pdata l2 (PrivateSource "people"))
  /\ keys_as_declared grp_keys /\ loss (Pure XPInf) = XPInf /\ loss (Approx XPInf (XFin 1)) = XPInf
  /\ build true (count_q (KCols ["grp"])) = Ok (count_q (KCols ["grp"])) /\ build true (count_q grp_keys) = Ok (count_q grp_keys)
  /\ exactly ApproxDP (Approx XPInf (XFin 1)) (count_q (KCols ["grp"]))
     = Ok [[("grp", VNull); ("n", VInt 1)]; [("grp", VStr "x"); ("n", VInt 2)]; [("grp", VStr "y"); ("n", VInt 1)]]
  /\ exactly PureDP (Pure XPInf) (count_q grp_keys) = Ok [[("grp", VStr "x"); ("n", VInt 2)]; [("grp", VStr "z"); ("n", VInt 0)]]
  /\ build true (ids_q grp_keys ["id"]) = Ok (ids_q grp_keys ["id"])
  /\ exactly RhoZCDP (Zcdp XPInf) (ids_q grp_keys ["id"]) = Ok [[("grp", VStr "x"); ("n", VInt 2)]; [("grp", VStr "z"); ("n", VInt 0)]]
  /\ build true found_sum = Ok found_sum /\ measure_of found_sum = Some (PrivateSource "people", "x")
  /\ aggregation_of found_sum = Some (ABounded BSum "x" (Query.PInt 0) (Query.PInt 10))
  /\ NoDup (keys_columns (KCols ["grp"]) ++ output_names found_sum)%list
  /\ exactly ApproxDP (Approx XPInf (XFin 1)) found_sum
     = Ok [[("grp", VStr "x"); ("total", VFloat (z_to_f 10))]; [("grp", VStr "y"); ("total", VFloat (z_to_f 3))]]
  /\ exactly ApproxDP (Approx XPInf (XFin 1)) (GetGroups (PrivateSource "people") ["grp"])
     = Ok [[("grp", VNull)]; [("grp", VStr "x")]; [("grp", VStr "y")]].
Proof.
  split; [exact K2_exact|]. split; [exact idl_ok|]. split; [exact pcat_holds|]. split; [exact pcat_made|]. split; [exact people_holds|].
  split; [exact (proj1 (proj2 (proj2 C62_case)))|].
  split; [reflexivity|]. split; [reflexivity|]. split; [reflexivity|]. split; [reflexivity|]. split; [vm_compute; reflexivity|]. split; [vm_compute; reflexivity|].
  split; [reflexivity|]. split; [vm_compute; reflexivity|]. split; [reflexivity|]. split; [reflexivity|]. split; [reflexivity|].
  split; [repeat constructor; cbn; intuition discriminate|]. split; vm_compute; reflexivity.
Qed.
