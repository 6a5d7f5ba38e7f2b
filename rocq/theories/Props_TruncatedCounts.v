(** Property C84: an exact count of a table whose rows per person were limited counts each person
    up to the limit. *)
From Coq Require Import String Bool Arith ZArith QArith Qcanon Lia Permutation List.
From Verif Require Import Prelude Budget BudgetScale Value Rows Constraints ConstraintsSpec ConstraintsProofs ConstraintsStab Schema SchemaProofs Query RewriteSpec Transform TransformSpec Tables TablesProofs
  TransformConform QueryProofs Accountant AccountantProofs Session SessionSpec SessionMoney SessionSteps SessionTables SessionInv SessionViews SessionWell SessionSound
  Builder BuilderCalls Measure MeasureProofs MeasureCount MeasureRows
  Props_Constraints Props_Query Props_Session Props_Measure Props_Sound Props_Sensitivity AnswerSchema AnswerKeys Props_AnswerKeys Props_Rewrite Exact Props_Exact Props_ExactSession Props_RollUp.
From Verif Require QueryLaws.
Import ListNotations.
Local Open Scope string_scope.
Local Open Scope nat_scope.

(** ** Specification *)
(** Each ID counts as often as [f] says of its rows, but at most [m] times. *)
Definition counted_up_to (idc : string) (m : nat) (f : table -> nat) (rows : table) : nat :=
  list_sum (map (fun i => Nat.min m (f (ConstraintsSpec.rows_of idc i rows))) (distinct_values idc rows)).

(** The bound [n] of the kind of [k]. *)
Definition of_kind (k : constraint) (n : nat) : constraint :=
  match k with MaxRowsPerID _ => MaxRowsPerID n | MaxGroupsPerID g _ => MaxGroupsPerID g n | MaxRowsPerGroupPerID g _ => MaxRowsPerGroupPerID g n end.

(** ** Tables by ID *)
Lemma length_filter_or (p q : rec -> bool) : forall T : table, (forall x, p x = true -> q x = true -> False) ->
  length (filter (fun x => p x || q x) T) = length (filter p T) + length (filter q T).
Proof. intros T D. rewrite (Permutation_length (filter_or p q T D)). apply app_length. Qed.
Lemma rows_by_id idc (T : table) : forall L, NoDup L ->
  length (filter (fun x => vmem (getv idc x) L) T) = list_sum (map (fun i => length (ConstraintsSpec.rows_of idc i T)) L).
Proof.
  induction L as [|i L IH]; intros N.
  - cbn. induction T; [reflexivity|exact IHT].
  - inversion N as [|? ? N1 N2]. subst. cbn [map list_sum fold_right]. fold (list_sum (map (fun i => length (ConstraintsSpec.rows_of idc i T)) L)). rewrite <- (IH N2).
    cbn [vmem existsb]. unfold ConstraintsSpec.rows_of, has_value. rewrite <- (length_filter_or (fun x => value_eqb (getv idc x) i)); [reflexivity|].
    intros x X Y. apply value_eqb_eq in X. apply existsb_exists in Y as (v & V & Y). apply value_eqb_eq in Y. congruence.
Qed.
Lemma all_by_id idc (T : table) L : NoDup L -> (forall x, In x T -> In (getv idc x) L) -> length T = list_sum (map (fun i => length (ConstraintsSpec.rows_of idc i T)) L).
Proof.
  intros N C. rewrite <- rows_by_id by exact N. f_equal. clear N. induction T as [|x T IH]; [reflexivity|]. cbn [filter].
  assert (vmem (getv idc x) L = true) as ->. { apply existsb_exists. exists (getv idc x). split; [apply C; left; reflexivity|apply value_eqb_eq; reflexivity]. }
  f_equal. apply IH. intros y Y. apply C. right. exact Y.
Qed.

(** The rows after enforce(). *)
Lemma enforced_rows W l2 cat data c k T cs T' cs' s idc :
  build_transformation W l2 cat data c = Ok (T, cs) -> build_transformation W l2 cat data (EnforceConstraint c k) = Ok (T', cs') ->
  schema_of (w_cond_ok W) cat c = Ok s -> sc_id s = Some idc ->
  v_rows T' = enforce_rows (w_row_order W) (w_key_order W) idc k (v_rows T).
Proof.
  intros BT BT' S ID. apply build_transformation_ok in BT as (s0 & S0 & V & VA). rewrite S in S0. injection S0 as <-.
  apply build_transformation_ok in BT' as (s1 & S1 & V' & VA'). cbn [visit] in V'. rewrite V in V'. cbn [bind visit_enforce] in V'.
  apply bind_ok in V' as (y & EN & V'). injection V' as <- <-. cbn [v_rows].
  apply enforce_ok in EN as (i & -> & P). cbn [t_rows t_place] in *.
  assert (i = idc) as ->; [|reflexivity].
  unfold validate in VA. apply bind_ok in VA as (p & EP & VA). apply bind_ok in VA as ([] & _ & VA). apply raise_if_ok in VA. apply negb_false_iff in VA.
  apply place_eqb_eq in VA. unfold expected_place in EP. rewrite ID in EP. destruct (sc_group s); [discriminate|]. injection EP as <-.
  destruct P as [P|(g & l & P)]; congruence.
Qed.

(** The answers: exact counts of what enforce() has left. *)
Lemma after_enforce R W K A auto so mu cat data c k0 k o m co t T cs s idc :
  exact_core K A -> (forall l, Permutation (so l) l) -> constraints_hold cat data -> catalog_made cat ->
  exact_answer R W K auto so mu cat data (GroupByCount (EnforceConstraint c k0) k o m co) t ->
  holds_for W cat data (asks_gaussian mu m) (EnforceConstraint c k0) ->
  build_transformation W (asks_gaussian mu m) cat data c = Ok (T, cs) -> schema_of (w_cond_ok W) cat c = Ok s -> sc_id s = Some idc ->
  keys_as_declared k -> ~ In o (keys_columns k) ->
  forall r, In r t -> whole_number o r (length (rows_with_key (keys_columns k) r (enforce_rows (w_row_order W) (w_key_order W) idc k0 (v_rows T)))).
Proof.
  intros EC SO HOLD MADE (q0 & b & a & B & L & C & RUN) HF BT S ID KD NO r I.
  destruct (C66_counts_exact R W K A auto so mu cat data b q0 _ k o m co a t EC SO HOLD MADE B HF KD NO L C RUN) as (T' & cs' & BT' & X & _).
  rewrite <- (enforced_rows W _ cat data c k0 T cs T' cs' s idc BT BT' S ID). exact (X r I).
Qed.
Lemma counted_by_id idc (f : table -> nat) m (T T' : table) L : (forall i, f (ConstraintsSpec.rows_of idc i T') = Nat.min m (f (ConstraintsSpec.rows_of idc i T))) ->
  list_sum (map (fun i => f (ConstraintsSpec.rows_of idc i T')) L) = list_sum (map (fun i => Nat.min m (f (ConstraintsSpec.rows_of idc i T))) L).
Proof. intros H. f_equal. apply map_ext. exact H. Qed.
Lemma ids_cover ro ko idc k (T : table) x : In x (enforce_rows ro ko idc k T) -> In (getv idc x) (distinct_values idc T).
Proof. intros I. apply nodup_In. apply in_map_iff. exists x. split; [reflexivity|]. exact (sub_table_In _ _ x (enforce_rows_sub ro ko idc k T) I). Qed.

(** MaxRowsPerID: a total count counts each ID's rows, up to the bound. *)
Theorem C84_rows_per_id : forall R W K A auto so mu cat data c n k o m co t T cs s idc,
  exact_core K A -> (forall l, Permutation (so l) l) -> constraints_hold cat data -> catalog_made cat ->
  exact_answer R W K auto so mu cat data (GroupByCount (EnforceConstraint c (MaxRowsPerID n)) k o m co) t ->
  holds_for W cat data (asks_gaussian mu m) (EnforceConstraint c (MaxRowsPerID n)) ->
  build_transformation W (asks_gaussian mu m) cat data c = Ok (T, cs) -> schema_of (w_cond_ok W) cat c = Ok s -> sc_id s = Some idc ->
  keys_as_declared k -> keys_columns k = [] ->
  forall r, In r t -> whole_number o r (counted_up_to idc n (@length rec) (v_rows T)).
Proof.
  intros R W K A auto so mu cat data c n k o m co t T cs s idc EC SO HOLD MADE AN HF BT S ID KD KC r I.
  pose proof (after_enforce R W K A auto so mu cat data c _ k o m co t T cs s idc EC SO HOLD MADE AN HF BT S ID KD) as X. rewrite KC in X. specialize (X (fun z => z) r I).
  set (T' := enforce_rows _ _ idc _ _) in X. assert (E : rows_with_key [] r T' = T').
  { clear. unfold rows_with_key. cbn [forallb]. induction T' as [|x T' IH]; [reflexivity|]. cbn [filter]. now rewrite IH. }
  rewrite E in X. rewrite (all_by_id idc T' (distinct_values idc (v_rows T))) in X; [|apply NoDup_nodup|intros x; apply ids_cover].
  rewrite (counted_by_id idc (@length rec) n (v_rows T)) in X; [exact X|]. intros i.
  exact (proj1 (C16_enforcing_drops_no_more_than_needed (w_row_order W) (w_key_order W) idc (v_rows T) i) n).
Qed.
Print Assumptions C84_rows_per_id.

(** MaxRowsPerGroupPerID: the count for a group counts each ID's rows in it, up to the bound. *)
Theorem C84_rows_per_group_per_id : forall R W K A auto so mu cat data c g n k o m co t T cs s idc,
  exact_core K A -> (forall l, Permutation (so l) l) -> constraints_hold cat data -> catalog_made cat ->
  exact_answer R W K auto so mu cat data (GroupByCount (EnforceConstraint c (MaxRowsPerGroupPerID g n)) k o m co) t ->
  holds_for W cat data (asks_gaussian mu m) (EnforceConstraint c (MaxRowsPerGroupPerID g n)) ->
  build_transformation W (asks_gaussian mu m) cat data c = Ok (T, cs) -> schema_of (w_cond_ok W) cat c = Ok s -> sc_id s = Some idc ->
  keys_as_declared k -> keys_columns k = [g] -> o <> g ->
  forall r, In r t -> whole_number o r (counted_up_to idc n (fun rows => length (filter (has_value g (getv g r)) rows)) (v_rows T)).
Proof.
  intros R W K A auto so mu cat data c g n k o m co t T cs s idc EC SO HOLD MADE AN HF BT S ID KD KC OG r I.
  pose proof (after_enforce R W K A auto so mu cat data c _ k o m co t T cs s idc EC SO HOLD MADE AN HF BT S ID KD) as X. rewrite KC in X.
  specialize (X (fun z => match z with or_introl e => OG (eq_sym e) | or_intror f => f end) r I).
  set (T' := enforce_rows _ _ idc _ _) in X. assert (E : rows_with_key [g] r T' = filter (has_value g (getv g r)) T').
  { clear. unfold rows_with_key. apply filter_ext. intros x. cbn [forallb]. rewrite andb_true_r. unfold has_value. apply eq_true_iff_eq. rewrite !value_eqb_eq. split; congruence. }
  rewrite E in X. rewrite (all_by_id idc _ (distinct_values idc (v_rows T))) in X; [|apply NoDup_nodup|intros x J; apply filter_In in J as (J & _); revert J; apply ids_cover].
  assert (SW : forall i, ConstraintsSpec.rows_of idc i (filter (has_value g (getv g r)) T') = filter (has_value g (getv g r)) (ConstraintsSpec.rows_of idc i T')).
  { intros i. unfold ConstraintsSpec.rows_of. clear. induction T' as [|x T' IH]; [reflexivity|]. cbn [filter]. destruct (has_value g (getv g r) x) eqn:E1, (has_value idc i x) eqn:E2; cbn [filter]; rewrite ?E1, ?E2, IH; reflexivity. }
  erewrite map_ext in X; [|intros i; rewrite SW; reflexivity].
  rewrite (counted_by_id idc (fun rows => length (filter (has_value g (getv g r)) rows)) n (v_rows T)) in X; [exact X|]. intros i.
  exact (proj1 (proj2 (C16_enforcing_drops_no_more_than_needed (w_row_order W) (w_key_order W) idc (v_rows T) i)) g n (getv g r)).
Qed.
Print Assumptions C84_rows_per_group_per_id.

(** MaxGroupsPerID: a total count of the different pairs of ID and group counts each ID's groups, up to
    the bound. *)
Lemma pairs_by_id idc g (T : table) L : NoDup L -> (forall x, In x T -> In (getv idc x) L) ->
  distinct_count [idc; g] T = list_sum (map (fun i => length (distinct_values g (ConstraintsSpec.rows_of idc i T))) L).
Proof.
  intros N C. set (P := flat_map (fun i => map (fun v => [i; v]) (distinct_values g (ConstraintsSpec.rows_of idc i T))) L).
  assert (LP : length P = list_sum (map (fun i => length (distinct_values g (ConstraintsSpec.rows_of idc i T))) L)).
  { unfold P. rewrite length_flat. f_equal. apply map_ext. intros i. apply map_length. }
  rewrite <- LP. unfold distinct_count. apply Permutation_length. apply NoDup_Permutation; [apply NoDup_nodup| |].
  - unfold P. clear C P LP. induction L as [|i L IH]; [constructor|]. inversion N as [|? ? N1 N2]. subst. cbn [flat_map].
    assert (NA : forall a b : list (list value), NoDup a -> NoDup b -> (forall x, In x a -> ~ In x b) -> NoDup (a ++ b)).
    { clear. induction a as [|x a IH]; intros b A B D; [exact B|]. inversion A. subst. cbn [app]. constructor.
      - rewrite in_app_iff. intros [J|J]; [contradiction|]. exact (D x (or_introl eq_refl) J).
      - apply IH; [assumption|assumption|]. intros y Y. apply D. right. exact Y. }
    apply NA; [|exact (IH N2)|].
    + apply FinFun.Injective_map_NoDup; [|apply NoDup_nodup]. intros v w E. congruence.
    + intros x J J'. apply in_map_iff in J as (v & <- & _). apply in_flat_map in J' as (i' & I' & J'). apply in_map_iff in J' as (w & E & _). injection E as E _. congruence.
  - intros vs. rewrite nodup_In, in_map_iff. unfold P. rewrite in_flat_map. split.
    + intros (x & <- & I). exists (getv idc x). split; [exact (C x I)|]. apply in_map_iff. exists (getv g x). split; [reflexivity|].
      apply nodup_In. apply in_map_iff. exists x. split; [reflexivity|]. apply filter_In. split; [exact I|]. apply has_value_true. reflexivity.
    + intros (i & _ & J). apply in_map_iff in J as (v & <- & J). apply nodup_In in J. apply in_map_iff in J as (x & <- & J). apply filter_In in J as (J & E).
      apply has_value_true in E. exists x. split; [|exact J]. cbn [map]. rewrite E. reflexivity.
Qed.
Theorem C84_groups_per_id : forall R W K A auto so mu cat data c g n k o m co t T cs s idc,
  exact_core K A -> (forall l, Permutation (so l) l) -> constraints_hold cat data -> catalog_made cat ->
  exact_answer R W K auto so mu cat data (GroupByCountDistinct (EnforceConstraint c (MaxGroupsPerID g n)) k [idc; g] o m co) t ->
  holds_for W cat data (asks_gaussian mu m) (EnforceConstraint c (MaxGroupsPerID g n)) ->
  build_transformation W (asks_gaussian mu m) cat data c = Ok (T, cs) -> schema_of (w_cond_ok W) cat c = Ok s -> sc_id s = Some idc ->
  keys_as_declared k -> keys_columns k = [] ->
  forall r, In r t -> whole_number o r (counted_up_to idc n (fun rows => length (distinct_values g rows)) (v_rows T)).
Proof.
  intros R W K A auto so mu cat data c g n k o m co t T cs s idc EC SO HOLD MADE (q0 & b & a & B & L & C & RUN) HF BT S ID KD KC r I.
  assert (NO : ~ In o (keys_columns k)) by (rewrite KC; intros []).
  destruct (C66_distinct_counts_exact R W K A auto so mu cat data b q0 _ k [idc; g] o m co a t EC SO HOLD MADE B HF KD NO L C RUN) as (T' & cs' & s' & BT' & _ & X & _).
  specialize (X r I). rewrite KC, (enforced_rows W _ cat data c _ T cs T' cs' s idc BT BT' S ID) in X. set (T1 := enforce_rows _ _ idc _ _) in X.
  assert (E : rows_with_key [] r T1 = T1).
  { clear. unfold rows_with_key. cbn [forallb]. induction T1 as [|x T' IH]; [reflexivity|]. cbn [filter]. now rewrite IH. }
  rewrite E, (pairs_by_id idc g T1 (distinct_values idc (v_rows T))) in X; [|apply NoDup_nodup|intros x; apply ids_cover].
  rewrite (counted_by_id idc (fun rows => length (distinct_values g rows)) n (v_rows T)) in X; [exact X|]. intros i.
  exact (proj2 (proj2 (C16_enforcing_drops_no_more_than_needed (w_row_order W) (w_key_order W) idc (v_rows T) i)) g n).
Qed.
Print Assumptions C84_groups_per_id.

(** A higher bound never lowers an exact count, whatever it is grouped by, and no bound raises one. *)
Lemma enforce_twice ro ko idc k n n' (T : table) :
  enforce_rows ro ko idc (of_kind k n) (enforce_rows ro ko idc (of_kind k n') T) = enforce_rows ro ko idc (of_kind k (Nat.min n' n)) T.
Proof.
  destruct k as [x|g x|g x]; cbn [of_kind enforce_rows].
  - unfold limit_rows. apply QueryLaws.keep_limits.
  - apply QueryLaws.limit_keys_twice.
  - unfold limit_rows_per_key. apply QueryLaws.keep_limits.
Qed.
Lemma sub_with_key cols r (a b : table) : sub_table a b -> length (rows_with_key cols r a) <= length (rows_with_key cols r b).
Proof. intros H. apply sub_table_length. intros x. unfold rows_with_key. rewrite !occurs_filter. destruct (forallb _ cols); [apply H|lia]. Qed.
Lemma same_rows_with_key cols r r' (T : table) : (forall c, In c cols -> getv c r = getv c r') -> rows_with_key cols r T = rows_with_key cols r' T.
Proof.
  intros H. unfold rows_with_key. apply filter_ext. intros x. induction cols as [|c cols IH]; [reflexivity|]. cbn [forallb].
  rewrite (H c (or_introl eq_refl)), IH; [reflexivity|]. intros c' C'. apply H. right. exact C'.
Qed.
Theorem C84_higher_bounds : forall R W K A auto so mu mu' cat data c k0 n n' k k' o o' m m' co co' t t' T cs s idc,
  exact_core K A -> (forall l, Permutation (so l) l) -> constraints_hold cat data -> catalog_made cat -> n <= n' ->
  exact_answer R W K auto so mu cat data (GroupByCount (EnforceConstraint c (of_kind k0 n)) k o m co) t ->
  exact_answer R W K auto so mu' cat data (GroupByCount (EnforceConstraint c (of_kind k0 n')) k' o' m' co') t' ->
  asks_gaussian mu m = asks_gaussian mu' m' ->
  holds_for W cat data (asks_gaussian mu' m') (EnforceConstraint c (of_kind k0 n)) -> holds_for W cat data (asks_gaussian mu' m') (EnforceConstraint c (of_kind k0 n')) ->
  build_transformation W (asks_gaussian mu' m') cat data c = Ok (T, cs) -> schema_of (w_cond_ok W) cat c = Ok s -> sc_id s = Some idc ->
  keys_as_declared k -> keys_as_declared k' -> keys_columns k = keys_columns k' -> ~ In o (keys_columns k) -> ~ In o' (keys_columns k') ->
  forall r r', In r t -> In r' t' -> (forall x, In x (keys_columns k) -> getv x r = getv x r') ->
  exists x x', whole_number o r x /\ whole_number o' r' x' /\ x <= x' /\ x' <= length (rows_with_key (keys_columns k') r' (v_rows T)).
Proof.
  intros R W K A auto so mu mu' cat data c k0 n n' k k' o o' m m' co co' t t' T cs s idc EC SO HOLD MADE LE A1 A2 EQ HF HF' BT S ID D D' KK NO NO' r r' I I' AG.
  rewrite <- EQ in HF. assert (BT1 : build_transformation W (asks_gaussian mu m) cat data c = Ok (T, cs)) by (rewrite EQ; exact BT).
  pose proof (after_enforce R W K A auto so mu cat data c _ k o m co t T cs s idc EC SO HOLD MADE A1 HF BT1 S ID D NO r I) as X.
  pose proof (after_enforce R W K A auto so mu' cat data c _ k' o' m' co' t' T cs s idc EC SO HOLD MADE A2 HF' BT S ID D' NO' r' I') as X'.
  eexists _, _. split; [exact X|]. split; [exact X'|]. split.
  - rewrite (same_rows_with_key (keys_columns k) r r' _ AG), KK. apply sub_with_key.
    replace (of_kind k0 n) with (of_kind k0 (Nat.min n' n)) by (f_equal; lia). rewrite <- enforce_twice. apply enforce_rows_sub.
  - apply sub_with_key, enforce_rows_sub.
Qed.
Print Assumptions C84_higher_bounds.

(** In a session: in every state it reaches, whatever was called before. *)
Theorem C84_session_rows_per_id : forall E K A auto so st p s0 cat data mu c n k o m co t T cs s idc,
  exact_core K A -> (forall l, Permutation (so l) l) -> honest_state true E st -> session st p s0 ->
  catalog_of (s_tree s0) (st_public st) (s_cons s0) = Ok cat -> data_of (s_tree s0) = Ok data ->
  let q := EnforceConstraint c (MaxRowsPerID n) in
  exact_answer (e_round E) (e_world E) K auto so mu cat data (GroupByCount q k o m co) t ->
  metric_fits (asks_gaussian mu m) s0 -> promises (e_world E) (asks_gaussian mu m) cat data q ->
  finite_ids (e_world E) (asks_gaussian mu m) cat data q -> trackable (e_world E) (asks_gaussian mu m) cat data q ->
  build_transformation (e_world E) (asks_gaussian mu m) cat data c = Ok (T, cs) -> schema_of (w_cond_ok (e_world E)) cat c = Ok s -> sc_id s = Some idc ->
  keys_as_declared k -> keys_columns k = [] ->
  forall r, In r t -> whole_number o r (counted_up_to idc n (@length rec) (v_rows T)).
Proof.
  intros E K A auto so st p s0 cat data mu c n k o m co t T cs s idc EC SO H S0 CA DA q AN ME P FI TR BT S ID KD KC.
  destruct (session_meets E st p s0 cat data _ H S0 CA DA ME) as (HO & MADE & IN).
  exact (C84_rows_per_id _ _ K A auto so mu cat data c n k o m co t T cs s idc EC SO HO MADE AN (conj IN (conj P (conj FI TR))) BT S ID KD KC).
Qed.
Print Assumptions C84_session_rows_per_id.

Theorem C84_session_rows_per_group_per_id : forall E K A auto so st p s0 cat data mu c g n k o m co t T cs s idc,
  exact_core K A -> (forall l, Permutation (so l) l) -> honest_state true E st -> session st p s0 ->
  catalog_of (s_tree s0) (st_public st) (s_cons s0) = Ok cat -> data_of (s_tree s0) = Ok data ->
  let q := EnforceConstraint c (MaxRowsPerGroupPerID g n) in
  exact_answer (e_round E) (e_world E) K auto so mu cat data (GroupByCount q k o m co) t ->
  metric_fits (asks_gaussian mu m) s0 -> promises (e_world E) (asks_gaussian mu m) cat data q ->
  finite_ids (e_world E) (asks_gaussian mu m) cat data q -> trackable (e_world E) (asks_gaussian mu m) cat data q ->
  build_transformation (e_world E) (asks_gaussian mu m) cat data c = Ok (T, cs) -> schema_of (w_cond_ok (e_world E)) cat c = Ok s -> sc_id s = Some idc ->
  keys_as_declared k -> keys_columns k = [g] -> o <> g ->
  forall r, In r t -> whole_number o r (counted_up_to idc n (fun rows => length (filter (has_value g (getv g r)) rows)) (v_rows T)).
Proof.
  intros E K A auto so st p s0 cat data mu c g n k o m co t T cs s idc EC SO H S0 CA DA q AN ME P FI TR BT S ID KD KC OG.
  destruct (session_meets E st p s0 cat data _ H S0 CA DA ME) as (HO & MADE & IN).
  exact (C84_rows_per_group_per_id _ _ K A auto so mu cat data c g n k o m co t T cs s idc EC SO HO MADE AN (conj IN (conj P (conj FI TR))) BT S ID KD KC OG).
Qed.
Print Assumptions C84_session_rows_per_group_per_id.
Theorem C84_session_groups_per_id : forall E K A auto so st p s0 cat data mu c g n k o m co t T cs s idc,
  exact_core K A -> (forall l, Permutation (so l) l) -> honest_state true E st -> session st p s0 ->
  catalog_of (s_tree s0) (st_public st) (s_cons s0) = Ok cat -> data_of (s_tree s0) = Ok data ->
  let q := EnforceConstraint c (MaxGroupsPerID g n) in
  exact_answer (e_round E) (e_world E) K auto so mu cat data (GroupByCountDistinct q k [idc; g] o m co) t ->
  metric_fits (asks_gaussian mu m) s0 -> promises (e_world E) (asks_gaussian mu m) cat data q ->
  finite_ids (e_world E) (asks_gaussian mu m) cat data q -> trackable (e_world E) (asks_gaussian mu m) cat data q ->
  build_transformation (e_world E) (asks_gaussian mu m) cat data c = Ok (T, cs) -> schema_of (w_cond_ok (e_world E)) cat c = Ok s -> sc_id s = Some idc ->
  keys_as_declared k -> keys_columns k = [] ->
  forall r, In r t -> whole_number o r (counted_up_to idc n (fun rows => length (distinct_values g rows)) (v_rows T)).
Proof.
  intros E K A auto so st p s0 cat data mu c g n k o m co t T cs s idc EC SO H S0 CA DA q AN ME P FI TR BT S ID KD KC.
  destruct (session_meets E st p s0 cat data _ H S0 CA DA ME) as (HO & MADE & IN).
  exact (C84_groups_per_id _ _ K A auto so mu cat data c g n k o m co t T cs s idc EC SO HO MADE AN (conj IN (conj P (conj FI TR))) BT S ID KD KC).
Qed.
Print Assumptions C84_session_groups_per_id.
Theorem C84_session_higher_bounds : forall E K A auto so st p s0 cat data mu mu' c k0 n n' k k' o o' m m' co co' t t' T cs s idc,
  exact_core K A -> (forall l, Permutation (so l) l) -> honest_state true E st -> session st p s0 ->
  catalog_of (s_tree s0) (st_public st) (s_cons s0) = Ok cat -> data_of (s_tree s0) = Ok data -> n <= n' ->
  exact_answer (e_round E) (e_world E) K auto so mu cat data (GroupByCount (EnforceConstraint c (of_kind k0 n)) k o m co) t ->
  exact_answer (e_round E) (e_world E) K auto so mu' cat data (GroupByCount (EnforceConstraint c (of_kind k0 n')) k' o' m' co') t' ->
  asks_gaussian mu m = asks_gaussian mu' m' -> metric_fits (asks_gaussian mu' m') s0 ->
  (forall q, In q [EnforceConstraint c (of_kind k0 n); EnforceConstraint c (of_kind k0 n')] -> promises (e_world E) (asks_gaussian mu' m') cat data q
     /\ finite_ids (e_world E) (asks_gaussian mu' m') cat data q /\ trackable (e_world E) (asks_gaussian mu' m') cat data q) ->
  build_transformation (e_world E) (asks_gaussian mu' m') cat data c = Ok (T, cs) -> schema_of (w_cond_ok (e_world E)) cat c = Ok s -> sc_id s = Some idc ->
  keys_as_declared k -> keys_as_declared k' -> keys_columns k = keys_columns k' -> ~ In o (keys_columns k) -> ~ In o' (keys_columns k') ->
  forall r r', In r t -> In r' t' -> (forall x, In x (keys_columns k) -> getv x r = getv x r') ->
  exists x x', whole_number o r x /\ whole_number o' r' x' /\ x <= x' /\ x' <= length (rows_with_key (keys_columns k') r' (v_rows T)).
Proof.
  intros E K A auto so st p s0 cat data mu mu' c k0 n n' k k' o o' m m' co co' t t' T cs s idc EC SO H S0 CA DA LE A1 A2 EQ ME PF BT S ID D D' KK NO NO'.
  destruct (session_meets E st p s0 cat data _ H S0 CA DA ME) as (HO & MADE & IN).
  exact (C84_higher_bounds _ _ K A auto so mu mu' cat data c k0 n n' k k' o o' m m' co co' t t' T cs s idc EC SO HO MADE LE A1 A2 EQ
    (conj IN (PF _ (or_introl eq_refl))) (conj IN (PF _ (or_intror (or_introl eq_refl)))) BT S ID D D' KK NO NO').
Qed.
Print Assumptions C84_session_higher_bounds.

(** ** A concrete case: two IDs with two rows each *)
Definition one_each (k : constraint) : query := EnforceConstraint (PrivateSource "people") k.
Definition count_all (c : query) : query := GroupByCount c (KSet [] [[]]) "n" MDefault None.
Definition pairs_all (c : query) : query := GroupByCountDistinct c (KSet [] [[]]) ["id"; "grp"] "n" MDefault None.
Definition by_grp (c : query) : query := GroupByCount c (KCols ["grp"]) "n" MDefault None.
Example C84_case : exists T cs,
  exact_core K2 A0 /\ constraints_hold pcat pdata /\ catalog_made pcat
  /\ (forall l2 k, holds_for W0 pcat pdata l2 (one_each k))
  /\ build_transformation W0 false pcat pdata (PrivateSource "people") = Ok (T, cs)
  /\ schema_of (w_cond_ok W0) pcat (PrivateSource "people") = Ok people /\ sc_id people = Some "id"
  /\ keys_as_declared (KSet [] [[]])
  /\ exact_answer exact_rounding W0 K2 true idl PureDP pcat pdata (count_all (one_each (MaxRowsPerID 1))) [[("n", VInt 2)]]
  /\ exact_answer exact_rounding W0 K2 true idl PureDP pcat pdata (count_all (one_each (MaxRowsPerID 2))) [[("n", VInt 4)]]
  /\ exact_answer exact_rounding W0 K2 true idl PureDP pcat pdata (pairs_all (one_each (MaxGroupsPerID "grp" 1))) [[("n", VInt 2)]]
  /\ exact_answer exact_rounding W0 K2 true idl ApproxDP pcat pdata (by_grp (one_each (MaxRowsPerGroupPerID "grp" 1)))
       [[("grp", VNull); ("n", VInt 1)]; [("grp", VStr "x"); ("n", VInt 2)]; [("grp", VStr "y"); ("n", VInt 1)]]
  /\ counted_up_to "id" 1 (@length rec) (v_rows T) = 2.
Proof.
  eexists _, _. split; [exact K2_exact|]. split; [exact pcat_holds|]. split; [exact pcat_made|].
  split. { intros l2 k. destruct (people_holds l2) as (H1 & H2 & H3 & H4). exact (conj H1 (conj H2 (conj H3 H4))). }
  split; [vm_compute; reflexivity|]. split; [reflexivity|]. split; [reflexivity|].
  split. { split; [constructor|]. intros r [<-|[]]. apply row_conformsb_ok. reflexivity. }
  split. { exists (count_all (one_each (MaxRowsPerID 1))), (Pure XPInf). eexists. split; [reflexivity|]. split; [reflexivity|]. split; vm_compute; reflexivity. }
  split. { exists (count_all (one_each (MaxRowsPerID 2))), (Pure XPInf). eexists. split; [reflexivity|]. split; [reflexivity|]. split; vm_compute; reflexivity. }
  split. { exists (pairs_all (one_each (MaxGroupsPerID "grp" 1))), (Pure XPInf). eexists. split; [reflexivity|]. split; [reflexivity|]. split; vm_compute; reflexivity. }
  split. { exists (by_grp (one_each (MaxRowsPerGroupPerID "grp" 1))), (Approx XPInf (XFin 1)). eexists. split; [reflexivity|]. split; [reflexivity|]. split; vm_compute; reflexivity. }
  vm_compute. reflexivity.
Qed.

(** The same in a session that has made views and a partition: the view "few" with one row per ID. *)
Definition fewest : query := EnforceConstraint (PrivateSource "few") (MaxRowsPerID 1).
Example C84_session_case : exists s0 cat data T cs s n,
  let st := run E0 trips_state trips_plan in
  honest_state true E0 st /\ session st [] s0
  /\ catalog_of (s_tree s0) (st_public st) (s_cons s0) = Ok cat /\ data_of (s_tree s0) = Ok data
  /\ exact_answer (e_round E0) (e_world E0) K2 true idl RhoZCDP cat data (count_all fewest) [[("n", VInt (Z.of_nat n))]]
  /\ metric_fits (asks_gaussian RhoZCDP MDefault) s0
  /\ promises (e_world E0) true cat data fewest /\ finite_ids (e_world E0) true cat data fewest /\ trackable (e_world E0) true cat data fewest
  /\ build_transformation (e_world E0) true cat data (PrivateSource "few") = Ok (T, cs)
  /\ schema_of (w_cond_ok (e_world E0)) cat (PrivateSource "few") = Ok s /\ sc_id s <> None
  /\ n < length (v_rows T) /\ 0 < n.
Proof.
  eexists _, _, _, _, _, _, _. cbv zeta. split; [exact trips_honest|]. split; [eexists; split; [vm_compute; reflexivity|reflexivity]|].
  split; [vm_compute; reflexivity|]. split; [vm_compute; reflexivity|].
  split. { exists (count_all fewest), (Zcdp XPInf). eexists. split; [reflexivity|]. split; [reflexivity|]. split; [vm_compute; reflexivity|]. instantiate (1 := 3). vm_compute. reflexivity. }
  split; [left; vm_compute; reflexivity|]. split; [repeat split|]. split; [repeat split|]. split; [repeat split|].
  split; [vm_compute; reflexivity|]. split; [vm_compute; reflexivity|]. split; [discriminate|]. vm_compute. lia.
Qed.
