(** Compiling and running aggregations over tables that differ only in the order of rows. *)
From Coq Require Import String Bool Arith ZArith QArith Qcanon Lia Permutation List.
From Verif Require Import Prelude Budget Value Rows Constraints ConstraintsProofs Schema Query Rewrite Transform
  QueryLike Measure.
Import ListNotations.
Local Open Scope string_scope.
Local Open Scope nat_scope.

(** ** Specification *)

(** Both succeed, with related results, or both raise the same exception. *)
Definition both {A B} (R : A -> B -> Prop) (x : res A) (y : res B) : Prop :=
  match x, y with Ok a, Ok b => R a b | Err e, Err e' => e = e' | _, _ => False end.

Definition plan_like (g g' : plan) : Prop :=
  tab_like (g_table g) (g_table g') /\ g_keys g = g_keys g' /\ g_keys_budget g = g_keys_budget g' /\ g_agg g = g_agg g'
  /\ g_mech g = g_mech g' /\ g_budget g = g_budget g' /\ g_outs g = g_outs g'.
Fixpoint measurement_like (m m' : measurement) : Prop :=
  match m, m' with
  | MGroupBy b g, MGroupBy b' g' => b = b' /\ plan_like g g'
  | MGroups t l b, MGroups t' l' b' => tab_like t t' /\ l = l' /\ b = b'
  | MSuppress m c t, MSuppress m' c' t' => measurement_like m m' /\ c = c' /\ t = t'
  | _, _ => False
  end.
(** tmlt.core and Spark see bags of rows: what can be built does not depend on the order of
    rows, and neither do the (noisy) answers. *)
Record core_sees_bags (K : core) : Prop := {
  cb_builds : forall g g', plan_like g g' -> k_builds K g = k_builds K g';
  cb_groups : forall t t' b, tab_like t t' -> k_groups_builds K t b = k_groups_builds K t' b;
  cb_loss : forall t t' b, tab_like t t' -> k_groups_loss K t b = k_groups_loss K t' b;
  cb_select : forall b r r', Permutation r r' -> k_select K b r = k_select K b r';
  cb_answer : forall g g' key r r', plan_like g g' -> Permutation r r' -> k_answer K g key r = k_answer K g' key r'
}.

(** ** Proofs *)

Lemma both_bind {A B C D} (R : A -> B -> Prop) (S : C -> D -> Prop) x y f g : both R x y -> (forall a b, R a b -> both S (f a) (g b)) ->
  both S (bind x f) (bind y g).
Proof. destruct x as [a|e], y as [b|e']; cbn [both bind]; intros H F; try contradiction; [apply F, H|exact H]. Qed.
Lemma both_same {A B C} (S : B -> C -> Prop) (x : res A) f g : (forall a, both S (f a) (g a)) -> both S (bind x f) (bind x g).
Proof. intros H. destruct x as [a|e]; cbn [bind]; [apply H|reflexivity]. Qed.
Lemma both_eq {A} (x y : res A) : both eq x y -> x = y.
Proof. destruct x, y; cbn [both]; intros H; try contradiction; congruence. Qed.

Definition pair_like (x y : vtab * list constraint) : Prop := tab_like (fst x) (fst y) /\ snd x = snd y.
Lemma outcome_both x y : outcome_like x y <-> both pair_like x y.
Proof. destruct x as [[t cs]|e], y as [[t' cs']|e']; cbn [outcome_like both pair_like fst snd]; reflexivity. Qed.

Definition tbl_like (x y : tbl) : Prop := t_place x = t_place y /\ Permutation (t_rows x) (t_rows y).
Section Enforce.
Variables (ro : order rec) (ko : value -> order value).
Lemma enforce_like c u l x y : tbl_like x y -> both tbl_like (enforce ro ko c u l x) (enforce ro ko c u l y).
Proof.
  destruct x as [p r], y as [p' r']. intros [E P]. cbn [t_place t_rows] in *. subst p'.
  assert (A := fun i c => enforce_rows_same ro ko i c r r' P).
  destruct c as [m|g m|g m]; cbn [enforce t_place t_rows]; destruct u; destruct p as [i| |h b i|h b]; cbn [both]; try reflexivity;
    try (split; [reflexivity|]; cbn [t_rows];
         first [exact (A i (MaxRowsPerID m))|exact (A i (MaxGroupsPerID g m))|exact (A i (MaxRowsPerGroupPerID g m))]).
  destruct (String.eqb g h); cbn [both]; [|reflexivity]. split; [reflexivity|]. exact (A i (MaxRowsPerGroupPerID g m)).
Qed.
Lemma enforce_all_like mu gr cs : forall x y, tbl_like x y -> both tbl_like (enforce_all ro ko mu gr cs x) (enforce_all ro ko mu gr cs y).
Proof.
  induction cs as [|c cs IH]; intros x y H; cbn [enforce_all]; [exact H|].
  eapply both_bind; [apply enforce_like, H|]. exact IH.
Qed.
Lemma truncate_table_like so mu gr cs x y : tbl_like x y ->
  both tbl_like (truncate_table ro ko so mu gr cs x) (truncate_table ro ko so mu gr cs y).
Proof.
  intros H. unfold truncate_table. rewrite <- (proj1 H). destruct (t_place x); try exact H.
  destruct (choose_trunc so mu gr cs); [apply enforce_all_like, H|reflexivity].
Qed.
End Enforce.

Section Proofs.
Variables (R : rounding) (W : world) (K : core) (auto : bool) (so : list string -> list string) (mu : measure)
  (cat : catalog) (data data' : dict vtab).
Hypothesis (DL : data_like data data') (KB : core_sees_bags K).

Lemma child_like c q : both pair_like (child_table W cat data c q) (child_table W cat data' c q).
Proof.
  apply outcome_both. unfold child_table, build_transformation. apply oc_bind. intros s.
  apply oc_bind2; [apply visit_like; [apply catalog_like_refl|exact DL|apply like_refl]|].
  intros t t' cs T. cbn [fst]. assert (validate (gaussian c) s t = validate (gaussian c) s t') as ->.
  { unfold validate. destruct T as (-> & _ & -> & _). reflexivity. }
  apply oc_bind. intros _. split; [exact T|reflexivity].
Qed.
Lemma truncated_like gr x y : pair_like x y -> both tab_like (truncated W so mu gr x) (truncated W so mu gr y).
Proof.
  destruct x as [t cs], y as [t' cs']. intros [T E]. cbn [fst snd] in *. subst cs'. unfold truncated. cbn [fst snd].
  destruct T as (T1 & T2 & T3 & T4). eapply both_bind.
  - apply truncate_table_like. split; [exact T3|exact T4].
  - intros a b [E P]. cbn [both]. split; [exact T1|]. split; [exact T2|]. split; [exact E|exact P].
Qed.
Lemma unwrap_like t t' : tab_like t t' -> tab_like (unwrap t) (unwrap t').
Proof. intros (A & B & C & D). split; [exact A|]. split; [exact B|]. split; [reflexivity|exact D]. Qed.
Lemma select_like cols t t' cs : tab_like t t' -> both pair_like (visit_select cols (t, cs)) (visit_select cols (t', cs)).
Proof.
  intros (A & B & C & D). unfold visit_select. rewrite <- A, <- B, <- C. apply both_same. intros d. apply both_same. intros _.
  split; [|reflexivity]. cbn [fst]. split; [reflexivity|]. split; [reflexivity|]. split; [reflexivity|]. apply Permutation_map, D.
Qed.
Definition made (x y : measurement * budget) : Prop := measurement_like (fst x) (fst y) /\ snd x = snd y.
Lemma finish_like bs k c a outs t t' : tab_like t t' -> both made (finish K bs k c a outs t) (finish K bs k c a outs t').
Proof.
  intros T. unfold finish. destruct bs as [[adj kb] qb]. cbn [privacy_loss].
  match goal with |- both _ (let* _ := k_builds K ?g in _) (let* _ := k_builds K ?g' in _) =>
    assert (P : plan_like g g') by (repeat split; apply T); rewrite (cb_builds K KB g g' P) end.
  apply both_same. intros _. apply both_same. intros _. split; [split; [reflexivity|exact P]|reflexivity].
Qed.
Lemma loss_like m : forall m', measurement_like m m' -> privacy_loss K m = privacy_loss K m'.
Proof.
  induction m as [b g|t l b|m IH c th]; intros [b' g'|t' l' b'|m' c' th']; cbn [measurement_like]; intros H; try contradiction; cbn [privacy_loss].
  - apply H.
  - destruct H as (H & _ & ->). apply (cb_loss K KB), H.
  - apply IH, H.
Qed.
Lemma count_like b c k o m co : both made (visit_count R W K so mu cat data b c k o m co) (visit_count R W K so mu cat data' b c k o m co).
Proof.
  unfold visit_count. apply both_same. intros bs. apply both_same. intros cm. eapply both_bind; [apply child_like|].
  intros x y P. eapply both_bind; [apply truncated_like, P|]. intros t t' T. apply finish_like, T.
Qed.
Lemma counted_columns_like cols k t t' : tab_like t t' -> both tab_like (counted_columns cols k t) (counted_columns cols k t').
Proof.
  intros T. unfold counted_columns. destruct cols as [|c cols]; [exact T|]. destruct k as [d r|l]; [|reflexivity].
  eapply both_bind; [apply select_like, T|]. intros a b [P _]. exact P.
Qed.
Theorem measure_like q : forall b, both made (measure_query R W K auto so mu cat data b q) (measure_query R W K auto so mu cat data' b q).
Proof.
  induction q; intros b; cbn [measure_query]; try reflexivity.
  - (* get_groups *) unfold visit_groups. apply both_same. intros _. apply both_same. intros s. apply both_same. intros _.
    eapply both_bind; [apply child_like|]. intros x y P. eapply both_bind; [apply truncated_like, P|]. intros t t' T.
    eapply both_bind; [apply select_like, unwrap_like, T|]. intros u v [U _].
    rewrite (cb_groups K KB _ _ b U). apply both_same. intros _. cbn [privacy_loss]. rewrite (cb_loss K KB _ _ b U).
    apply both_same. intros _. split; [|reflexivity]. split; [exact U|]. split; reflexivity.
  - (* get_bounds *) unfold visit_bounds. apply both_same. intros bs. eapply both_bind; [apply child_like|]. intros x y P.
    eapply both_bind; [apply truncated_like, P|]. intros t t' T. apply finish_like, unwrap_like, T.
  - apply count_like.
  - unfold visit_count_distinct. apply both_same. intros bs. apply both_same. intros cm. eapply both_bind; [apply child_like|].
    intros x y P. apply both_same. intros s. rewrite <- (proj2 P).
    destruct (constrained_child q keys columns s (snd x)) as [q'|].
    + apply both_same. intros _. apply count_like.
    + eapply both_bind; [apply truncated_like, P|]. intros t t' T. eapply both_bind; [apply counted_columns_like, T|].
      intros u v U. apply finish_like, U.
  - unfold visit_quantile. apply both_same. intros bs. eapply both_bind; [apply child_like|]. intros x y P.
    eapply both_bind; [apply truncated_like, P|]. intros t t' T. apply finish_like, T.
  - unfold visit_bounded. apply both_same. intros bs. apply both_same. intros cm. eapply both_bind; [apply child_like|]. intros x y P.
    eapply both_bind; [apply truncated_like, P|]. intros t t' T. apply finish_like, T.
  - apply both_same. intros _. eapply both_bind; [apply IHq|]. intros x y [M E]. split; [|exact E]. cbn [fst].
    split; [exact M|]. split; reflexivity.
Qed.
Theorem compile_like b q :
  both measurement_like (compile R W K auto so mu cat data b q) (compile R W K auto so mu cat data' b q).
Proof.
  unfold compile. apply both_same. intros _. apply both_same. intros q'. eapply both_bind; [apply measure_like|].
  intros [m c] [m' c'] [M E]. cbn [fst snd] in *. subst c'. rewrite (loss_like m m' M). apply both_same. intros _. exact M.
Qed.
Theorem run_like m : forall m', measurement_like m m' -> run_measurement R K m = run_measurement R K m'.
Proof.
  induction m as [b g|t l b|m IH c th]; intros [b' g'|t' l' b'|m' c' th']; cbn [measurement_like]; intros H; try contradiction; cbn [run_measurement].
  - destruct H as (-> & P). assert (P' := P). destruct P as ((T1 & T2 & T3 & T4) & P2 & P3 & P4 & P5 & P6 & P7).
    unfold run_plan, find_keys. rewrite P2, P3. rewrite P6, P7.
    assert (A : forall key, k_answer K g key (group (keys_columns (g_keys g')) key (v_rows (g_table g)))
                          = k_answer K g' key (group (keys_columns (g_keys g')) key (v_rows (g_table g')))).
    { intros key. apply (cb_answer K KB); [exact P'|]. apply Permutation_filter, T4. }
    assert (M : forall keys, map (fun key => (key ++ combine (g_outs g') (k_answer K g key (group (keys_columns (g_keys g')) key (v_rows (g_table g)))))%list) keys
                           = map (fun key => (key ++ combine (g_outs g') (k_answer K g' key (group (keys_columns (g_keys g')) key (v_rows (g_table g')))))%list) keys).
    { intros keys. apply map_ext. intros key. rewrite A. reflexivity. }
    apply both_eq. apply (both_bind eq).
    + destruct (g_keys g') as [d r|cols].
      * destruct (let* _ := raise_if _ _ in _); reflexivity.
      * destruct (g_keys_budget g'); try reflexivity. apply both_same. intros _.
        eapply both_bind; [apply select_like; repeat split; eassumption|]. intros x y [X _].
        rewrite (cb_groups K KB _ _ _ X). apply both_same. intros _. cbn [both]. apply (cb_select K KB), X.
    + intros keys _ <-. apply both_same. intros lf. apply both_same. intros _. cbn [both]. apply M.
  - destruct H as ((_ & _ & _ & P) & _ & ->). rewrite (cb_select K KB b' _ _ P). reflexivity.
  - destruct H as (H & -> & ->). rewrite (IH m' H). reflexivity.
Qed.
End Proofs.
