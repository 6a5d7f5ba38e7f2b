(** Builders and their specification. *)
From Coq Require Import String Bool Arith ZArith QArith Lia Permutation List.
From Verif Require Import Prelude Budget BudgetProofs Value Rows Constraints ConstraintsSpec Schema SchemaProofs Query Transform Tables TablesProofs TransformConform TransformAgree
  Accountant AccountantProofs Session SessionSpec SessionTables SessionInv SessionViews Neighboring NeighboringSpec NeighboringProofs NeighboringDistance
  Builder BuilderProofs BuilderTree BuilderBuild BuilderCalls BuilderSpec.
Import ListNotations.
Local Open Scope string_scope.
Local Open Scope nat_scope.
Local Open Scope list_scope.

(** ** Acceptance *)

Lemma check_sensible c : check_change c = Ok tt <-> sensible c.
Proof.
  destruct c as [n|g k m|i s]; cbn.
  - rewrite raise_if_ok. lia.
  - destruct (k <? 1)%Z eqn:K; cbn; [split; [discriminate|lia]|]. rewrite raise_if_ok. lia.
  - destruct (String.eqb s "") eqn:S; cbn.
    + apply String.eqb_eq in S. split; [discriminate|tauto].
    + apply String.eqb_neq in S. rewrite raise_if_ok, String.eqb_neq. tauto.
Qed.
Lemma stored_coerced f : readable f -> coerced (stored f).
Proof. intros (f' & H). unfold stored. rewrite H. eapply coerce_coerced, H. Qed.
Lemma in_stored n f c l : In (n, (f, c)) (stored_private l) <-> exists g, In (n, (g, c)) l /\ f = stored g.
Proof.
  unfold stored_private. rewrite in_map_iff. split.
  - intros ((m, (g, d)) & H & I). cbn in H. injection H as <- <- <-. eauto.
  - intros (g & I & ->). exists (n, (g, c)). auto.
Qed.
Lemma stored_keys l : dkeys (stored_private l) = map fst l.
Proof. unfold dkeys, stored_private. rewrite map_map. reflexivity. Qed.
Lemma stored_public_keys l : dkeys (stored_public l) = map fst l.
Proof. unfold dkeys, stored_public. rewrite map_map. reflexivity. Qed.

Section Accept.
Variable E : env.
(** Calls one after the other, then build(). *)
Definition build_by (l : list bcall) : res opened := let* b := chain E empty_builder l in snd (build E b).
Lemma chain_builder_ok l b : ~ In Build l -> chain E empty_builder l = Ok b -> builder_ok E b.
Proof.
  intros _. assert (G : forall l b0, builder_ok E b0 -> chain E b0 l = Ok b -> builder_ok E b); [|apply G, empty_ok].
  clear l. intros l. induction l as [|c l IH]; intros b0 OK H; cbn in H; [injection H as <-; exact OK|]. apply bind_ok in H as (b1 & H1 & H). eapply IH; [|exact H]. eapply call_keeps; eassumption.
Qed.
Lemma chain_empty l b : ~ In Build l -> (chain E empty_builder l = Ok b <-> accepts E empty_builder l /\ b = after empty_builder l).
Proof. intros NB. apply chain_ok; [exact NB|constructor|constructor]. Qed.
Lemma build_by_iff l : ~ In Build l -> ((exists o, build_by l = Ok o) <-> buildable E l).
Proof.
  intros NB. unfold build_by. split.
  - intros (o & H). apply bind_ok in H as (b & C & H). pose proof (chain_builder_ok l b NB C) as OK. pose proof (build_ready E b OK o H) as (B & P & F & S & R).
    apply (chain_empty l b NB) in C as ((A1 & A2 & A3 & A4 & A5 & A6) & ->). cbn [after empty_builder b_budget b_private b_public b_spaces app opt1] in *.
    constructor.
    + destruct (budgets l) as [|x [|y q]]; [exfalso; apply B; reflexivity|eauto|cbn in A1; lia].
    + intros Z. apply P. rewrite Z. reflexivity.
    + exact A2.
    + rewrite Forall_forall in A3. intros n J. apply A3. rewrite !in_app_iff. exact J.
    + exact A6.
    + intros n f c I. destruct (A4 n f c I) as (C1 & C2). split; [apply check_sensible, C1|]. split; [exact C2|]. apply (F n (stored f) c), in_stored. eauto.
    + exact A5.
    + exact S.
    + intros n f i s I. destruct (R n (stored f) i s) as [J|(J & K)]; [apply in_stored; eauto|auto|]. right. unfold stored_private in J. rewrite map_length in J. auto.
  - intros [(x & BB) BP BN BI BS BF BU BD BE]. assert (A : accepts E empty_builder l).
    { unfold accepts. cbn [empty_builder b_budget b_private b_public b_spaces app opt1 dkeys map]. rewrite BB. split; [cbn; lia|]. split; [exact BN|]. split.
      - apply Forall_forall. intros n J. apply BI. rewrite !in_app_iff in J. exact J.
      - split; [|split; [exact BU|exact BS]]. intros n f c I. destruct (BF n f c I) as (S1 & S2 & _). split; [apply check_sensible, S1|exact S2]. }
    assert (C : chain E empty_builder l = Ok (after empty_builder l)) by (apply chain_empty; auto). rewrite C. cbn [bind].
    destruct (build_ok E (after empty_builder l)) as (x' & names & _ & _ & _ & _ & H); [eapply chain_builder_ok; eassumption| |eauto].
    unfold ready. cbn [after empty_builder b_budget b_private b_public b_spaces app]. rewrite BB. split; [discriminate|]. split; [destruct (privates l); [congruence|discriminate]|].
    split; [intros n f c I; apply in_stored in I as (g & I & ->); apply (BF n g c I)|]. split; [exact BD|].
    intros n f i s I. apply in_stored in I as (g & I & ->). destruct (BE n g i s I) as [J|(J & K)]; [auto|]. right. unfold stored_private. rewrite map_length. auto.
Qed.
(** What is built. *)
Lemma build_by_result l o : ~ In Build l -> build_by l = Ok o -> exists x names, budgets l = [x]
  /\ NoDup names /\ (forall n, In n names <-> In n (map fst (privates l)))
  /\ private_sources (tree_of_sources (is_rho x) (stored_private (privates l))) = Ok names
  /\ o = {| o_state := start_state x (stored_private (privates l)) names (stored_public (publics l)); o_din := start_distances x (stored_private (privates l)) |}.
Proof.
  intros NB H. pose proof (proj1 (build_by_iff l NB) (ex_intro _ o H)) as [(x & BB) _ _ _ _ _ _ _ _]. unfold build_by in H. apply bind_ok in H as (b & C & H). pose proof (chain_builder_ok l b NB C) as OK.
  pose proof (build_ready E b OK o H) as R. destruct (build_ok E b OK R) as (x' & names & B & PS & NN & IN & H'). rewrite H in H'. injection H' as ->.
  apply (chain_empty l b NB) in C as (_ & ->). cbn [after empty_builder b_budget b_private b_public b_spaces app] in *. rewrite BB in B. cbn in B. injection B as <-.
  exists x, names. split; [exact BB|]. split; [exact NN|]. split; [intros n; rewrite IN, stored_keys; reflexivity|]. split; [exact PS|reflexivity].
Qed.
(** The order of the calls does not matter. *)
Lemma perm_flat_map {A B} (f : A -> list B) l l' : Permutation l l' -> Permutation (flat_map f l) (flat_map f l').
Proof. intros P. induction P; cbn; auto; [apply Permutation_app_head; assumption| |etransitivity; eassumption]. rewrite !app_assoc. apply Permutation_app_tail, Permutation_app_comm. Qed.
Lemma buildable_perm l l' : Permutation l l' -> buildable E l -> buildable E l'.
Proof.
  intros P [(x & BB) BP BN BI BS BF BU BD BE].
  pose proof (perm_flat_map (fun c => match c with WithBudget x => [x] | _ => [] end) _ _ P) as P1. fold (budgets l) (budgets l') in P1.
  pose proof (perm_flat_map (fun c => match c with WithPrivate n f p => [(n, (f, p))] | _ => [] end) _ _ P) as P2. fold (privates l) (privates l') in P2.
  pose proof (perm_flat_map (fun c => match c with WithPublic n f => [(n, f)] | _ => [] end) _ _ P) as P3. fold (publics l) (publics l') in P3.
  pose proof (perm_flat_map (fun c => match c with WithIdSpace s => [s] | _ => [] end) _ _ P) as P4. fold (spaces l) (spaces l') in P4.
  constructor.
  - exists x. rewrite BB in P1. apply Permutation_length_1_inv, P1.
  - intros Z. apply BP. rewrite Z in P2. apply Permutation_nil, Permutation_sym, P2.
  - eapply Permutation_NoDup; [|exact BN]. apply Permutation_app; apply Permutation_map; assumption.
  - intros n J. apply BI. pose proof (Permutation_map fst P2) as Q2. pose proof (Permutation_map fst P3) as Q3. destruct J as [J|[J|J]].
    + left. eapply Permutation_in; [apply Permutation_sym, Q2|exact J].
    + right. left. eapply Permutation_in; [apply Permutation_sym, Q3|exact J].
    + right. right. eapply Permutation_in; [apply Permutation_sym, P4|exact J].
  - eapply Permutation_NoDup; eassumption.
  - intros n f c J. apply (BF n). eapply Permutation_in; [apply Permutation_sym, P2|exact J].
  - intros n f J. apply (BU n). eapply Permutation_in; [apply Permutation_sym, P3|exact J].
  - assert (Q : forall n f c, In (n, (f, c)) (stored_private (privates l')) -> In (n, (f, c)) (stored_private (privates l))).
    { intros n f c J. eapply Permutation_in; [apply Permutation_map, Permutation_sym, P2|exact J]. }
    intros n n' f f' i i' s y y' I I'. apply (BD n n' f f' i i' s); auto.
  - intros n f i s J. destruct (BE n f i s) as [K|(K & K')]; [eapply Permutation_in; [apply Permutation_sym, P2|exact J]| |].
    + left. eapply Permutation_in; eassumption.
    + right. split; [|exact K']. rewrite <- K. apply Permutation_length, Permutation_sym, P2.
Qed.
End Accept.

(** ** Distances *)

Lemma alike_entry l l' n f c : alike l l' -> NoDup (dkeys l) -> In (n, (f, c)) l -> exists f', In (n, (f', c)) l' /\ sd_fields f' = sd_fields f /\ In ((n, (f, c)), (n, (f', c))) (combine l l').
Proof.
  revert l'. induction l as [|(m, (g, d)) l IH]; intros [|(m', (g', d')) l'] A N I; try discriminate; [contradiction|]. unfold alike in A. cbn in A. injection A as <- HF <- A.
  destruct I as [I|I].
  - injection I as <- <- <-. exists g'. split; [left; reflexivity|]. split; [symmetry; exact HF|left; reflexivity].
  - inversion N; subst. destruct (IH l' A) as (f' & J1 & J2 & J3); [assumption|exact I|]. exists f'. split; [right; exact J1|]. split; [exact J2|right; exact J3].
Qed.
Lemma alike_keys l l' : alike l l' -> dkeys l = dkeys l'.
Proof. intros A. apply (f_equal (map fst)) in A. rewrite !map_map in A. exact A. Qed.
Lemma alike_changes l l' : alike l l' -> map (fun p => (fst p, snd (snd p))) l = map (fun p => (fst p, snd (snd p))) l'.
Proof. intros A. apply (f_equal (map (fun p => (fst p, snd (snd p))))) in A. rewrite !map_map in A. exact A. Qed.
Lemma combine_alike l l' n f c n' f' c' : alike l l' -> In ((n, (f, c)), (n', (f', c'))) (combine l l') -> In (n, (f, c)) l /\ In (n', (f', c')) l' /\ n' = n /\ c' = c.
Proof.
  revert l'. induction l as [|(m, (g, d)) l IH]; intros [|(m', (g', d')) l'] A I; try discriminate; [contradiction|]. unfold alike in A. cbn in A. injection A as <- HF <- A.
  destruct I as [I|I]; [injection I as <- <- <- <- <- <-; cbn; auto|]. destruct (IH l' A I) as (J1 & J2 & J3 & J4). cbn. auto.
Qed.
Lemma in_space_entry s l l' i a b : alike l l' -> In (i, (a, b)) (in_space_of s l l') <->
  exists n f f', In ((n, (f, AddRowsWithID i s)), (n, (f', AddRowsWithID i s))) (combine l l') /\ a = frame_rows f /\ b = frame_rows f'.
Proof.
  intros AL. unfold in_space_of. rewrite in_flat_map. split.
  - intros (((n, (f, c)), (n', (f', c'))) & I & J). cbn in J. destruct c as [k|g k m|i' s']; try contradiction. destruct (String.eqb s s') eqn:S; [|contradiction]. apply String.eqb_eq in S as <-.
    destruct J as [J|[]]. injection J as <- <- <-. destruct (combine_alike _ _ _ _ _ _ _ _ AL I) as (_ & _ & -> & ->). eauto 6.
  - intros (n & f & f' & I & -> & ->). exists ((n, (f, AddRowsWithID i s)), (n, (f', AddRowsWithID i s))). split; [exact I|]. cbn. rewrite String.eqb_refl. left. reflexivity.
Qed.
Lemma named_sources_nodup l2 l : NoDup (dkeys l) -> NoDup (dkeys (named (tree_of_sources l2 l))).
Proof.
  intros N. unfold tree_of_sources. rewrite named_tree_keys by apply children_flat. apply children_distinct_tables. rewrite keys_changes. exact N.
Qed.
Lemma in_named l2 l n t : NoDup (dkeys l) -> In (n, t) (named (tree_of_sources l2 l)) <-> exists f c, In (n, (f, c)) l /\ t = source_table l2 l f c.
Proof.
  intros N. split.
  - intros I. apply (In_dget _ _ _ (named_sources_nodup l2 l N)) in I. rewrite named_sources in I by exact N. destruct (dget n l) as [(f, c)|] eqn:G; [|discriminate]. cbn in I. injection I as <-. apply dget_In in G. eauto.
  - intros (f & c & I & ->). apply named_source; assumption.
Qed.
Lemma collection_entry l2 s l l' i a b : alike l l' -> NoDup (dkeys l) ->
  In (i, (a, b)) (in_collection s (tree_of_sources l2 l) (tree_of_sources l2 l')) <-> In (i, (a, b)) (in_space_of s l l').
Proof.
  intros AL N. assert (N' : NoDup (dkeys l')) by (rewrite <- (alike_keys _ _ AL); exact N). rewrite (in_space_entry _ _ _ _ _ _ AL). unfold in_collection. rewrite in_flat_map. split.
  - intros ((n, t) & I & J). apply (in_named _ _ _ _ N) in I as (f & c & I & ->). cbn [fst snd] in J. destruct c as [k|g k m|i' s']; cbn [v_coll source_table change_space v_place change_place] in J; try contradiction.
    rewrite (named_sources l2 l' n N') in J. destruct (alike_entry _ _ _ _ _ AL N I) as (f' & I' & _ & IC). rewrite (In_dget _ _ _ N' I') in J. cbn [option_map fst snd v_rows source_table] in J.
    destruct (String.eqb s s') eqn:S; [|contradiction]. apply String.eqb_eq in S as <-. destruct J as [J|[]]. injection J as <- <- <-. eauto 6.
  - intros (n & f & f' & IC & -> & ->). destruct (combine_alike _ _ _ _ _ _ _ _ AL IC) as (I & I' & _). exists (n, source_table l2 l f (AddRowsWithID i s)). split; [apply named_source; assumption|].
    cbn [fst snd v_coll source_table change_space v_place change_place]. rewrite (named_sources l2 l' n N'), (In_dget _ _ _ N' I'). cbn [option_map fst snd v_rows source_table]. rewrite String.eqb_refl. left. reflexivity.
Qed.
Lemma id_changed_ext l m : (forall i a b, In (i, (a, b)) m <-> In (i, (a, b)) l) -> id_changed l -> id_changed m.
Proof. intros H (i & [K|K]); exists i; [left|right]; intros c a b J; apply K, H, J. Qed.
Lemma id_added_ext l m : (forall i a b, In (i, (a, b)) m <-> In (i, (a, b)) l) -> id_added l -> id_added m.
Proof. intros H (i & K & c & a & b & J & NE). exists i. split; [intros c' a' b' J'; apply K, H, J'|]. exists c, a, b. split; [apply H, J|exact NE]. Qed.
Lemma distance_entry x l k d : NoDup (dkeys l) -> In (k, d) (start_distances x l) ->
  (exists n f c, In (n, (f, c)) l /\ k = NamedTable n /\ match c with
     | AddMaxRows m => d = DExact m | AddMaxRowsInMaxGroups g a b => d = if is_rho x then DRoot b a else DExact (b * a) | AddRowsWithID _ _ => False end)
  \/ (exists s n f i, In (n, (f, AddRowsWithID i s)) l /\ k = TableCollection s /\ d = DExact 1).
Proof.
  intros N I. unfold start_distances in I. apply in_map_iff in I as (r & H & I). injection H as <- <-. unfold children_of in I. apply in_app_iff in I as [I|I].
  - left. apply in_flat_map in I as ((n, c) & I & J). apply in_changes in I as (f & I). exists n, f, c. split; [exact I|]. unfold row_relation in J. destruct c; cbn in J; try contradiction; destruct J as [<-|[]]; cbn; auto.
  - right. apply in_map_iff in I as ((s, dd) & <- & I). pose proof (relation_fold (changes l)) as R. rewrite keys_changes in R. specialize (R N). cbn in R. destruct R as (_ & _ & _ & R).
    assert (K : In s (dkeys (spaces_of (changes l)))) by (apply in_map_iff; exists (s, dd); auto). apply R in K as (n & i & K). apply in_changes in K as (f & K). exists s, n, f, i. cbn. auto.
Qed.
Lemma distances_alike x l l' : alike l l' -> start_distances x l = start_distances x l'.
Proof. intros A. unfold start_distances. now rewrite (alike_changes _ _ A). Qed.
Lemma distances_cover x l n f c : NoDup (dkeys l) -> In (n, (f, c)) l ->
  In (match c with AddRowsWithID _ s => TableCollection s | _ => NamedTable n end) (map fst (start_distances x l)).
Proof.
  intros N I. destruct (children_protect (changes l) n c) as (r & J & _ & P); [rewrite keys_changes; exact N|apply in_changes; eauto|].
  unfold start_distances. rewrite map_map. apply in_map_iff. exists r. split; [|exact J]. cbn. destruct c, r; cbn in P; try contradiction; cbn; f_equal; tauto.
Qed.
Lemma entry_bounded x l l' k d : NoDup (dkeys l) -> (forall n f c, In (n, (f, c)) l -> sensible c) -> neighbours l l' -> In (k, d) (start_distances x l) ->
  exists n, entry_apart k (tree_of_sources (is_rho x) l) (tree_of_sources (is_rho x) l') n /\ bounds_squared n d.
Proof.
  intros N SE (AL & NR & NI) I. assert (N' : NoDup (dkeys l')) by (rewrite <- (alike_keys _ _ AL); exact N).
  destruct (distance_entry _ _ _ _ N I) as [(n & f & c & J & -> & D)|(s & n & f & i & J & -> & ->)].
  - destruct (alike_entry _ _ _ _ _ AL N J) as (f' & J' & _ & _). specialize (NR _ _ _ _ _ J J'). specialize (SE _ _ _ J).
    exists (apart_squared (change_place (is_rho x) c) (frame_rows f) (frame_rows f')). split.
    + cbn [entry_apart]. exists (source_table (is_rho x) l f c), (source_table (is_rho x) l' f' c). rewrite !named_sources, (In_dget _ _ _ N J), (In_dget _ _ _ N' J') by assumption. cbn. auto.
    + destruct c as [m|g a b|]; cbn in SE; [| |contradiction]; unfold bounds_squared; cbn [change_place].
      * subst d. apply rows_changed_iff in NR. cbn. split; [|lia]. pose proof (Nat.mul_le_mono _ _ _ _ NR NR). nia.
      * subst d. destruct (is_rho x); cbn.
        -- apply groups_square in NR. split; [|lia]. apply Nat2Z.inj_le in NR. rewrite !Nat2Z.inj_mul, !Z2Nat.id in NR by lia. lia.
        -- apply groups_linear in NR. split; [|nia]. apply Nat2Z.inj_le in NR. rewrite !Nat2Z.inj_mul, !Z2Nat.id in NR by lia. rewrite Nat2Z.inj_mul. nia.
  - exists (keys_distance (in_collection s (tree_of_sources (is_rho x) l) (tree_of_sources (is_rho x) l')) * keys_distance (in_collection s (tree_of_sources (is_rho x) l) (tree_of_sources (is_rho x) l'))).
    split; [reflexivity|]. assert (K : keys_distance (in_collection s (tree_of_sources (is_rho x) l) (tree_of_sources (is_rho x) l')) <= 1).
    { apply id_changed_iff. eapply id_changed_ext; [|apply (NI s)]. intros i' a b. apply collection_entry; assumption. }
    revert K. generalize (keys_distance (in_collection s (tree_of_sources (is_rho x) l) (tree_of_sources (is_rho x) l'))). intros z K. unfold bounds_squared, squared. split; [|lia]. destruct z as [|[|z]]; cbn; lia.
Qed.
Lemma entry_reached x l l' k d : NoDup (dkeys l) -> (forall n f c, In (n, (f, c)) l -> sensible c) -> far_neighbours l l' -> In (k, d) (start_distances x l) ->
  exists n, entry_apart k (tree_of_sources (is_rho x) l) (tree_of_sources (is_rho x) l') n /\ Z.of_nat n = squared d.
Proof.
  intros N SE (AL & NR) I. assert (N' : NoDup (dkeys l')) by (rewrite <- (alike_keys _ _ AL); exact N).
  destruct (distance_entry _ _ _ _ N I) as [(n & f & c & J & -> & D)|(s & n & f & i & J & -> & ->)].
  - destruct (alike_entry _ _ _ _ _ AL N J) as (f' & J' & _ & _). specialize (NR _ _ _ _ _ J J'). specialize (SE _ _ _ J).
    exists (apart_squared (change_place (is_rho x) c) (frame_rows f) (frame_rows f')). split.
    + cbn [entry_apart]. exists (source_table (is_rho x) l f c), (source_table (is_rho x) l' f' c). rewrite !named_sources, (In_dget _ _ _ N J), (In_dget _ _ _ N' J') by assumption. cbn. auto.
    + destruct c as [m|g a b|]; cbn in SE; [| |contradiction]; cbn [change_place].
      * subst d. destruct NR as (y & P & L). apply rows_added in P. cbn. rewrite P, L. rewrite Nat2Z.inj_mul, !Z2Nat.id by lia. reflexivity.
      * subst d. destruct (is_rho x); cbn.
        -- apply added_square in NR; [|lia]. rewrite NR. rewrite !Nat2Z.inj_mul, !Z2Nat.id by lia. lia.
        -- apply added_linear in NR; [|lia]. rewrite NR. rewrite !Nat2Z.inj_mul, !Z2Nat.id by lia. lia.
  - exists (keys_distance (in_collection s (tree_of_sources (is_rho x) l) (tree_of_sources (is_rho x) l')) * keys_distance (in_collection s (tree_of_sources (is_rho x) l) (tree_of_sources (is_rho x) l'))).
    split; [reflexivity|]. destruct (alike_entry _ _ _ _ _ AL N J) as (f' & J' & _ & _). specialize (NR _ _ _ _ _ J J'). cbn in NR.
    rewrite id_added_one; [reflexivity|]. eapply id_added_ext; [|exact NR]. intros i' a b. apply collection_entry; assumption.
Qed.
