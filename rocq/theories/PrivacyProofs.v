(** Two sessions of neighbouring datasets, and the answers that an analyst gets from them. *)
From Coq Require Import String Bool Arith ZArith QArith Qcanon Lia Lqa Permutation List.
From Verif Require Import Prelude Budget BudgetProofs Value Rows Constraints ConstraintsSpec ConstraintsProofs Schema SchemaProofs Query RewriteSpec Transform TransformSpec
  TransformConform TransformVisit TransformAgree TransformIds QueryProofs QuerySame PropagateProofs Tables TablesProofs
  Accountant AccountantProofs Session SessionSpec SessionMoney SessionSteps SessionTables SessionInv SessionViews SessionWell SessionSound
  Neighboring Builder Measure MeasureProofs BlindSpec Blind BlindMeasure BlindSession PersonSpec PersonSession PersonStart PersonAbsent
  Distance SensitivitySpec Sensitivity SensitivityCounts Props_Session Props_Measure Props_Person Props_Sensitivity PrivacySpec.
Import ListNotations.
Local Open Scope string_scope.
Local Open Scope nat_scope.

(** ** Sessions that stay alike *)
Section Alike.
Variable E : env.
Hypothesis BL : blind E.
Variable k : string.
Variable keep : value -> bool.
Notation W := (e_world E).
Notation R := (restrict (Some k) keep).
Notation like := (like k keep).
Notation without := (without k).
Notation R_other := (R_other k keep).
Notation step_same := (step_same E BL).
Notation view_like := (view_like E k keep).

Definition alike (st st' : state) : Prop := forall p s s', session st p s -> session st' p s' -> like s s'.
Lemma unmoved_alike st st' st1 st1' : alike st st' -> unmoved st st1 -> unmoved st' st1' -> alike st1 st1'.
Proof.
  intros F U U' p s s' S S'. destruct (U p s S) as (s0 & S0 & T0). destruct (U' p s' S') as (s0' & S0' & T0'). pose proof (F p s0 s0' S0 S0') as L.
  intros n. rewrite <- T0, <- T0'. apply L.
Qed.
(** Partitions of tables outside of the ID space. *)
Lemma part_alike s s' src col values t t1 pl t' t1' pl' b b' name v :
  tables_ok s -> tables_ok s' -> hide_sess s = hide_sess s' -> like s s' ->
  partition_of E s src col values t t1 pl -> partition_of E s' src col values t' t1' pl' -> v_coll t <> Some k ->
  like (part_session b (v_coll t) (v_dom t) name {| t_place := pl; t_rows := filter (has_value col v) (t_rows t1) |})
       (part_session b' (v_coll t') (v_dom t') name {| t_place := pl'; t_rows := filter (has_value col v) (t_rows t1') |}).
Proof.
  intros TK TK' HS L P P' NC. destruct (partition_ids _ _ _ _ _ _ _ _ TK P) as (PT & PI).
  assert (LF : s_left s = s_left s') by (apply (f_equal s_left) in HS; exact HS).
  assert (CO : s_cons s = s_cons s') by (apply (f_equal s_cons) in HS; exact HS).
  pose proof (L src) as LS. rewrite (po_table _ _ _ _ _ _ _ _ P), (po_table _ _ _ _ _ _ _ _ P') in LS. cbn in LS. assert (RT : R t = R t') by congruence. clear LS.
  pose proof (po_truncated _ _ _ _ _ _ _ _ P) as T. pose proof (po_truncated _ _ _ _ _ _ _ _ P') as T'.
  pose proof (po_place _ _ _ _ _ _ _ _ P) as PP. pose proof (po_place _ _ _ _ _ _ _ _ P') as PP'.
  assert (NM : match pl with PKeys _ => v_coll t <> None | PSym => True | _ => False end) by (destruct pl; auto; unfold placed in PT; rewrite PI in PT; exact PT).
  pose proof (R_other t t' NC RT) as <-.
  assert (t1 = t1') as <- by (destruct (v_place t); try congruence; destruct T as (c & PC & EN); destruct T' as (c' & PC' & EN'); rewrite <- CO, PC in PC'; injection PC' as <-; rewrite <- LF in EN'; congruence).
  assert (pl = pl') as <- by (rewrite <- LF in PP'; congruence).
  intros n. rewrite !part_named by (cbn; exact NM). reflexivity.
Qed.

Lemma step_alike st st' o : good st -> good st' -> same_but_rows st st' -> honest_op E true st o -> honest_op E true st' o ->
  (forall p src b col sp s t, o = Partition p src b col sp -> session st p s -> dget src (named (s_tree s)) = Some t -> v_coll t <> Some k) ->
  alike st st' -> alike (fst (step E st o)) (fst (step E st' o)).
Proof.
  intros [O TA FA A SP] [O' TA' FA' A' SP'] SB HO HO' OUT FW. destruct (step_same st st' o SB) as (SR & SB1).
  destruct (step E st o) as (st1, r) eqn:ST. destruct (step E st' o) as (st1', r') eqn:ST'. cbn [fst snd] in *. subst r'.
  apply step_effect in ST; [|exact O]. apply step_effect in ST'; [|exact O'].
  assert (PUB : st_public st = st_public st') by (apply (f_equal st_public) in SB; exact SB).
  destruct ST as [o st1 e Q|p st1 r Q RT|p q b s adj rest st0 o K S C SD RL RD|p n f f' s names S I PS D M CS
    |p q n c s names cat data y x1 z z' x4 st0 S I PS M D CA DA BT AT AR RN RN2 RD|p n s rf cols x1 x2 st0 S F L RN DT RD
    |p src b col sp s b1 adj y rest space r st0 S LP V I PB CP SD RD G].
  - (* both fail *)
    apply quiet_unmoved in Q. inversion ST' as [o' st1'' e' Q'|p st1'' r' Q' RT'| | | | |p src b col sp s' b1 adj y rest space r' st0' S' LP' V' I' PB' CP' SD' RD' G']; subst.
    + eapply unmoved_alike; [exact FW|exact Q|apply quiet_unmoved, Q'].
    + eapply unmoved_alike; [exact FW|exact Q|apply quiet_unmoved, Q'].
    + destruct (split_space E _ _ _ _ _ _ _ _ _ TA' S' CP' G') as (X & _). discriminate.
  - apply quiet_unmoved in Q. inversion ST'; subst; try (match goal with X : _ = _ \/ _ = _ |- _ => destruct X as [X|X]; discriminate X end);
      (eapply unmoved_alike; [exact FW|exact Q|]); apply quiet_unmoved; assumption.
  - pose proof (charged_unmoved st st0 p s rest (Measured adj) S RD) as U.
    inversion ST' as [|? ? ? ? ? |p' q' b' s' adj' rest' st0' o' K' S' C' SD' RL' RD'| | | |]; subst; try (destruct K as [K|K]; discriminate K).
    eapply unmoved_alike; [exact FW|exact U|]. eapply charged_unmoved; eassumption.
  - inversion ST'; subst; try (match goal with X : _ \/ _ |- _ => destruct X as [X|X]; discriminate X end).
    eapply unmoved_alike; [exact FW| |]; intros q s1 X; exists s1; split; try reflexivity; exact X.
  - (* a view *)
    inversion ST' as [| | o' | |p' q' n' c' s' names' cat' data' y' x1' w w' x4' st0' S' I' PS' M' D' CA' DA' BT' AT' AR' RN' RN2' RD'| |]; subst;
      try (match goal with X : _ = _ \/ _ = _ |- _ => destruct X as [X|X]; discriminate X end).
    destruct (ready_session _ _ _ _ S RD) as (c0 & F0 & D0 & A0). destruct (ready_session _ _ _ _ S' RD') as (c0' & F0' & D0' & A0').
    intros p1 s1 s1' X X'. apply (data_change_set _ _ _ _ F0) in X as [(-> & ->)|(NP & X)]; apply (data_change_set _ _ _ _ F0') in X' as [(EP & ->)|(NP' & X')]; try contradiction.
    2: { apply (FW p1); eapply quiet_session; [apply RD|exact X|apply RD'|exact X']. }
    apply session_at_iff in S, S'. pose proof (pair_hide st st' p s s' SB S S') as HS. destruct HO as (_ & HO). destruct HO' as (_ & HO').
    assert (LF : s_left s = s_left s') by (apply (f_equal s_left) in HS; exact HS).
    assert (CO : s_cons s = s_cons s') by (apply (f_equal s_cons) in HS; exact HS).
    assert (TR : hide_tree (s_tree s) = hide_tree (s_tree s')) by (apply (f_equal s_tree) in HS; exact HS).
    assert (cat' = cat) as -> by (rewrite <- catalog_hide, TR, CO, PUB, catalog_hide, CA' in CA; congruence).
    specialize (HO s cat data S CA DA) as (auto & B & P & ST1). specialize (HO' s' cat data' S' CA' DA') as (auto' & B' & P' & ST1'). destruct (ST1 eq_refl) as (FI & _). destruct (ST1' eq_refl) as (FI' & _).
    destruct (sound_inputs true st s cat data (TA p s S) (FA p s S) (A p s S) SP CA DA) as (IN & _).
    destruct (sound_inputs true st' s' cat data' (TA' p s' S') (FA' p s' S') (A' p s' S') SP' CA' DA') as (IN' & _).
    rewrite <- LF in *.
    destruct (view_tables E q n c (s_tree s) x1 cat data y z z' x4 names (tk_layout s (TA p s S)) PS M DA _ BT AT AR RN RN2) as (L4 & P4).
    destruct (view_tables E q n c (s_tree s') x1' cat data' y' w w' x4' names' (tk_layout s' (TA' p s' S')) PS' M' DA' _ BT' AT' AR' RN' RN2') as (L4' & P4').
    destruct (data_of_spec _ (tk_layout s (TA p s S))) as (da & DA1 & DG). rewrite DA1 in DA. injection DA as ->.
    destruct (data_of_spec _ (tk_layout s' (TA' p s' S'))) as (da' & DA1' & DG'). rewrite DA1' in DA'. injection DA' as ->.
    pose proof (FW p s s' S S') as LK.
    intros m. cbn [s_tree with_tables]. rewrite (perm_dget _ _ m (layout_nodup _ L4) P4), (perm_dget _ _ m (layout_nodup _ L4') P4'). cbn. destruct (String.eqb m n); [|apply LK].
      cbn [option_map]. f_equal. apply (view_like _ cat data data' q y y' auto IN IN'); try assumption. intros m'. rewrite DG, DG'. apply LK.
  - (* deleting *)
    inversion ST' as [| | o' | | |p' n' s' rf' cols' x1' x2' st0' S' F' L' RN' DT' RD'|]; subst;
      try (match goal with X : _ = _ \/ _ = _ |- _ => destruct X as [X|X]; discriminate X end).
    destruct (ready_session _ _ _ _ S RD) as (c0 & F0 & D0 & A0). destruct (ready_session _ _ _ _ S' RD') as (c0' & F0' & D0' & A0').
    intros p1 s1 s1' X X'. apply (data_change_set _ _ _ _ F0) in X as [(-> & ->)|(NP & X)]; apply (data_change_set _ _ _ _ F0') in X' as [(EP & ->)|(NP' & X')]; try contradiction.
    2: { apply (FW p1); eapply quiet_session; [apply RD|exact X|apply RD'|exact X']. }
    apply session_at_iff in S, S'. pose proof (TA p s S) as TK. pose proof (TA' p s' S') as TK'.
    destruct (delete_tables E n _ _ _ _ (tk_layout s TK) F RN DT) as (t & _ & _ & L2 & P2). destruct (delete_tables E n _ _ _ _ (tk_layout s' TK') F' RN' DT') as (t' & _ & _ & L2' & P2').
    assert (DL : forall x x2 u, NoDup (dkeys (named x)) -> Permutation (named x) ((n, u) :: named x2) -> forall m, dget m (named x2) = if String.eqb m n then None else dget m (named x)).
    { clear. intros x x2 u N P m. rewrite (perm_dget _ _ m N P). cbn. destruct (String.eqb_spec m n) as [->|_]; [|reflexivity]. apply dget_None.
      pose proof (Permutation_NoDup (Permutation_map fst P) N) as ND. cbn in ND. inversion ND as [|? ? NI _]. exact NI. }
    pose proof (FW p s s' S S') as LK.
    intros m. cbn [s_tree with_tables]. rewrite (DL _ _ _ (layout_nodup _ (tk_layout s TK)) P2), (DL _ _ _ (layout_nodup _ (tk_layout s' TK')) P2'). destruct (String.eqb m n); [reflexivity|apply LK].
  - (* partitioning *)
    destruct (split_space E _ _ _ _ _ _ _ _ _ TA S CP G) as (-> & G1).
    inversion ST' as [| | o' | | | |p' src' b' col' sp' s' b1' adj' y' rest' space' r' st0' S' LP' V' I' PB' CP' SD' RD' G']; subst;
      try (match goal with X : _ = _ \/ _ = _ |- _ => destruct X as [X|X]; discriminate X end).
    destruct (split_space E _ _ _ _ _ _ _ _ _ TA' S' CP' G') as (_ & G1').
    destruct (ready_session _ _ _ _ S RD) as (c0 & F0 & D0 & A0). destruct (ready_session _ _ _ _ S' RD') as (c0' & F0' & D0' & A0').
    assert (SL : length (a_parts c0) = length (a_parts c0')).
    { assert (N1 : find p (Accountant.change p (split_at (charged s rest (Split adj)) (map (fun x => part_session adj space (fst y) (fst x) (snd x)) (combine (dkeys sp) (snd y)))) (st_root st0)) = Some (split_at (charged s rest (Split adj)) (map (fun x => part_session adj space (fst y) (fst x) (snd x)) (combine (dkeys sp) (snd y))) c0))
        by (rewrite find_change, F0; reflexivity).
      assert (N2 : find p (Accountant.change p (split_at (charged s' rest' (Split adj')) (map (fun x => part_session adj' space' (fst y') (fst x) (snd x)) (combine (dkeys sp) (snd y')))) (st_root st0')) = Some (split_at (charged s' rest' (Split adj')) (map (fun x => part_session adj' space' (fst y') (fst x) (snd x)) (combine (dkeys sp) (snd y'))) c0'))
        by (rewrite find_change, F0'; reflexivity).
      pose proof (shape_find _ _ p _ _ SB1 N1 N2) as LE. destruct c0, c0'. cbn in LE. rewrite !app_length in LE. cbn in LE. cbn. lia. }
    intros p1 s1 s1' X X'. apply (data_change_split _ _ _ _ _ F0) in X as [(-> & ->)|[(i & -> & NI)|(NP & X)]]; apply (data_change_split _ _ _ _ _ F0') in X' as [(EP & ->)|[(i' & EP & NI')|(NP' & X')]];
      try contradiction; try (exfalso; apply (f_equal (@length _)) in EP; rewrite ?app_length in EP; cbn in EP; lia).
    + apply session_at_iff in S, S'. exact (FW p s s' S S').
    + assert (i' = i) as -> by (apply app_inv_head in EP; congruence). clear EP.
      rewrite nth_error_map in NI, NI'. destruct (nth_error (combine (dkeys sp) (snd y)) i) as [(nm, part)|] eqn:NC; [|discriminate]. injection NI as <-.
      destruct (nth_error (combine (dkeys sp) (snd y')) i) as [(nm', part')|] eqn:NC'; [|discriminate]. injection NI' as <-. cbn [fst snd].
      apply session_at_iff in S, S'. pose proof (pair_hide st st' p s s' SB S S') as HS.
      destruct (partition_parts E s _ _ _ _ _ (TA p s S) CP) as (t & t1 & pl & PO & ->). destruct (partition_parts E s' _ _ _ _ _ (TA' p s' S') CP') as (t' & t1' & pl' & PO' & ->). cbn [fst snd] in *.
      rewrite (get_id_space_spec _ _ _ _ (tk_layout s (TA p s S)) (po_table _ _ _ _ _ _ _ _ PO)) in G1. injection G1 as <-.
      rewrite (get_id_space_spec _ _ _ _ (tk_layout s' (TA' p s' S')) (po_table _ _ _ _ _ _ _ _ PO')) in G1'. injection G1' as <-.
      rewrite map_map in NC, NC'. unfold dkeys in NC, NC'.
      assert (CB : forall B (f : string * value -> B) (l : list (string * value)), combine (map fst l) (map f l) = map (fun e => (fst e, f e)) l) by (clear; intros B f l; induction l as [|e l IH]; [reflexivity|cbn; rewrite IH; reflexivity]).
      rewrite CB, nth_error_map in NC, NC'. destruct (nth_error sp i) as [(nm0, v)|]; [|discriminate]. cbn in NC, NC'. injection NC as <- <-. injection NC' as <- <-.
      apply (part_alike s s' src col _ t t1 pl t' t1' pl' adj adj' nm0 v (TA p s S) (TA' p s' S') HS (FW p s s' S S') PO PO').
      exact (OUT p src b col sp s t eq_refl S (po_table _ _ _ _ _ _ _ _ PO)).
    + exfalso. rewrite SL in X'. exact (new_path _ _ _ _ _ F0' X').
    + exfalso. rewrite EP, <- SL in X. exact (new_path _ _ _ _ _ F0 X).
    + apply (FW p1); eapply quiet_session; [apply RD|exact X|apply RD'|exact X'].
Qed.
(** Parts have no tables of the ID space. *)
Definition alone (st : state) : Prop := forall p s, session st p s -> p <> [] -> without s.
Lemma effect_alone st o st' r : good st -> alone st ->
  (forall p src b col sp s t, o = Partition p src b col sp -> session st p s -> dget src (named (s_tree s)) = Some t -> v_coll t <> Some k) ->
  effect E st o st' r -> alone st'.
Proof.
  intros [O TA FA SA SP] A OUT H. destruct H as [o st' e Q|p st' r Q _|p q b s adj rest st1 o K S C SD RL RD|p n f f' s names S I PS D M CS
    |p q n c s names cat data y x1 z z' x4 st1 S I PS M D CA DA BT AT AR RN RN2 RD|p n s r cols x1 x2 st1 S F L RN DT RD
    |p src b col sp s b1 adj y rest space r st1 S LP V I PB CP SD RD G].
  - intros p s X; apply A; eapply quiet_session; [apply Q|exact X].
  - intros p' s X; apply A; eapply quiet_session; [apply Q|exact X].
  - destruct (ready_session _ _ _ _ S RD) as (c0 & F0 & D0 & A0). intros q' s' X. apply (data_change_set _ _ _ _ F0) in X as [(-> & ->)|(_ & X)]; [|apply A; eapply quiet_session; [apply RD|exact X]].
    apply session_at_iff in S. intros NE. exact (A p s S NE).
  - intros q' s' X. apply (A q' s'). exact X.
  - destruct (ready_session _ _ _ _ S RD) as (c0 & F0 & D0 & A0). intros q' s' X. apply (data_change_set _ _ _ _ F0) in X as [(-> & ->)|(_ & X)]; [|apply A; eapply quiet_session; [apply RD|exact X]].
    apply session_at_iff in S. pose proof (TA p s S) as TK.
    destruct (view_tables E q n c (s_tree s) x1 cat data y z z' x4 names (tk_layout s TK) PS M DA _ BT AT AR RN RN2) as (L4 & P4).
    destruct (data_of_spec _ (tk_layout s TK)) as (da & DA1 & DG). rewrite DA1 in DA. injection DA as ->.
    intros NE m t0 H. cbn [s_tree with_tables] in H. rewrite (perm_dget _ _ m (layout_nodup _ L4) P4) in H. cbn in H. destruct (String.eqb m n); [|exact (A p s S NE m t0 H)].
    injection H as <-. destruct (built_coll E _ _ _ _ _ BT) as (n0 & t0 & G0 & ->). rewrite DG in G0. exact (A p s S NE n0 t0 G0).
  - destruct (ready_session _ _ _ _ S RD) as (c0 & F0 & D0 & A0). intros q' s' X. apply (data_change_set _ _ _ _ F0) in X as [(-> & ->)|(_ & X)]; [|apply A; eapply quiet_session; [apply RD|exact X]].
    apply session_at_iff in S. pose proof (TA p s S) as TK. destruct (delete_tables E n _ _ _ _ (tk_layout s TK) F RN DT) as (t & _ & _ & L2 & P2).
    intros NP m t0 H. cbn [s_tree s_left s_cons with_tables] in *.
    assert (NE : m <> n).
    { intros ->. pose proof (Permutation_NoDup (Permutation_map fst P2) (layout_nodup _ (tk_layout s TK))) as ND. cbn in ND. inversion ND as [|? ? NI _]. apply NI. apply in_dkeys. eauto. }
    apply (A p s S NP m). rewrite (perm_dget _ _ m (layout_nodup _ (tk_layout s TK)) P2). cbn. destruct (String.eqb_spec m n) as [->|_]; [contradiction|exact H].
  - destruct (ready_session _ _ _ _ S RD) as (c0 & F0 & D0 & A0). destruct (split_space E _ _ _ _ _ _ _ _ _ TA S CP G) as (_ & G').
    intros q' s' X. apply (data_change_split _ _ _ _ _ F0) in X as [(-> & ->)|[(i & -> & NI)|(_ & X)]].
    + apply session_at_iff in S. intros NP. exact (A p s S NP).
    + rewrite nth_error_map in NI. destruct (nth_error (combine (dkeys sp) (snd y)) i) as [(nm, part)|] eqn:NC; [|discriminate]. injection NI as <-.
      apply nth_error_In, in_combine_r in NC. apply session_at_iff in S. destruct (partition_parts E s _ _ _ _ _ (TA p s S) CP) as (t & t1 & pl & PO' & ->).
      cbn [fst snd] in *. apply in_map_iff in NC as (v & <- & _). rewrite (get_id_space_spec _ _ _ _ (tk_layout s (TA p s S)) (po_table _ _ _ _ _ _ _ _ PO')) in G'. injection G' as <-.
      intros _. assert (NC0 : v_coll t <> Some k) by exact (OUT p src b col sp s t eq_refl S (po_table _ _ _ _ _ _ _ _ PO')).
      destruct (partition_ids _ _ _ _ _ _ _ _ (TA p s S) PO') as (PT & PI).
      assert (NM : match pl with PKeys _ => v_coll t <> None | PSym => True | _ => False end) by (destruct pl; auto; unfold placed in PT; rewrite PI in PT; exact PT).
      intros n t0. rewrite part_named by (cbn; exact NM). cbn. destruct (String.eqb n nm); [|discriminate]. intros H. injection H as <-. cbn. destruct pl; congruence.
    + apply A; eapply quiet_session; [apply RD|exact X].
Qed.
End Alike.

(** ** Measurements *)
Lemma hidden_same : forall m m', hide_measurement m = hide_measurement m' -> v_rows (table_of m) = v_rows (table_of m') -> m = m'.
Proof.
  assert (T : forall t t', hide t = hide t' -> v_rows t = v_rows t' -> t = t') by (intros [d c p r] [d' c' p' r'] H E; cbn in *; injection H as -> -> ->; now subst).
  induction m as [u g|t c b|m IH c th]; intros [u' g'|t' c' b'|m' c' th'] H E; cbn in H, E; try discriminate H.
  - assert (u = u') as <- by congruence. assert (H1 : hide_plan g = hide_plan g') by congruence. pose proof (T _ _ (f_equal g_table H1) E) as TE.
    f_equal. pose proof (f_equal g_keys H1) as A1. pose proof (f_equal g_keys_budget H1) as A2. pose proof (f_equal g_agg H1) as A3. pose proof (f_equal g_mech H1) as A4. pose proof (f_equal g_budget H1) as A5. pose proof (f_equal g_outs H1) as A6.
    destruct g, g'. cbn in *. subst. reflexivity.
  - assert (H1 : hide t = hide t') by congruence. rewrite (T _ _ H1 E). congruence.
  - injection H as H -> ->. rewrite (IH _ H E). reflexivity.
Qed.
Section Ext.
Variables (Ro : rounding) (W : world) (K : core) (auto : bool) (so : list string -> list string) (mu : measure) (cat : catalog) (data data' : dict vtab).
Hypothesis Same : forall n, dget n data = dget n data'.
Lemma child_ext c q : child_table W cat data c q = child_table W cat data' c q.
Proof. unfold child_table, build_transformation. rewrite (visit_ext W _ cat data data' q Same). reflexivity. Qed.
Lemma count_ext b c k o m co : visit_count Ro W K so mu cat data b c k o m co = visit_count Ro W K so mu cat data' b c k o m co.
Proof. unfold visit_count. apply bind_ext. intros bs. apply bind_ext. intros x. now rewrite child_ext. Qed.
Lemma measure_ext b q : measure_query Ro W K auto so mu cat data b q = measure_query Ro W K auto so mu cat data' b q.
Proof.
  induction q; cbn [measure_query]; try reflexivity.
  - unfold visit_groups. do 3 (apply bind_ext; intros ?). now rewrite child_ext.
  - unfold visit_bounds. apply bind_ext; intros ?. now rewrite child_ext.
  - apply count_ext.
  - unfold visit_count_distinct. do 2 (apply bind_ext; intros ?). rewrite child_ext. do 2 (apply bind_ext; intros ?).
    destruct (constrained_child _ _ _ _ _); [|reflexivity]. apply bind_ext; intros ?. apply count_ext.
  - unfold visit_quantile. apply bind_ext; intros ?. now rewrite child_ext.
  - unfold visit_bounded. do 2 (apply bind_ext; intros ?). now rewrite child_ext.
  - now rewrite IHq.
Qed.
Lemma compile_ext b q : compile Ro W K auto so mu cat data b q = compile Ro W K auto so mu cat data' b q.
Proof. unfold compile. do 2 (apply bind_ext; intros ?). now rewrite measure_ext. Qed.
End Ext.
Lemma measure_kind a b : same_kind a b -> measure_for a = measure_for b /\ is_rho a = is_rho b.
Proof. destruct a, b; cbn; tauto. Qed.
Lemma loss_ble a b : same_kind a b -> xle (loss a) (loss b) -> xle (delta a) (delta b) -> ble a b.
Proof. destruct a, b; cbn; tauto. Qed.

(** ** Sessions over neighbouring data *)
Section Play.
Variable E : env.
Variable K : core.
Variable auto : bool.
Variable so : list string -> list string.
Variable C : closeness.
Variable noisy : measurement -> dist C table.
Variable sp : string.
Variable j : value.
Hypothesis BL : blind E.
Hypothesis BK : blind_core K.
Hypothesis CW : compiles_with E K auto so.
Hypothesis CAL : forall cat data data' b q m m' c x cs, valid b ->
  compile (e_round E) (e_world E) K auto so (measure_for b) cat data b q = Ok m ->
  compile (e_round E) (e_world E) K auto so (measure_for b) cat data' b q = Ok m' ->
  hide_measurement m = hide_measurement m' ->
  prepared (agg_child q) c -> build_transformation (e_world E) (agg_gaussian (measure_for b) q) cat data c = Ok (x, cs) ->
  apart_at_most so (measure_for b) 1 (agg_columns q) cs (table_of m) (table_of m') -> close C (privacy_loss K m) (noisy m) (noisy m').
Notation keep := (everyone_but j).

Record twin (st st' : state) : Prop := {
  tw_good : good st; tw_good' : good st'; tw_same : same_but_rows st st'; tw_alike : alike sp keep st st';
  tw_alone : alone sp st; tw_lacks : all_sessions (lacks sp keep) st'; tw_books : balanced (payload (st_root st)); tw_books' : balanced (payload (st_root st')) }.
Lemma twin_step st st' o : twin st st' -> fair_op E auto sp st o -> fair_op E auto sp st' o -> twin (fst (step E st o)) (fst (step E st' o)).
Proof.
  intros [G G' SB AL AO LA BB BB'] (HO & FO) (HO' & _).
  assert (OUT : forall p src b col sps s t, o = Partition p src b col sps -> session st p s -> dget src (named (s_tree s)) = Some t -> v_coll t <> Some sp).
  { intros p src b col sps s t -> S D. exact (FO s t S D). }
  constructor; [apply step_good; assumption|apply step_good; assumption|apply (step_same E BL st st' o SB)|apply step_alike; assumption| | | |].
  - destruct (step E st o) as (st1, r) eqn:ST. cbn [fst]. apply step_effect in ST; [|apply G]. exact (effect_alone E sp st o st1 r G AO OUT ST).
  - destruct (step E st' o) as (st1, r) eqn:ST. cbn [fst]. apply step_effect in ST; [|apply G']. eapply effect_lacks; eassumption.
  - destruct (step E st o) as (st1, r) eqn:ST. cbn [fst]. apply step_effect in ST; [|apply G]. apply (effect_balanced E _ _ _ _ ST BB).
  - destruct (step E st' o) as (st1, r) eqn:ST. cbn [fst]. apply step_effect in ST; [|apply G']. apply (effect_balanced E _ _ _ _ ST BB').
Qed.
Lemma root_session st : session st [] (a_data (st_root st)).
Proof. exists (st_root st). split; reflexivity. Qed.
Lemma session_inj st p s s' : session st p s -> session st p s' -> s = s'.
Proof. intros (c & F & <-) (c' & F' & <-). congruence. Qed.
Lemma session_books st p s : balanced (payload (st_root st)) -> session st p s -> books s.
Proof. intros B S. destruct (session_dfind _ _ _ S) as (d & F & <-). eapply balanced_books, balanced_find; eassumption. Qed.
Lemma xle_part x y z : xle (XFin 0) y -> xeq (xadd x y) z -> xle x z.
Proof. intros. destruct x, y, z; cbn in *; try tauto; try lra. Qed.
Lemma spend_ble l b r : valid l -> valid b -> same_kind l b -> spend l b = Some r -> ble r l.
Proof.
  intros V V' KD H. destruct (spend_spec l b r V V' KD H) as [(_ & ->)|(_ & _ & VR & KR & SUM)].
  - destruct l; cbn; try split; apply xle_refl.
  - apply loss_ble; [apply same_kind_sym, KR| |]; (eapply xle_part; [|apply SUM]); [apply loss_nonneg, V'|now left|apply delta_nonneg, V'|now right].
Qed.
Lemma ble_refl b : ble b b. Proof. destruct b; cbn; try split; apply xle_refl. Qed.
(** What is left of the budget of the session that was built never grows. *)
Lemma left_shrinks st o : good st -> balanced (payload (st_root st)) -> ble (s_left (a_data (st_root (fst (step E st o))))) (s_left (a_data (st_root st))).
Proof.
  intros G BB. destruct (step E st o) as (st1, r) eqn:ST. cbn [fst]. apply step_effect in ST; [|apply G].
  assert (QU : forall st1, quiet st st1 -> ble (s_left (a_data (st_root st1))) (s_left (a_data (st_root st)))).
  { intros st2 Q. rewrite (session_inj st [] (a_data (st_root st)) (a_data (st_root st2))); [apply ble_refl|apply root_session|]. eapply quiet_session; [apply Q|apply root_session]. }
  assert (CH : forall p f st0, (forall s, session st p s -> session_at st p = Ok s -> ble (s_left (a_data (f (st_root st0)))) (s_left s)) -> ready st st0 p ->
    (exists s, session_at st p = Ok s) -> ble (s_left (a_data (Accountant.change p f (st_root st0)))) (s_left (a_data (st_root st)))).
  { intros p f st0 H RD (s & S). destruct p as [|(a, i) p].
    - cbn [Accountant.change]. apply H; [apply root_session|]. apply session_at_iff, root_session.
    - replace (a_data (Accountant.change ((a, i) :: p) f (st_root st0))) with (a_data (st_root st0)) by (destruct (st_root st0); reflexivity). apply QU, RD. }
  destruct ST as [o st1 e Q|p st1 r Q RT|p q b s adj rest st0 o KO S CO SD RL RD|p n f f' s names S I PS D M CS
    |p q n c s names cat data y x1 z z' x4 st0 S I PS M D CA DA BT AT AR RN RN2 RD|p n s rf cols x1 x2 st0 S F L RN DT RD
    |p src b col sps s b1 adj y rest space r st0 S LP V I PB CP SD RD GS]; try (apply QU; assumption); try (cbn [st_root]; apply ble_refl); cbn [st_root set_root]; apply CH; try exact RD; try (eexists; exact S);
    intros s2 S2 S2'; rewrite S in S2'; injection S2' as ->; pose proof (session_books st p s2 BB S2) as BO; destruct (st_root st0) as [a0 s0 parts0]; cbn; try apply ble_refl.
  - destruct (compile_adj E _ _ _ _ _ CO) as (VA & KA). apply (spend_ble _ adj); try assumption. apply (bk_left _ BO).
  - apply process_valid in PB as (VA & KA). apply validate_kind in V. apply (spend_ble _ adj); [apply (bk_left _ BO)|exact VA|eapply same_kind_trans; eassumption|exact SD].
Qed.

(** ** One aggregation *)
Lemma evaluated st p q b st1 u : good st -> balanced (payload (st_root st)) -> step E st (Evaluate p q b) = (st1, Ok u) ->
  exists s adj rest cat data m, session st p s /\ session st1 p (charged s rest (Measured adj)) /\ compile_and_get_info E s (st_public st) q b = Ok adj
    /\ spend (s_left s) adj = Some rest /\ valid (s_left s) /\ valid adj /\ same_kind (s_left s) adj
    /\ catalog_of (s_tree s) (st_public st) (s_cons s) = Ok cat /\ data_of (s_tree s) = Ok data
    /\ compile (e_round E) (e_world E) K auto so (measure_for adj) cat data adj q = Ok m /\ measurement_of E K auto so st p q b = Ok m
    /\ ble (privacy_loss K m) adj /\ (p <> [] -> s_left (a_data (st_root st1)) = s_left (a_data (st_root st))).
Proof.
  intros G BB ST. apply step_effect in ST; [|apply G].
  inversion ST as [| |p1 q0 b0 s adj rest st0 o0 OK0 S CO SD RL RD| | | |]; subst. destruct OK0 as [[= <- <- <-]|[=]].
  destruct (ready_session _ _ _ _ S RD) as (c0 & F0 & D0 & A0). pose proof CO as CO1. destruct (compile_adj E _ _ _ _ _ CO) as (VA & KA).
  unfold compile_and_get_info in CO. apply bind_ok in CO as (b1 & LP & CO). apply bind_ok in CO as (? & V & CO). apply bind_ok in CO as (? & _ & CO).
  apply bind_ok in CO as (adj' & PB & CO). apply bind_ok in CO as (cat & CT & CO). apply bind_ok in CO as (? & _ & CO). apply bind_ok in CO as (? & EC & CO).
  injection CO as ->. rewrite CW in EC. apply bind_ok in EC as (data & DO & EC). apply bind_ok in EC as (m & CM & _).
  exists s, adj, rest, cat, data, m. apply session_at_iff in S. pose proof (session_books st p s BB S) as BO.
  split; [exact S|]. split.
  { exists (set_data (charged s rest (Measured adj)) c0). split; [cbn [st_root set_root]; rewrite find_change, F0; reflexivity|destruct c0; reflexivity]. }
  split; [exact CO1|]. split; [exact SD|]. split; [apply (bk_left _ BO)|]. split; [exact VA|]. split; [exact KA|]. split; [exact CT|]. split; [exact DO|]. split; [exact CM|].
  split.
  { unfold measurement_of. rewrite (proj2 (session_at_iff st p s) S). cbn [bind]. rewrite CO1. cbn [bind]. rewrite CT. cbn [bind]. rewrite DO. cbn [bind]. exact CM. }
  split.
  - destruct (C31_loss_within_budget _ _ _ _ _ _ _ _ _ _ _ VA CM) as (KD & L & D). apply loss_ble; assumption.
  - intros NP. destruct p as [|(a, i) p]; [contradiction|]. cbn [st_root set_root].
    replace (a_data (Accountant.change ((a, i) :: p) (set_data (charged s rest (Measured adj))) (st_root st0))) with (a_data (st_root st0)) by (destruct (st_root st0); reflexivity).
    rewrite (session_inj st [] (a_data (st_root st)) (a_data (st_root st0))); [reflexivity|apply root_session|]. eapply quiet_session; [apply RD|apply root_session].
Qed.
Lemma without_same s s' : like sp keep s s' -> without sp s -> forall n, dget n (named (s_tree s)) = dget n (named (s_tree s')).
Proof.
  intros L WO n. specialize (L n). pose proof (WO n) as W1. destruct (dget n (named (s_tree s))) as [t|], (dget n (named (s_tree s'))) as [t'|]; cbn in L; try discriminate L; [|reflexivity].
  f_equal. apply (R_other sp keep t t' (W1 t eq_refl)). congruence.
Qed.
Lemma play_close n : forall a hist st st', twin st st' -> fair E auto sp n a hist st -> fair E auto sp n a hist st' ->
  close C (s_left (a_data (st_root st))) (play E K auto so C noisy n a hist st) (play E K auto so C noisy n a hist st').
Proof.
  induction n as [|n IH]; intros a hist st st' T F F'; cbn [play fair] in *.
  - apply close_same, bk_left, (session_books st []); [apply T|apply root_session].
  - destruct (a hist) as [o|]; [|apply close_same, bk_left, (session_books st []); [apply T|apply root_session]].
    destruct F as (FO & F), F' as (FO' & F'). pose proof (twin_step st st' o T FO FO') as T1.
    destruct (step_same E BL st st' o (tw_same _ _ T)) as (SR & _).
    assert (REST : forall r, possible E st o r -> possible E st' o r -> close C (s_left (a_data (st_root st)))
      (play E K auto so C noisy n a (hist ++ [r])%list (fst (step E st o))) (play E K auto so C noisy n a (hist ++ [r])%list (fst (step E st' o)))).
    { intros r P P'. eapply close_more; [apply (left_shrinks st o); apply T|]. apply IH; [exact T1|apply F, P|apply F', P']. }
    unfold possible in *.
    destruct o as [p q b|p q b|p nm f|p q nm c|p nm|p src b col sps|p]; try (rewrite <- SR; apply REST; rewrite ?SR; reflexivity).
    destruct (step E st (Evaluate p q b)) as (st1, r) eqn:ST. destruct (step E st' (Evaluate p q b)) as (st1', r') eqn:ST'. cbn [fst snd] in *. subst r'.
    destruct r as [u|e]; [|apply REST; reflexivity].
    destruct (evaluated st p q b st1 u (tw_good _ _ T) (tw_books _ _ T) ST) as (s & adj & rest & cat & data & m & S & S1 & CO & SD & VL & VA & KA & CA & DA & CM & MO & LB & NR).
    destruct (evaluated st' p q b st1' u (tw_good' _ _ T) (tw_books' _ _ T) ST') as (s' & adj' & rest' & cat' & data' & m' & S' & S1' & CO' & SD' & VL' & VA' & KA' & CA' & DA' & CM' & MO' & LB' & NR').
    rewrite MO, MO'. destruct T as [G G' SB AL AO LA BB BB']. pose proof (pair_hide st st' p s s' SB S S') as HS. pose proof (f_equal st_public SB) as HP. cbn in HP.
    assert (adj' = adj) as -> by (rewrite <- (compile_hide E BL), HS, (compile_hide E BL), HP, CO' in CO; congruence).
    pose proof (f_equal s_tree HS) as HT. cbn in HT. pose proof (f_equal s_cons HS) as HC. cbn in HC.
    assert (cat' = cat) as -> by (rewrite <- catalog_hide in CA, CA'; rewrite HT, HC, HP in CA; congruence).
    assert (ED : hide_all data' = hide_all data) by (pose proof (data_hide (s_tree s)) as H1; pose proof (data_hide (s_tree s')) as H2; rewrite DA in H1; rewrite DA' in H2; rewrite HT, H2 in H1; cbn in H1; congruence).
    assert (HM : hide_measurement m = hide_measurement m').
    { pose proof (compile_hide' (e_round E) (e_world E) K BK auto so (measure_for adj) cat data adj q) as H1. pose proof (compile_hide' (e_round E) (e_world E) K BK auto so (measure_for adj) cat data' adj q) as H2.
      rewrite CM in H1. rewrite CM', ED, H1 in H2. cbn in H2. congruence. }
    assert (NEXT : forall t, close C (s_left (a_data (st_root st1))) (play E K auto so C noisy n a (hist ++ [Answer t])%list st1) (play E K auto so C noisy n a (hist ++ [Answer t])%list st1'))
      by (intros t; apply IH; [exact T1|apply F; eauto|apply F'; eauto]).
    destruct (list_eq_dec (fun x y : nat * nat => ltac:(decide equality; apply Nat.eq_dec)) p []) as [->|NP].
    + (* the session that was built *)
      assert (ROOT : a_data (st_root st1) = charged s rest (Measured adj)) by (apply (session_inj st1 []); [apply root_session|exact S1]).
      rewrite ROOT in NEXT. cbn [s_left charged] in NEXT. rewrite (session_inj st [] (a_data (st_root st)) s (root_session st) S).
      apply (close_bind C (s_left s) adj rest); try assumption.
      destruct (measure_kind _ _ KA) as (MK & _). destruct FO as (_ & FO). destruct FO' as (_ & FO').
      destruct (FO s cat data S CA DA) as (B & P & FI & ME). destruct (FO' s' cat data' S' CA' DA') as (_ & P' & FI' & ME').
      rewrite <- (f_equal s_left HS : s_left s = s_left s') in P', FI', ME'. rewrite MK in *.
      assert (M1 : measured E K auto so st [] adj q s cat data m) by (constructor; assumption).
      assert (M2 : measured E K auto so st' [] adj q s' cat data' m') by (constructor; try assumption; rewrite <- (f_equal s_left HS : s_left s = s_left s'); assumption).
      destruct (measured_meets _ _ _ _ _ _ _ _ _ _ _ _ G M1) as (_ & MD & MT & DG). destruct (measured_meets _ _ _ _ _ _ _ _ _ _ _ _ G' M2) as (_ & _ & MT' & DG').
      assert (LD : forall x, option_map (restrict (Some sp) keep) (dget x data) = option_map (restrict (Some sp) keep) (dget x data')) by (intros x; rewrite DG, DG'; apply (AL [] s s' S S')).
      assert (AB : absent data' sp j) by (intros x; rewrite DG'; destruct (dget x (named (s_tree s'))) as [t|] eqn:GT; [|reflexivity]; cbn; f_equal; exact (LA [] s' S' x t GT)).
      pose proof (compile_reads (e_round E) (e_world E) K auto so (measure_for adj) cat data data' (Some sp) keep MD LD adj q m m' B MT MT' CM CM') as RD.
      destruct (reads_apart (e_world E) auto so (measure_for adj) cat data data' sp j _ _ _ _ _ 1 MT MT' RD (or_intror (conj eq_refl AB))) as [ER|(c & x & cs & PR & BT & AP)].
      * rewrite (hidden_same m m' HM ER). apply close_same, VA.
      * eapply close_more; [exact LB|]. exact (CAL cat data data' adj q m m' c x cs VA CM CM' HM PR BT AP).
    + assert (SN : forall x, dget x data = dget x data').
      { intros x. destruct (data_of_spec _ (tk_layout s (g_tables _ G p s S))) as (da & DA1 & DG). rewrite DA1 in DA. injection DA as ->.
        destruct (data_of_spec _ (tk_layout s' (g_tables _ G' p s' S'))) as (da' & DA1' & DG'). rewrite DA1' in DA'. injection DA' as ->.
        rewrite DG, DG'. apply without_same; [exact (AL p s s' S S')|exact (AO p s S NP)]. }
      assert (m' = m) as -> by (rewrite (compile_ext _ _ _ _ _ _ cat data data' SN) in CM; congruence).
      rewrite <- (NR NP). apply close_after; [rewrite (NR NP); apply bk_left, (session_books st []); [exact BB|apply root_session]|exact NEXT].
Qed.
End Play.

(** ** Both directions *)
Definition symmetric (C : closeness) : closeness.
Proof.
  refine {| dist := dist C; ret := @ret C; dbind := @dbind C; close := fun b A d d' => close C b d d' /\ close C b d' d |}.
  - intros b A d V. split; apply close_same; exact V.
  - intros b c A d d' L (H & H'). split; (eapply close_more; [exact L|assumption]).
  - intros b A B d f f' V H. split; apply close_after; try exact V; intros a; apply (H a).
  - intros left b rest A B d d' f f' V V' S (H & H') F. split; (eapply close_bind; [exact V|exact V'|exact S|assumption|intros a; apply (F a)]).
Defined.
Lemma play_both E K auto so C noisy sp j n a hist st st' : blind E -> blind_core K -> compiles_with E K auto so -> calibrated E K auto so C noisy ->
  twin sp j st st' -> fair E auto sp n a hist st -> fair E auto sp n a hist st' ->
  close C (s_left (a_data (st_root st))) (play E K auto so C noisy n a hist st) (play E K auto so C noisy n a hist st')
  /\ close C (s_left (a_data (st_root st))) (play E K auto so C noisy n a hist st') (play E K auto so C noisy n a hist st).
Proof.
  intros BL BK CW CAL T F F'. exact (play_close E K auto so (symmetric C) noisy sp j BL BK CW CAL n a hist st st' T F F').
Qed.
