(** What the rows of some IDs can change in a tree of sessions. *)
From Coq Require Import String Bool Arith ZArith QArith Lia Permutation List.
From Verif Require Import Prelude Budget BudgetProofs Value Rows Constraints ConstraintsSpec ConstraintsProofs Schema SchemaProofs Query Transform TransformSpec
  TransformConform TransformVisit TransformAgree TransformIds QueryProofs QuerySame PropagateProofs Tables TablesProofs
  Accountant AccountantProofs Session SessionSpec SessionMoney SessionSteps SessionTables SessionInv SessionViews SessionWell SessionSound
  BlindSpec Blind BlindSession PersonSpec.
Import ListNotations.
Local Open Scope string_scope.
Local Open Scope nat_scope.

Section Person.
Variable E : env.
Hypothesis BL : blind E.
Variable k : string.
Variable keep : value -> bool.
Notation W := (e_world E).
Notation R := (restrict (Some k) keep).
Notation like := (like k keep).
Notation without := (without k).
Notation follows := (follows k keep).

(** ** Where the result of a query is *)
Lemma visit_coll l2 cat data : forall q t cs, visit W l2 cat data q = Ok (t, cs) -> exists n t0, dget n data = Some t0 /\ v_coll t = v_coll t0.
Proof.
  induction q; intros t0 cs0 H; cbn [visit] in H; try discriminate H;
    try (apply bind_ok in H as ((t, cs) & V & H); specialize (IHq t cs V); destruct IHq as (n0 & t1 & G & C); exists n0, t1; split; [exact G|]; rewrite <- C).
  - unfold visit_source in H. destruct (dget source_id data) as [t|] eqn:G; [|discriminate]. destruct (dget source_id (cat_private cat)) as [[s cs]|]; [|discriminate]. injection H as <- <-. eauto.
  - unfold visit_rename in H. peel H. injection H as <- <-. reflexivity.
  - injection H as <- <-. reflexivity.
  - unfold visit_select in H. peel H. injection H as <- <-. reflexivity.
  - unfold visit_map in H. peel H. injection H as <- <-. reflexivity.
  - unfold visit_flat_map in H. peel H. injection H as <- <-. reflexivity.
  - unfold visit_flat_map_by_id in H. destruct (v_place t); try discriminate. destruct (dget _ (v_dom t)); [|discriminate]. peel H. injection H as <- <-. reflexivity.
  - apply bind_ok in H as ((t, cs) & V & H). apply bind_ok in H as ((t', cs') & V' & H). destruct (IHq1 t cs V) as (n0 & t1 & G & C). exists n0, t1. split; [exact G|]. rewrite <- C.
    unfold visit_join_private in H. apply bind_ok in H as ([] & _ & H). apply bind_ok in H as (((p & lr) & rr) & _ & H). apply bind_ok in H as (d & _ & H). injection H as <- <-. reflexivity.
  - unfold visit_join_public in H. peel H. injection H as <- <-. reflexivity.
  - unfold visit_replace_null in H. peel H. injection H as <- <-. reflexivity.
  - unfold visit_replace_inf in H. peel H. injection H as <- <-. reflexivity.
  - unfold visit_drop_null in H. peel H. injection H as <- <-. reflexivity.
  - unfold visit_drop_inf in H. peel H. injection H as <- <-. reflexivity.
  - unfold visit_enforce in H. peel H. injection H as <- <-. reflexivity.
Qed.

(** ** Corresponding sessions *)
Lemma pair_hide st st' p s s' : same_but_rows st st' -> session st p s -> session st' p s' -> hide_sess s = hide_sess s'.
Proof.
  intros SB S S'. apply session_at_iff in S, S'. pose proof (session_hide st p) as H1. pose proof (session_hide st' p) as H2. rewrite SB, H2, S, S' in H1. cbn in H1. congruence.
Qed.
Lemma step_same st st' o : same_but_rows st st' -> snd (step E st o) = snd (step E st' o) /\ same_but_rows (fst (step E st o)) (fst (step E st' o)).
Proof.
  intros SB. pose proof (step_hide E BL st o) as H1. pose proof (step_hide E BL st' o) as H2. rewrite SB, H2 in H1. unfold hides in H1. split; [congruence|]. unfold same_but_rows. congruence.
Qed.
(** Two trees with the same shape. *)
Lemma shape_find st st' p c c' : same_but_rows st st' -> find p (st_root st) = Some c -> find p (st_root st') = Some c' -> length (a_parts c) = length (a_parts c').
Proof.
  intros SB F F'. unfold same_but_rows, hide_state in SB. assert (RT : amap hide_sess (st_root st) = amap hide_sess (st_root st')) by congruence.
  pose proof (find_amap hide_sess p (st_root st)) as H1. pose proof (find_amap hide_sess p (st_root st')) as H2. rewrite RT, H2, F, F' in H1. cbn in H1.
  assert (C : amap hide_sess c' = amap hide_sess c) by congruence. apply (f_equal (@a_parts _)) in C. rewrite !amap_parts in C. apply (f_equal (@length _)) in C. rewrite !map_length in C. auto.
Qed.
Lemma new_path (t : acct sess) p c i x : find p t = Some c -> ~ data_at t (p ++ [(length (a_parts c), i)])%list x.
Proof.
  intros F (d & FD & _). rewrite find_app, F in FD. cbn in FD. rewrite (proj2 (nth_error_None (a_parts c) (length (a_parts c)))) in FD by lia. discriminate.
Qed.

(** ** Tables *)
Lemma like_refl s : like s s. Proof. intros n. reflexivity. Qed.
Lemma R_coll t : v_coll (R t) = v_coll t. Proof. apply restrict_coll. Qed.
Lemma R_other t t' : v_coll t <> Some k -> R t = R t' -> t = t'.
Proof.
  intros N H. assert (C : v_coll t' = v_coll t) by (rewrite <- (R_coll t), <- (R_coll t'), H; reflexivity).
  assert (X : forall u, v_coll u = v_coll t -> R u = u).
  { intros u Cu. unfold restrict. destruct (v_place u); try reflexivity. destruct (option_eqb String.eqb (v_coll u) (Some k)) eqn:OE; [|reflexivity]. apply (option_eqb_eq String.eqb String.eqb_eq) in OE. congruence. }
  rewrite (X t eq_refl), (X t' C) in H. exact H.
Qed.
(** The new table of a view. *)
Lemma view_like l2 cat data data' q y y' auto : inputs_ok l2 cat data -> inputs_ok l2 cat data' ->
  (forall n, option_map R (dget n data) = option_map R (dget n data')) ->
  built auto q -> promises W l2 cat data q -> promises W l2 cat data' q -> finite_ids W l2 cat data q -> finite_ids W l2 cat data' q ->
  build_transformation W l2 cat data q = Ok y -> build_transformation W l2 cat data' q = Ok y' -> R (fst y) = R (fst y').
Proof.
  intros I1 I2 H B P1 P2 F1 F2 BT BT'. destruct y as (t, cs), y' as (t', cs'). cbn [fst].
  apply build_transformation_ok in BT as (sc & SC & V & _). apply build_transformation_ok in BT' as (_ & _ & V' & _).
  refine (proj1 (outside_ids W l2 cat data data' (Some k) keep auto q sc t cs t' cs' I1 I2 _ B P1 P2 F1 F2 SC V V')).
  intros n. unfold restrict_all. rewrite !(dget_map_val R). apply H.
Qed.
Lemma built_coll l2 cat data q y : build_transformation W l2 cat data q = Ok y -> exists n t0, dget n data = Some t0 /\ v_coll (fst y) = v_coll t0.
Proof. destruct y as (t, cs). intros BT. apply build_transformation_ok in BT as (sc & _ & V & _). exact (visit_coll l2 cat data q t cs V). Qed.

(** ** Partitions *)
Lemma part_like s s' src col values t t1 pl t' t1' pl' b b' name v :
  tables_ok s -> tables_ok s' -> hide_sess s = hide_sess s' -> like s s' ->
  partition_of E s src col values t t1 pl -> partition_of E s' src col values t' t1' pl' ->
  like (part_session b (v_coll t) (v_dom t) name {| t_place := pl; t_rows := filter (has_value col v) (t_rows t1) |})
       (part_session b' (v_coll t') (v_dom t') name {| t_place := pl'; t_rows := filter (has_value col v) (t_rows t1') |})
  \/ without (part_session b (v_coll t) (v_dom t) name {| t_place := pl; t_rows := filter (has_value col v) (t_rows t1) |}).
Proof.
  intros TK TK' HS L P P'. destruct (partition_ids _ _ _ _ _ _ _ _ TK P) as (PT & PI). destruct (partition_ids _ _ _ _ _ _ _ _ TK' P') as (PT' & PI').
  assert (LF : s_left s = s_left s') by (apply (f_equal s_left) in HS; exact HS).
  assert (CO : s_cons s = s_cons s') by (apply (f_equal s_cons) in HS; exact HS).
  pose proof (L src) as LS. rewrite (po_table _ _ _ _ _ _ _ _ P), (po_table _ _ _ _ _ _ _ _ P') in LS. cbn in LS. assert (RT : R t = R t') by congruence. clear LS.
  pose proof (po_truncated _ _ _ _ _ _ _ _ P) as T. pose proof (po_truncated _ _ _ _ _ _ _ _ P') as T'.
  pose proof (po_place _ _ _ _ _ _ _ _ P) as PP. pose proof (po_place _ _ _ _ _ _ _ _ P') as PP'.
  assert (NM : match pl with PKeys _ => v_coll t <> None | PSym => True | _ => False end) by (destruct pl; auto; unfold placed in PT; rewrite PI in PT; exact PT).
  assert (NM' : match pl' with PKeys _ => v_coll t' <> None | PSym => True | _ => False end) by (destruct pl'; auto; unfold placed in PT'; rewrite PI' in PT'; exact PT').
  destruct (option_eqb String.eqb (v_coll t) (Some k)) eqn:OE.
  - apply (option_eqb_eq String.eqb String.eqb_eq) in OE.
    assert (PL : v_place t = v_place t') by (rewrite <- (restrict_place (Some k) keep t), <- (restrict_place (Some k) keep t'), RT; reflexivity).
    assert (DO : v_dom t = v_dom t') by (rewrite <- (restrict_dom (Some k) keep t), <- (restrict_dom (Some k) keep t'), RT; reflexivity).
    assert (CL : v_coll t = v_coll t') by (rewrite <- (R_coll t), <- (R_coll t'), RT; reflexivity).
    destruct (v_place t) as [i| | |] eqn:VP; try (unfold placed in PT; rewrite VP in PT; solve [contradiction|congruence]).
    rewrite <- PL in T'. destruct T as (c & PC & EN). destruct T' as (c' & PC' & EN'). rewrite <- CO, PC in PC'. injection PC' as <-. rewrite <- LF in EN', PP'.
    destruct pl as [i0| | |]; try contradiction.
    + (* the parts keep the IDs *)
      injection PI as <-. destruct pl' as [i1| | |]; try contradiction;
        [|exfalso; destruct c; cbn in EN, EN'; try discriminate; injection EN as <-; injection EN' as <-; cbn [t_place] in PP, PP'; congruence].
      assert (i1 = i) as -> by congruence. left. intros n. rewrite !part_named by (cbn; assumption). cbn. destruct (String.eqb n name); [|reflexivity]. cbn [option_map]. f_equal.
      unfold part_table. cbn [t_place t_rows]. rewrite !restrict_make. rewrite <- CL, <- DO. f_equal. unfold touched. cbn [v_place v_coll]. rewrite OE. cbn [option_eqb]. rewrite String.eqb_refl. cbn [kept].
      assert (RR : filter (fun r => keep (getv i r)) (v_rows t) = filter (fun r => keep (getv i r)) (v_rows t')).
      { apply (f_equal v_rows) in RT. rewrite !restrict_rows in RT. unfold touched in RT. rewrite VP, <- PL, <- CL, OE in RT. cbn in RT. rewrite String.eqb_refl in RT. exact RT. }
      assert (T1 : filter (fun r => keep (getv i r)) (t_rows t1) = filter (fun r => keep (getv i r)) (t_rows t1')).
      { destruct c as [m|g m|g m]; unfold enforce in EN, EN'; cbn [t_place t_rows] in EN, EN'; try discriminate.
        - injection EN as <-. cbn [t_place] in PP. discriminate.
        - injection EN as <-. injection EN' as <-. pose proof (enforce_rows_by_id (w_row_order W) (w_key_order W) i (MaxGroupsPerID g m)) as BY. cbn [enforce_rows] in BY. cbn [t_rows]. rewrite (BY _ keep), (BY _ keep). rewrite RR. reflexivity. }
      change (filter (fun r => keep (getv i r)) (filter (has_value col v) (t_rows t1)) = filter (fun r => keep (getv i r)) (filter (has_value col v) (t_rows t1'))).
      rewrite (filter_comm _ _ (t_rows t1)), T1, (filter_comm _ _ (t_rows t1')). reflexivity.
    + right. intros n t0. rewrite part_named by exact I. cbn. destruct (String.eqb n name); [|discriminate]. intros H. injection H as <-. discriminate.
  - assert (NC : v_coll t <> Some k) by (intros EQ; rewrite EQ in OE; cbn in OE; rewrite String.eqb_refl in OE; discriminate).
    pose proof (R_other t t' NC RT) as <-. left.
    assert (t1 = t1') as <- by (destruct (v_place t); try congruence; destruct T as (c & PC & EN); destruct T' as (c' & PC' & EN'); rewrite <- CO, PC in PC'; injection PC' as <-; rewrite <- LF in EN'; congruence).
    assert (pl = pl') as <- by (rewrite <- LF in PP'; congruence).
    intros n. rewrite !part_named by (cbn; exact NM). reflexivity.
Qed.
Lemma part_without s src col values t t1 pl b name v : tables_ok s -> without s -> partition_of E s src col values t t1 pl ->
  without (part_session b (v_coll t) (v_dom t) name {| t_place := pl; t_rows := filter (has_value col v) (t_rows t1) |}).
Proof.
  intros TK WO P. destruct (partition_ids _ _ _ _ _ _ _ _ TK P) as (PT & PI). pose proof (WO _ _ (po_table _ _ _ _ _ _ _ _ P)) as NC.
  assert (NM : match pl with PKeys _ => v_coll t <> None | PSym => True | _ => False end) by (destruct pl; auto; unfold placed in PT; rewrite PI in PT; exact PT).
  intros n t0. rewrite part_named by (cbn; exact NM). cbn. destruct (String.eqb n name); [|discriminate]. intros H. injection H as <-. cbn. destruct pl; congruence.
Qed.

(** ** One step *)
(** Calls that leave the tables alone. *)
Definition unmoved (st st1 : state) : Prop := forall p s1, session st1 p s1 -> exists s, session st p s /\ s_tree s = s_tree s1.
Lemma unmoved_follows st st' st1 st1' : follows st st' -> unmoved st st1 -> unmoved st' st1' -> follows st1 st1'.
Proof.
  intros F U U' p s s' S S'. destruct (U p s S) as (s0 & S0 & T0). destruct (U' p s' S') as (s0' & S0' & T0'). destruct (F p s0 s0' S0 S0') as [L|L].
  - left. intros n. rewrite <- T0, <- T0'. apply L.
  - right. split; [apply L|]. intros n t. rewrite <- T0. apply L.
Qed.
Lemma quiet_unmoved st st1 : quiet st st1 -> unmoved st st1.
Proof. intros Q p s S. exists s. split; [eapply quiet_session; [apply Q|exact S]|reflexivity]. Qed.
Lemma charged_unmoved st st1 p s rest e : session_at st p = Ok s -> ready st st1 p ->
  unmoved st (set_root st1 (change p (set_data (charged s rest e)) (st_root st1))).
Proof.
  intros S RD. destruct (ready_session _ _ _ _ S RD) as (c0 & F0 & D0 & A0). intros q s1 X. apply (data_change_set _ _ _ _ F0) in X as [(-> & ->)|(_ & X)].
  - apply session_at_iff in S. exists s. split; [exact S|reflexivity].
  - exists s1. split; [eapply quiet_session; [apply RD|exact X]|reflexivity].
Qed.

Record good (st : state) : Prop := {
  g_ok : ok (st_root st); g_tables : all_sessions tables_ok st; g_fine : all_sessions fine st;
  g_sound : all_sessions (sound true) st; g_public : sound_public st }.
Lemma step_good st o : good st -> honest_op E true st o -> good (fst (step E st o)).
Proof.
  intros [O T F A P] H. destruct (step E st o) as (st1, r) eqn:ST. cbn [fst]. apply step_effect in ST; [|exact O]. destruct (effect_sound E true st o st1 r T F A P H ST) as (A' & P').
  constructor; try assumption; [eapply effect_ok; eassumption|eapply effect_tables; eassumption|eapply effect_fine; try eassumption; destruct o; cbn in *; tauto].
Qed.

Lemma step_follows st st' o : good st -> good st' -> same_but_rows st st' -> honest_op E true st o -> honest_op E true st' o ->
  follows st st' -> follows (fst (step E st o)) (fst (step E st' o)).
Proof.
  intros [O TA FA A SP] [O' TA' FA' A' SP'] SB HO HO' FW. destruct (step_same st st' o SB) as (SR & SB1).
  destruct (step E st o) as (st1, r) eqn:ST. destruct (step E st' o) as (st1', r') eqn:ST'. cbn [fst snd] in *. subst r'.
  apply step_effect in ST; [|exact O]. apply step_effect in ST'; [|exact O'].
  assert (PUB : st_public st = st_public st') by (apply (f_equal st_public) in SB; exact SB).
  destruct ST as [o st1 e Q|p st1 r Q RT|p q b s adj rest st0 o K S C SD RL RD|p n f f' s names S I PS D M CS
    |p q n c s names cat data y x1 z z' x4 st0 S I PS M D CA DA BT AT AR RN RN2 RD|p n s rf cols x1 x2 st0 S F L RN DT RD
    |p src b col sp s b1 adj y rest space r st0 S LP V I PB CP SD RD G].
  - (* both fail *)
    apply quiet_unmoved in Q. inversion ST' as [o' st1'' e' Q'|p st1'' r' Q' RT'| | | | |p src b col sp s' b1 adj y rest space r' st0' S' LP' V' I' PB' CP' SD' RD' G']; subst.
    + eapply unmoved_follows; [exact FW|exact Q|apply quiet_unmoved, Q'].
    + eapply unmoved_follows; [exact FW|exact Q|apply quiet_unmoved, Q'].
    + destruct (split_space E _ _ _ _ _ _ _ _ _ TA' S' CP' G') as (X & _). discriminate.
  - apply quiet_unmoved in Q. inversion ST'; subst; try (match goal with X : _ = _ \/ _ = _ |- _ => destruct X as [X|X]; discriminate X end);
      (eapply unmoved_follows; [exact FW|exact Q|]); apply quiet_unmoved; assumption.
  - pose proof (charged_unmoved st st0 p s rest (Measured adj) S RD) as U.
    inversion ST' as [|? ? ? ? ? |p' q' b' s' adj' rest' st0' o' K' S' C' SD' RL' RD'| | | |]; subst; try (destruct K as [K|K]; discriminate K).
    eapply unmoved_follows; [exact FW|exact U|]. eapply charged_unmoved; eassumption.
  - inversion ST'; subst; try (match goal with X : _ \/ _ |- _ => destruct X as [X|X]; discriminate X end).
    eapply unmoved_follows; [exact FW| |]; intros q s1 X; exists s1; split; try reflexivity; exact X.
  - (* a view *)
    inversion ST' as [| | o' | |p' q' n' c' s' names' cat' data' y' x1' w w' x4' st0' S' I' PS' M' D' CA' DA' BT' AT' AR' RN' RN2' RD'| |]; subst;
      try (match goal with X : _ = _ \/ _ = _ |- _ => destruct X as [X|X]; discriminate X end).
    destruct (ready_session _ _ _ _ S RD) as (c0 & F0 & D0 & A0). destruct (ready_session _ _ _ _ S' RD') as (c0' & F0' & D0' & A0').
    intros p1 s1 s1' X X'. apply (data_change_set _ _ _ _ F0) in X as [(-> & ->)|(NP & X)]; apply (data_change_set _ _ _ _ F0') in X' as [(EP & ->)|(NP' & X')]; try contradiction.
    2: { apply (FW p1); eapply quiet_session; [apply RD|exact X|apply RD'|exact X']. }
    apply session_at_iff in S, S'. pose proof (pair_hide st st' p s s' SB S S') as HS. destruct HO as (_ & HO). destruct HO' as (_ & HO').
    assert (LF : s_left s = s_left s') by (apply (f_equal s_left) in HS; exact HS).
    assert (CO : s_cons s = s_cons s') by (apply (f_equal s_cons) in HS; exact HS).
    assert (TR : hide_tree (s_tree s) = hide_tree (s_tree s')) by (apply (f_equal s_tree) in HS; exact HS).
    assert (cat' = cat) as -> by (rewrite <- catalog_hide, TR, CO, PUB, catalog_hide, CA' in CA; congruence).
    specialize (HO s cat data S CA DA) as (auto & B & P & ST1). specialize (HO' s' cat data' S' CA' DA') as (auto' & B' & P' & ST1'). destruct (ST1 eq_refl) as (FI & _). destruct (ST1' eq_refl) as (FI' & _).
    destruct (sound_inputs true st s cat data (TA p s S) (FA p s S) (A p s S) SP CA DA) as (IN & _).
    destruct (sound_inputs true st' s' cat data' (TA' p s' S') (FA' p s' S') (A' p s' S') SP' CA' DA') as (IN' & _).
    rewrite <- LF in *.
    destruct (view_tables E q n c (s_tree s) x1 cat data y z z' x4 names (tk_layout s (TA p s S)) PS M DA _ BT AT AR RN RN2) as (L4 & P4).
    destruct (view_tables E q n c (s_tree s') x1' cat data' y' w w' x4' names' (tk_layout s' (TA' p s' S')) PS' M' DA' _ BT' AT' AR' RN' RN2') as (L4' & P4').
    destruct (data_of_spec _ (tk_layout s (TA p s S))) as (da & DA1 & DG). rewrite DA1 in DA. injection DA as ->.
    destruct (data_of_spec _ (tk_layout s' (TA' p s' S'))) as (da' & DA1' & DG'). rewrite DA1' in DA'. injection DA' as ->.
    destruct (FW p s s' S S') as [LK|(NR & WO)].
    + left. intros m. cbn [s_tree with_tables]. rewrite (perm_dget _ _ m (layout_nodup _ L4) P4), (perm_dget _ _ m (layout_nodup _ L4') P4'). cbn. destruct (String.eqb m n); [|apply LK].
      cbn [option_map]. f_equal. apply (view_like _ cat data data' q y y' auto IN IN'); try assumption. intros m'. rewrite DG, DG'. apply LK.
    + right. split; [exact NR|]. intros m t0. cbn [s_tree with_tables]. rewrite (perm_dget _ _ m (layout_nodup _ L4) P4). cbn. destruct (String.eqb m n); [|apply WO].
      intros H. injection H as <-. destruct (built_coll _ _ _ _ _ BT) as (n0 & t0 & G0 & ->). rewrite DG in G0. exact (WO n0 t0 G0).
  - (* deleting *)
    inversion ST' as [| | o' | | |p' n' s' rf' cols' x1' x2' st0' S' F' L' RN' DT' RD'|]; subst;
      try (match goal with X : _ = _ \/ _ = _ |- _ => destruct X as [X|X]; discriminate X end).
    destruct (ready_session _ _ _ _ S RD) as (c0 & F0 & D0 & A0). destruct (ready_session _ _ _ _ S' RD') as (c0' & F0' & D0' & A0').
    intros p1 s1 s1' X X'. apply (data_change_set _ _ _ _ F0) in X as [(-> & ->)|(NP & X)]; apply (data_change_set _ _ _ _ F0') in X' as [(EP & ->)|(NP' & X')]; try contradiction.
    2: { apply (FW p1); eapply quiet_session; [apply RD|exact X|apply RD'|exact X']. }
    apply session_at_iff in S, S'. pose proof (TA p s S) as TK. pose proof (TA' p s' S') as TK'.
    destruct (delete_tables E n _ _ _ _ (tk_layout s TK) F RN DT) as (t & _ & _ & L2 & P2). destruct (delete_tables E n _ _ _ _ (tk_layout s' TK') F' RN' DT') as (t' & _ & _ & L2' & P2').
    assert (DL : forall x x2 u, NoDup (dkeys (named x)) -> Permutation (named x) ((n, u) :: named x2) -> forall m, dget m (named x2) = if String.eqb m n then None else dget m (named x)).
    { clear. intros x x2 u N P m. rewrite (perm_dget _ _ m N P). cbn. destruct (String.eqb_spec m n) as [->|_]; [|reflexivity]. apply dget_None.
      pose proof (Permutation_NoDup (Permutation_map fst P) N) as ND. cbn in ND. inversion ND as [|? ? NI _]. exact NI. }
    destruct (FW p s s' S S') as [LK|(NR & WO)].
    + left. intros m. cbn [s_tree with_tables]. rewrite (DL _ _ _ (layout_nodup _ (tk_layout s TK)) P2), (DL _ _ _ (layout_nodup _ (tk_layout s' TK')) P2'). destruct (String.eqb m n); [reflexivity|apply LK].
    + right. split; [exact NR|]. intros m t0. cbn [s_tree with_tables]. rewrite (DL _ _ _ (layout_nodup _ (tk_layout s TK)) P2). destruct (String.eqb m n); [discriminate|apply WO].
  - (* partitioning *)
    destruct (split_space E _ _ _ _ _ _ _ _ _ TA S CP G) as (-> & G1).
    inversion ST' as [| | o' | | | |p' src' b' col' sp' s' b1' adj' y' rest' space' r' st0' S' LP' V' I' PB' CP' SD' RD' G']; subst;
      try (match goal with X : _ = _ \/ _ = _ |- _ => destruct X as [X|X]; discriminate X end).
    destruct (split_space E _ _ _ _ _ _ _ _ _ TA' S' CP' G') as (_ & G1').
    destruct (ready_session _ _ _ _ S RD) as (c0 & F0 & D0 & A0). destruct (ready_session _ _ _ _ S' RD') as (c0' & F0' & D0' & A0').
    assert (SL : length (a_parts c0) = length (a_parts c0')).
    { assert (N1 : find p (change p (split_at (charged s rest (Split adj)) (map (fun x => part_session adj space (fst y) (fst x) (snd x)) (combine (dkeys sp) (snd y)))) (st_root st0)) = Some (split_at (charged s rest (Split adj)) (map (fun x => part_session adj space (fst y) (fst x) (snd x)) (combine (dkeys sp) (snd y))) c0))
        by (rewrite find_change, F0; reflexivity).
      assert (N2 : find p (change p (split_at (charged s' rest' (Split adj')) (map (fun x => part_session adj' space' (fst y') (fst x) (snd x)) (combine (dkeys sp) (snd y')))) (st_root st0')) = Some (split_at (charged s' rest' (Split adj')) (map (fun x => part_session adj' space' (fst y') (fst x) (snd x)) (combine (dkeys sp) (snd y'))) c0'))
        by (rewrite find_change, F0'; reflexivity).
      pose proof (shape_find _ _ p _ _ SB1 N1 N2) as LE. destruct c0, c0'. cbn in LE. rewrite !app_length in LE. cbn in LE. cbn. lia. }
    intros p1 s1 s1' X X'. apply (data_change_split _ _ _ _ _ F0) in X as [(-> & ->)|[(i & -> & NI)|(NP & X)]]; apply (data_change_split _ _ _ _ _ F0') in X' as [(EP & ->)|[(i' & EP & NI')|(NP' & X')]];
      try contradiction; try (exfalso; apply (f_equal (@length _)) in EP; rewrite ?app_length in EP; cbn in EP; lia).
    + apply session_at_iff in S, S'. destruct (FW p s s' S S') as [LK|(NR & WO)]; [left; exact LK|right; split; [exact NR|exact WO]].
    + assert (i' = i) as -> by (apply app_inv_head in EP; congruence). clear EP.
      rewrite nth_error_map in NI, NI'. destruct (nth_error (combine (dkeys sp) (snd y)) i) as [(nm, part)|] eqn:NC; [|discriminate]. injection NI as <-.
      destruct (nth_error (combine (dkeys sp) (snd y')) i) as [(nm', part')|] eqn:NC'; [|discriminate]. injection NI' as <-. cbn [fst snd].
      apply session_at_iff in S, S'. pose proof (pair_hide st st' p s s' SB S S') as HS.
      destruct (partition_parts E s _ _ _ _ _ (TA p s S) CP) as (t & t1 & pl & PO & ->). destruct (partition_parts E s' _ _ _ _ _ (TA' p s' S') CP') as (t' & t1' & pl' & PO' & ->). cbn [fst snd] in *.
      rewrite (get_id_space_spec _ _ _ _ (tk_layout s (TA p s S)) (po_table _ _ _ _ _ _ _ _ PO)) in G1. injection G1 as <-.
      rewrite (get_id_space_spec _ _ _ _ (tk_layout s' (TA' p s' S')) (po_table _ _ _ _ _ _ _ _ PO')) in G1'. injection G1' as <-.
      rewrite map_map in NC, NC'. unfold dkeys in NC, NC'.
      assert (CB : forall B (f : string * value -> B) (l : list (string * value)), combine (map fst l) (map f l) = map (fun e => (fst e, f e)) l) by (clear; intros B f l; induction l as [|e l IH]; [reflexivity|cbn; rewrite IH; reflexivity]).
      rewrite CB, nth_error_map in NC, NC'. destruct (nth_error sp i) as [(nm0, v)|]; [|discriminate]. cbn in NC, NC'. injection NC as <- <-. injection NC' as <- <-.
      destruct (FW p s s' S S') as [LK|(NR & WO)].
      * assert (NE : (p ++ [(length (a_parts c0), i)])%list <> []) by (destruct p; discriminate).
        destruct (part_like s s' src col _ t t1 pl t' t1' pl' adj adj' nm0 v (TA p s S) (TA' p s' S') HS LK PO PO') as [Z|Z]; [left; exact Z|right; split; [exact NE|exact Z]].
      * right. split; [destruct p; discriminate|]. eapply part_without; eauto.
    + exfalso. rewrite SL in X'. exact (new_path _ _ _ _ _ F0' X').
    + exfalso. rewrite EP, <- SL in X. exact (new_path _ _ _ _ _ F0 X).
    + apply (FW p1); eapply quiet_session; [apply RD|exact X|apply RD'|exact X'].
Qed.

(** ** Histories *)
Lemma run_follows l : forall st st', good st -> good st' -> same_but_rows st st' -> honest E true st l -> honest E true st' l -> follows st st' ->
  follows (run E st l) (run E st' l).
Proof.
  induction l as [|o l IH]; intros st st' G G' SB H H' F; [exact F|]. cbn [honest] in H, H'. destruct H as (H1 & H2). destruct H' as (H1' & H2'). cbn.
  apply IH; try assumption; [apply step_good; assumption|apply step_good; assumption|apply (step_same st st' o SB)|apply step_follows; assumption].
Qed.
End Person.
