(** Sessions that were just built from neighbouring datasets. *)
From Coq Require Import String Bool Arith ZArith QArith Qcanon Lia Lqa Permutation List.
From Verif Require Import Prelude Budget BudgetProofs Value Rows Constraints ConstraintsSpec ConstraintsProofs ConstraintsStab Schema SchemaProofs Query Transform TransformSpec
  TransformConform Tables TablesProofs Accountant AccountantProofs Session SessionSpec SessionMoney SessionSteps SessionNames SessionTables SessionInv SessionViews SessionWell
  Neighboring NeighboringSpec NeighboringProofs NeighboringDistance Builder BuilderProofs BuilderTree BuilderBuild BuilderCalls BuilderSpec BuilderNeighbours SessionSound
  BlindSpec Blind BlindSession BlindBuilder PersonSpec PersonSession PersonStart
  Distance StabilitySpec RowStability SensitivitySpec Props_Session Props_Measure PrivacySpec PrivacyProofs Props_Privacy
  FullPrivacySpec FullStability FullSessionSpec FullMoves FullNear FullParts FullPlay.
Import ListNotations.
Local Open Scope string_scope.
Local Open Scope nat_scope.

Section Start.
Variable E : env.
Variables (gone : string -> bool) (who : string -> value).
Lemma changed_hide c c' : changed_call gone who c c' -> hide_call c = hide_call c'.
Proof. destruct c, c'; cbn; try congruence. intros (-> & -> & F & _). unfold hide_frame. now rewrite F. Qed.
Lemma changed_same l l' o o' : ~ In Build l -> ~ In Build l' -> Forall2 (changed_call gone who) l l' -> build_by E l = Ok o -> build_by E l' = Ok o' ->
  same_but_rows (o_state o) (o_state o') /\ o_din o = o_din o'.
Proof.
  intros NB NB' F B B'. apply build_by_brun in B, B'; try assumption. assert (X : map hide_call l = map hide_call l').
  { clear -F. induction F as [|c c' l l' S F IH]; [reflexivity|]. cbn. f_equal; [apply changed_hide, S|exact IH]. }
  pose proof (brun_hide E l empty_builder) as B1. pose proof (brun_hide E l' empty_builder) as B2. rewrite X, B2 in B1.
  pose proof (build_hide_b E (brun E empty_builder l)) as C1. pose proof (build_hide_b E (brun E empty_builder l')) as C2. rewrite B1, C1 in C2.
  destruct (Builder.build E (brun E empty_builder l)) as (b1, r1), (Builder.build E (brun E empty_builder l')) as (b2, r2). cbn [snd fst] in *. subst r1 r2. cbn [rmap] in C2.
  assert (HO : hide_opened o = hide_opened o') by congruence. split; [exact (f_equal o_state HO)|exact (f_equal o_din HO)].
Qed.
Definition rows_apart (x : Neighboring.change) (a b : table) : Prop :=
  match x with
  | AddMaxRows k => rows_changed (Z.to_nat k) a b
  | AddMaxRowsInMaxGroups g k m => groups_changed g (Z.to_nat k) (Z.to_nat m) a b
  | AddRowsWithID i s => filter (fun r => everyone_but (who s) (getv i r)) a = filter (fun r => everyone_but (who s) (getv i r)) b
      /\ if gone s then filter (fun r => everyone_but (who s) (getv i r)) b = b else filter (fun r => everyone_but (who s) (getv i r)) a = a
  end.
Lemma changed_frames l l' : Forall2 (changed_call gone who) l l' -> forall n f c, In (n, (f, c)) (privates l) ->
  exists f', In (n, (f', c)) (privates l') /\ sd_fields f = sd_fields f' /\ rows_apart c (frame_rows f) (frame_rows f').
Proof.
  induction 1 as [|c c' l l' S F IH]; intros n f x I; [contradiction|]. change (privates (c :: l)) with ((match c with WithPrivate n f p => [(n, (f, p))] | _ => [] end) ++ privates l)%list in I.
  change (privates (c' :: l')) with ((match c' with WithPrivate n f p => [(n, (f, p))] | _ => [] end) ++ privates l')%list. apply in_app_or in I as [I|I].
  - destruct c as [|n0 f0 x0| | |]; try contradiction. destruct c' as [|n1 f1 x1| | |]; try discriminate S. destruct S as (<- & <- & F1 & F2). destruct I as [I|[]]. injection I as <- <- <-.
    exists f1. split; [left; reflexivity|]. split; [exact F1|]. destruct x0; exact F2.
  - destruct (IH n f x I) as (f' & J & K). exists f'. split; [apply in_or_app; right; exact J|exact K].
Qed.
(** How far the tables are apart. *)
Lemma filter_length_split {A} (p : A -> bool) l : length l = length (filter p l) + length (filter (fun x => negb (p x)) l).
Proof. induction l as [|x l IH]; [reflexivity|]. cbn. destruct (p x); cbn; lia. Qed.
Lemma grouped_rows g m : forall vs (l : table), (forall r, In r l -> In (getv g r) vs) -> (forall v, length (filter (has_value g v) l) <= m) -> length l <= length vs * m.
Proof.
  induction vs as [|v vs IH]; intros l A B; [destruct l as [|r l]; [cbn; lia|destruct (A r (or_introl eq_refl))]|].
  pose proof (filter_length_split (has_value g v) l) as FL. cbn [length]. pose proof (B v). enough (length (filter (fun r => negb (has_value g v r)) l) <= length vs * m) by lia. apply IH.
  - intros r I. apply filter_In in I as (I & N). destruct (A r I) as [->|J]; [|exact J]. exfalso. apply negb_true_iff in N.
    assert (X : has_value g (getv g r) r = true) by (apply value_eqb_eq; reflexivity). rewrite X in N. discriminate N.
  - intros w. eapply Nat.le_trans; [|apply (B w)]. rewrite filter_swap.
    apply filter_length_le.
Qed.
Lemma groups_rows g k m a b : groups_changed g k m a b -> row_distance a b <= k * m.
Proof.
  intros (x & y & vs & A & L & I & M). pose proof (altered_distance a b x y A). pose proof (grouped_rows g m vs (x ++ y)%list I M). nia.
Qed.
Lemma portion_one n N : n <= N -> portion 1 n N.
Proof. intros H. unfold portion. rewrite Qmult_1_l. rewrite <- Zle_Qle. lia. Qed.
Lemma restrict_whole k keep t i : v_place t = PKeys i -> filter (fun r => keep (getv i r)) (v_rows t) = v_rows t -> restrict (Some k) keep t = t.
Proof. destruct t as [d c p rows]. cbn. intros -> H. unfold restrict. cbn. rewrite H. destruct (option_eqb String.eqb c (Some k)); reflexivity. Qed.
Lemma start_near l l' o o' b s s' : ~ In Build l -> ~ In Build l' -> Forall2 (changed_call gone who) l l' -> build_by E l = Ok o -> build_by E l' = Ok o' ->
  (forall n f c, In (n, (f, c)) (privates l) -> frame_conforms f) -> (forall n f c, In (n, (f, c)) (privates l') -> frame_conforms f) ->
  BuilderCalls.budgets l = [b] -> session (o_state o) [] s -> session (o_state o') [] s' ->
  near gone who (is_rho b) 1 (look [] (start_tracked (is_rho b) (o_din o))) (tables s) (tables s').
Proof.
  intros NB NB' F B B' FC FC' BU S S'. pose proof (changed_same l l' o o' NB NB' F B B') as (SB & _).
  destruct (proj1 (build_by_iff E l NB) (ex_intro _ o B)) as [_ _ ND _ _ BF _ _ _]. destruct (proj1 (build_by_iff E l' NB') (ex_intro _ o' B')) as [_ _ ND' _ _ BF' _ _ _].
  destruct (start_sound E true l o NB B) as (_ & TA & _).
  pose proof (pair_hide (o_state o) (o_state o') [] s s' SB S S') as HS. pose proof (fun n => hide_get _ _ n (f_equal s_tree HS)) as HG. pose proof (TA [] s S) as TK.
  destruct (build_by_result E l o NB B) as (x & names & BX & _ & _ & _ & ->). destruct (build_by_result E l' o' NB' B') as (x' & names' & _ & _ & _ & _ & ->). cbn [o_state o_din] in *.
  assert (x = b) by congruence. subst x.
  assert (NL : NoDup (dkeys (stored_private (privates l)))) by (rewrite stored_keys; apply (nodup_append_inv _ _ ND)).
  assert (NL' : NoDup (dkeys (stored_private (privates l')))) by (rewrite stored_keys; apply (nodup_append_inv _ _ ND')).
  assert (T : s_tree s = tree_of_sources (is_rho b) (stored_private (privates l))) by (destruct S as (c & FD & <-); cbn in FD; injection FD as <-; reflexivity).
  assert (T' : s_tree s' = tree_of_sources (is_rho x') (stored_private (privates l'))) by (destruct S' as (c & FD & <-); cbn in FD; injection FD as <-; reflexivity).
  assert (SRC : forall n t, tables s n = Some t -> exists g c, In (n, (g, c)) (privates l) /\ In (n, (stored g, c)) (stored_private (privates l)) /\ t = source_table (is_rho b) (stored_private (privates l)) (stored g) c).
  { intros n t G. unfold tables in G. rewrite T, (named_sources _ _ n NL) in G. destruct (dget n (stored_private (privates l))) as [(f, c)|] eqn:D; [|discriminate]. cbn in G. injection G as <-.
    apply dget_In in D. pose proof D as D1. apply in_stored in D as (g & D & ->). exists g, c. auto. }
  set (d := look [] (start_tracked (is_rho b) (start_distances b (stored_private (privates l))))).
  assert (DT : forall n, of_table d n = count_of (is_rho b) (iget (NamedTable n) (start_distances b (stored_private (privates l))))) by reflexivity.
  assert (DS : forall k, of_space d k = count_of (is_rho b) (iget (TableCollection k) (start_distances b (stored_private (privates l))))) by reflexivity.
  clearbody d. constructor.
  - exact HG.
  - intros n t t' G G'. pose proof (HG n) as HN. unfold tables in G, G'. rewrite G, G' in HN. cbn [option_map] in HN. assert (HT : hide t = hide t') by congruence. clear HN.
    assert (PT : placed t) by (destruct (data_of_spec _ (tk_layout s TK)) as (da & DA & DG); apply (data_placed _ da (tk_layout s TK) DA n); rewrite DG; exact G).
    destruct (SRC n t G) as (g & c & D & DD & ->).
    rewrite T', (named_sources _ _ n NL') in G'. destruct (dget n (stored_private (privates l'))) as [(f', c')|] eqn:D'; [|discriminate]. cbn in G'. injection G' as <-.
    apply dget_In in D'. apply in_stored in D' as (g' & D' & ->).
    destruct (changed_frames l l' F n g c D) as (g1 & J & _ & EQ).
    assert (g1 = g' /\ c = c') as (-> & <-).
    { pose proof (In_dget _ _ _ (proj1 (nodup_append_inv _ _ ND')) J) as Z1. pose proof (In_dget _ _ _ (proj1 (nodup_append_inv _ _ ND')) D') as Z2. split; congruence. }
    destruct (BF n g c D) as (SE & RG & _). destruct (BF' n g' c D') as (_ & RG' & _).
    pose proof (distances_cover b _ n (stored g) c NL DD) as CO. unfold pair_near. cbn [v_coll source_table].
    pose proof (rows_stored g RG (FC n g c D)) as RS. pose proof (rows_stored g' RG' (FC' n g' c D')) as RS'.
    destruct c as [m|gc m1 m2|i0 s0]; cbn [change_space].
    + unfold within. cbn [v_place v_rows source_table change_place]. rewrite RS, RS'. apply portion_one. cbn in EQ. apply rows_changed_iff in EQ. cbn in SE.
      rewrite DT. destruct (iget (NamedTable n) (start_distances b (stored_private (privates l)))) as [dd|] eqn:IG; [|apply iget_none in IG; destruct IG; exact CO].
      apply iget_in in IG. destruct (distance_entry b _ _ _ NL IG) as [(n1 & f1 & c1 & I1 & E1 & M1)|(s1 & n1 & f1 & i1 & _ & E1 & _)]; [|discriminate E1]. injection E1 as <-.
      assert (Z : (stored g, AddMaxRows m) = (f1, c1)) by (pose proof (In_dget _ _ _ NL DD); pose proof (In_dget _ _ _ NL I1); congruence). injection Z as <- <-. subst dd. cbn [count_of squared measured_distance distance_squared].
      unfold measured_distance. destruct (is_rho b); cbn [distance_squared]; [|exact EQ]. rewrite Z2Nat.inj_mul by lia. nia.
    + unfold within. cbn [v_place v_rows source_table change_place]. rewrite RS, RS'. apply portion_one. cbn in EQ. cbn in SE.
      rewrite DT. destruct (iget (NamedTable n) (start_distances b (stored_private (privates l)))) as [dd|] eqn:IG; [|apply iget_none in IG; destruct IG; exact CO].
      apply iget_in in IG. destruct (distance_entry b _ _ _ NL IG) as [(n1 & f1 & c1 & I1 & E1 & M1)|(s1 & n1 & f1 & i1 & _ & E1 & _)]; [|discriminate E1]. injection E1 as <-.
      assert (Z : (stored g, AddMaxRowsInMaxGroups gc m1 m2) = (f1, c1)) by (pose proof (In_dget _ _ _ NL DD); pose proof (In_dget _ _ _ NL I1); congruence). injection Z as <- <-. subst dd.
      unfold measured_distance. destruct (is_rho b); cbn [count_of squared distance_squared].
      * pose proof (groups_square _ _ _ _ _ EQ). rewrite !Z2Nat.inj_mul by nia. nia.
      * pose proof (groups_rows _ _ _ _ _ EQ). rewrite !Z2Nat.inj_mul by nia. nia.
    + cbn in EQ. destruct EQ as (OT & SI). rewrite <- RS, <- RS' in OT. split.
      * apply R_same; try assumption; cbn [v_place v_coll v_rows source_table change_space change_place].
        -- intros i P _. injection P as <-. exact OT.
        -- intros X. destruct (X eq_refl).
      * destruct (gone s0); apply (restrict_whole _ _ _ i0); cbn [v_place v_rows source_table change_place]; try reflexivity; [rewrite RS'|rewrite RS]; exact SI.
  - intros k. rewrite DS. destruct (iget (TableCollection k) (start_distances b (stored_private (privates l)))) as [dd|] eqn:IG.
    + left. apply iget_in in IG. destruct (distance_entry b _ _ _ NL IG) as [(n1 & f1 & c1 & I1 & E1 & M1)|(s1 & n1 & f1 & i1 & _ & E1 & ->)]; [discriminate E1|].
      apply portion_one. destruct (is_rho b); vm_compute; lia.
    + right. intros n t G CK. exfalso. destruct (SRC n t G) as (g & c & D & DD & ->). cbn in CK. destruct c as [| |i0 s0]; try discriminate CK. cbn in CK. injection CK as ->.
      apply iget_none in IG. apply IG. apply (distances_cover b _ n (stored g) _ NL DD).
Qed.
End Start.

(** ** New sessions *)
Lemma finite_accountant x : ~ infinite x -> accountant_budget x = x.
Proof. intros F. destruct x; try reflexivity. cbn [accountant_budget]. apply is_infinite_false in F. now rewrite F. Qed.
Lemma new_session E l o : ~ In Build l -> build_by E l = Ok o -> (forall p s, session (o_state o) p s -> p = []) /\ exists x, BuilderCalls.budgets l = [x]
  /\ s_left (a_data (st_root (o_state o))) = accountant_budget x /\ (valid x -> balanced (payload (st_root (o_state o)))).
Proof.
  intros NB B. destruct (build_by_result E l o NB B) as (x & names & BX & _ & _ & _ & ->). cbn [o_state]. split.
  - intros p s (c & FD & _). cbn in FD. destruct p as [|(a, i) p]; [reflexivity|]. destruct a; discriminate.
  - exists x. split; [exact BX|]. split; [reflexivity|]. intros V. cbn. constructor; [apply books_new, accountant_valid, V|constructor].
Qed.
Lemma same_budgets gone who l l' : Forall2 (changed_call gone who) l l' -> BuilderCalls.budgets l = BuilderCalls.budgets l'.
Proof.
  induction 1 as [|c c' l l' S F IH]; [reflexivity|]. unfold BuilderCalls.budgets in *. cbn [flat_map]. rewrite IH. f_equal. destruct c, c'; cbn in S; try discriminate S; try congruence; reflexivity.
Qed.
Lemma start_linked E b l l' tr st st' : adjacent E b l l' tr st st' -> exists gone who, linked gone who tr [([], 1%Q)] st st' /\ all_kinds b st
  /\ forall c, component c -> (total c [([], 1%Q)] st <= amt c b)%Q.
Proof.
  intros [(NB & NB' & gone & who & F) FC FP (IB & VB & FB) (o & o' & B & B' & -> & -> & ->)]. exists gone, who.
  destruct (start_sound E true l o NB B) as (O1 & T1 & F1 & _ & S1). destruct S1 as (A1 & P1); [intros n f c I; apply (FC n f c); left; exact I|intros n f I; apply (FP n f); left; exact I|].
  destruct (start_sound E true l' o' NB' B') as (O2 & T2 & F2 & _ & S2). destruct S2 as (A2 & P2); [intros n f c I; apply (FC n f c); right; exact I|intros n f I; apply (FP n f); right; exact I|].
  pose proof (changed_same E gone who l l' o o' NB NB' F B B') as (SB & _).
  destruct (new_session E l o NB B) as (R1 & x & X1 & L1 & BA). destruct (new_session E l' o' NB' B') as (R1' & x' & X1' & L1' & BA').
  assert (x' = x) by (rewrite (same_budgets _ _ _ _ F) in X1; congruence). subst x'.
  apply budget_in in IB. rewrite X1 in IB. destruct IB as [->|[]]. rewrite (finite_accountant b FB) in L1, L1'.
  split; [|split].
  - constructor; try assumption; [constructor; assumption|constructor; assumption|apply BA, VB|apply BA', VB| | |].
    + constructor; [intros []|constructor].
    + intros p s S. rewrite (R1 p s S). exists 1%Q. left. reflexivity.
    + intros p f [I|[]]. injection I as <- <-. split; [split; discriminate|]. pose proof (root_session (o_state o)) as S. pose proof (root_session (o_state o')) as S'.
      exists (a_data (st_root (o_state o))), (a_data (st_root (o_state o'))). split; [exact S|]. split; [exact S'|]. rewrite L1. split; [exact FB|].
      exact (start_near E gone who l l' o o' b _ _ NB NB' F B B' (fun n f c I => FC n f c (or_introl I)) (fun n f c I => FC n f c (or_intror I)) X1 S S').
  - intros p s S. pose proof (R1 p s S) as ->. rewrite (session_inj _ _ _ _ S (root_session (o_state o))), L1. destruct b; exact I.
  - intros c HC. unfold total, qsum. cbn [map fold_right snd fst]. rewrite (left_session _ _ _ (root_session (o_state o))), L1. lra.
Qed.

(** ** The other direction *)
Lemma altered_sym a b x y : altered a b x y -> altered b a y x.
Proof. intros (c & A & B). exists c. auto. Qed.
Lemma rows_changed_sym n a b : rows_changed n a b -> rows_changed n b a.
Proof. intros (x & y & A & L). exists y, x. split; [apply altered_sym, A|]. rewrite app_length in *. lia. Qed.
Lemma groups_changed_sym g k m a b : groups_changed g k m a b -> groups_changed g k m b a.
Proof.
  intros (x & y & vs & A & L & I & M). exists y, x, vs. split; [apply altered_sym, A|]. split; [exact L|]. split.
  - intros r J. apply I. apply in_app_or in J. apply in_or_app. tauto.
  - intros v. specialize (M v). rewrite filter_app, app_length in *. lia.
Qed.
Lemma changed_call_sym gone who c c' : changed_call gone who c c' -> changed_call (fun s => negb (gone s)) who c' c.
Proof.
  destruct c, c'; cbn; try congruence. intros (-> & -> & F & H). split; [reflexivity|]. split; [reflexivity|]. split; [congruence|].
  match goal with |- match ?x with _ => _ end => destruct x end; [apply rows_changed_sym, H|apply groups_changed_sym, H|].
  destruct H as (H1 & H2). split; [congruence|]. match goal with |- context [negb ?g] => destruct g end; exact H2.
Qed.
Lemma adjacent_sym E b l l' tr st st' : adjacent E b l l' tr st st' -> adjacent E b l' l tr st' st.
Proof.
  intros [(NB & NB' & gone & who & F) FC FP (IB & VB & FB) (o & o' & B & B' & -> & -> & ->)]. pose proof (changed_same E gone who l l' o o' NB NB' F B B') as (_ & SD).
  constructor.
  - split; [exact NB'|]. split; [exact NB|]. exists (fun s => negb (gone s)), who. clear -F. induction F; constructor; [apply changed_call_sym|]; assumption.
  - intros n f c H. apply (FC n f c). tauto.
  - intros n f H. apply (FP n f). tauto.
  - split; [|auto]. clear -IB F. induction F as [|c c' l l' S F IH]; [contradiction|]. destruct IB as [->|I]; [|right; auto]. left. destruct c'; cbn in S; congruence.
  - exists o', o. rewrite SD. auto 6.
Qed.
