(** Sessions over data without the rows of some IDs. *)
From Coq Require Import String Bool Arith ZArith QArith Lia Permutation List.
From Verif Require Import Prelude Budget BudgetProofs Value Rows Constraints ConstraintsSpec ConstraintsProofs Schema SchemaProofs Query Transform TransformSpec
  TransformConform TransformVisit TransformAgree TransformIds QueryProofs Tables TablesProofs
  Accountant AccountantProofs Session SessionSpec SessionMoney SessionSteps SessionTables SessionInv SessionViews SessionWell
  Neighboring NeighboringSpec NeighboringProofs Builder BuilderProofs BuilderTree BuilderBuild BuilderCalls BuilderSpec BuilderNeighbours SessionSound
  PersonSession PersonStart.
Import ListNotations.
Local Open Scope string_scope.
Local Open Scope nat_scope.

Section Absent.
Variable E : env.
Variable k : string.
Variable keep : value -> bool.
Notation W := (e_world E).
Notation R := (restrict (Some k) keep).

(** No table of the ID space has rows of IDs outside [keep]. *)
Definition lacks (s : sess) : Prop := forall n t, dget n (named (s_tree s)) = Some t -> R t = t.
Lemma R_fixed t : R t = t <-> forall i, v_place t = PKeys i -> v_coll t = Some k -> forall r, In r (v_rows t) -> keep (getv i r) = true.
Proof.
  unfold restrict. destruct (v_place t) as [i| | |] eqn:P; try (split; [discriminate|reflexivity]). destruct (option_eqb String.eqb (v_coll t) (Some k)) eqn:OE.
  - apply (option_eqb_eq String.eqb String.eqb_eq) in OE. split.
    + intros H j J _ r I. injection J as <-. apply (f_equal v_rows) in H. cbn in H. rewrite <- H in I. apply filter_In in I as (_ & I). exact I.
    + intros H. destruct t as [d c p rows]. cbn in *. subst p c. f_equal. specialize (H i eq_refl eq_refl). clear -H. induction rows as [|r rows IH]; [reflexivity|]. cbn. rewrite (H r (or_introl eq_refl)). f_equal. apply IH. intros x X. apply H. right. exact X.
  - split; [|reflexivity]. intros _ j _ C. rewrite C in OE. cbn in OE. rewrite String.eqb_refl in OE. discriminate.
Qed.
Lemma view_lacks l2 cat data q y auto : inputs_ok l2 cat data -> (forall n t, dget n data = Some t -> R t = t) ->
  built auto q -> promises W l2 cat data q -> finite_ids W l2 cat data q -> build_transformation W l2 cat data q = Ok y -> R (fst y) = fst y.
Proof.
  intros I A B P F BT. destruct y as (x, cs). apply build_transformation_ok in BT as (sc & SC & V & _). cbn [fst].
  pose proof (visit_restrict W l2 cat data I (Some k) keep auto q B P F sc x cs SC V) as H.
  rewrite (visit_ext W l2 cat (restrict_all (Some k) keep data) data q) in H.
  - rewrite V in H. injection H as H. auto.
  - intros n. unfold restrict_all. rewrite (dget_map_val R). destruct (dget n data) as [t|] eqn:G; [|reflexivity]. cbn. f_equal. apply (A n t G).
Qed.
Lemma part_lacks b s src col values t t1 pl name v : tables_ok s -> lacks s -> partition_of E s src col values t t1 pl ->
  lacks (part_session b (v_coll t) (v_dom t) name {| t_place := pl; t_rows := filter (has_value col v) (t_rows t1) |}).
Proof.
  intros TK A P. destruct (partition_ids _ _ _ _ _ _ _ _ TK P) as (PT & PI). pose proof (A _ _ (po_table _ _ _ _ _ _ _ _ P)) as RT. rewrite R_fixed in RT.
  assert (NM : match pl with PKeys _ => v_coll t <> None | PSym => True | _ => False end) by (destruct pl; auto; unfold placed in PT; rewrite PI in PT; exact PT).
  intros n t0. rewrite part_named by (cbn; exact NM). cbn. destruct (String.eqb n name); [|discriminate]. intros H. injection H as <-. apply R_fixed. unfold part_table. cbn [v_place v_coll v_rows t_place t_rows].
  intros i PL CO r I. subst pl. cbn in CO. apply (RT i PI); [exact CO|]. apply filter_In in I as (I & _).
  pose proof (po_truncated _ _ _ _ _ _ _ _ P) as TR. rewrite PI in TR. destruct TR as (c & _ & EN). apply (truncated_incl E _ _ _ _ _ EN), I.
Qed.
Lemma effect_lacks st o st' r : good st -> all_sessions lacks st -> honest_op E true st o -> effect E st o st' r -> all_sessions lacks st'.
Proof.
  intros [O TA FA SA SP] A HO H. destruct H as [o st' e Q|p st' r Q _|p q b s adj rest st1 o K S C SD RL RD|p n f f' s names S I PS D M CS
    |p q n c s names cat data y x1 z z' x4 st1 S I PS M D CA DA BT AT AR RN RN2 RD|p n s r cols x1 x2 st1 S F L RN DT RD
    |p src b col sp s b1 adj y rest space r st1 S LP V I PB CP SD RD G].
  - intros p s X; eapply A, quiet_session; [apply Q|exact X].
  - intros p' s X; eapply A, quiet_session; [apply Q|exact X].
  - destruct (ready_session _ _ _ _ S RD) as (c0 & F0 & D0 & A0). intros q' s' X. apply (data_change_set _ _ _ _ F0) in X as [(-> & ->)|(_ & X)]; [|eapply A, quiet_session; [apply RD|exact X]].
    apply session_at_iff in S. exact (A p s S).
  - intros q' s' X. apply (A q' s'). exact X.
  - destruct (ready_session _ _ _ _ S RD) as (c0 & F0 & D0 & A0). intros q' s' X. apply (data_change_set _ _ _ _ F0) in X as [(-> & ->)|(_ & X)]; [|eapply A, quiet_session; [apply RD|exact X]].
    apply session_at_iff in S. pose proof (TA p s S) as TK. destruct HO as (_ & HO). specialize (HO s cat data S CA DA) as (auto & B & P & ST). destruct (ST eq_refl) as (FI & _).
    destruct (view_tables E q n c (s_tree s) x1 cat data y z z' x4 names (tk_layout s TK) PS M DA _ BT AT AR RN RN2) as (L4 & P4).
    destruct (sound_inputs true st s cat data TK (FA p s S) (SA p s S) SP CA DA) as (IN & _).
    destruct (data_of_spec _ (tk_layout s TK)) as (da & DA1 & DG). rewrite DA1 in DA. injection DA as ->.
    intros m t0 H. cbn [s_tree with_tables] in H. rewrite (perm_dget _ _ m (layout_nodup _ L4) P4) in H. cbn in H. destruct (String.eqb m n); [|exact (A p s S m t0 H)].
    injection H as <-. apply (view_lacks _ cat data q y auto IN); try assumption. intros m' t' G'. rewrite DG in G'. exact (A p s S m' t' G').
  - destruct (ready_session _ _ _ _ S RD) as (c0 & F0 & D0 & A0). intros q' s' X. apply (data_change_set _ _ _ _ F0) in X as [(-> & ->)|(_ & X)]; [|eapply A, quiet_session; [apply RD|exact X]].
    apply session_at_iff in S. pose proof (TA p s S) as TK. destruct (delete_tables E n _ _ _ _ (tk_layout s TK) F RN DT) as (t & _ & _ & L2 & P2).
    intros m t0 H. cbn [s_tree s_left s_cons with_tables] in *.
    assert (NE : m <> n).
    { intros ->. pose proof (Permutation_NoDup (Permutation_map fst P2) (layout_nodup _ (tk_layout s TK))) as ND. cbn in ND. inversion ND as [|? ? NI _]. apply NI. apply in_dkeys. eauto. }
    apply (A p s S m). rewrite (perm_dget _ _ m (layout_nodup _ (tk_layout s TK)) P2). cbn. destruct (String.eqb_spec m n) as [->|_]; [contradiction|exact H].
  - destruct (ready_session _ _ _ _ S RD) as (c0 & F0 & D0 & A0). destruct (split_space E _ _ _ _ _ _ _ _ _ TA S CP G) as (_ & G').
    intros q' s' X. apply (data_change_split _ _ _ _ _ F0) in X as [(-> & ->)|[(i & -> & NI)|(_ & X)]].
    + apply session_at_iff in S. exact (A p s S).
    + rewrite nth_error_map in NI. destruct (nth_error (combine (dkeys sp) (snd y)) i) as [(nm, part)|] eqn:NC; [|discriminate]. injection NI as <-.
      apply nth_error_In, in_combine_r in NC. apply session_at_iff in S. destruct (partition_parts E s _ _ _ _ _ (TA p s S) CP) as (t & t1 & pl & PO' & ->).
      cbn [fst snd] in *. apply in_map_iff in NC as (v & <- & _). rewrite (get_id_space_spec _ _ _ _ (tk_layout s (TA p s S)) (po_table _ _ _ _ _ _ _ _ PO')) in G'. injection G' as <-.
      eapply part_lacks; [exact (TA p s S)|exact (A p s S)|exact PO'].
    + eapply A, quiet_session; [apply RD|exact X].
Qed.
Lemma run_lacks l : forall st, good st -> all_sessions lacks st -> honest E true st l -> good (run E st l) /\ all_sessions lacks (run E st l).
Proof.
  induction l as [|o l IH]; intros st G A H; [split; assumption|]. cbn [honest] in H. destruct H as (H1 & H2). cbn. apply IH; [apply step_good; assumption| |exact H2].
  destruct (step E st o) as (st', r) eqn:ST. cbn [fst]. apply step_effect in ST; [|apply G]. eapply effect_lacks; eassumption.
Qed.
(** Builder calls whose frames lack the rows. *)
Definition calls_lack (l : list bcall) : Prop :=
  forall n f i, In (n, (f, AddRowsWithID i k)) (privates l) -> forall r, In r (frame_rows f) -> keep (getv i r) = true.
Lemma start_lacks l o : ~ In Build l -> build_by E l = Ok o -> (forall n f c, In (n, (f, c)) (privates l) -> frame_conforms f) -> calls_lack l -> all_sessions lacks (o_state o).
Proof.
  intros NB B FC CL p s S n t G. destruct (proj1 (build_by_iff E l NB) (ex_intro _ o B)) as [_ _ ND _ _ BF _ _ _].
  destruct (build_by_result E l o NB B) as (x & names & _ & _ & _ & _ & ->). cbn [o_state] in *.
  assert (NL : NoDup (dkeys (stored_private (privates l)))) by (rewrite stored_keys; apply (nodup_append_inv _ _ ND)).
  assert (T : s_tree s = tree_of_sources (is_rho x) (stored_private (privates l))) by (destruct S as (c & FD & <-); cbn in FD; destruct p as [|(a, i) p]; [|destruct a; discriminate]; injection FD as <-; reflexivity).
  rewrite T, (named_sources _ _ n NL) in G. destruct (dget n (stored_private (privates l))) as [(f, c)|] eqn:D; [|discriminate]. cbn in G. injection G as <-.
  apply dget_In in D. apply in_stored in D as (g & D & ->). destruct (BF n g c D) as (_ & RG & _). apply R_fixed. cbn [v_place v_coll v_rows source_table].
  rewrite (rows_stored g RG (FC n g c D)). intros i P C r I. destruct c as [m|g0 a b|i0 s0]; cbn in P, C; try discriminate. injection P as ->. injection C as ->. exact (CL n g i D r I).
Qed.
End Absent.
