(** Sessions give the compiler what it expects: every table of the catalog has data, and
    only tables with privacy IDs carry constraints. *)
From Coq Require Import String Bool Arith ZArith QArith Lia Permutation List.
From Verif Require Import Prelude Budget BudgetProofs Value Rows Constraints ConstraintsSpec ConstraintsProofs Schema SchemaProofs Query Transform TransformSpec
  TransformConform TransformVisit TransformAgree QueryProofs QuerySame RewriteSpec RewriteProofs QueryAccept TransformTotal Tables TablesProofs
  Accountant AccountantProofs Session SessionSpec SessionMoney SessionSteps SessionTables SessionInv SessionViews SessionWell SessionNames
  Neighboring NeighboringSpec NeighboringProofs Builder BuilderProofs BuilderTree BuilderBuild BuilderCalls BuilderSpec BuilderNeighbours SessionSound
  Props_Query Props_Session Props_Sound.
Import ListNotations.
Local Open Scope string_scope.
Local Open Scope nat_scope.

Definition bare (s : sess) : Prop :=
  forall n t cs, dget n (named (s_tree s)) = Some t -> dget n (s_cons s) = Some cs -> Transform.in_collection (v_place t) = false -> cs = [].

Section Bare.
Variable E : env.
Notation W := (e_world E).

Lemma bare_inputs pub s cat data : tables_ok s -> bare s -> catalog_of (s_tree s) pub (s_cons s) = Ok cat -> data_of (s_tree s) = Ok data ->
  forall n t sc cs, dget n data = Some t -> dget n (cat_private cat) = Some (sc, cs) -> Transform.in_collection (v_place t) = false -> cs = [].
Proof.
  intros TK B CA DA n t sc cs G GC C. pose proof (tk_layout s TK) as L. pose proof (catalog_of_for _ _ _ _ L CA) as CF. destruct (data_of_spec _ L) as (da & DA' & DG). rewrite DA' in DA. injection DA as ->.
  rewrite DG in G. destruct (cf_private _ _ _ _ CF n t G) as (sc' & cs' & _ & HC & GC'). rewrite GC in GC'. injection GC' as <- <-. exact (B n t cs G HC C).
Qed.
Lemma session_stocked pub s cat data : tables_ok s -> bare s -> catalog_of (s_tree s) pub (s_cons s) = Ok cat -> data_of (s_tree s) = Ok data -> stocked cat data.
Proof.
  intros TK B CA DA. pose proof (bare_inputs pub s cat data TK B CA DA) as BI. pose proof (tk_layout s TK) as L. pose proof (catalog_of_for _ _ _ _ L CA) as CF. destruct (data_of_spec _ L) as (da & DA' & DG). rewrite DA' in DA. injection DA as ->.
  constructor; [| | | | |exact BI].
  - intros n sc cs G. destruct (dget n (named (s_tree s))) as [t|] eqn:N; [|rewrite (cf_none _ _ _ _ CF n N) in G; discriminate].
    destruct (cf_private _ _ _ _ CF n t N) as (sc' & cs' & TS & _ & GC). rewrite GC in G. injection G as <- <-. unfold table_schema in TS. apply bind_ok in TS as (cols & _ & TS). exact (made_mk _ _ _ _ _ TS).
  - intros n sc f G. destruct (public_entry _ _ _ _ _ (cf_public _ _ _ _ CF) G) as (_ & d & _ & M). exact (made_mk _ _ _ _ _ M).
  - intros n G. rewrite DG. destruct (dget n (named (s_tree s))) as [t|] eqn:N; [discriminate|]. rewrite (cf_none _ _ _ _ CF n N) in G. contradiction.
  - intros n t G. rewrite DG in G. exact (data_placed _ _ L DA' n t ltac:(rewrite DG; exact G)).
  - intros n sc cs t G GD. rewrite DG in GD. destruct (cf_private _ _ _ _ CF n t GD) as (sc' & cs' & TS & _ & GC). rewrite GC in G. injection G as <- <-. destruct (table_schema_ok t sc' TS) as (_ & _ & _ & SP). exact SP.
Qed.

Lemma effect_bare st o st' r : all_sessions tables_ok st -> all_sessions bare st -> effect E st o st' r -> all_sessions bare st'.
Proof.
  intros TA A H. destruct H as [o st' e Q|p st' r Q _|p q b s adj rest st1 o K S C SD R RD|p n f f' s names S I PS D M CS
    |p q n c s names cat data y x1 z z' x4 st1 S I PS M D CA DA BT AT AR RN RN2 RD|p n s r cols x1 x2 st1 S F L RN DT RD
    |p src b col sp s b1 adj y rest space r st1 S LP V I PB CP SD RD G].
  - intros p s X; eapply A, quiet_session; [apply Q|exact X].
  - intros p' s X; eapply A, quiet_session; [apply Q|exact X].
  - destruct (ready_session _ _ _ _ S RD) as (c0 & F0 & D0 & A0). intros q' s' X. apply (data_change_set _ _ _ _ F0) in X as [(-> & ->)|(_ & X)].
    + apply session_at_iff in S. exact (A p s S).
    + eapply A, quiet_session; [apply RD|exact X].
  - intros q' s' X; apply (A q' s'); exact X.
  - destruct (ready_session _ _ _ _ S RD) as (c0 & F0 & D0 & A0). intros q' s' X. apply (data_change_set _ _ _ _ F0) in X as [(-> & ->)|(_ & X)]; [|eapply A, quiet_session; [apply RD|exact X]].
    apply session_at_iff in S. pose proof (TA p s S) as TK.
    destruct (view_tables E q n c (s_tree s) x1 cat data y z z' x4 names (tk_layout s TK) PS M DA _ BT AT AR RN RN2) as (L4 & P4).
    intros m t0 cs H HC CO. cbn [s_tree s_cons with_tables] in *. rewrite (perm_dget _ _ m (layout_nodup _ L4) P4) in H. cbn in H. destruct (String.eqb_spec m n) as [->|NE].
    + injection H as <-. rewrite dget_dset_same in HC. injection HC as <-. destruct y as (t, cs). apply build_transformation_ok in BT as (sc & _ & BV & _).
      exact (visit_bare W _ cat data (bare_inputs _ s cat data TK (A p s S) CA DA) q t cs BV CO).
    + rewrite dget_dset_other in HC by congruence. exact (A p s S m t0 cs H HC CO).
  - destruct (ready_session _ _ _ _ S RD) as (c0 & F0 & D0 & A0). intros q' s' X. apply (data_change_set _ _ _ _ F0) in X as [(-> & ->)|(_ & X)]; [|eapply A, quiet_session; [apply RD|exact X]].
    apply session_at_iff in S. pose proof (TA p s S) as TK. destruct (delete_tables E n _ _ _ _ (tk_layout s TK) F RN DT) as (t & _ & _ & L2 & P2).
    intros m t0 cs H HC CO. cbn [s_tree s_cons with_tables] in *.
    assert (NE : m <> n).
    { intros ->. pose proof (Permutation_NoDup (Permutation_map fst P2) (layout_nodup _ (tk_layout s TK))) as ND. cbn in ND. inversion ND as [|? ? NI _]. apply NI. apply TransformConform.in_dkeys. eauto. }
    assert (G : dget m (named (s_tree s)) = Some t0).
    { rewrite (perm_dget _ _ m (layout_nodup _ (tk_layout s TK)) P2). cbn. destruct (String.eqb_spec m n) as [->|_]; [contradiction|exact H]. }
    rewrite dget_ddel_other in HC by exact NE. exact (A p s S m t0 cs G HC CO).
  - destruct (ready_session _ _ _ _ S RD) as (c0 & F0 & D0 & A0).
    intros q' s' X. apply (data_change_split _ _ _ _ _ F0) in X as [(-> & ->)|[(i & -> & NI)|(_ & X)]].
    + apply session_at_iff in S. exact (A p s S).
    + rewrite nth_error_map in NI. destruct (nth_error (combine (dkeys sp) (snd y)) i) as [(nm, part)|]; [|discriminate]. injection NI as <-.
      intros m t cs _ HC _. cbn in HC. destruct (String.eqb m nm); [injection HC as <-; reflexivity|discriminate].
    + eapply A, quiet_session; [apply RD|exact X].
Qed.
Lemma run_bare l : forall st, ok (st_root st) -> all_sessions tables_ok st -> all_sessions bare st -> all_sessions bare (run E st l).
Proof.
  induction l as [|o l IH]; intros st O T A; [exact A|]. cbn. destruct (step E st o) as (st', r) eqn:ST. cbn [fst]. apply step_effect in ST; [|exact O].
  apply IH; [eapply effect_ok; eassumption|eapply effect_tables; eassumption|eapply effect_bare; eassumption].
Qed.
Lemma start_bare calls o : ~ In Build calls -> build_by E calls = Ok o -> all_sessions bare (o_state o).
Proof.
  intros NB B. destruct (build_by_result E calls o NB B) as (x & names & _ & NN & _ & _ & ->). cbn [o_state].
  intros p s (c & F & <-). cbn in F. destruct p as [|(k, i) p]; [|destruct k; discriminate]. injection F as <-. cbn [a_data].
  intros n t cs _ G _. cbn [s_cons] in G. assert (D : dkeys (map (fun n => (n, @nil constraint)) names) = names) by (unfold dkeys; rewrite map_map; apply map_id).
  rewrite dict_of_NoDup in G by (unfold dkeys in D; rewrite D; exact NN). apply dget_In, in_map_iff in G as (m & G & _). injection G as _ <-. reflexivity.
Qed.
Lemma any_state_bare st : any_state E st -> all_sessions bare st.
Proof.
  intros (calls & o & l & NB & B & P & ->). destruct (start_sound E false calls o NB B) as (O & T & _). apply run_bare; [exact O|exact T|eapply start_bare; eassumption].
Qed.
End Bare.
