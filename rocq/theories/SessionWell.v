(** Every table of every session has a schema; what partitions give their parts. *)
From Coq Require Import String Bool Arith ZArith QArith Lia Permutation List.
From Verif Require Import Prelude Budget BudgetProofs Value Rows Constraints Schema SchemaProofs Query Transform TransformSpec
  TransformConform TransformVisit TransformAgree QueryProofs QuerySame Tables TablesProofs
  Accountant AccountantProofs Session SessionSpec SessionMoney SessionSteps SessionTables SessionInv SessionViews.
Import ListNotations.
Local Open Scope string_scope.
Local Open Scope nat_scope.

Section Well.
Variable E : env.
Notation W := (e_world E).

(** ** Partitions *)

(** What a partition does: [t] is the table, [t1] what is split. *)
Record partition_of (s : sess) (src col : string) (values : list value) (t : vtab) (t1 : tbl) (pl : place) : Prop := {
  po_table : dget src (named (s_tree s)) = Some t;
  po_column : In col (dkeys (v_dom t));
  po_typed : forall d v, dget col (v_dom t) = Some d -> In v values -> valid_py_value d v = true;
  po_values : NoDup values;
  po_some : values <> [];
  po_truncated : match v_place t with
    | PKeys i => exists c, partition_constraint col (match dget src (s_cons s) with Some cs => cs | None => [] end) = Some c
        /\ enforce (w_row_order W) (w_key_order W) c true (is_rho (s_left s)) {| t_place := v_place t; t_rows := v_rows t |} = Ok t1
    | _ => t1 = {| t_place := v_place t; t_rows := v_rows t |}
    end;
  po_place : partition_place (is_rho (s_left s)) col (t_place t1) = Ok pl
}.
Lemma nodup_fixed (l : list value) : nodup value_eq_dec l = l -> NoDup l.
Proof. intros H. rewrite <- H. apply NoDup_nodup. Qed.
Lemma partition_parts s pub src col sp y : tables_ok s -> create_partition_transformation E s pub src col sp = Ok y ->
  exists t t1 pl, partition_of s src col (map snd sp) t t1 pl
    /\ y = (v_dom t, map (fun v => {| t_place := pl; t_rows := filter (has_value col v) (t_rows t1) |}) (map snd sp)).
Proof.
  intros TK H. pose proof (tk_layout s TK) as L. unfold create_partition_transformation in H. apply bind_ok in H as (r & PR & H).
  unfold private_ref in PR. rewrite (find_reference_named _ src L) in PR. destruct (dget src (named (s_tree s))) as [t|] eqn:G; cbn in PR;
    [|destruct (dmem src pub); discriminate]. injection PR as <-.
  rewrite (layout_metric _ _ _ L (dget_in _ _ _ G)), (layout_get _ _ _ L (dget_in _ _ _ G)) in H. cbn [bind leaf] in H.
  apply bind_ok in H as (t1 & T1 & H). apply bind_ok in H as (d & HD & H). apply bind_ok in H as ([] & HV & H). apply bind_ok in H as (parts & PB & H). injection H as <-.
  unfold partition_by_keys in PB. apply bind_ok in PB as ([] & P1 & PB). apply bind_ok in PB as ([] & P2 & PB). apply bind_ok in PB as (pl & PP & PB). injection PB as <-.
  apply raise_if_ok in P1, P2, HV. destruct (dget col (v_dom t)) as [d'|] eqn:GD; [|discriminate]. injection HD as ->.
  exists t, t1, pl. split; [|reflexivity]. constructor.
  - exact G.
  - apply in_dkeys. eauto.
  - intros d0 v G0 I. rewrite GD in G0. injection G0 as <-. destruct (valid_py_value d v) eqn:VP; [reflexivity|]. exfalso.
    assert (existsb (fun v => negb (valid_py_value d v)) (map snd sp) = true) by (apply existsb_exists; exists v; rewrite VP; auto). congruence.
  - destruct (list_eq_dec value_eq_dec (nodup value_eq_dec (map snd sp)) (map snd sp)) as [EQ|NE]; [apply nodup_fixed, EQ|discriminate].
  - intros EQ. rewrite EQ in P1. discriminate.
  - destruct (v_place t) eqn:VP; try (injection T1 as <-; reflexivity).
    destruct (partition_constraint col _) as [c|]; [|discriminate]. exists c. split; [reflexivity|exact T1].
  - exact PP.
Qed.
(** Where the parts are: with the ID column of the table, or with none. *)
Lemma partition_ids s src col values t t1 pl : tables_ok s -> partition_of s src col values t t1 pl ->
  placed t /\ match pl with PKeys i => v_place t = PKeys i | PSym => True | _ => False end.
Proof.
  intros TK [G _ _ _ _ T1 PP]. pose proof (tk_layout s TK) as L.
  assert (PT : placed t).
  { apply dget_in in G. destruct L as [kids N T _]. apply (in_named kids src t T) in G as [G|(c & l & G & J)]; [apply T in G; apply G|]. apply T in G as (_ & LE). apply LE in J. apply J. }
  split; [exact PT|]. unfold placed in PT. destruct (v_place t) as [i| |g b i|g b] eqn:VP; unfold partition_place in PP.
  - destruct T1 as (c & _ & T1). destruct c; cbn in T1; try discriminate; injection T1 as <-; cbn [t_place] in PP.
    + injection PP as <-. exact I.
    + destruct (_ && _); [|discriminate]. injection PP as <-. reflexivity.
  - subst t1. cbn in PP. injection PP as <-. exact I.
  - destruct PT.
  - subst t1. cbn in PP. destruct (_ && _); [|discriminate]. injection PP as <-. exact I.
Qed.
(** The one table of a part. *)
Definition part_table (space : option string) (dom : dict coredesc) (t : tbl) : vtab :=
  {| v_dom := dom; v_coll := match t_place t with PKeys _ => space | _ => None end; v_place := t_place t; v_rows := t_rows t |}.
Lemma part_named b space dom name t : match t_place t with PKeys _ => space <> None | PSym => True | _ => False end ->
  named (s_tree (part_session b space dom name t)) = [(name, part_table space dom t)].
Proof.
  intros H. unfold part_session, part_tree, part_table. destruct (t_place t) as [i| |? ? ?|? ?]; try contradiction; destruct space; cbn; reflexivity.
Qed.

(** ** Schemas *)

Definition proper (o : op) : Prop := match o with CreateView _ q _ _ => dicts q | _ => True end.
Definition fine (s : sess) : Prop := forall n t, dget n (named (s_tree s)) = Some t -> fine_table t.

Lemma perm_dget (a b : dict vtab) n : NoDup (dkeys a) -> Permutation a b -> dget n a = dget n b.
Proof. intros N P. apply (perm_same _ _ N P). Qed.
Lemma part_fine b space s src col values t t1 pl name v : tables_ok s -> fine s -> partition_of s src col values t t1 pl ->
  (match pl with PKeys _ => space <> None | _ => True end) ->
  fine (part_session b space (v_dom t) name {| t_place := pl; t_rows := filter (has_value col v) (t_rows t1) |}).
Proof.
  intros TK F P SP. destruct (partition_ids _ _ _ _ _ _ _ TK P) as (_ & PI). pose proof (F _ _ (po_table _ _ _ _ _ _ _ P)) as (ND & s0 & TS). intros n t0.
  rewrite part_named by (cbn; destruct pl; auto). cbn. destruct (String.eqb n name); [|discriminate]. intros H. injection H as <-.
  split; [exact ND|]. unfold table_schema in *. unfold part_table. cbn [v_dom v_place v_coll t_place]. apply bind_ok in TS as (cols & HC & TS). rewrite HC. cbn [bind]. apply mk_schema_ok in TS as (A & B & C & ->).
  destruct pl; try contradiction; cbn; eexists; (apply mk_schema_ok; split; [exact A|]).
  - rewrite PI in C. split; [discriminate|]. split; [exact C|reflexivity].
  - split; [discriminate|]. split; [discriminate|reflexivity].
Qed.
Lemma view_fine s pub cat data q y : tables_ok s -> fine s -> dicts q -> catalog_of (s_tree s) pub (s_cons s) = Ok cat -> data_of (s_tree s) = Ok data ->
  build_transformation W (is_rho (s_left s)) cat data q = Ok y -> fine_table (fst y).
Proof.
  intros TK F D CA DA BT. pose proof (tk_layout s TK) as L. destruct (catalog_nodup _ _ _ _ F (catalog_of_for _ _ _ _ L CA)) as (FI & SP & PN).
  destruct (data_of_spec _ L) as (da & DA' & DG). rewrite DA' in DA. injection DA as <-.
  pose proof BT as BT'. unfold build_transformation in BT'. apply bind_ok in BT' as (sd & HS & _).
  destruct (view_schema W (is_rho (s_left s)) cat da q y sd) as (N & s1 & TS & SS); try assumption.
  - intros m s1 cs G. apply (FI m s1 cs G).
  - intros m t G. exact (data_placed _ _ L DA' _ _ G).
  - intros m t G. rewrite DG in G. apply (F m t G).
  - intros m s1 cs t G1 G2. rewrite DG in G2. eapply SP; eassumption.
  - split; [exact N|]. eauto.
Qed.
Lemma effect_fine st o st' r : all_sessions tables_ok st -> all_sessions fine st -> proper o -> effect E st o st' r -> all_sessions fine st'.
Proof.
  intros TA A PO H. destruct H as [o st' e Q|p st' r Q _|p q b s adj rest st1 o K S C SP R RD|p n f f' s names S I PS D M CS
    |p q n c s names cat data y x1 z z' x4 st1 S I PS M D CA DA BT AT AR RN RN2 RD|p n s r cols x1 x2 st1 S F L RN DT RD
    |p src b col sp s b1 adj y rest space r st1 S LP V I PB CP SP RD G].
  - intros p s X. eapply A, quiet_session; [apply Q|exact X].
  - intros p' s X. eapply A, quiet_session; [apply Q|exact X].
  - destruct (ready_session _ _ _ _ S RD) as (c0 & F0 & D0 & A0). intros q' s' X. apply (data_change_set _ _ _ _ F0) in X as [(-> & ->)|(_ & X)].
    + apply session_at_iff in S. exact (A p s S).
    + eapply A, quiet_session; [apply RD|exact X].
  - intros q' s' X. apply (A q' s'). exact X.
  - destruct (ready_session _ _ _ _ S RD) as (c0 & F0 & D0 & A0). intros q' s' X. apply (data_change_set _ _ _ _ F0) in X as [(-> & ->)|(_ & X)].
    + apply session_at_iff in S. pose proof (TA p s S) as TK.
      destruct (view_tables E q n c (s_tree s) x1 cat data y z z' x4 names (tk_layout s TK) PS M DA _ BT AT AR RN RN2) as (L4 & P4).
      intros m t0 H. cbn [s_tree with_tables] in H. rewrite (perm_dget _ _ m (layout_nodup _ L4) P4) in H. cbn in H. destruct (String.eqb m n).
      * injection H as <-. eapply view_fine; try eassumption. exact (A p s S).
      * exact (A p s S m t0 H).
    + eapply A, quiet_session; [apply RD|exact X].
  - destruct (ready_session _ _ _ _ S RD) as (c0 & F0 & D0 & A0). intros q' s' X. apply (data_change_set _ _ _ _ F0) in X as [(-> & ->)|(_ & X)].
    + apply session_at_iff in S. pose proof (TA p s S) as TK. destruct (delete_tables E n _ _ _ _ (tk_layout s TK) F RN DT) as (t & _ & _ & L2 & P2).
      intros m t0 H. cbn [s_tree with_tables] in H. apply (A p s S m t0). rewrite (perm_dget _ _ m (layout_nodup _ (tk_layout s TK)) P2). cbn.
      destruct (String.eqb m n) eqn:EQ; [|exact H]. exfalso. apply String.eqb_eq in EQ. subst m.
      pose proof (Permutation_NoDup (Permutation_map fst P2) (layout_nodup _ (tk_layout s TK))) as ND. cbn in ND. inversion ND as [|? ? NI _]. apply NI. apply in_dkeys. eauto.
    + eapply A, quiet_session; [apply RD|exact X].
  - destruct (ready_session _ _ _ _ S RD) as (c0 & F0 & D0 & A0). destruct (split_space E _ _ _ _ _ _ _ _ _ TA S CP G) as (_ & G').
    intros q' s' X. apply (data_change_split _ _ _ _ _ F0) in X as [(-> & ->)|[(i & -> & NI)|(_ & X)]].
    + apply session_at_iff in S. exact (A p s S).
    + rewrite nth_error_map in NI. destruct (nth_error (combine (dkeys sp) (snd y)) i) as [(nm, part)|] eqn:NC; [|discriminate]. injection NI as <-.
      apply nth_error_In, in_combine_r in NC. apply session_at_iff in S. destruct (partition_parts s _ _ _ _ _ (TA p s S) CP) as (t & t1 & pl & PO' & ->).
      cbn [fst snd] in *. apply in_map_iff in NC as (v & <- & _). eapply part_fine; [exact (TA p s S)|exact (A p s S)|exact PO'|].
      destruct (partition_ids _ _ _ _ _ _ _ (TA p s S) PO') as (PL & PI). rewrite (get_id_space_spec _ _ _ _ (tk_layout s (TA p s S)) (po_table _ _ _ _ _ _ _ PO')) in G'. injection G' as <-.
      destruct pl; auto. unfold placed in PL. rewrite PI in PL. exact PL.
    + eapply A, quiet_session; [apply RD|exact X].
Qed.
Lemma run_fine l : forall st, ok (st_root st) -> all_sessions tables_ok st -> all_sessions fine st -> Forall proper l -> all_sessions fine (run E st l).
Proof.
  induction l as [|o l IH]; intros st O T A P; [exact A|]. inversion P as [|? ? Po Pl]; subst. cbn. destruct (step E st o) as (st', r) eqn:H. cbn [fst]. apply step_effect in H; [|exact O].
  apply IH; [eapply effect_ok; eassumption|eapply effect_tables; eassumption|eapply effect_fine; eassumption|exact Pl].
Qed.
End Well.
