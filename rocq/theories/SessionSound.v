(** In every session, the tables are what the session says they are. *)
From Coq Require Import String Bool Arith ZArith QArith Lia Permutation List.
From Verif Require Import Prelude Budget BudgetProofs Value Rows Constraints ConstraintsSpec ConstraintsProofs Schema SchemaProofs Query Transform TransformSpec
  TransformConform TransformVisit TransformAgree QueryProofs QuerySame PropagateProofs Tables TablesProofs
  Accountant AccountantProofs Session SessionSpec SessionMoney SessionSteps SessionTables SessionInv SessionViews SessionWell
  Neighboring NeighboringSpec NeighboringProofs Builder BuilderProofs BuilderTree BuilderBuild BuilderCalls BuilderSpec BuilderNeighbours.
Import ListNotations.
Local Open Scope string_scope.
Local Open Scope nat_scope.

(** ** Frames *)

Lemma mapM_map {A B C} (g : A -> B) (f : B -> res C) l : mapM f (map g l) = mapM (fun x => f (g x)) l.
Proof. induction l as [|x l IH]; [reflexivity|]. cbn. destruct (f (g x)); [|reflexivity]. cbn. rewrite IH. reflexivity. Qed.
Lemma mapM_ext {A B} (f g : A -> res B) l : (forall x, f x = g x) -> mapM f l = mapM g l.
Proof. intros H. induction l as [|x l IH]; [reflexivity|]. cbn. rewrite H, IH. reflexivity. Qed.
(** Widening changes neither the analytics types nor the rows. *)
Lemma widened_columns fs : spark_schema_to_analytics_columns (map widen_field fs) = spark_schema_to_analytics_columns fs.
Proof.
  unfold spark_schema_to_analytics_columns. rewrite mapM_map. erewrite mapM_ext; [reflexivity|]. intros [n t b]. destruct t; reflexivity.
Qed.
Lemma coerce_conforms f f' : frame_conforms f -> coerce_spark_schema_or_fail f = Ok f' -> frame_conforms f' /\ frame_rows f' = frame_rows f.
Proof.
  intros (N & C) H. rewrite (coerce_ok f N) in H. destruct (_ || _); [discriminate|]. injection H as <-. unfold frame_conforms, frame_rows. cbn [sd_fields sd_rows].
  assert (M : map sf_name (map widen_field (sd_fields f)) = map sf_name (sd_fields f)) by (rewrite map_map; reflexivity). rewrite M.
  split; [|reflexivity]. split; [exact N|]. intros cols HC. rewrite widened_columns in HC. apply (C cols HC).
Qed.
Lemma stored_conforms f : frame_conforms f -> frame_conforms (stored f).
Proof. intros C. unfold stored. destruct (coerce_spark_schema_or_fail f) as [f'|] eqn:H; [apply (coerce_conforms f f' C H)|exact C]. Qed.
(** A frame that was read has analytics columns. *)
Lemma coerced_columns f : coerced f -> exists d, spark_schema_to_analytics_columns (sd_fields f) = Ok d /\ plain_dom f = core_cols d /\ forall n, In n (dkeys d) <-> In n (columns f).
Proof.
  intros C. destruct (coerced_supported f C) as (_ & S).
  assert (M : exists l, mapM (fun f => let* t := spark_to_analytics (sf_type f) in Ok (sf_name f, {| cd_type := t; cd_null := sf_nullable f;
       cd_nan := ctype_eqb t DECIMAL; cd_inf := ctype_eqb t DECIMAL |})) (sd_fields f) = Ok l /\ map fst l = columns f
       /\ map (fun x => (sf_name x, field_desc x)) (sd_fields f) = map (fun p => (fst p, to_core (snd p))) l).
  { unfold columns. revert S. induction (sd_fields f) as [|x r IH]; intros S; [exists []; split; [reflexivity|split; reflexivity]|].
    destruct IH as (l & L1 & L2 & L3); [intros g I; apply S; right; exact I|]. specialize (S x (or_introl eq_refl)). cbn [mapM map]. rewrite L1.
    destruct x as [n t b]. unfold field_desc, core_field in *. cbn [sf_type sf_name sf_nullable] in *.
    destruct t; try discriminate S; cbn; (eexists; split; [reflexivity|]; cbn; split; [rewrite L2; reflexivity|rewrite L3; reflexivity]). }
  destruct M as (l & L1 & L2 & L3). unfold spark_schema_to_analytics_columns. rewrite L1. exists (dict_of l). split; [reflexivity|]. split.
  - unfold plain_dom, core_cols. rewrite L3. clear. unfold dict_of. change (@nil (string * coredesc)) with (map (fun p : string * coldesc => (fst p, to_core (snd p))) []).
    generalize (@nil (string * coldesc)). induction l as [|(n, c) l IH]; intros a; [reflexivity|]. cbn [map fold_left fst snd]. rewrite <- IH. f_equal.
    induction a as [|(k, v) a IHa]; [reflexivity|]. cbn. destruct (String.eqb n k); [reflexivity|]. cbn. rewrite IHa. reflexivity.
  - intros n. rewrite dict_of_keys, L2. reflexivity.
Qed.
Lemma coerced_in_domain f : coerced f -> frame_conforms f -> in_domain (plain_dom f) (frame_rows f).
Proof.
  intros C (N & CF). destruct (coerced_columns f C) as (d & D & P & _). specialize (CF d D).
  pose (s := {| sc_cols := d; sc_group := None; sc_id := None; sc_space := None |}).
  apply (conforms_in_domain s); [|exact CF]. rewrite P. intros k. reflexivity.
Qed.
Lemma public_catalog pub : (forall n f, In (n, f) pub -> coerced f) -> exists publ, catalog_public pub = Ok publ.
Proof.
  induction pub as [|(n, f) pub IH]; intros H; [exists []; reflexivity|]. destruct IH as (publ & P); [intros m g I; apply (H m g); right; exact I|].
  pose proof (H n f (or_introl eq_refl)) as C. destruct (coerced_columns f C) as (d & D & _ & K). destruct (coerced_supported f C) as (NE & _).
  unfold catalog_public in *. cbn [mapM fst snd]. rewrite D. cbn [bind]. 
  assert (M : exists s, mk_schema d None None None = Ok s).
  { eexists. apply mk_schema_ok. split; [rewrite K; exact NE|]. split; [discriminate|]. split; [discriminate|reflexivity]. }
  destruct M as (s & M). rewrite M. cbn [bind]. rewrite P. cbn [bind]. eauto.
Qed.
Lemma public_entry pub publ n s f : catalog_public pub = Ok publ -> dget n publ = Some (s, f) ->
  In (n, f) pub /\ exists d, spark_schema_to_analytics_columns (sd_fields f) = Ok d /\ mk_schema d None None None = Ok s.
Proof.
  unfold catalog_public. intros H G. apply dget_In in G. revert publ H G. induction pub as [|(m, g) pub IH]; intros publ H G; cbn [mapM] in H.
  - injection H as <-. destruct G.
  - apply bind_ok in H as (y & Y & H). apply bind_ok in H as (ys & YS & H). injection H as <-. cbn [fst snd] in Y. apply bind_ok in Y as (d & D & Y). apply bind_ok in Y as (s0 & M & Y). injection Y as <-.
    destruct G as [G|G].
    + injection G as -> -> ->. split; [left; reflexivity|]. eauto.
    + destruct (IH ys YS G) as (I & R). split; [right; exact I|exact R].
Qed.

(** ** The invariant *)
Section Sound.
Variable E : env.
Notation W := (e_world E).

(** A table whose rows belong to its domain, in a session whose budget is zCDP or not. *)
Record sound_table (l2 : bool) (t : vtab) : Prop := {
  so_rows : in_domain (v_dom t) (v_rows t);
  so_metric : match v_place t with PGrouped _ b => b = l2 | PGroupedIds _ _ _ => False | _ => True end
}.
(** Recorded constraints hold. *)
Definition obeys (cs : list constraint) (t : vtab) : Prop :=
  forall i, v_place t = PKeys i -> satisfies_all i cs (v_rows t) /\ forall c g, In c cs -> grouping c = Some g -> In g (dkeys (v_dom t)).
Definition sound (strict : bool) (s : sess) : Prop :=
  forall n t, dget n (named (s_tree s)) = Some t ->
    sound_table (is_rho (s_left s)) t /\ (strict = true -> forall cs, dget n (s_cons s) = Some cs -> obeys cs t).
Definition sound_public (st : state) : Prop := forall n f, In (n, f) (st_public st) -> coerced f /\ frame_conforms f.

(** What users promise about the frames and view definitions they pass. *)
Definition honest_op (strict : bool) (st : state) (o : op) : Prop :=
  match o with
  | AddPublic _ _ f => frame_conforms f
  | CreateView p q _ _ => dicts q /\
      forall s cat data, session st p s -> catalog_of (s_tree s) (st_public st) (s_cons s) = Ok cat -> data_of (s_tree s) = Ok data ->
        exists auto, built auto q /\ promises W (is_rho (s_left s)) cat data q
          /\ (strict = true -> finite_ids W (is_rho (s_left s)) cat data q /\ trackable W (is_rho (s_left s)) cat data q)
  | _ => True
  end.
Fixpoint honest (strict : bool) (st : state) (l : list op) : Prop :=
  match l with [] => True | o :: l => honest_op strict st o /\ honest strict (fst (step E st o)) l end.

(** ** What the visitor is given *)
Lemma sound_inputs strict st s cat data : tables_ok s -> fine s -> sound strict s -> sound_public st ->
  catalog_of (s_tree s) (st_public st) (s_cons s) = Ok cat -> data_of (s_tree s) = Ok data ->
  inputs_ok (is_rho (s_left s)) cat data /\ (strict = true -> constraints_hold cat data).
Proof.
  intros TK F SO SP CA DA. pose proof (tk_layout s TK) as L. pose proof (catalog_of_for _ _ _ _ L CA) as CF. destruct (data_of_spec _ L) as (da & DA' & DG). rewrite DA' in DA. injection DA as ->.
  split; [split|].
  - intros n t G. rewrite DG in G. destruct (cf_private _ _ _ _ CF n t G) as (sc & cs & TS & HC & GC). destruct (F n t G) as (ND & _). destruct (SO n t G) as ([SR SM] & _).
    exists sc, cs. split; [exact GC|]. destruct (table_schema_ok t sc TS) as (CO & GR & ID & _). pose proof (table_schema_nodup t sc ND TS) as NS.
    split; [exact NS|]. split; [exact ND|]. unfold table_schema in TS. apply bind_ok in TS as (cols & _ & TS). pose proof (mk_fine _ _ _ _ _ TS) as (_ & FC). split; [exact FC|].
    assert (SE : same_entries (v_dom t) (analytics_to_core sc)) by (intros k; rewrite <- CO; reflexivity). split; [exact SE|]. split.
    + unfold metric_for. rewrite GR, ID. destruct (v_place t); cbn; try reflexivity; [destruct SM|congruence].
    + eapply in_domain_conforms; eassumption.
  - intros n sc f G. destruct (public_entry _ _ _ _ _ (cf_public _ _ _ _ CF) G) as (I & d & D & M). destruct (SP _ _ I) as (_ & FC). split; [exact FC|].
    apply mk_schema_ok in M as (_ & _ & _ & ->). cbn [sc_cols sc_group sc_id]. split; [|split; [reflexivity|split; [reflexivity|]]].
    + unfold spark_schema_to_analytics_columns in D. apply bind_ok in D as (l & _ & D). injection D as <-. apply NoDup_dict_of.
    + exists d. split; [exact D|]. intros k. reflexivity.
  - intros ST n t sc cs i G GC P. rewrite DG in G. destruct (cf_private _ _ _ _ CF n t G) as (sc' & cs' & _ & HC & GC'). rewrite GC in GC'. injection GC' as <- <-.
    destruct (SO n t G) as (_ & OB). exact (OB ST cs HC i P).
Qed.
Lemma catalogs_exist st s : tables_ok s -> fine s -> (forall n f, In (n, f) (st_public st) -> coerced f) ->
  exists cat data, catalog_of (s_tree s) (st_public st) (s_cons s) = Ok cat /\ data_of (s_tree s) = Ok data.
Proof.
  intros TK F SP. pose proof (tk_layout s TK) as L. destruct (data_of_spec _ L) as (data & D & _).
  destruct (public_catalog (st_public st) SP) as (publ & P).
  destruct (catalog_exists (s_tree s) (st_public st) (s_cons s) publ L) as (cat & C); [|exact P|eauto].
  intros n t G. destruct (F n t G) as (_ & sc & TS). assert (I : In n (dkeys (s_cons s))) by (apply (tk_names s TK), in_dkeys; eauto).
  apply in_dkeys in I as (cs & I). eauto.
Qed.

(** ** Steps *)
Lemma spend_rho x y rest : spend x y = Some rest -> is_rho rest = is_rho x.
Proof. unfold spend. destruct (is_infinite x); [intros H; injection H as <-; reflexivity|]. destruct x, y; try discriminate; destruct (_ : bool); intros H; try discriminate; injection H as <-; reflexivity. Qed.
Lemma kind_rho x y : same_kind x y -> is_rho y = is_rho x.
Proof. destruct x, y; cbn; intros H; try destruct H; reflexivity. Qed.
Lemma process_rho x b adj : validate_type x b = Ok tt -> process_budget E x b = Ok adj -> is_rho adj = is_rho x.
Proof. intros V H. apply validate_kind in V. apply process_valid in H as (_ & H). rewrite (kind_rho _ _ H). apply kind_rho, V. Qed.
Lemma sound_charged strict s rest c adj : spend (s_left s) adj = Some rest -> sound strict s -> sound strict (charged s rest c).
Proof. intros SP S n t G. cbn [charged s_tree s_left s_cons] in *. rewrite (spend_rho _ _ _ SP). apply S, G. Qed.
Lemma in_domain_incl d a b : incl b a -> in_domain d a -> in_domain d b.
Proof. intros I H r J. apply H, I, J. Qed.
Lemma truncated_incl (c : constraint) u l2 x y : enforce (w_row_order W) (w_key_order W) c u l2 x = Ok y -> incl (t_rows y) (t_rows x).
Proof.
  intros H r I. assert (K : exists idc, t_rows y = enforce_rows (w_row_order W) (w_key_order W) idc c (t_rows x)).
  { destruct c, u; cbn in H |- *; destruct (t_place x); try discriminate; try destruct (String.eqb _ _); try discriminate; injection H as <-; cbn; eauto. }
  destruct K as (idc & K). rewrite K in I. eapply sub_table_In; [apply enforce_rows_sub|exact I].
Qed.
Lemma dget_ddel_other {V} k n (d : dict V) : n <> k -> dget n (ddel k d) = dget n d.
Proof.
  intros NE. induction d as [|(m, v) d IH]; [reflexivity|]. cbn. destruct (String.eqb_spec k m) as [->|NK]; cbn.
  - destruct (String.eqb_spec n m) as [->|_]; [contradiction|exact IH].
  - fold (ddel k d). rewrite IH. reflexivity.
Qed.
(** Parts of a table. *)
Lemma part_sound strict b space s src col values t t1 pl name v : tables_ok s -> sound strict s -> partition_of E s src col values t t1 pl ->
  (match pl with PKeys _ => space <> None | _ => True end) ->
  sound strict (part_session b space (v_dom t) name {| t_place := pl; t_rows := filter (has_value col v) (t_rows t1) |}).
Proof.
  intros TK S P SP. destruct (partition_ids _ _ _ _ _ _ _ _ TK P) as (_ & PI). destruct (S _ _ (po_table _ _ _ _ _ _ _ _ P)) as ([SR _] & _).
  intros n t0. rewrite part_named by (cbn; destruct pl; auto). cbn. destruct (String.eqb n name) eqn:EN; [|discriminate]. intros H. injection H as <-. split.
  - constructor; cbn.
    + assert (I : incl (t_rows t1) (v_rows t)).
      { pose proof (po_truncated _ _ _ _ _ _ _ _ P) as TR. destruct (v_place t); try (subst t1; apply incl_refl). destruct TR as (c & _ & EN'). exact (truncated_incl _ _ _ _ _ EN'). }
      eapply in_domain_incl; [|exact SR]. intros r J. apply filter_In in J as (J & _). apply I, J.
    + destruct pl; auto; contradiction.
  - intros _ cs H. injection H as <-. intros i _. split; [intros c []|intros c g []].
Qed.
(** A new view. *)
Lemma view_sound strict st s cat data q y : tables_ok s -> fine s -> sound strict s -> sound_public st ->
  catalog_of (s_tree s) (st_public st) (s_cons s) = Ok cat -> data_of (s_tree s) = Ok data ->
  (exists auto, built auto q /\ promises W (is_rho (s_left s)) cat data q
     /\ (strict = true -> finite_ids W (is_rho (s_left s)) cat data q /\ trackable W (is_rho (s_left s)) cat data q)) ->
  build_transformation W (is_rho (s_left s)) cat data q = Ok y ->
  sound_table (is_rho (s_left s)) (fst y) /\ (strict = true -> obeys (snd y) (fst y)).
Proof.
  intros TK F SO SP CA DA (auto & B & P & TR) BT. destruct (sound_inputs strict st s cat data TK F SO SP CA DA) as (IN & HO). destruct y as (t, cs). cbn [fst snd].
  apply build_transformation_ok in BT as (sc & SC & V & VA). destruct (visit_in_domain W _ cat data IN auto q B P t cs V) as (ND & D). apply (validate_ok _ sc t ND) in VA as (_ & _ & M). split.
  - constructor; [exact D|]. unfold metric_for in M. destruct (sc_group sc), (sc_id sc); try contradiction; rewrite M; auto.
  - intros ST. destruct (TR ST) as (FI & TK'). exact (visit_tracked W _ cat data IN (HO ST) auto q B P FI TK' sc t cs SC V).
Qed.
Lemma effect_sound strict st o st' r : all_sessions tables_ok st -> all_sessions fine st -> all_sessions (sound strict) st -> sound_public st -> honest_op strict st o ->
  effect E st o st' r -> all_sessions (sound strict) st' /\ sound_public st'.
Proof.
  intros TA FA A SP HO H. destruct H as [o st' e Q|p st' r Q _|p q b s adj rest st1 o K S C SD R RD|p n f f' s names S I PS D M CS
    |p q n c s names cat data y x1 z z' x4 st1 S I PS M D CA DA BT AT AR RN RN2 RD|p n s r cols x1 x2 st1 S F L RN DT RD
    |p src b col sp s b1 adj y rest space r st1 S LP V I PB CP SD RD G].
  - split; [intros p s X; eapply A, quiet_session; [apply Q|exact X]|]. destruct Q as (_ & PU & _). intros n f I. rewrite PU in I. exact (SP n f I).
  - split; [intros p' s X; eapply A, quiet_session; [apply Q|exact X]|]. destruct Q as (_ & PU & _). intros n f I. rewrite PU in I. exact (SP n f I).
  - assert (PU : st_public st1 = st_public st) by apply RD. split; [|intros n f I; cbn [set_root st_public] in I; rewrite PU in I; exact (SP n f I)].
    destruct (ready_session _ _ _ _ S RD) as (c0 & F0 & D0 & A0). intros q' s' X. apply (data_change_set _ _ _ _ F0) in X as [(-> & ->)|(_ & X)].
    + apply session_at_iff in S. eapply sound_charged; [exact SD|exact (A p s S)].
    + eapply A, quiet_session; [apply RD|exact X].
  - split; [intros q' s' X; apply (A q' s'); exact X|]. cbn [honest_op] in HO. intros n0 f0 J. cbn [st_public] in J. apply in_app_or in J as [J|[J|[]]]; [exact (SP n0 f0 J)|].
    injection J as <- <-. split; [eapply coerce_coerced, CS|]. apply (coerce_conforms f f' HO CS).
  - assert (PU : st_public st1 = st_public st) by apply RD. split; [|intros n0 f I0; cbn [set_root st_public] in I0; rewrite PU in I0; exact (SP n0 f I0)].
    destruct (ready_session _ _ _ _ S RD) as (c0 & F0 & D0 & A0). intros q' s' X. apply (data_change_set _ _ _ _ F0) in X as [(-> & ->)|(_ & X)]; [|eapply A, quiet_session; [apply RD|exact X]].
    apply session_at_iff in S. pose proof (TA p s S) as TK. destruct HO as (_ & HO). specialize (HO s cat data S CA DA).
    destruct (view_tables E q n c (s_tree s) x1 cat data y z z' x4 names (tk_layout s TK) PS M DA _ BT AT AR RN RN2) as (L4 & P4).
    destruct (view_sound strict st s cat data q y TK (FA p s S) (A p s S) SP CA DA HO BT) as (V1 & V2).
    intros m t0 H. cbn [s_tree with_tables] in H. rewrite (perm_dget _ _ m (layout_nodup _ L4) P4) in H. cbn [with_tables s_left s_cons]. cbn in H. destruct (String.eqb_spec m n) as [->|NE].
    + injection H as <-. split; [exact V1|]. intros ST cs HC. rewrite dget_dset_same in HC. injection HC as <-. exact (V2 ST).
    + destruct (A p s S m t0 H) as (A1 & A2). split; [exact A1|]. intros ST cs HC. rewrite dget_dset_other in HC by congruence. exact (A2 ST cs HC).
  - assert (PU : st_public st1 = st_public st) by apply RD. split; [|intros n0 f I0; cbn [set_root st_public] in I0; rewrite PU in I0; exact (SP n0 f I0)].
    destruct (ready_session _ _ _ _ S RD) as (c0 & F0 & D0 & A0). intros q' s' X. apply (data_change_set _ _ _ _ F0) in X as [(-> & ->)|(_ & X)]; [|eapply A, quiet_session; [apply RD|exact X]].
    apply session_at_iff in S. pose proof (TA p s S) as TK. destruct (delete_tables E n _ _ _ _ (tk_layout s TK) F RN DT) as (t & _ & _ & L2 & P2).
    intros m t0 H. cbn [s_tree s_left s_cons with_tables] in *.
    assert (NE : m <> n).
    { intros ->. pose proof (Permutation_NoDup (Permutation_map fst P2) (layout_nodup _ (tk_layout s TK))) as ND. cbn in ND. inversion ND as [|? ? NI _]. apply NI. apply in_dkeys. eauto. }
    assert (G : dget m (named (s_tree s)) = Some t0).
    { rewrite (perm_dget _ _ m (layout_nodup _ (tk_layout s TK)) P2). cbn. destruct (String.eqb_spec m n) as [->|_]; [contradiction|exact H]. }
    destruct (A p s S m t0 G) as (A1 & A2). split; [exact A1|]. intros ST cs HC. apply (A2 ST cs). rewrite dget_ddel_other in HC by exact NE. exact HC.
  - assert (PU : st_public st1 = st_public st) by apply RD. split; [|intros n0 f I0; cbn [set_root st_public] in I0; rewrite PU in I0; exact (SP n0 f I0)].
    destruct (ready_session _ _ _ _ S RD) as (c0 & F0 & D0 & A0). destruct (split_space E _ _ _ _ _ _ _ _ _ TA S CP G) as (_ & G').
    intros q' s' X. apply (data_change_split _ _ _ _ _ F0) in X as [(-> & ->)|[(i & -> & NI)|(_ & X)]].
    + apply session_at_iff in S. eapply sound_charged; [exact SD|exact (A p s S)].
    + rewrite nth_error_map in NI. destruct (nth_error (combine (dkeys sp) (snd y)) i) as [(nm, part)|] eqn:NC; [|discriminate]. injection NI as <-.
      apply nth_error_In, in_combine_r in NC. apply session_at_iff in S. destruct (partition_parts E s _ _ _ _ _ (TA p s S) CP) as (t & t1 & pl & PO' & ->).
      cbn [fst snd] in *. apply in_map_iff in NC as (v & <- & _). eapply part_sound; [exact (TA p s S)|exact (A p s S)|exact PO'|].
      destruct (partition_ids _ _ _ _ _ _ _ _ (TA p s S) PO') as (PL & PI). rewrite (get_id_space_spec _ _ _ _ (tk_layout s (TA p s S)) (po_table _ _ _ _ _ _ _ _ PO')) in G'. injection G' as <-.
      destruct pl; auto. unfold placed in PL. rewrite PI in PL. exact PL.
    + eapply A, quiet_session; [apply RD|exact X].
Qed.
Lemma honest_proper strict l : forall st, honest strict st l -> Forall proper l.
Proof. induction l as [|o l IH]; intros st H; [constructor|]. destruct H as (H1 & H2). constructor; [|eapply IH, H2]. destruct o; cbn in *; tauto. Qed.
Lemma run_sound strict l : forall st, ok (st_root st) -> all_sessions tables_ok st -> all_sessions fine st -> all_sessions (sound strict) st -> sound_public st -> honest strict st l ->
  all_sessions (sound strict) (run E st l) /\ sound_public (run E st l).
Proof.
  induction l as [|o l IH]; intros st O T F A SP H; [split; assumption|]. cbn [honest] in H. destruct H as (H1 & H2). cbn. destruct (step E st o) as (st', r) eqn:ST. cbn [fst] in *. apply step_effect in ST; [|exact O].
  destruct (effect_sound strict st o st' r T F A SP H1 ST) as (A' & SP'). apply IH; try assumption.
  - eapply effect_ok; eassumption.
  - eapply effect_tables; eassumption.
  - eapply effect_fine; try eassumption. destruct o; cbn in *; tauto.
Qed.

(** ** New sessions *)
Lemma id_dom_wider null key dom rows : in_domain dom rows -> in_domain (id_dom null key dom) rows.
Proof.
  intros H. unfold id_dom. destruct null; [|exact H]. destruct (dget key dom) as [c|] eqn:G; [|exact H]. intros r I. destruct (H r I) as (N & K & V). split; [exact N|]. split.
  - intros x. rewrite K. rewrite dkeys_dset. replace (smem key (dkeys dom)) with true; [reflexivity|]. symmetry. apply smem_In, in_dkeys. eauto.
  - intros x k J. destruct (string_dec x key) as [->|NE].
    + rewrite dget_dset_same in J. injection J as <-. specialize (V key c G). destruct (getv key r) as [| | [] | | |], c; cbn in *; congruence.
    + rewrite dget_dset_other in J by congruence. exact (V x k J).
Qed.
Lemma rho_accountant x : is_rho (accountant_budget x) = is_rho x.
Proof. destruct x; try reflexivity. unfold accountant_budget. destruct (is_infinite _); reflexivity. Qed.
Lemma start_sound strict calls o : ~ In Build calls -> build_by E calls = Ok o ->
  ok (st_root (o_state o)) /\ all_sessions tables_ok (o_state o) /\ all_sessions fine (o_state o) /\ (forall n f, In (n, f) (st_public (o_state o)) -> coerced f)
  /\ ((forall n f c, In (n, (f, c)) (privates calls) -> frame_conforms f) -> (forall n f, In (n, f) (publics calls) -> frame_conforms f) ->
      all_sessions (sound strict) (o_state o) /\ sound_public (o_state o)).
Proof.
  intros NB B. destruct (proj1 (build_by_iff E calls NB) (ex_intro _ o B)) as [_ _ ND _ _ BF BP _ _].
  destruct (build_by_result E calls o NB B) as (x & names & _ & NN & NI & PS & ->). cbn [o_state].
  set (l := stored_private (privates calls)) in *. assert (NL : NoDup (dkeys l)) by (unfold l; rewrite stored_keys; apply (nodup_append_inv _ _ ND)).
  assert (R : forall p s, session (start_state x l names (stored_public (publics calls))) p s -> s_tree s = tree_of_sources (is_rho x) l /\ is_rho (s_left s) = is_rho x /\ forall n cs, dget n (s_cons s) = Some cs -> cs = []).
  { intros p s (c & F & <-). cbn in F. destruct p as [|(k, i) p]; [|destruct k; discriminate]. injection F as <-. cbn [a_data s_tree s_left s_cons]. split; [reflexivity|]. split; [apply rho_accountant|].
    intros n cs G. assert (D : dkeys (map (fun n => (n, @nil constraint)) names) = names) by (unfold dkeys; rewrite map_map; apply map_id).
    rewrite dict_of_NoDup in G by (unfold dkeys in D; rewrite D; exact NN). apply dget_In, in_map_iff in G as (m & G & _). injection G as _ <-. reflexivity. }
  assert (SRC : forall n t, dget n (named (tree_of_sources (is_rho x) l)) = Some t -> exists f c, In (n, (f, c)) (privates calls) /\ t = source_table (is_rho x) l (stored f) c).
  { intros n t G. rewrite (named_sources _ _ _ NL) in G. destruct (dget n l) as [(f, c)|] eqn:GL; [|discriminate]. injection G as <-. apply dget_In, in_stored in GL as (g & I & ->). exists g, c. split; [exact I|reflexivity]. }
  split; [left; cbn; constructor; intros ? ? []|]. split; [|split; [|split]].
  - intros p s S. assert (NS : exists st, new_session (accountant_budget x) (tree_of_sources (is_rho x) l) = Ok st /\ session st p s).
    { unfold new_session. rewrite PS. cbn [bind]. eexists. split; [reflexivity|]. exact S. }
    destruct NS as (st & NS & S'). exact (new_tables _ _ _ (sources_layout (is_rho x) l NL) NS p s S').
  - intros p s S n t G. destruct (R p s S) as (TR & _). rewrite TR in G. destruct (SRC n t G) as (f & c & I & ->). destruct (BF n f c I) as (_ & RE & FI). apply source_fine; [apply stored_coerced, RE|exact FI].
  - intros n f I. cbn [start_state st_public] in I. apply in_map_iff in I as ((m, g) & K & I). cbn in K. injection K as <- <-. apply stored_coerced, (BP m g I).
  - intros FP FU. split; [|intros n f I; cbn [start_state st_public] in I; apply in_map_iff in I as ((m, g) & K & I); cbn in K; injection K as <- <-; split; [apply stored_coerced, (BP m g I)|apply stored_conforms, (FU m g I)]].
    intros p s S n t G. destruct (R p s S) as (TR & RH & CS). rewrite TR in G. rewrite RH. destruct (SRC n t G) as (f & c & I & ->). destruct (BF n f c I) as (_ & RE & FI). split.
    + pose proof (coerced_in_domain _ (stored_coerced _ RE) (stored_conforms _ (FP n f c I))) as D. constructor; cbn [source_table v_dom v_rows v_place].
      * destruct c; [exact D|exact D|apply id_dom_wider, D].
      * destruct c; cbn; auto.
    + intros _ cs HC i _. rewrite (CS n cs HC). split; [intros ? []|intros ? ? []].
Qed.
(** ** Public tables are readable, whatever users do *)
Definition readable_public (st : state) : Prop := forall n f, In (n, f) (st_public st) -> coerced f.
Lemma effect_readable st o st' r : readable_public st -> effect E st o st' r -> readable_public st'.
Proof.
  intros RP H. destruct H as [o st' e Q|p st' r Q _|p q b s adj rest st1 o K S C SD R RD|p n f f' s names S I PS D M CS
    |p q n c s names cat data y x1 z z' x4 st1 S I PS M D CA DA BT AT AR RN RN2 RD|p n s r cols x1 x2 st1 S F L RN DT RD
    |p src b col sp s b1 adj y rest space r st1 S LP V I PB CP SD RD G]; intros m g J; cbn [st_public set_root] in J.
  4: { apply in_app_or in J as [J|[J|[]]]; [exact (RP m g J)|]. injection J as <- <-. eapply coerce_coerced, CS. }
  1,2: destruct Q as (_ & PU & _); rewrite PU in J; exact (RP m g J).
  all: assert (PU : st_public st1 = st_public st) by apply RD; rewrite PU in J; exact (RP m g J).
Qed.
Lemma run_readable l : forall st, ok (st_root st) -> readable_public st -> readable_public (run E st l).
Proof.
  induction l as [|o l IH]; intros st O RP; [exact RP|]. cbn. destruct (step E st o) as (st', r) eqn:ST. cbn [fst]. apply step_effect in ST; [|exact O].
  apply IH; [eapply effect_ok; eassumption|eapply effect_readable; eassumption].
Qed.
End Sound.
