(** Building a session does not look at the rows of private tables either. *)
From Coq Require Import String Bool Arith ZArith QArith Lia Permutation List.
From Verif Require Import Prelude Budget Value Rows Constraints Schema SchemaProofs Query Transform Tables TablesProofs Accountant Session Neighboring Builder
  BlindSpec Blind BlindSession.
Import ListNotations.
Local Open Scope string_scope.
Local Open Scope nat_scope.

Definition hide_frame (f : sframe) : sframe := {| sd_fields := sd_fields f; sd_rows := [] |}.
Definition hide_builder (b : builder) : builder :=
  {| b_budget := b_budget b; b_private := map (fun p => (fst p, (hide_frame (fst (snd p)), snd (snd p)))) (b_private b);
     b_public := b_public b; b_spaces := b_spaces b |}.
Definition hide_call (c : bcall) : bcall := match c with WithPrivate n f x => WithPrivate n (hide_frame f) x | _ => c end.
Definition hide_opened (o : opened) : opened := {| o_state := hide_state (o_state o); o_din := o_din o |}.

Ltac st := rewrite rmap_bind; apply bind_ext; intros ?.
Lemma coerce_loop_hide : forall fs f, coerce_loop fs (hide_frame f) = rmap hide_frame (coerce_loop fs f).
Proof.
  induction fs as [|x fs IH]; intros f; [reflexivity|]. cbn [coerce_loop]. destruct (coercion (sf_type x)) as [ty|]; [|apply IH].
  unfold with_cast. change (sd_fields (hide_frame f)) with (sd_fields f). destruct (raise_if _ _) as [u|e]; [|reflexivity]. cbn [bind]. apply (IH {| sd_fields := _; sd_rows := _ |}).
Qed.
Lemma coerce_hide f : coerce_spark_schema_or_fail (hide_frame f) = rmap hide_frame (coerce_spark_schema_or_fail f).
Proof. unfold coerce_spark_schema_or_fail. change (sd_fields (hide_frame f)) with (sd_fields f). st. st. apply coerce_loop_hide. Qed.
Notation hide_frames := (map (fun p : string * sframe => (fst p, hide_frame (snd p)))).
Lemma key_tables_hide d : forall dfs seen, key_tables d (hide_frames dfs) seen = key_tables d dfs seen.
Proof.
  induction dfs as [|(n, f) dfs IH]; intros seen; [reflexivity|]. cbn [map key_tables fst snd]. destruct (dget n d) as [key|]; [|apply IH].
  change (columns (hide_frame f)) with (columns f). apply bind_ext. intros _. rewrite coerce_hide, bind_rmap. apply bind_ext. intros g.
  change (sd_fields (hide_frame g)) with (sd_fields g). apply bind_ext. apply IH.
Qed.
Lemma validate_one_hide dfs r : validate_one (hide_frames dfs) r = validate_one dfs r.
Proof.
  destruct r as [t n|t g k m|s d n|l]; cbn [validate_one].
  - rewrite dget_map_val. destruct (dget t dfs) as [f|]; [|reflexivity]. cbn [option_map]. rewrite coerce_hide, bind_rmap. reflexivity.
  - rewrite dget_map_val. destruct (dget t dfs) as [f|]; [|reflexivity]. cbn [option_map]. change (columns (hide_frame f)) with (columns f).
    apply bind_ext. intros _. rewrite coerce_hide, bind_rmap. reflexivity.
  - rewrite key_tables_hide. replace (existsb (fun t => negb (dmem t (hide_frames dfs))) (dkeys d)) with (existsb (fun t => negb (dmem t dfs)) (dkeys d)); [reflexivity|].
    induction (dkeys d) as [|k l IH]; [reflexivity|]. cbn [existsb]. rewrite IH. unfold dmem at 1 3. rewrite dget_map_val. destruct (dget k dfs); reflexivity.
  - reflexivity.
Qed.
Lemma covered_hide dfs : forall l c, covered_tables (hide_frames dfs) l c = covered_tables dfs l c.
Proof. induction l as [|r l IH]; intros c; [reflexivity|]. cbn [covered_tables]. rewrite validate_one_hide. apply bind_ext. intros names. apply bind_ext. intros _. apply IH. Qed.
Lemma keys_hide (dfs : dict sframe) : dkeys (hide_frames dfs) = dkeys dfs.
Proof. unfold dkeys. rewrite map_map. apply map_ext. reflexivity. Qed.
Lemma validate_input_hide r dfs : validate_input r (hide_frames dfs) = validate_input r dfs.
Proof.
  destruct r; cbn [validate_input].
  - rewrite map_length. apply bind_ext. intros _. apply (f_equal (fun r => let* _ := r in Ok tt)), validate_one_hide.
  - rewrite map_length. apply bind_ext. intros _. apply (f_equal (fun r => let* _ := r in Ok tt)), validate_one_hide.
  - apply (f_equal (fun r => let* _ := r in Ok tt)), validate_one_hide.
  - rewrite covered_hide, keys_hide. apply bind_ext. intros c. f_equal. f_equal.
    induction c as [|k l IH]; [reflexivity|]. cbn [existsb]. rewrite IH. unfold dmem at 1 3. rewrite dget_map_val. destruct (dget k dfs); reflexivity.
Qed.

Section Relation.
Variable l2 : bool.
Variable dfs : dict sframe.
Lemma table_of_hide t : table_of (hide_frames dfs) t = rmap (fun x => (fst x, [])) (table_of dfs t).
Proof.
  unfold table_of. rewrite dget_map_val. destruct (dget t dfs) as [f|]; [|reflexivity]. cbn [option_map]. change (sd_fields (hide_frame f)) with (sd_fields f).
  st. reflexivity.
Qed.
Definition hide_keyed (k : keyed) : keyed := {| k_name := k_name k; k_key := k_key k; k_dom := k_dom k; k_rows := [] |}.
Lemma ensure_hide l : ensure_valid_schema_ark (map hide_keyed l) = rmap (map hide_keyed) (ensure_valid_schema_ark l).
Proof.
  unfold ensure_valid_schema_ark. assert (X : mapM key_desc (map hide_keyed l) = mapM key_desc l).
  { induction l as [|k l IH]; [reflexivity|]. cbn [map mapM]. change (key_desc (hide_keyed k)) with (key_desc k). now rewrite IH. }
  rewrite X. st. cbn [rmap]. f_equal. destruct (existsb core_null a); [|reflexivity]. rewrite !map_map. reflexivity.
Qed.
Definition hide_one (x : tree * distance) : tree * distance := (hide_tree (fst x), snd x).
Lemma visit_one_hide r : visit_one l2 (hide_frames dfs) r = rmap hide_one (visit_one l2 dfs r).
Proof.
  destruct r as [t n|t g k m|s d n|l]; cbn [visit_one]; try reflexivity.
  - rewrite table_of_hide, bind_rmap. st. reflexivity.
  - rewrite table_of_hide, bind_rmap. st. reflexivity.
  - rewrite (mapM_rmap (fun p => let* x := table_of dfs (fst p) in Ok {| k_name := fst p; k_key := snd p; k_dom := fst x; k_rows := snd x |}) _ hide_keyed).
    + rewrite bind_rmap. st. rewrite ensure_hide, bind_rmap. st. unfold rmap, hide_one. cbn [fst snd hide_tree]. rewrite !map_map. reflexivity.
    + intros p. rewrite table_of_hide, bind_rmap. st. reflexivity.
Qed.
Lemma iput_map {A B} (f : A -> B) k a : forall l, iput k (f a) (map (fun p => (fst p, f (snd p))) l) = map (fun p => (fst p, f (snd p))) (iput k a l).
Proof. induction l as [|(k', a') l IH]; [reflexivity|]. cbn [map iput fst snd]. destruct (ident_eqb k k'); [reflexivity|]. cbn [map fst snd]. now rewrite IH. Qed.
Lemma visit_children_hide : forall l acc, visit_children l2 (hide_frames dfs) l (map (fun p => (fst p, hide_one (snd p))) acc)
  = rmap (map (fun p => (fst p, hide_one (snd p)))) (visit_children l2 dfs l acc).
Proof.
  induction l as [|r l IH]; intros acc; [reflexivity|]. cbn [visit_children]. st. rewrite visit_one_hide, bind_rmap. st. rewrite iput_map. apply IH.
Qed.
Lemma visit_relation_hide r : visit_relation l2 (hide_frames dfs) r = rmap (fun x => (hide_tree (fst x), snd x)) (visit_relation l2 dfs r).
Proof.
  unfold visit_relation. rewrite (visit_children_hide _ []), bind_rmap. st. cbn [rmap fst snd hide_tree]. rewrite !map_map. reflexivity.
Qed.
End Relation.

Section Build.
Variable E : env.
Lemma new_hide b x : new_session b (hide_tree x) = rmap hide_state (new_session b x).
Proof. unfold new_session. rewrite sources_hide. st. reflexivity. Qed.
Lemma from_relation_hide b dfs r : from_neighboring_relation b (hide_frames dfs) r = rmap hide_opened (from_neighboring_relation b dfs r).
Proof.
  unfold from_neighboring_relation. rewrite validate_input_hide. st. rewrite visit_relation_hide, bind_rmap. st. cbn [fst snd]. rewrite new_hide, bind_rmap. st. reflexivity.
Qed.
Lemma add_public_hide : forall l st, add_public E (hide_state st) l = rmap hide_state (add_public E st l).
Proof.
  induction l as [|(n, f) l IH]; intros st; [reflexivity|]. cbn [add_public]. rewrite public_hide. destruct (add_public_dataframe E st [] n f) as (st', [u|e]); [|reflexivity].
  unfold hides. cbn [fst snd]. apply IH.
Qed.
Lemma build_session_hide b : build_session E (hide_builder b) = rmap hide_opened (build_session E b).
Proof.
  unfold build_session. change (b_budget (hide_builder b)) with (b_budget b). destruct (b_budget b) as [x|]; [|reflexivity].
  change (b_public (hide_builder b)) with (b_public b). change (b_spaces (hide_builder b)) with (b_spaces b). cbn [hide_builder b_private]. rewrite !map_map. cbn [fst snd].
  st. assert (X : map (fun p : string * (sframe * change) => (fst p, hide_frame (fst (snd p)))) (b_private b)
                 = hide_frames (map (fun p => (fst p, fst (snd p))) (b_private b))) by (rewrite map_map; reflexivity).
  rewrite X, from_relation_hide, bind_rmap. st. st. st.
  change (o_state (hide_opened a0)) with (hide_state (o_state a0)). rewrite add_public_hide, bind_rmap. st. reflexivity.
Qed.
Lemma build_hide_b b : Builder.build E (hide_builder b) = (hide_builder (fst (Builder.build E b)), rmap hide_opened (snd (Builder.build E b))).
Proof.
  unfold Builder.build. change (b_budget (hide_builder b)) with (b_budget b). destruct (b_budget b) as [x|] eqn:EB; [|reflexivity].
  destruct (b_private b) as [|(n, (f, c)) l] eqn:EP; cbn [hide_builder b_private]; rewrite EP; [reflexivity|]. cbn [map fst snd].
  assert (X : add_id_space_if_one_private_df E (hide_builder b) = rmap hide_builder (add_id_space_if_one_private_df E b)).
  { unfold add_id_space_if_one_private_df. change (b_spaces (hide_builder b)) with (b_spaces b). cbn [hide_builder b_private]. rewrite EP. cbn [map fst snd].
    destruct c as [|g k m|i s]; try (destruct l; reflexivity). destruct l; [|reflexivity]. destruct (smem s (b_spaces b)); [reflexivity|].
    unfold with_id_space. st. st. reflexivity. }
  rewrite X. destruct (add_id_space_if_one_private_df E b) as [b'|e]; [|reflexivity]. cbn [rmap fst snd]. now rewrite build_session_hide.
Qed.
Lemma dmem_hide n (d : dict (sframe * change)) : dmem n (map (fun p => (fst p, (hide_frame (fst (snd p)), snd (snd p)))) d) = dmem n d.
Proof. unfold dmem. rewrite (dget_map_val (fun x : sframe * change => (hide_frame (fst x), snd x))). destruct (dget n d); reflexivity. Qed.
Lemma dset_hide n f c (d : dict (sframe * change)) : dset n (hide_frame f, c) (map (fun p => (fst p, (hide_frame (fst (snd p)), snd (snd p)))) d)
  = map (fun p => (fst p, (hide_frame (fst (snd p)), snd (snd p)))) (dset n (f, c) d).
Proof. induction d as [|(n', x) d IH]; [reflexivity|]. cbn [map dset fst snd]. destruct (String.eqb n n'); [reflexivity|]. cbn [map fst snd]. now rewrite IH. Qed.
Lemma bcall_hide b c : bcall_result E (hide_builder b) (hide_call c) = rmap hide_builder (bcall_result E b c).
Proof.
  destruct c as [x|n f c|n f|s|]; cbn [hide_call bcall_result].
  - unfold with_privacy_budget. change (b_budget (hide_builder b)) with (b_budget b). st. reflexivity.
  - unfold with_private_dataframe. st. st. cbn [hide_builder b_private b_public]. rewrite dmem_hide. st. rewrite coerce_hide, bind_rmap. st.
    rewrite dset_hide. reflexivity.
  - unfold with_public_dataframe. cbn [hide_builder b_private b_public]. rewrite dmem_hide. st. st. st. reflexivity.
  - unfold with_id_space. change (b_spaces (hide_builder b)) with (b_spaces b). st. st. reflexivity.
  - rewrite build_hide_b. destruct (Builder.build E b) as (b', [o|e]); reflexivity.
Qed.
Lemma bstep_hide b c : bstep E (hide_builder b) (hide_call c) = hide_builder (bstep E b c).
Proof.
  destruct c as [x|n f c|n f|s|]; unfold bstep; try (rewrite bcall_hide; destruct (bcall_result E b _); reflexivity).
  cbn [hide_call]. now rewrite build_hide_b.
Qed.
Lemma brun_hide : forall l b, brun E (hide_builder b) (map hide_call l) = hide_builder (brun E b l).
Proof. induction l as [|c l IH]; intros b; [reflexivity|]. cbn [map brun]. rewrite bstep_hide. apply IH. Qed.
End Build.
