(** The table a query evaluates to belongs to the domain the visitor declares. *)
From Coq Require Import String Bool Arith ZArith QArith Qcanon Lia Permutation List.
From Verif Require Import Prelude Value Rows Constraints ConstraintsSpec ConstraintsProofs Schema SchemaProofs
  Query Transform TransformSpec TransformConform.
Import ListNotations.
Local Open Scope string_scope.
Local Open Scope nat_scope.

Ltac inv_ok H :=
  match type of H with
  | bind _ _ = Ok _ =>
      let x := fresh "x" in let E := fresh "E" in apply bind_ok in H; destruct H as (x & E & H);
      try (match type of E with raise_if _ _ = Ok _ => destruct x; apply raise_if_ok in E end)
  end.

Lemma conforms_in_domain s d t : same_entries d (analytics_to_core s) ->
  conforms (sc_cols s) t -> in_domain d t.
Proof.
  intros E C r I. destruct (C r I) as (N & K & Cc). split; [exact N|].
  assert (K' : forall c, In c (dkeys d) <-> In c (dkeys (sc_cols s))).
  { intros c. rewrite !in_dkeys. rewrite (E c). unfold analytics_to_core. rewrite dget_map_val.
    destruct (dget c (sc_cols s)); simpl; split; intros [v H]; eauto; discriminate. }
  split.
  - intros c. rewrite K, K'. tauto.
  - intros c k H. rewrite (E c) in H. unfold analytics_to_core in H. rewrite dget_map_val in H.
    destruct (dget c (sc_cols s)) as [x|] eqn:Ex; [|discriminate]. injection H as <-. rewrite cell_core. apply (Cc c x Ex).
Qed.

Lemma in_domain_conforms s d t : same_entries d (analytics_to_core s) ->
  in_domain d t -> conforms (sc_cols s) t.
Proof.
  intros E C r I. destruct (C r I) as (N & K & Cc). split; [exact N|].
  assert (K' : forall c, In c (dkeys d) <-> In c (dkeys (sc_cols s))).
  { intros c. rewrite !in_dkeys. rewrite (E c). unfold analytics_to_core. rewrite dget_map_val.
    destruct (dget c (sc_cols s)); simpl; split; intros [v H]; eauto; discriminate. }
  split.
  - intros c. rewrite K, K'. tauto.
  - intros c x H. rewrite <- cell_core. apply Cc. rewrite (E c). unfold analytics_to_core. rewrite dget_map_val, H. reflexivity.
Qed.

(** A public data frame, seen as a table with the domain the visitor gives it. *)
Lemma frame_in_domain f pd ps : frame_conforms f ->
  spark_schema_to_analytics_columns (sd_fields f) = Ok pd -> mk_schema pd None None None = Ok ps ->
  NoDup (dkeys (analytics_to_core ps)) /\ in_domain (analytics_to_core ps) (frame_rows f).
Proof.
  intros [N C] S M. apply mk_schema_ok in M. destruct M as (_ & _ & _ & ->).
  split.
  - unfold analytics_to_core. rewrite dkeys_map_val. cbn [sc_cols].
    unfold spark_schema_to_analytics_columns in S. inv_ok S. injection S as <-. apply NoDup_dict_of.
  - eapply conforms_in_domain; [intros k; reflexivity|]. cbn [sc_cols]. apply C, S.
Qed.

Section Visit.
Variables (W : world) (l2 : bool) (cat : catalog) (data : dict vtab).
Hypothesis IN : inputs_ok l2 cat data.

Lemma public_frame_conforms p f :
  match p with PubName _ => True | PubFrame g => frame_conforms g end ->
  public_frame cat p = Ok f -> frame_conforms f.
Proof.
  destruct p as [n|g]; cbn; intros P H.
  - destruct (dget n (cat_public cat)) as [[s f']|] eqn:E; [|discriminate]. injection H as <-.
    destruct (proj2 IN n s f' E) as [F _]. exact F.
  - injection H as <-. exact P.
Qed.

Lemma enforce_incl c x y : enforce (w_row_order W) (w_key_order W) c false false x = Ok y ->
  incl (t_rows y) (t_rows x).
Proof.
  intros H. apply enforce_ok in H. destruct H as (idc & -> & _). intros r I.
  eapply sub_table_In; [apply enforce_rows_sub|exact I].
Qed.

Lemma filter_incl {A} (p : A -> bool) l : incl (filter p l) l.
Proof. intros x I. apply filter_In in I. tauto. Qed.

Lemma visit_in_domain auto q : built auto q -> promises W l2 cat data q ->
  forall t cs, visit W l2 cat data q = Ok (t, cs) -> tab_ok t.
Proof.
  induction q; intros B P t0 cs0 H; cbn [visit] in H; try discriminate H.
  - (* source *)
    unfold visit_source in H. destruct (dget source_id data) as [t|] eqn:E; [|discriminate].
    destruct (dget source_id (cat_private cat)) as [[s cs]|]; [|discriminate]. injection H as <- <-.
    destruct (proj1 IN source_id t E) as (s' & cs' & _ & _ & N & _ & SE & _ & C). split; [exact N|].
    eapply conforms_in_domain; eassumption.
  - (* rename *)
    inv_ok H. destruct x as [t cs]. destruct B as [_ B]. destruct P as [P1 P2]. destruct (IHq B P1 t cs E) as [N D].
    unfold visit_rename in H. inv_ok H. injection H as <- <-.
    destruct (rename_ok mapper (v_dom t) (v_rows t) N (P2 t cs E) D) as (E1 & N1 & D1).
    split; cbn [v_dom v_rows]; rewrite E1; assumption.
  - (* filter *)
    inv_ok H. destruct x as [t cs]. destruct B as [_ B]. destruct (IHq B P t cs E) as [N D].
    injection H as <- <-. split; [exact N|]. eapply in_domain_sub; [exact D|]. apply filter_incl.
  - (* select *)
    inv_ok H. destruct x as [t cs]. destruct B as [B0 B]. destruct (IHq B P t cs E) as [N D].
    cbn in B0. inv_ok B0. apply has_dup_false in E0.
    unfold visit_select in H. inv_ok H. inv_ok H. injection H as <- <-.
    destruct (select_ok columns (v_dom t) (v_rows t) x E0 D E1) as (N1 & D1 & _ & _).
    split; cbn [v_dom v_rows]; rewrite dict_of_NoDup by exact N1; assumption.
  - (* map *)
    inv_ok H. destruct x as [t cs]. destruct B as [_ B]. destruct P as (P1 & Pn & P2). destruct (IHq B P1 t cs E) as [N D].
    unfold visit_map in H. inv_ok H. inv_ok H. injection H as <- <-. split; cbn [v_dom v_rows].
    + apply mapped_NoDup; assumption.
    + intros r I. apply in_map_iff in I. destruct I as (r0 & <- & I). unfold map_row.
      apply mapped_ok; [exact Pn|exact (D r0 I)|exact (P2 t cs r0 E I)].
  - (* flat map *)
    inv_ok H. destruct x as [t cs]. destruct B as [_ B]. destruct P as (P1 & Pn & P2). destruct (IHq B P1 t cs E) as [N D].
    unfold visit_flat_map in H. inv_ok H. inv_ok H. injection H as <- <-. split; cbn [v_dom v_rows].
    + apply mapped_NoDup; assumption.
    + intros r I. apply in_flat_map in I. destruct I as (r0 & I & I2). unfold flat_map_row in I2.
      apply in_map_iff in I2. destruct I2 as (o & <- & Io).
      apply mapped_ok; [exact Pn|exact (D r0 I)|]. apply (P2 t cs r0 o E I).
      destruct (snd x) as [n|]; [|exact Io]. clear -Io. revert n Io. induction (f r0) as [|a l IH]; intros [|n] Io; try destruct Io.
      * left; assumption.
      * right; eapply IH; eassumption.
  - (* flat map by id *)
    inv_ok H. destruct x as [t cs]. destruct B as [_ B]. destruct P as (P1 & Pn & P2). destruct (IHq B P1 t cs E) as [N D].
    unfold visit_flat_map_by_id in H. destruct (v_place t) as [i| | |]; try discriminate H.
    destruct (dget i (v_dom t)) as [d|] eqn:Ed; [|discriminate]. inv_ok H. injection H as <- <-. split; cbn [v_dom v_rows].
    + apply NoDup_merge. repeat constructor. intros [].
    + intros r I. unfold flat_map_by_id_rows in I. apply in_flat_map in I. destruct I as (v & Iv & I).
      apply in_map_iff in I. destruct I as (o & <- & Io).
      assert (R : returns new o).
      { apply (P2 t cs _ o E) in Io; [exact Io|]. intros r Ir. eapply Permutation_in in Ir; [|apply isort_perm].
        apply filter_In in Ir. tauto. }
      pose proof (new_cells_ok new o Pn R) as C.
      assert (M : (i, v) :: new_cells new o = merge [(i, v)] (new_cells new o)).
      { symmetry. unfold merge. assert (K : dkeys (new_cells new o) = dkeys (sc_cols new)) by apply dkeys_select.
        assert (Ni : ~ In i (dkeys (new_cells new o))) by (rewrite K, <- dmem_In, E0; discriminate).
        rewrite <- K in Pn. clear -Pn Ni.
        change ([(i, v)]) with ([(i, v)] : dict value).
        assert (G : forall (l acc : dict value), NoDup (dkeys l) -> (forall c, In c (dkeys l) -> ~ In c (dkeys acc)) ->
                  fold_left (fun acc p => dset (fst p) (snd p) acc) l acc = (acc ++ l)%list).
        { clear. induction l as [|[c x] l IH]; intros acc N H; [symmetry; apply app_nil_r|]. simpl.
          cbn in N. inversion N as [|? ? N1 N2]; subst.
          rewrite dset_append by (apply H; left; reflexivity). rewrite IH; [rewrite <- app_assoc; reflexivity|exact N2|].
          intros c' I' I2. unfold dkeys in I2. rewrite map_app in I2. apply in_app_or in I2. destruct I2 as [I2|I2].
          - apply (H c'); [right; exact I'|exact I2].
          - destruct I2 as [<-|[]]. contradiction. }
        rewrite G; [reflexivity|exact Pn|]. intros c Ic [E|[]]. cbn in E. subst. contradiction. }
      rewrite M. apply merge_row_ok; [rewrite dkeys_new_core; exact Pn| |exact C].
      apply row_by_entries; [repeat constructor; intros []|]. repeat constructor. cbn [fst snd].
      apply nodup_In, in_map_iff in Iv. destruct Iv as (r0 & <- & I0). apply (proj2 (proj2 (D r0 I0)) i d Ed).
  - (* private join *)
    inv_ok H. destruct x as [tl' cl]. inv_ok H. destruct x as [tr' cr]. destruct B as (_ & B1 & B2). destruct P as [P1 P2].
    destruct (IHq1 B1 P1 tl' cl E) as [Nl Dl]. destruct (IHq2 B2 P2 tr' cr E0) as [Nr Dr].
    unfold visit_join_private in H. inv_ok H. inv_ok H. destruct x as [[p lr] rr]. inv_ok H.
    injection H as <- <-.
    apply join_domain_spec in E3.
    assert (L : incl lr (v_rows tl') /\ incl rr (v_rows tr')).
    { destruct (v_place tl'), (v_place tr'); try discriminate E2.
      - inv_ok E2. inv_ok E2. injection E2 as <- <- <-. split; apply incl_refl.
      - destruct tl as [sl|]; [|discriminate]. destruct tr as [sr|]; [|discriminate]. injection E2 as <- <- <-.
        split; apply truncate_side_incl. }
    destruct L as [L1 L2].
    split; cbn [v_dom v_rows].
    + destruct E3; assumption.
    + apply inner_join_ok; try assumption; eapply in_domain_sub; eassumption.
  - (* public join *)
    inv_ok H. destruct x as [t cs]. destruct B as (_ & B). destruct P as [P1 P2].
    destruct (IHq B P1 t cs E) as [N D].
    unfold visit_join_public in H. inv_ok H. inv_ok H. inv_ok H. inv_ok H. inv_ok H. injection H as <- <-.
    destruct (frame_in_domain x x0 x1 (public_frame_conforms public x P2 E0) E1 E2) as [Nf Df].
    destruct (negb (in_collection (v_place t)) && String.eqb how "left") eqn:L; apply join_domain_spec in E3;
      (split; cbn [v_dom v_rows]; [destruct E3; assumption|]).
    + apply left_join_ok; assumption.
    + apply inner_join_ok; assumption.
  - (* replace null *)
    inv_ok H. destruct x as [t cs]. destruct B as (B0 & B). destruct P as (P1 & P2 & P3).
    destruct (IHq B P1 t cs E) as [N D].
    unfold visit_replace_null in H. inv_ok H. inv_ok H. inv_ok H. injection H as <- <-.
    rewrite core_to_analytics_view in E1. injection E1 as <-.
    cbn in B0. inv_ok B0.
    destruct (get_replace_with_ok replace_with (v_dom t) (metric_column (v_place t)) x0 N P2) as (N0 & S0 & _).
    + intros c v I. destruct (valid_replacement v) eqn:V; [reflexivity|]. exfalso.
      assert (existsb (fun p => negb (valid_replacement (snd p))) replace_with = true); [|congruence].
      apply existsb_exists. exists (c, v). split; [exact I|]. cbn. rewrite V. reflexivity.
    + intros c v k I Hd. apply (P3 t cs c v k E I Hd).
    + exact E2.
    + split; cbn [v_dom v_rows]; [rewrite !at_columns_dkeys; exact N|].
      set (an := map (fun p => (fst p, view (snd p))) (v_dom t)) in *.
      set (nans := filter _ x0). set (nulls := filter _ x0).
      rewrite <- map_map. apply replace_nans_ok.
      * apply replace_nulls_ok; [exact D|]. intros c v k Hm Hd. unfold nulls in Hm.
        apply dget_filter_keys in Hm; [|exact N0]. apply (S0 c v k); tauto.
      * intros c v k Hm Hd. apply dget_filter_keys in Hm; [|exact N0].
        rewrite at_columns_dget in Hd. destruct (dget c (v_dom t)) as [k0|] eqn:Ek; [|discriminate]. injection Hd as <-.
        pose proof (S0 c v k0 (proj1 Hm) Ek) as S1.
        destruct (smem c (dkeys nulls)); [|exact S1]. destruct k0; exact S1.
  - (* replace infinity *)
    inv_ok H. destruct x as [t cs]. destruct B as (B0 & B). destruct P as (P1 & P2).
    destruct (IHq B P1 t cs E) as [N D]. cbn in B0. inv_ok B0. clear B0.
    unfold visit_replace_inf in H. inv_ok H. inv_ok H. inv_ok H. injection H as <- <-.
    split; cbn [v_dom v_rows]; [rewrite at_columns_dkeys; exact N|]. apply replace_infs_ok; [exact D|].
    destruct replace_with as [|p0 rw] eqn:Erw.
    + intros c b Hb. rewrite (dget_map_val (fun _ => (z_to_f 0, z_to_f 0))) in Hb.
      destruct (dget c (filter (fun p => is_decimal (snd p)) x)); [|discriminate]. injection Hb as <-. split; reflexivity.
    + rewrite <- Erw in *. intros c b Hb. apply dget_In in Hb.
      destruct (finite_f (fst b) && finite_f (snd b)) eqn:F; [apply andb_prop, F|]. exfalso.
      match type of E0 with ?e = false => assert (e = true); [|congruence] end.
      apply existsb_exists. exists (c, b). split; [exact Hb|]. cbn. rewrite F. reflexivity.
  - (* drop null *)
    inv_ok H. destruct x as [t cs]. destruct B as (_ & B). destruct (IHq B P t cs E) as [N D].
    unfold visit_drop_null in H. inv_ok H. inv_ok H. inv_ok H. inv_ok H. injection H as <- <-.
    split; cbn [v_dom v_rows]; [rewrite !at_columns_dkeys; exact N|].
    apply refine_domain; [apply refine_domain|].
    + eapply in_domain_sub; [exact D|]. intros r I. apply filter_incl in I. apply filter_incl in I. exact I.
    + intros r c k I Ic Hk Ck. unfold drop_rows at 1 in I. apply filter_In in I. destruct I as [I _].
      apply drop_rows_In in I. destruct I as [I Z]. specialize (Z c Ic).
      destruct k, (getv c r) as [| |[]| | |]; try discriminate; exact Ck.
    + intros r c k I Ic Hk Ck. apply drop_rows_In in I. destruct I as [I Z]. specialize (Z c Ic).
      destruct k, (getv c r) as [| |[]| | |]; try discriminate; exact Ck.
  - (* drop infinity *)
    inv_ok H. destruct x as [t cs]. destruct B as (_ & B). destruct (IHq B P t cs E) as [N D].
    unfold visit_drop_inf in H. inv_ok H. inv_ok H. inv_ok H. injection H as <- <-.
    split; cbn [v_dom v_rows]; [rewrite !at_columns_dkeys; exact N|].
    apply refine_domain.
    + eapply in_domain_sub; [exact D|]. apply filter_incl.
    + intros r c k I Ic Hk Ck. apply drop_rows_In in I. destruct I as [I Z]. specialize (Z c Ic).
      destruct k, (getv c r) as [| |[]| | |]; try discriminate; exact Ck.
  - (* enforce *)
    inv_ok H. destruct x as [t cs]. destruct B as (_ & B). destruct (IHq B P t cs E) as [N D].
    unfold visit_enforce in H. inv_ok H. injection H as <- <-. split; cbn [v_dom v_rows]; [exact N|].
    eapply in_domain_sub; [exact D|]. apply enforce_incl in E0. exact E0.
Qed.
End Visit.
