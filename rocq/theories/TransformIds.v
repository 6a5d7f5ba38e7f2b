(** Transformations of tables with privacy IDs treat each ID separately. *)
From Coq Require Import String Bool Arith ZArith QArith Qcanon Lia Permutation List.
From Verif Require Import Prelude Value Rows Constraints ConstraintsSpec ConstraintsProofs Schema SchemaProofs
  Query Transform TransformSpec TransformConform TransformVisit TransformAgree.
Import ListNotations.
Local Open Scope string_scope.
Local Open Scope nat_scope.

(** *** Lists *)
Lemma filter_map_comm {A B} (p : B -> bool) (q : A -> bool) (f : A -> B) l :
  (forall x, In x l -> p (f x) = q x) -> filter p (map f l) = map f (filter q l).
Proof.
  induction l as [|x l IH]; intros H; [reflexivity|]. simpl. rewrite (H x) by (left; reflexivity).
  destruct (q x); simpl; rewrite IH; auto; intros; apply H; right; assumption.
Qed.
Lemma filter_app' {A} (p : A -> bool) l l' : filter p (l ++ l')%list = (filter p l ++ filter p l')%list.
Proof. induction l as [|x l IH]; simpl; [reflexivity|]. destruct (p x); simpl; rewrite IH; reflexivity. Qed.
Lemma filter_flat_map_comm {A B} (p : B -> bool) (q : A -> bool) (f g : A -> list B) l :
  (forall x, In x l -> q x = true -> g x = f x /\ forall y, In y (f x) -> p y = true) ->
  (forall x, In x l -> q x = false -> forall y, In y (f x) -> p y = false) ->
  filter p (flat_map f l) = flat_map g (filter q l).
Proof.
  induction l as [|x l IH]; intros H1 H2; [reflexivity|]. simpl. rewrite filter_app'.
  rewrite IH by (intros; first [apply H1 | eapply H2]; simpl; eauto).
  destruct (q x) eqn:Q.
  - destruct (H1 x (or_introl eq_refl) Q) as [E T]. simpl. rewrite E, (filter_true p) by exact T. reflexivity.
  - rewrite (filter_none p) by (apply (H2 x (or_introl eq_refl) Q)). reflexivity.
Qed.
Lemma filter_comm {A} (p q : A -> bool) l : filter p (filter q l) = filter q (filter p l).
Proof. rewrite !filter_filter. apply filter_ext. intros; apply andb_comm. Qed.
Lemma nodup_filter_comm (q : value -> bool) l :
  filter q (nodup value_eq_dec l) = nodup value_eq_dec (filter q l).
Proof.
  induction l as [|x l IH]; [reflexivity|]. simpl.
  destruct (in_dec value_eq_dec x l) as [I|I].
  - destruct (q x) eqn:Q; [|exact IH]. simpl.
    destruct (in_dec value_eq_dec x (filter q l)) as [J|J]; [exact IH|]. exfalso. apply J, filter_In. auto.
  - simpl. destruct (q x) eqn:Q; [|exact IH]. simpl.
    destruct (in_dec value_eq_dec x (filter q l)) as [J|J]; [|rewrite IH; reflexivity].
    apply filter_In in J. tauto.
Qed.

Lemma fold_dset_keys {V} (l : dict V) : forall acc c, In c (dkeys l) \/ In c (dkeys acc) ->
  In c (dkeys (fold_left (fun acc p => dset (fst p) (snd p) acc) l acc)).
Proof.
  induction l as [|[k v] l IH]; intros acc c H; [destruct H as [[]|H]; exact H|]. simpl. apply IH.
  destruct (String.eqb_spec c k) as [Ec|Ne].
  - right. subst. apply in_dkeys. exists v. apply dget_dset_same.
  - destruct H as [[H|H]|H].
    + cbn in H. congruence.
    + left; exact H.
    + right. apply in_dkeys in H. destruct H as (x & H). apply in_dkeys. exists x. rewrite dget_dset_other by congruence. exact H.
Qed.

Section Ids.
Variables (W : world) (l2 : bool) (cat : catalog) (data : dict vtab).
Hypothesis IN : inputs_ok l2 cat data.

(** *** The ID column is one of the table's columns. *)
Definition id_present (t : vtab) : Prop := forall i, v_place t = PKeys i -> In i (dkeys (v_dom t)).

Lemma rename_place_keys m p i : rename_place m p = PKeys i -> exists j, p = PKeys j /\ i = renamed m j.
Proof. destruct p; cbn; intros H; try discriminate. injection H as <-. eauto. Qed.

Lemma dget_rekey_in m (d : dict coredesc) i : In i (dkeys d) ->
  In (renamed m i) (dkeys (dict_of (map (fun p => (renamed m (fst p), snd p)) d))).
Proof.
  intros I.
  unfold dict_of. apply fold_dset_keys. left. rewrite dkeys_rekey. apply in_map, I.
Qed.

Lemma visit_id_present q : forall t cs, visit W l2 cat data q = Ok (t, cs) -> id_present t.
Proof.
  induction q; intros t0 cs0 H; cbn [visit] in H; try discriminate H.
  - unfold visit_source in H. destruct (dget source_id data) as [t|] eqn:E; [|discriminate].
    destruct (proj1 IN source_id t E) as (s & cs & Es & Ns & Nd & Sp & SE & M & _).
    rewrite Es in H. injection H as <- <-. intros i Hi. rewrite (same_entries_keys _ _ SE i).
    rewrite analytics_to_core_cols, dkeys_core_cols. apply Sp. right. unfold metric_for in M. rewrite Hi in M.
    destruct (sc_group s), (sc_id s); try contradiction; congruence.
  - inv_ok H. destruct x as [t cs]. specialize (IHq t cs E). unfold visit_rename in H. inv_ok H. injection H as <- <-.
    intros i Hi. cbn [v_place v_dom] in *. apply rename_place_keys in Hi. destruct Hi as (j & Hj & ->).
    apply dget_rekey_in, IHq, Hj.
  - inv_ok H. destruct x as [t cs]. injection H as <- <-. exact (IHq t cs E).
  - inv_ok H. destruct x as [t cs]. specialize (IHq t cs E). unfold visit_select in H. inv_ok H. inv_ok H. injection H as <- <-.
    intros i Hi. cbn [v_place v_dom] in *. rewrite Hi in E1. cbn in E1. apply negb_false_iff, smem_In in E1.
    assert (K : dkeys x = columns).
    { clear -E0. apply mapM_ok_Forall2 in E0. induction E0 as [|c [c' k] l l' H _ IH]; [reflexivity|].
      destruct (dget c (v_dom t)); [|discriminate]. injection H as <- <-. cbn [dkeys map fst]. f_equal. exact IH. }
    rewrite <- K in E1. apply in_dkeys in E1. destruct E1 as (k & Hk).
    unfold dict_of. apply fold_dset_keys. left. apply in_dkeys. eauto.
  - inv_ok H. destruct x as [t cs]. specialize (IHq t cs E). unfold visit_map in H. inv_ok H. inv_ok H. injection H as <- <-.
    intros i Hi. cbn [v_place v_dom] in *. rewrite Hi in E0. cbn in E0. destruct augment; [|discriminate].
    unfold mapped_domain, merge.
    apply fold_dset_keys; right; apply IHq, Hi.
  - inv_ok H. destruct x as [t cs]. specialize (IHq t cs E). unfold visit_flat_map in H. inv_ok H. inv_ok H. injection H as <- <-.
    intros i Hi. cbn [v_place v_dom] in *.
    assert (Hp : v_place t = PKeys i /\ augment = true).
    { destruct (in_collection (v_place t)) eqn:C.
      - inv_ok E0. inv_ok E0. injection E0 as <-. cbn in Hi. split; [exact Hi|]. destruct augment; [reflexivity|discriminate].
      - destruct max_rows; [|discriminate]. destruct (sc_group new).
        + destruct (v_place t); try discriminate. injection E0 as <-. discriminate Hi.
        + injection E0 as <-. cbn in Hi. rewrite Hi in C. discriminate. }
    destruct Hp as [Hp ->]. unfold mapped_domain, merge.
    apply fold_dset_keys; right; apply IHq, Hp.
  - inv_ok H. destruct x as [t cs]. specialize (IHq t cs E). unfold visit_flat_map_by_id in H.
    destruct (v_place t) as [i| | |]; try discriminate. destruct (dget i (v_dom t)) as [d|]; [|discriminate].
    inv_ok H. injection H as <- <-. intros j Hj. cbn [v_place v_dom] in *. injection Hj as <-.
    unfold merge.
    apply fold_dset_keys. right. left. reflexivity.
  - inv_ok H. destruct x as [tl' cl]. inv_ok H. destruct x as [tr' cr]. specialize (IHq1 _ _ E). specialize (IHq2 _ _ E0).
    unfold visit_join_private in H. inv_ok H. inv_ok H. destruct x as [[p lr] rr]. inv_ok H. injection H as <- <-.
    intros i Hi. cbn [v_place v_dom] in *. subst p.
    destruct (v_place tl') as [i1| | |], (v_place tr') as [i2| | |]; try discriminate E2.
    + inv_ok E2. inv_ok E2. assert (i1 = i) as -> by congruence. apply negb_false_iff, smem_In in E5.
      apply join_domain_spec in E3. destruct E3 as [j JK JC JO JN Jo]. rewrite JO. unfold dkeys. rewrite map_app. apply in_or_app. left.
      change (In i (dkeys j)). rewrite JK. exact E5.
    + destruct tl; [|discriminate]. destruct tr; discriminate.
  - inv_ok H. destruct x as [t cs]. specialize (IHq t cs E).
    unfold visit_join_public in H. inv_ok H. inv_ok H. inv_ok H. inv_ok H. inv_ok H. injection H as <- <-.
    intros i Hi. cbn [v_place v_dom] in *. rewrite Hi in E4. cbn in E4. specialize (IHq i Hi).
    apply join_domain_spec in E3. destruct E3 as [j JK JC JO JN Jo]. rewrite JO. unfold dkeys. rewrite map_app. apply in_or_app.
    destruct (in_dec string_dec i (join_columns on (v_dom t) (analytics_to_core x1))) as [I|I].
    + left. change (In i (dkeys j)). rewrite JK. exact I.
    + right. rewrite map_app. apply in_or_app. left. apply in_dkeys in IHq. destruct IHq as (k & Hk).
      apply in_map_iff. exists (i, k). cbn. split; [reflexivity|].
      apply in_map_iff. exists (i, k). split.
      * cbn. unfold suffixed. destruct (dmem i (analytics_to_core x1)) eqn:Dm; [|reflexivity]. exfalso.
           apply smem_false in E4. apply E4. unfold overlapping. apply filter_In. split.
        -- unfold common_columns. apply filter_In. split; [apply in_dkeys; eauto|exact Dm].
        -- apply negb_true_iff, smem_false, I.
      * apply filter_In. split; [apply dget_In, Hk|]. cbn. apply negb_true_iff, smem_false, I.
  - inv_ok H. destruct x as [t cs]. specialize (IHq t cs E).
    unfold visit_replace_null in H. inv_ok H. inv_ok H. inv_ok H. injection H as <- <-.
    intros i Hi. cbn [v_place v_dom] in *. rewrite !at_columns_dkeys. apply IHq, Hi.
  - inv_ok H. destruct x as [t cs]. specialize (IHq t cs E).
    unfold visit_replace_inf in H. inv_ok H. inv_ok H. inv_ok H. injection H as <- <-.
    intros i Hi. cbn [v_place v_dom] in *. rewrite !at_columns_dkeys. apply IHq, Hi.
  - inv_ok H. destruct x as [t cs]. specialize (IHq t cs E).
    unfold visit_drop_null in H. inv_ok H. inv_ok H. inv_ok H. inv_ok H. injection H as <- <-.
    intros i Hi. cbn [v_place v_dom] in *. rewrite !at_columns_dkeys. apply IHq, Hi.
  - inv_ok H. destruct x as [t cs]. specialize (IHq t cs E).
    unfold visit_drop_inf in H. inv_ok H. inv_ok H. inv_ok H. injection H as <- <-.
    intros i Hi. cbn [v_place v_dom] in *. rewrite !at_columns_dkeys. apply IHq, Hi.
  - inv_ok H. destruct x as [t cs]. specialize (IHq t cs E). unfold visit_enforce in H. inv_ok H. injection H as <- <-.
    intros i Hi. cbn [v_place v_dom] in *. apply IHq.
    unfold enforce in E0. cbn [t_place] in E0. destruct c, (v_place t); try discriminate; injection E0 as <-; exact Hi.
Qed.

(** *** Columns and ID columns of the schema and of the domain *)
Notation sch := (schema_of (w_cond_ok W) cat).
Record keys_agree (s : schema) (t : vtab) : Prop := {
  ka_cols : forall c, In c (dkeys (sc_cols s)) <-> In c (dkeys (v_dom t));
  ka_id : forall i, v_place t = PKeys i <-> sc_id s = Some i
}.

Lemma join_domain_keys on left l r out : join_domain on left l r = Ok out ->
  forall c, In c (dkeys out) <->
    In c on
    \/ (exists c0, In c0 (dkeys l) /\ ~ In c0 on /\ c = suffixed r "_left" c0)
    \/ (exists c0, In c0 (dkeys r) /\ ~ In c0 on /\ c = suffixed l "_right" c0).
Proof.
  intros J c. apply join_domain_spec in J. destruct J as [j JK JC JO JN _]. rewrite JO. unfold dkeys at 1. rewrite !map_app, !in_app_iff.
  fold (dkeys j). rewrite JK, !map_map. cbn [fst].
  assert (G : forall (d : dict coredesc) (f : string -> string), In c (map (fun x : string * coredesc => f (fst x)) (filter (fun p => negb (smem (fst p) on)) d))
              <-> exists c0, In c0 (dkeys d) /\ ~ In c0 on /\ c = f c0).
  { intros d f. rewrite in_map_iff. split.
    - intros ([c0 k0] & E & I). apply filter_In in I. destruct I as [I F]. cbn in *. exists c0.
      split; [exact (in_map fst _ _ I)|]. split; [apply smem_false, negb_true_iff, F|symmetry; exact E].
    - intros (c0 & I & N & ->). apply in_dkeys in I. destruct I as (k & I). exists (c0, k). split; [reflexivity|].
      apply filter_In. split; [apply dget_In, I|]. cbn. apply negb_true_iff, smem_false, N. }
  rewrite (G l (suffixed r "_left")), (G r (suffixed l "_right")). reflexivity.
Qed.

Lemma suffixed_keys {A B} (a : dict A) (b : dict B) suffix c :
  (forall c, In c (dkeys a) <-> In c (dkeys b)) -> suffixed a suffix c = suffixed b suffix c.
Proof.
  intros H. unfold suffixed. destruct (dmem c a) eqn:E, (dmem c b) eqn:E'; try reflexivity.
  - apply dmem_In, H, dmem_In in E. congruence.
  - apply dmem_In, H, dmem_In in E'. congruence.
Qed.
Lemma join_keys_same on on' left left' l l' r r' out out' :
  (forall c, In c (dkeys l) <-> In c (dkeys l')) -> (forall c, In c (dkeys r) <-> In c (dkeys r')) ->
  (forall c, In c on <-> In c on') ->
  join_domain on left l r = Ok out -> join_domain on' left' l' r' = Ok out' ->
  forall c, In c (dkeys out) <-> In c (dkeys out').
Proof.
  intros El Er Eon J J' c. rewrite (join_domain_keys _ _ _ _ _ J), (join_domain_keys _ _ _ _ _ J'). rewrite Eon.
  apply or_iff_compat_l. apply ZifyClasses.or_morph.
  - split; intros (c0 & I & N & ->); exists c0; rewrite (suffixed_keys r r') by exact Er; rewrite <- Eon, <- El in * || rewrite Eon, El in *; auto.
  - split; intros (c0 & I & N & ->); exists c0; rewrite (suffixed_keys l l') by exact El; rewrite <- Eon, <- Er in * || rewrite Eon, Er in *; auto.
Qed.
Lemma common_keys {A B C D} (a : dict A) (b : dict B) (a' : dict C) (b' : dict D) :
  (forall c, In c (dkeys a) <-> In c (dkeys a')) -> (forall c, In c (dkeys b) <-> In c (dkeys b')) ->
  forall c, In c (common_columns a b) <-> In c (common_columns a' b').
Proof. intros Ha Hb c. unfold common_columns. rewrite !filter_In, !dmem_In, Ha, Hb. reflexivity. Qed.

Lemma dict_of_keys {V} (l : dict V) c : In c (dkeys (dict_of l)) <-> In c (dkeys l).
Proof.
  unfold dict_of.
  assert (G : forall (l acc : dict V), In c (dkeys (fold_left (fun acc p => dset (fst p) (snd p) acc) l acc)) <-> In c (dkeys l) \/ In c (dkeys acc)).
  { clear. induction l as [|[k v] l IH]; intros acc; simpl; [tauto|]. rewrite IH.
    assert (In c (dkeys (dset k v acc)) <-> k = c \/ In c (dkeys acc)) as ->; [|tauto].
    rewrite !in_dkeys. rewrite dget_dset. destruct (String.eqb_spec k c) as [Ec|Ne].
    - split; eauto.
    - rewrite <- in_dkeys. tauto. }
  rewrite G. simpl. tauto.
Qed.
Lemma pick_keys d cols l : pick d cols = Ok l -> forall c, In c (dkeys l) <-> In c cols.
Proof.
  unfold pick. intros H c. inv_ok H. injection H as <-. apply mapM_keyed in E. destruct E as [K _]. rewrite dict_of_keys, K. reflexivity.
Qed.

Lemma rebuild_keys f s s' t dom rows : keys_agree s t -> rebuild f s = Ok s' -> dkeys dom = dkeys (v_dom t) ->
  keys_agree s' {| v_dom := dom; v_coll := v_coll t; v_place := v_place t; v_rows := rows |}.
Proof.
  intros [C I] R K. apply rebuild_ok in R. destruct R as (Ec & _ & Ei & _). split; cbn [v_dom v_place].
  - intros c. rewrite Ec, dkeys_map_key, K. apply C.
  - rewrite Ei. exact I.
Qed.

Lemma schema_keys_agree auto q : built auto q -> promises W l2 cat data q ->
  forall s t cs, sch q = Ok s -> visit W l2 cat data q = Ok (t, cs) -> keys_agree s t.
Proof.
  induction q; intros B P s0 t0 cs0 S H; cbn [visit] in H; try discriminate H; cbn [schema_of] in S.
  - unfold visit_source in H. destruct (dget source_id data) as [t|] eqn:E; [|discriminate].
    destruct (proj1 IN source_id t E) as (s & cs & Es & Ns & Nd & _ & SE & M & _).
    rewrite Es in H. injection H as <- <-. unfold source_schema in S. inv_ok S. rewrite Es in S. injection S as <-.
    split.
    + intros c. rewrite (same_entries_keys _ _ SE c), analytics_to_core_cols, dkeys_core_cols. reflexivity.
    + unfold metric_for in M. intros i. destruct (sc_group s), (sc_id s); try contradiction; rewrite M; split; congruence.
  - inv_ok S. inv_ok H. destruct x0 as [t cs]. destruct B as [_ B]. destruct P as [P _]. destruct (IHq B P x t cs E E0) as [C I].
    unfold rename_schema in S. inv_ok S. inv_ok S. apply mk_schema_ok in S. destruct S as (_ & _ & _ & ->).
    unfold visit_rename in H. inv_ok H. injection H as <- <-. split; cbn [sc_cols v_dom sc_id v_place].
    + intros c. rewrite !dict_of_keys, !dkeys_rekey, !in_map_iff. split; intros (c0 & Ec & I0); exists c0; (split; [exact Ec|]); apply C, I0.
    + intros i. split.
      * intros Hi. apply rename_place_keys in Hi. destruct Hi as (j & Hj & ->). apply I in Hj. rewrite Hj. reflexivity.
      * destruct (sc_id x) as [j|]; [|discriminate]. cbn. intros Hi. injection Hi as <-.
        rewrite (proj2 (I j) eq_refl). reflexivity.
  - inv_ok S. inv_ok H. destruct x0 as [t cs]. destruct B as [_ B]. destruct (IHq B P x t cs E E0) as [C I].
    unfold filter_schema in S. inv_ok S. injection S as <-. injection H as <- <-. split; assumption.
  - inv_ok S. inv_ok H. destruct x0 as [t cs]. destruct B as [_ B]. destruct (IHq B P x t cs E E0) as [C I].
    unfold select_schema in S. inv_ok S. inv_ok S. inv_ok S. inv_ok S. apply mk_schema_ok in S. destruct S as (_ & _ & _ & ->).
    unfold visit_select in H. inv_ok H. inv_ok H. injection H as <- <-. split; cbn [sc_cols v_dom sc_id v_place]; [|exact I].
    intros c. rewrite (pick_keys _ _ _ E4 c), dict_of_keys.
    assert (K : dkeys x1 = columns).
    { clear -E5. apply mapM_ok_Forall2 in E5. induction E5 as [|c [c' k] l l' H _ IH]; [reflexivity|].
      destruct (dget c (v_dom t)); [|discriminate]. injection H as <- <-. cbn [dkeys map fst]. f_equal. exact IH. }
    rewrite K. reflexivity.
  - inv_ok S. inv_ok H. destruct x0 as [t cs]. destruct B as [_ B]. destruct P as (P & Pn & _). destruct (IHq B P x t cs E E0) as [C I].
    unfold visit_map in H. inv_ok H. inv_ok H. injection H as <- <-.
    unfold map_schema in S. destruct augment.
    + inv_ok S. apply mk_schema_ok in S. destruct S as (_ & _ & _ & ->). split; cbn [sc_cols v_dom sc_id v_place mapped_domain]; [|exact I].
      intros c. rewrite !in_dkeys_merge by (rewrite ?dkeys_new_columns, ?dkeys_new_core; exact Pn).
      rewrite dkeys_new_columns, dkeys_new_core, C. reflexivity.
    + inv_ok S. inv_ok S. apply mk_schema_ok in S. destruct S as (_ & _ & _ & ->). split; cbn [sc_cols v_dom sc_id v_place mapped_domain].
      * intros c. rewrite dkeys_new_columns, dkeys_new_core. reflexivity.
      * intros i. rewrite I. destruct (sc_id x); [discriminate|]. tauto.
  - inv_ok S. inv_ok H. destruct x0 as [t cs]. destruct B as [_ B]. destruct P as (P & Pn & _). destruct (IHq B P x t cs E E0) as [C I].
    unfold visit_flat_map in H. inv_ok H. inv_ok H. injection H as <- <-.
    assert (Pl : forall i, fst x0 = PKeys i <-> v_place t = PKeys i).
    { intros i. destruct (in_collection (v_place t)) eqn:Co.
      - inv_ok E1. inv_ok E1. injection E1 as <-. reflexivity.
      - destruct max_rows; [|discriminate]. destruct (sc_group new).
        + destruct (v_place t); try discriminate. injection E1 as <-. split; discriminate.
        + injection E1 as <-. reflexivity. }
    unfold flat_map_schema in S. inv_ok S. inv_ok S. destruct augment.
    + inv_ok S. apply mk_schema_ok in S. destruct S as (_ & _ & _ & ->). split; cbn [sc_cols v_dom sc_id v_place mapped_domain].
      * intros c. rewrite !in_dkeys_merge by (rewrite ?dkeys_new_columns, ?dkeys_new_core; exact Pn).
        rewrite dkeys_new_columns, dkeys_new_core, C. reflexivity.
      * intros i. rewrite Pl. apply I.
    + inv_ok S. inv_ok S. apply mk_schema_ok in S. destruct S as (_ & _ & _ & ->). split; cbn [sc_cols v_dom sc_id v_place mapped_domain].
      * intros c. rewrite dkeys_new_columns, dkeys_new_core. reflexivity.
      * intros i. rewrite Pl, I. destruct (sc_id x); [discriminate|]. tauto.
  - inv_ok S. inv_ok H. destruct x0 as [t cs]. destruct B as [_ B]. destruct P as (P & Pn & _). destruct (IHq B P x t cs E E0) as [C I].
    unfold flat_map_by_id_schema in S. destruct (sc_id x) as [i|] eqn:Ei; [|discriminate]. inv_ok S. inv_ok S. inv_ok S.
    apply mk_schema_ok in S. destruct S as (_ & _ & _ & ->).
    unfold visit_flat_map_by_id in H. rewrite (proj2 (I i) eq_refl) in H. destruct (dget i (v_dom t)) as [d|]; [|discriminate].
    inv_ok H. injection H as <- <-. split; cbn [sc_cols v_dom sc_id v_place].
    + intros c. rewrite !in_dkeys_merge by (rewrite ?dkeys_new_columns, ?dkeys_new_core; exact Pn).
      rewrite dkeys_new_columns, dkeys_new_core. reflexivity.
    + intros j. split; congruence.
  - inv_ok S. inv_ok S. inv_ok H. destruct x1 as [tl' cl]. inv_ok H. destruct x1 as [tr' cr]. destruct B as (_ & B1 & B2).
    destruct P as [P1 P2]. destruct (IHq1 B1 P1 x tl' cl E E1) as [C1 I1]. destruct (IHq2 B2 P2 x0 tr' cr E0 E2) as [C2 I2].
    unfold join_private_schema in S. inv_ok S. inv_ok S. inv_ok S. unfold schema_for_join in S. inv_ok S. inv_ok S.
    apply mk_schema_ok in S. destruct S as (_ & _ & _ & ->).
    apply core_to_analytics_same in E7.
    unfold visit_join_private in H. inv_ok H. inv_ok H. destruct x4 as [[p lr] rr]. inv_ok H. injection H as <- <-.
    split; cbn [sc_cols v_dom sc_id v_place].
    + intros c. rewrite <- (dkeys_core_cols x3), E7. unfold join_columns in E10. eapply join_keys_same; [| | |exact E6|exact E10].
      * intros c'. rewrite analytics_to_core_cols, dkeys_core_cols. apply C1.
      * intros c'. rewrite analytics_to_core_cols, dkeys_core_cols. apply C2.
      * destruct on; [reflexivity|]. apply common_keys; assumption.
    + intros i. apply negb_false_iff, option_eqb_eq in E3; [|apply String.eqb_eq].
      rewrite <- I1. destruct (v_place tl') as [i1| | |], (v_place tr') as [i2| | |]; try discriminate E9.
      * inv_ok E9. inv_ok E9. split; congruence.
      * destruct tl; [|discriminate]. destruct tr; [|discriminate]. split; congruence.
  - inv_ok S. inv_ok H. destruct x0 as [t cs]. destruct B as (_ & B). destruct P as [P1 P2]. destruct (IHq B P1 x t cs E E0) as [C I].
    unfold join_public_schema in S. inv_ok S. inv_ok S. unfold schema_for_join in S. inv_ok S. inv_ok S.
    apply mk_schema_ok in S. destruct S as (_ & _ & _ & ->). apply core_to_analytics_same in E4.
    unfold visit_join_public in H. inv_ok H. inv_ok H. inv_ok H. inv_ok H. inv_ok H. injection H as <- <-.
    split; cbn [sc_cols v_dom sc_id v_place]; [|exact I].
    assert (Sr : forall c, In c (dkeys (sc_cols x0)) <-> In c (dkeys (analytics_to_core x6))).
    { intros c. apply mk_schema_ok in E7. destruct E7 as (_ & _ & _ & ->). destruct public as [n|f]; cbn in E1, E5.
      - destruct (dget n (cat_public cat)) as [[s f]|] eqn:En; [|discriminate]. injection E1 as <-. injection E5 as <-.
        destruct (proj2 IN n s f En) as (F & Ns & G & _ & d & Ed & Sd). rewrite E6 in Ed. injection Ed as <-.
        rewrite <- (same_entries_keys _ _ Sd c), analytics_to_core_cols, dkeys_core_cols. reflexivity.
      - injection E5 as <-. inv_ok E1. rewrite E6 in E5. injection E5 as <-. apply mk_schema_ok in E1. destruct E1 as (_ & _ & _ & ->).
        rewrite analytics_to_core_cols, dkeys_core_cols. reflexivity. }
    intros c. rewrite <- (dkeys_core_cols x3), E4. unfold join_columns in E8. eapply join_keys_same; [| | |exact E3|exact E8].
    + intros c'. rewrite analytics_to_core_cols, dkeys_core_cols. apply C.
    + intros c'. rewrite analytics_to_core_cols, dkeys_core_cols. apply Sr.
    + destruct on; [reflexivity|]. apply common_keys; assumption.
  - inv_ok S. inv_ok H. destruct x0 as [t cs]. destruct B as (_ & B). destruct P as (P1 & _). pose proof (IHq B P1 x t cs E E0) as A.
    unfold replace_null_schema in S. inv_ok S. inv_ok S. inv_ok S.
    unfold visit_replace_null in H. inv_ok H. inv_ok H. inv_ok H. injection H as <- <-.
    eapply rebuild_keys; [exact A|exact S|rewrite !at_columns_dkeys; reflexivity].
  - inv_ok S. inv_ok H. destruct x0 as [t cs]. destruct B as (_ & B). destruct P as (P1 & _). pose proof (IHq B P1 x t cs E E0) as A.
    unfold replace_inf_schema in S. inv_ok S. inv_ok S. inv_ok S.
    unfold visit_replace_inf in H. inv_ok H. inv_ok H. inv_ok H. injection H as <- <-.
    eapply rebuild_keys; [exact A|exact S|rewrite !at_columns_dkeys; reflexivity].
  - inv_ok S. inv_ok H. destruct x0 as [t cs]. destruct B as (_ & B). pose proof (IHq B P x t cs E E0) as A.
    unfold drop_null_schema in S. inv_ok S. inv_ok S. inv_ok S.
    unfold visit_drop_null in H. inv_ok H. inv_ok H. inv_ok H. inv_ok H. injection H as <- <-.
    eapply rebuild_keys; [exact A|exact S|rewrite !at_columns_dkeys; reflexivity].
  - inv_ok S. inv_ok H. destruct x0 as [t cs]. destruct B as (_ & B). pose proof (IHq B P x t cs E E0) as A.
    unfold drop_inf_schema in S. inv_ok S. inv_ok S. inv_ok S.
    unfold visit_drop_inf in H. inv_ok H. inv_ok H. inv_ok H. injection H as <- <-.
    eapply rebuild_keys; [exact A|exact S|rewrite !at_columns_dkeys; reflexivity].
  - inv_ok S. inv_ok H. destruct x0 as [t cs]. destruct B as (_ & B). destruct (IHq B P x t cs E E0) as [C I].
    assert (s0 = x) as ->.
    { unfold enforce_schema in S. destruct (sc_id x); [|discriminate]. destruct c; [congruence| |]; inv_ok S; inv_ok S; congruence. }
    unfold visit_enforce in H. inv_ok H. injection H as <- <-.
    assert (t_place x0 = v_place t).
    { unfold enforce in E1. cbn [t_place] in E1. destruct c, (v_place t); try discriminate; injection E1 as <-; reflexivity. }
    split; cbn [v_dom v_place]; [exact C|]. rewrite H. exact I.
Qed.

(** *** Restricting the inputs to some IDs *)
Section Restrict.
Variables (k : option string) (keep : value -> bool).
Notation R := (restrict k keep).

Lemma restrict_dom t : v_dom (R t) = v_dom t.
Proof. unfold restrict. destruct (v_place t); try reflexivity. destruct (option_eqb _ _ _); reflexivity. Qed.
Lemma restrict_coll t : v_coll (R t) = v_coll t.
Proof. unfold restrict. destruct (v_place t); try reflexivity. destruct (option_eqb _ _ _); reflexivity. Qed.
Lemma restrict_place t : v_place (R t) = v_place t.
Proof. unfold restrict. destruct (v_place t) eqn:E; try assumption. destruct (option_eqb _ _ _); [reflexivity|assumption]. Qed.

(** Does [restrict] touch the table, and by which test on rows? *)
Definition touched (t : vtab) : option string :=
  match v_place t with PKeys i => if option_eqb String.eqb (v_coll t) k then Some i else None | _ => None end.
Definition kept (o : option string) (r : rec) : bool := match o with Some i => keep (getv i r) | None => true end.
Lemma restrict_rows t : v_rows (R t) = filter (kept (touched t)) (v_rows t).
Proof.
  unfold restrict, touched.
  assert (T : filter (kept None) (v_rows t) = v_rows t) by (apply filter_true; reflexivity).
  destruct (v_place t); try (symmetry; exact T). destruct (option_eqb _ _ _); [reflexivity|symmetry; exact T].
Qed.
Lemma restrict_make d c p rows :
  R {| v_dom := d; v_coll := c; v_place := p; v_rows := rows |}
  = {| v_dom := d; v_coll := c; v_place := p;
       v_rows := filter (kept (touched {| v_dom := d; v_coll := c; v_place := p; v_rows := rows |})) rows |}.
Proof.
  set (t := {| v_dom := d; v_coll := c; v_place := p; v_rows := rows |}).
  assert (E : R t = {| v_dom := v_dom (R t); v_coll := v_coll (R t); v_place := v_place (R t); v_rows := v_rows (R t) |})
    by (destruct (R t); reflexivity).
  rewrite E, restrict_dom, restrict_coll, restrict_place, restrict_rows. reflexivity.
Qed.

(** Same columns kept: a table with other rows but the same place is touched alike. *)
Lemma touched_same t t' : v_place t = v_place t' -> v_coll t = v_coll t' -> touched t = touched t'.
Proof. unfold touched. intros -> ->. reflexivity. Qed.

Lemma touched_in t i : id_present t -> touched t = Some i -> In i (dkeys (v_dom t)) /\ v_place t = PKeys i.
Proof.
  unfold touched. intros P H. destruct (v_place t) as [j| | |] eqn:E; try discriminate.
  destruct (option_eqb _ _ _); [|discriminate]. injection H as <-. split; [apply P, E|reflexivity].
Qed.

Lemma kept_getv i r r' : getv i r' = getv i r -> kept (Some i) r' = kept (Some i) r.
Proof. cbn. intros ->. reflexivity. Qed.

Lemma getv_cellwise (g : string -> value -> value) r i :
  (forall x, g i x = x) -> getv i (map (fun p => (fst p, g (fst p) (snd p))) r) = getv i r.
Proof.
  intros H. unfold getv. induction r as [|[c x] r IH]; [reflexivity|]. simpl.
  destruct (String.eqb_spec i c) as [Ec|Ne]; [subst; apply H|exact IH].
Qed.

Lemma getv_join_on on lc rc r s c : In c on -> getv c (join_row on lc rc r s) = getv c r.
Proof.
  intros I. apply getv_dget. unfold join_row. rewrite dget_app.
  rewrite (dget_keyed (fun c => getv c r)) by exact I. reflexivity.
Qed.
Lemma getv_join_left on lc rc r s c : NoDup (dkeys (join_row on lc rc r s)) -> ~ In c on -> In c lc -> ~ In c rc ->
  getv c (join_row on lc rc r s) = getv c r.
Proof.
  intros N Non Il Nr. apply getv_dget. apply In_dget; [exact N|]. unfold join_row. apply in_or_app. right. apply in_or_app. left.
  apply in_map_iff. exists c. split.
  - unfold suffixed_name. assert (smem c rc = false) as -> by (apply smem_false, Nr). reflexivity.
  - unfold others. apply filter_In. split; [exact Il|]. apply negb_true_iff, smem_false, Non.
Qed.

Lemma public_join_rows (left : bool) on lc rc rows pub i :
  (forall r s, In r rows -> getv i (join_row on lc rc r s) = getv i r) ->
  filter (kept (Some i)) ((if left then left_join else inner_join) on lc rc rows pub)
  = (if left then left_join else inner_join) on lc rc (filter (kept (Some i)) rows) pub.
Proof.
  intros G. destruct left; unfold left_join, inner_join; apply filter_flat_map_comm.
  - intros x I Q. split; [reflexivity|]. intros y Iy. destruct (filter (matches on x) pub).
    + destruct Iy as [<-|[]]. rewrite (kept_getv i x) by (apply G, I). exact Q.
    + apply in_map_iff in Iy. destruct Iy as (z & <- & _). rewrite (kept_getv i x) by (apply G, I). exact Q.
  - intros x I Q y Iy. destruct (filter (matches on x) pub).
    + destruct Iy as [<-|[]]. rewrite (kept_getv i x) by (apply G, I). exact Q.
    + apply in_map_iff in Iy. destruct Iy as (z & <- & _). rewrite (kept_getv i x) by (apply G, I). exact Q.
  - intros x I Q. split; [reflexivity|]. intros y Iy. 
    apply in_map_iff in Iy. destruct Iy as (z & <- & _). rewrite (kept_getv i x) by (apply G, I). exact Q.
  - intros x I Q y Iy. 
    apply in_map_iff in Iy. destruct Iy as (z & <- & _). rewrite (kept_getv i x) by (apply G, I). exact Q.
Qed.

Lemma private_join_rows on lc rc l r i : In i on ->
  filter (kept (Some i)) (inner_join on lc rc l r)
  = inner_join on lc rc (filter (kept (Some i)) l) (filter (kept (Some i)) r).
Proof.
  intros I. unfold inner_join. apply filter_flat_map_comm.
  - intros x Ix Q. split.
    + f_equal. rewrite filter_filter. apply filter_ext. intros y.
      destruct (matches on x y) eqn:M; [|apply andb_false_r]. rewrite andb_true_r.
      pose proof (proj1 (matches_spec on x y) M i I) as E. cbn in *. rewrite <- E. exact Q.
    + intros y Iy. apply in_map_iff in Iy. destruct Iy as (z & <- & _). rewrite (kept_getv i x) by (apply getv_join_on, I). exact Q.
  - intros x Ix Q y Iy. apply in_map_iff in Iy. destruct Iy as (z & <- & _).
    rewrite (kept_getv i x) by (apply getv_join_on, I). exact Q.
Qed.

Lemma by_id_rows O i f new t : ~ In i (dkeys (sc_cols new)) ->
  filter (kept (Some i)) (flat_map_by_id_rows O i f new t)
  = flat_map_by_id_rows O i f new (filter (kept (Some i)) t).
Proof.
  intros Ni. unfold flat_map_by_id_rows.
  assert (E : map (getv i) (filter (kept (Some i)) t) = filter keep (map (getv i) t)).
  { symmetry. apply filter_map_comm. reflexivity. }
  rewrite E, <- nodup_filter_comm. apply filter_flat_map_comm.
  - intros v Iv Q. split.
    + f_equal. f_equal. f_equal. rewrite filter_filter. apply filter_ext. intros r.
      destruct (has_value i v r) eqn:Hv; [|apply andb_false_r]. rewrite andb_true_r.
      apply has_value_true in Hv. cbn. rewrite Hv. exact Q.
    + intros y Iy. apply in_map_iff in Iy. destruct Iy as (o & <- & _). cbn. unfold getv. cbn. rewrite String.eqb_refl. exact Q.
  - intros v Iv Q y Iy. apply in_map_iff in Iy. destruct Iy as (o & <- & _). cbn. unfold getv. cbn. rewrite String.eqb_refl. exact Q.
Qed.

Lemma augmented_getv s t new i r o : keys_agree s t -> NoDup (dkeys (sc_cols new)) ->
  existsb (fun c => dmem c (sc_cols new)) (dkeys (sc_cols s)) = false -> In i (dkeys (v_dom t)) ->
  getv i (merge r (new_cells new o)) = getv i r.
Proof.
  intros KA Pn Ex Ii. rewrite getv_merge by (unfold new_cells; rewrite dkeys_select; exact Pn).
  assert (dmem i (new_cells new o) = false) as ->; [|reflexivity].
  apply not_true_iff_false. intros M. apply dmem_In in M. unfold new_cells in M. rewrite dkeys_select in M.
  apply not_true_iff_false in Ex. apply Ex, existsb_exists. exists i. split; [apply (ka_cols _ _ KA), Ii|apply dmem_In, M].
Qed.
Lemma join_row_keys on left l r out x y : join_dom_spec on left l r out ->
  dkeys (join_row on (dkeys l) (dkeys r) x y) = dkeys out.
Proof.
  intros [j K C -> N _]. unfold join_row. rewrite !others_dkeys. unfold dkeys in *. rewrite !map_app, !map_map. cbn [fst].
  rewrite K, map_id. f_equal. f_equal; apply map_ext; intros; symmetry; apply suffixed_name_eq.
Qed.
Lemma dkeys_filter_incl {V} (p : string * V -> bool) (d : dict V) c : In c (dkeys (filter p d)) -> In c (dkeys d).
Proof. intros I. apply in_map_iff in I. destruct I as (x & <- & I). apply filter_In in I. apply in_map, I. Qed.
Lemma dget_cells (g : string -> value -> value) (r : rec) i :
  dget i (map (fun p => (fst p, g (fst p) (snd p))) r) = option_map (g i) (dget i r).
Proof.
  induction r as [|[c x] r IH]; [reflexivity|]. simpl. destruct (String.eqb_spec i c) as [Ec|Ne]; [subst; reflexivity|exact IH].
Qed.
Lemma replaced_not_special rw an i m : smem i (dkeys rw) = false -> get_replace_with rw an (Some i) = Ok m -> ~ In i (dkeys m).
Proof.
  intros Q H. apply smem_false in Q. unfold get_replace_with in H. destruct rw as [|p0 rw'] eqn:Erw.
  - inv_ok H. injection H as <-. rewrite (dkeys_map_val (fun d => default_value (cd_type d))). intros I.
    apply in_map_iff in I. destruct I as ([c d] & <- & I). apply filter_In in I. destruct I as [_ I]. cbn in I.
    rewrite String.eqb_refl in I. discriminate.
  - rewrite <- Erw in *. clear Erw p0 rw'. inv_ok H. intros I. apply Q. clear -H I.
    apply mapM_ok_Forall2 in H. induction H as [|[c v] [c' v'] l l' Hx _ IH]; [exact I|].
    assert (c' = c) as ->.
    { cbn in Hx. destruct (dget c an) as [d|]; [|discriminate]. destruct (is_decimal d); [|congruence]. inv_ok Hx. congruence. }
    destruct I as [I|I]; [left; exact I|right; apply IH, I].
Qed.
Lemma enforce_keys O K c t i y rows : v_place t = PKeys i ->
  enforce O K c false false {| t_place := v_place t; t_rows := v_rows t |} = Ok y ->
  enforce O K c false false {| t_place := v_place t; t_rows := rows |} = Ok {| t_place := PKeys i; t_rows := enforce_rows O K i c rows |}.
Proof. intros P. rewrite P. unfold enforce. cbn [t_place t_rows]. destruct c; intros H; reflexivity. Qed.

(** Restricting the inputs to some IDs and then running the query is the same as running
    the query and restricting the result. *)
Ltac same_touch t :=
  match goal with |- context [touched (Build_vtab ?a ?b ?c ?d)] =>
    replace (touched (Build_vtab a b c d)) with (touched t) by (apply touched_same; cbn; congruence) end.
Ltac replay := repeat (match goal with
  | E : ?x = Ok _ |- context [bind ?x _] => rewrite E
  | E : ?b = false |- context [raise_if ?b _] => rewrite E end; cbn [raise_if bind]).
Theorem visit_restrict auto q : built auto q -> promises W l2 cat data q -> finite_ids W l2 cat data q ->
  forall s t cs, sch q = Ok s -> visit W l2 cat data q = Ok (t, cs) ->
  visit W l2 cat (restrict_all k keep data) q = Ok (R t, cs).
Proof.
  induction q; intros B P F s0 t0 cs0 S H; cbn [schema_of] in S; cbn [visit] in H |- *; try discriminate H.
  - unfold visit_source in *. unfold restrict_all. rewrite (dget_map_val (restrict k keep)).
    destruct (dget source_id data) as [t|]; [|discriminate]. cbn [option_map].
    destruct (dget source_id (cat_private cat)) as [[s cs]|]; [|discriminate]. congruence.
  - (* rename *)
    inv_ok S. inv_ok H. destruct x0 as [t cs]. destruct B as [B0 B]. destruct P as [P1 P2].
    pose proof (visit_in_domain W l2 cat data IN auto q B P1 t cs E0) as [N D].
    pose proof (visit_id_present q t cs E0) as IDP.
    rewrite (IHq B P1 F x t cs E E0). cbn [bind]. unfold visit_rename in *. inv_ok H. rewrite restrict_dom, E1. cbn [raise_if bind].
    injection H as <- <-. rewrite restrict_make. f_equal. f_equal. rewrite restrict_coll, restrict_place, restrict_rows. f_equal.
    destruct (touched t) as [i|] eqn:T.
    + destruct (touched_in t i IDP T) as [Ii Pi].
      assert (T' : touched {| v_dom := dict_of (map (fun p => (renamed mapper (fst p), snd p)) (v_dom t));
           v_coll := v_coll t; v_place := rename_place mapper (v_place t); v_rows := map (rename_row mapper) (v_rows t) |}
         = Some (renamed mapper i)).
      { unfold touched in *. cbn [v_place v_coll]. rewrite Pi in *. cbn. destruct (option_eqb _ _ _); [reflexivity|discriminate]. }
      rewrite T'. symmetry. apply filter_map_comm. intros r Ir. cbn. f_equal.
      destruct (D r Ir) as (Nr & Kr & _). unfold getv, rename_row. rewrite dget_rekey; [reflexivity| |apply Kr, Ii].
      eapply Permutation_NoDup; [apply Permutation_map; symmetry; apply (same_keys_perm (dkeys r) (dkeys (v_dom t))); assumption|].
      apply (P2 t cs E0).
    + assert (T' : touched {| v_dom := dict_of (map (fun p => (renamed mapper (fst p), snd p)) (v_dom t));
           v_coll := v_coll t; v_place := rename_place mapper (v_place t); v_rows := map (rename_row mapper) (v_rows t) |} = None).
      { unfold touched in *. cbn [v_place v_coll]. destruct (v_place t); try reflexivity. cbn. destruct (option_eqb _ _ _); [discriminate|reflexivity]. }
      rewrite T'. rewrite !filter_true by reflexivity. reflexivity.
  - (* filter *)
    inv_ok S. inv_ok H. destruct x0 as [t cs]. destruct B as [_ B]. rewrite (IHq B P F x t cs E E0). cbn [bind].
    injection H as <- <-. unfold visit_filter. rewrite restrict_make, restrict_dom, restrict_coll, restrict_place, restrict_rows.
    f_equal. f_equal. f_equal. rewrite filter_comm. f_equal.
  - (* select *)
    inv_ok S. inv_ok H. destruct x0 as [t cs]. destruct B as [_ B].
    pose proof (visit_id_present q t cs E0) as IDP.
    rewrite (IHq B P F x t cs E E0). cbn [bind]. unfold visit_select in *.
    inv_ok H. inv_ok H. injection H as <- <-. rewrite restrict_dom, E1, restrict_place. cbn [bind]. rewrite E2. cbn [raise_if bind].
    rewrite restrict_make, restrict_coll, restrict_rows. f_equal. f_equal. f_equal.
    same_touch t. symmetry. apply filter_map_comm. intros r Ir.
    destruct (touched t) as [i|] eqn:T; [|reflexivity]. apply kept_getv, getv_select.
    destruct (touched_in t i IDP T) as [_ Pi]. rewrite Pi in E2. cbn in E2. apply smem_In, negb_false_iff, E2.
  - (* map *)
    inv_ok S. inv_ok H. destruct x0 as [t cs]. destruct B as [_ B]. destruct P as (P1 & Pn & P2).
    rewrite (IHq B P1 F x t cs E E0). cbn [bind]. unfold visit_map in *. inv_ok H. inv_ok H. injection H as <- <-.
    rewrite restrict_place, E1. cbn [raise_if bind]. rewrite E2. cbn [bind].
    rewrite restrict_make, restrict_dom, restrict_coll, restrict_rows. f_equal. f_equal. f_equal.
    same_touch t. symmetry. apply filter_map_comm. intros r Ir.
    destruct (touched t) as [i|] eqn:T; [|reflexivity]. apply kept_getv.
    destruct (touched_in t i (visit_id_present q t cs E0) T) as [Ii Pi]. rewrite Pi in E1. destruct augment; [|discriminate].
    unfold map_schema in S. inv_ok S.
    unfold map_row. apply (augmented_getv x t new); [|exact Pn|exact E3|exact Ii]. eapply schema_keys_agree; eassumption.
  - (* flat map *)
    inv_ok S. inv_ok H. destruct x0 as [t cs]. destruct B as [_ B]. destruct P as (P1 & Pn & P2).
    rewrite (IHq B P1 F x t cs E E0). cbn [bind]. unfold visit_flat_map in *. inv_ok H. inv_ok H. injection H as <- <-.
    rewrite restrict_place, E1. cbn [bind]. rewrite E2. cbn [bind].
    rewrite restrict_make, restrict_dom, restrict_coll, restrict_rows. f_equal. f_equal. f_equal.
    destruct (touched t) as [i|] eqn:T.
    + destruct (touched_in t i (visit_id_present q t cs E0) T) as [Ii Pi]. rewrite Pi in E1. cbn in E1. destruct augment; [|discriminate].
      inv_ok E1. inv_ok E1. injection E1 as <-. cbn [fst snd].
      assert (touched {| v_dom := mapped_domain new true (v_dom t); v_coll := v_coll t; v_place := PKeys i;
               v_rows := flat_map (flat_map_row f new true None) (v_rows t) |} = Some i) as ->.
      { rewrite <- T. unfold touched. cbn. rewrite Pi. reflexivity. }
      assert (G : forall r o, getv i (merge r (new_cells new o)) = getv i r).
      { intros r o. unfold flat_map_schema in S. inv_ok S. inv_ok S. inv_ok S.
        apply (augmented_getv x t new); [|exact Pn|exact E6|exact Ii]. eapply schema_keys_agree; eassumption. }
      symmetry. apply filter_flat_map_comm.
      * intros r Ir Q. split; [reflexivity|]. intros y Iy. unfold flat_map_row in Iy. apply in_map_iff in Iy. destruct Iy as (o & <- & _).
        rewrite (kept_getv i r) by apply G. exact Q.
      * intros r Ir Q y Iy. unfold flat_map_row in Iy. apply in_map_iff in Iy. destruct Iy as (o & <- & _).
        rewrite (kept_getv i r) by apply G. exact Q.
    + assert (touched {| v_dom := mapped_domain new augment (v_dom t); v_coll := v_coll t; v_place := fst x0;
               v_rows := flat_map (flat_map_row f new augment (snd x0)) (v_rows t) |} = None) as ->.
      { unfold touched in *. cbn. destruct (in_collection (v_place t)) eqn:C.
        - inv_ok E1. inv_ok E1. injection E1 as <-. exact T.
        - destruct max_rows; [|discriminate]. destruct (sc_group new).
          + destruct (v_place t); try discriminate. injection E1 as <-. reflexivity.
          + injection E1 as <-. exact T. }
      rewrite !filter_true by reflexivity. reflexivity.
  - (* flat map by id *)
    inv_ok S. inv_ok H. destruct x0 as [t cs]. destruct B as [_ B]. destruct P as (P1 & Pn & P2).
    rewrite (IHq B P1 F x t cs E E0). cbn [bind]. unfold visit_flat_map_by_id in *. rewrite restrict_place.
    destruct (v_place t) as [i| | |] eqn:Pi; try discriminate. rewrite restrict_dom.
    destruct (dget i (v_dom t)) as [d|]; [|discriminate]. inv_ok H. injection H as <- <-. replay.
    rewrite restrict_make, restrict_coll, restrict_rows. f_equal. f_equal. f_equal.
    same_touch t. symmetry. destruct (touched t) as [j|] eqn:T.
    + assert (j = i) as ->. { unfold touched in T. rewrite Pi in T. destruct (option_eqb _ _ _); [congruence|discriminate]. }
      apply by_id_rows. intros I. apply dmem_In in I. congruence.
    + rewrite !filter_true by reflexivity. reflexivity.
  - (* private join *)
    inv_ok S. inv_ok S. inv_ok H. destruct x1 as [tl' cl]. inv_ok H. destruct x1 as [tr' cr]. destruct B as (_ & B1 & B2).
    destruct P as [P1 P2]. destruct F as [F1 F2]. rewrite (IHq1 B1 P1 F1 x tl' cl E E1), (IHq2 B2 P2 F2 x0 tr' cr E0 E2). cbn [bind].
    unfold visit_join_private in *. rewrite !restrict_coll, !restrict_dom, !restrict_place.
    inv_ok H. replay. apply negb_false_iff, option_eqb_eq in E3; [|apply String.eqb_eq].
    inv_ok H. destruct x1 as [[p lr] rr]. inv_ok H. injection H as <- <-.
    destruct (v_place tl') as [i| | |] eqn:Pl; try discriminate; destruct (v_place tr') as [j| | |] eqn:Pr; try discriminate.
    + inv_ok E4. inv_ok E4. injection E4 as <- <- <-. apply negb_false_iff, String.eqb_eq in E6. subst j.
      apply negb_false_iff, smem_In in E7. rewrite String.eqb_refl. cbn [negb raise_if bind].
      rewrite (proj2 (smem_In _ _) E7). cbn [negb raise_if bind].
      rewrite E5. cbn [bind]. rewrite restrict_make. f_equal. f_equal. f_equal.
      rewrite !restrict_rows. same_touch tl'. symmetry.
      rewrite (touched_same tr' tl') by congruence. destruct (touched tl') as [j|] eqn:T.
      * assert (j = i) as ->. { unfold touched in T. rewrite Pl in T. destruct (option_eqb _ _ _); [congruence|discriminate]. }
        apply private_join_rows, E7.
      * rewrite !filter_true by reflexivity. reflexivity.
    + destruct tl; [|discriminate]. destruct tr; [|discriminate]. injection E4 as <- <- <-. cbn [bind]. rewrite E5. cbn [bind].
      rewrite restrict_make. f_equal. f_equal. f_equal. rewrite !restrict_rows.
      unfold touched. cbn. rewrite Pl, Pr. rewrite !filter_true by reflexivity. reflexivity.
  - (* public join *)
    inv_ok S. inv_ok H. destruct x0 as [t cs]. destruct B as (_ & B). destruct P as [P1 P2].
    rewrite (IHq B P1 F x t cs E E0). cbn [bind]. unfold visit_join_public in *. rewrite restrict_coll, restrict_dom, restrict_place.
    inv_ok H. inv_ok H. inv_ok H. inv_ok H. inv_ok H. injection H as <- <-. replay.
    pose proof (visit_in_domain W l2 cat data IN auto q B P1 t cs E0) as [N D].
    rewrite restrict_make. f_equal. f_equal. f_equal. rewrite restrict_rows. same_touch t. symmetry.
    destruct (touched t) as [i|] eqn:T; [|rewrite !filter_true by reflexivity; reflexivity].
    destruct (touched_in t i (visit_id_present q t cs E0) T) as [Ii Pi].
    apply public_join_rows. intros r s Ir.
    set (on' := join_columns on (v_dom t) (analytics_to_core x2)) in *.
    destruct (in_dec string_dec i on') as [Io|Io]; [apply getv_join_on, Io|].
    apply getv_join_left; [|exact Io|exact Ii|].
    + apply join_domain_spec in E4. rewrite (join_row_keys _ _ _ _ _ r s E4). destruct E4; assumption.
    + intros Ir'. rewrite Pi in E5. cbn in E5. apply smem_false in E5. apply E5. unfold overlapping. apply filter_In. split.
      * unfold common_columns. apply filter_In. split; [exact Ii|apply dmem_In, Ir'].
      * apply negb_true_iff, smem_false, Io.
  - (* replace null *)
    inv_ok S. inv_ok H. destruct x0 as [t cs]. destruct B as (B0 & B). destruct P as (P1 & P2 & P3).
    rewrite (IHq B P1 F x t cs E E0). cbn [bind]. unfold visit_replace_null in *. rewrite restrict_coll, restrict_dom, restrict_place.
    inv_ok H. inv_ok H. inv_ok H. injection H as <- <-. replay.
    rewrite restrict_make. f_equal. f_equal. f_equal. rewrite restrict_rows. same_touch t. symmetry.
    apply filter_map_comm. intros r Ir. destruct (touched t) as [i|] eqn:T; [|reflexivity].
    destruct (touched_in t i (visit_id_present q t cs E0) T) as [Ii Pi].
    assert (Nm : ~ In i (dkeys x1)).
    { rewrite Pi in E1, E3. cbn [metric_column] in E1, E3. eapply replaced_not_special; [exact E1|exact E3]. }
    apply kept_getv. rewrite replace_nans_cells, replace_nulls_cells. rewrite !getv_cellwise; [reflexivity| |].
    + intros v. unfold null_cell. rewrite (proj2 (dget_None _ _)); [destruct v; reflexivity|]. intros I. apply Nm. eapply dkeys_filter_incl, I.
    + intros v. unfold nan_cell. rewrite (proj2 (dget_None _ _)); [destruct v; try reflexivity; match goal with f : fnum |- _ => destruct f; reflexivity end|]. intros I. apply Nm. eapply dkeys_filter_incl, I.
  - (* replace infinity *)
    inv_ok S. inv_ok H. destruct x0 as [t cs]. destruct B as (B0 & B). destruct P as (P1 & P2). destruct F as [F F1].
    rewrite (IHq B P1 F x t cs E E0). cbn [bind]. unfold visit_replace_inf in *. rewrite restrict_coll, restrict_dom, restrict_place.
    inv_ok H. inv_ok H. inv_ok H. injection H as <- <-. replay.
    rewrite restrict_make. f_equal. f_equal. f_equal. rewrite restrict_rows. same_touch t. symmetry.
    apply filter_map_comm. intros r Ir. destruct (touched t) as [i|] eqn:T; [|reflexivity].
    destruct (touched_in t i (visit_id_present q t cs E0) T) as [Ii Pi].
    apply kept_getv. rewrite replace_infs_cells. destruct replace_with as [|p0 rw] eqn:Erw.
    + pose proof (F1 eq_refl t cs i r E0 Pi Ir) as Q. unfold getv in *. rewrite dget_cells.
      destruct (dget i r) as [v|] eqn:Ev; [|reflexivity]. cbn [option_map]. unfold inf_cell. destruct v; try reflexivity. match goal with f : fnum |- _ => destruct f; first [reflexivity|discriminate Q] end.
    + apply getv_cellwise. intros v. unfold inf_cell. rewrite (proj2 (dget_None _ _)); [destruct v; try reflexivity; match goal with f : fnum |- _ => destruct f; reflexivity end|].
      rewrite <- Erw in *. unfold replace_inf_schema in S. inv_ok S. inv_ok S. inv_ok S.
      assert (KA : keys_agree x t) by (eapply schema_keys_agree; eassumption).
      pose proof (proj1 (ka_id _ _ KA i) Pi) as Ei. rewrite Ei in *. intros I.
      match goal with Q : opt_in (Some i) _ = false |- _ => cbn in Q; apply smem_false in Q; exact (Q I) end.
  - (* drop null *)
    inv_ok S. inv_ok H. destruct x0 as [t cs]. destruct B as (B0 & B).
    rewrite (IHq B P F x t cs E E0). cbn [bind]. unfold visit_drop_null in *. rewrite restrict_coll, restrict_dom, restrict_place.
    inv_ok H. inv_ok H. inv_ok H. inv_ok H. injection H as <- <-. replay.
    rewrite restrict_make. f_equal. f_equal. f_equal. rewrite restrict_rows. same_touch t. unfold drop_rows.
    rewrite (filter_comm (kept (touched t))). rewrite (filter_comm (kept (touched t))). reflexivity.
  - (* drop infinity *)
    inv_ok S. inv_ok H. destruct x0 as [t cs]. destruct B as (B0 & B).
    rewrite (IHq B P F x t cs E E0). cbn [bind]. unfold visit_drop_inf in *. rewrite restrict_coll, restrict_dom, restrict_place.
    inv_ok H. inv_ok H. inv_ok H. injection H as <- <-. replay.
    rewrite restrict_make. f_equal. f_equal. f_equal. rewrite restrict_rows. same_touch t. unfold drop_rows. apply filter_comm.
  - (* enforce *)
    inv_ok S. inv_ok H. destruct x0 as [t cs]. destruct B as (B0 & B).
    rewrite (IHq B P F x t cs E E0). cbn [bind]. unfold visit_enforce in *. rewrite restrict_coll, restrict_dom, restrict_place.
    inv_ok H. injection H as <- <-. rewrite restrict_rows.
    assert (exists i, v_place t = PKeys i) as (i & Pi).
    { unfold enforce in E1. cbn [t_place] in E1. destruct c, (v_place t); try discriminate; eauto. }
    rewrite (enforce_keys _ _ _ _ _ _ _ Pi E1).
    assert (x0 = {| t_place := PKeys i; t_rows := enforce_rows (w_row_order W) (w_key_order W) i c (v_rows t) |}) as ->.
    { rewrite Pi in E1. unfold enforce in E1. cbn [t_place t_rows] in E1. destruct c; injection E1 as <-; reflexivity. }
    cbn [t_place t_rows bind]. rewrite restrict_make. f_equal. f_equal. f_equal.
    same_touch t. destruct (touched t) as [j|] eqn:T; [|rewrite !filter_true by reflexivity; reflexivity].
    assert (j = i) as ->. { unfold touched in T. rewrite Pi in T. destruct (option_eqb _ _ _); [congruence|discriminate]. }
    symmetry. apply (enforce_rows_by_id (w_row_order W) (w_key_order W) i c (v_rows t) keep).
Qed.
End Restrict.
End Ids.
