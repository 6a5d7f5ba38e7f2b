(** Facts about schemas and frozen mappings. *)
From Coq Require Import String Bool Arith ZArith Lia Permutation List.
From Verif Require Import Prelude Value Schema.
Import ListNotations.
Local Open Scope nat_scope.

Lemma mapM_total {A B} (f : A -> res B) (g : A -> B) l :
  (forall x, In x l -> f x = Ok (g x)) -> mapM f l = Ok (map g l).
Proof.
  induction l as [|x t IH]; simpl; intros H; [reflexivity|].
  rewrite H by (left; reflexivity). simpl. rewrite IH by auto. reflexivity.
Qed.

(** *** Dictionaries *)
Lemma dget_app {V} k (a b : dict V) :
  dget k (a ++ b) = match dget k a with Some v => Some v | None => dget k b end.
Proof.
  induction a as [|[k' v] r IH]; simpl; [reflexivity|]. destruct (String.eqb k k'); auto.
Qed.

Lemma dget_map_val {V W} (f : V -> W) k (d : dict V) :
  dget k (map (fun p => (fst p, f (snd p))) d) = option_map f (dget k d).
Proof.
  induction d as [|[k' v] r IH]; simpl; [reflexivity|]. destruct (String.eqb k k'); auto.
Qed.
Lemma dkeys_map_val {V W} (f : V -> W) (d : dict V) :
  dkeys (map (fun p => (fst p, f (snd p))) d) = dkeys d.
Proof. unfold dkeys. rewrite map_map. reflexivity. Qed.

Lemma dget_merge {V} k (e d : dict V) : NoDup (dkeys e) ->
  dget k (merge d e) = match dget k e with Some v => Some v | None => dget k d end.
Proof.
  unfold merge. revert d. induction e as [|[k' v] r IH]; simpl; intros d ND; [reflexivity|].
  inversion ND as [|? ? N1 N2]; subst. rewrite IH by assumption. rewrite dget_dset.
  destruct (String.eqb_spec k k') as [->|N].
  - replace (dget k' r) with (@None V); [rewrite String.eqb_refl; reflexivity|].
    symmetry. apply dget_None. assumption.
  - destruct (String.eqb_spec k' k); [congruence|reflexivity].
Qed.

Lemma dkeys_merge {V} (e d : dict V) : NoDup (dkeys e) ->
  dkeys (merge d e) = dkeys d ++ filter (fun k => negb (smem k (dkeys d))) (dkeys e).
Proof.
  unfold merge. revert d. induction e as [|[k v] r IH]; simpl; intros d ND.
  - rewrite app_nil_r. reflexivity.
  - inversion ND as [|? ? N1 N2]; subst. rewrite IH by assumption. rewrite dkeys_dset.
    destruct (smem k (dkeys d)) eqn:M; simpl; [reflexivity|].
    rewrite <- app_assoc. simpl. f_equal. f_equal. apply filter_ext_in. intros x Hx.
    f_equal. unfold smem. rewrite existsb_app. simpl.
    destruct (String.eqb_spec x k) as [->|N]; [contradiction|]. rewrite !orb_false_r. reflexivity.
Qed.
Lemma NoDup_merge {V} (e d : dict V) : NoDup (dkeys d) -> NoDup (dkeys (merge d e)).
Proof. intros H. apply NoDup_dict_of_aux, H. Qed.

Lemma dict_eqb_spec {V} (veq : V -> V -> bool) (a b : dict V) :
  (forall x y, veq x y = true <-> x = y) -> NoDup (dkeys a) -> NoDup (dkeys b) ->
  dict_eqb veq a b = true <-> forall k, dget k a = dget k b.
Proof.
  intros E Na Nb. unfold dict_eqb. rewrite andb_true_iff, Nat.eqb_eq, forallb_forall. split.
  - intros [L H] k.
    assert (I : incl (dkeys a) (dkeys b)).
    { intros x Hx. unfold dkeys in Hx. apply in_map_iff in Hx as ((x' & v) & <- & Hx). simpl.
      specialize (H _ Hx). simpl in H. destruct (dget x' b) eqn:G; [|discriminate].
      apply dget_In in G. change x' with (fst (x', v0)). apply in_map, G. }
    assert (J : incl (dkeys b) (dkeys a)).
    { apply NoDup_length_incl; [assumption| |assumption]. unfold dkeys. rewrite !map_length. lia. }
    destruct (dget k a) as [v|] eqn:G.
    + apply dget_In in G. specialize (H _ G). simpl in H. destruct (dget k b); [|discriminate].
      apply E in H. congruence.
    + symmetry. apply dget_None. intros X. apply dget_None in G. apply G, J, X.
  - intros H. split.
    + assert (P : forall (x y : dict V), (forall k, dget k x = dget k y) -> incl (dkeys x) (dkeys y)).
      { intros x y Hxy k Hk. apply dmem_In. apply dmem_In in Hk. unfold dmem in *. rewrite <- Hxy. exact Hk. }
      assert (length (dkeys a) <= length (dkeys b)) by (apply NoDup_incl_length; [assumption|apply P; auto]).
      assert (length (dkeys b) <= length (dkeys a)) by (apply NoDup_incl_length; [assumption|apply P; auto]).
      unfold dkeys in *. rewrite !map_length in *. lia.
    + intros [k v] Hk. simpl. rewrite <- H, (In_dget k v a Na Hk). apply E. reflexivity.
Qed.

(** *** FrozenDict *)
Lemma first_value_dget {V} k (l : list (string * V)) :
  first_value k l = match dget k l with Some v => Ok v | None => Err KeyError end.
Proof.
  induction l as [|[k' v] r IH]; simpl; [reflexivity|].
  rewrite String.eqb_sym. destruct (String.eqb k k'); auto.
Qed.

Lemma dict_of_frozen_ok {V} (d : dict V) : NoDup (dkeys d) -> dict_of_frozen (from_dict d) = Ok d.
Proof.
  intros ND. unfold dict_of_frozen, fd_iter, fd_getitem. cbn [elements from_dict].
  assert (H : mapM (fun k => let* v := first_value k d in Ok (k, v)) (map fst d) = Ok d).
  { apply mapM_ok_Forall2. pattern d at 3. 
    assert (G : forall l, incl l d -> Forall2 (fun k y => bind (first_value k d) (fun v => Ok (k, v)) = Ok y) (map fst l) l).
    { induction l as [|[k v] r IH]; simpl; intros I; constructor.
      - rewrite first_value_dget, (In_dget k v d ND) by (apply I; left; reflexivity). reflexivity.
      - apply IH. intros x Hx. apply I. right. exact Hx. }
    apply G. intros x Hx; exact Hx. }
  rewrite H. simpl. f_equal. apply dict_of_NoDup. exact ND.
Qed.

Lemma fd_eq_hash {V} (veq : V -> V -> bool) hs hv hp ht (a b : frozen V) :
  (forall x y, veq x y = true -> hv x = hv y) ->
  fd_eq veq a b = true -> fd_hash hs hv hp ht a = fd_hash hs hv hp ht b.
Proof.
  intros C. destruct a as [a], b as [b]. unfold fd_eq, fd_hash. cbn [elements]. intros H. f_equal.
  revert b H. induction a as [|[k v] r IH]; intros [|[k' v'] r'] H; simpl in *; try discriminate; auto.
  apply andb_true_iff in H as [H1 H2]. apply andb_true_iff in H1 as [H1 H3].
  apply String.eqb_eq in H1. subst. rewrite (C _ _ H3). f_equal. auto.
Qed.

(** *** Schema *)
Definition wf_schema (s : schema) : Prop := NoDup (dkeys (sc_cols s)).

Lemma schema_eq_spec a b : wf_schema a -> wf_schema b ->
  schema_eq a b = true <->
  (forall c, dget c (sc_cols a) = dget c (sc_cols b))
  /\ sc_group a = sc_group b /\ sc_id a = sc_id b /\ sc_space a = sc_space b.
Proof.
  intros Wa Wb. unfold schema_eq. rewrite !andb_true_iff.
  rewrite (dict_eqb_spec coldesc_eqb _ _ coldesc_eqb_eq Wa Wb).
  rewrite !(option_eqb_eq String.eqb String.eqb_eq). tauto.
Qed.

Lemma schema_eq_refl a : wf_schema a -> schema_eq a a = true.
Proof. intros W. apply schema_eq_spec; auto. Qed.

Lemma ctype_name_supported t : smem (ctype_name t) (map ctype_name all_ctypes) = true.
Proof. destruct t; reflexivity. Qed.
Lemma ctype_named_name t : ctype_named (ctype_name t) = Ok t.
Proof. destruct t; reflexivity. Qed.
Lemma ctype_named_supported s : smem s (map ctype_name all_ctypes) = true -> exists t, s = ctype_name t.
Proof.
  intros H. apply smem_In in H. apply in_map_iff in H as (t & <- & _). eauto.
Qed.

Definition filled (dn dnan dinf : bool) (r : rawdesc) : coldesc :=
  match fill dn dnan dinf r with Ok d => d | Err _ => {| cd_type := INTEGER; cd_null := false; cd_nan := false; cd_inf := false |} end.

Lemma fill_ok dn dnan dinf r : smem (raw_name r) (map ctype_name all_ctypes) = true ->
  fill dn dnan dinf r = Ok (filled dn dnan dinf r).
Proof.
  intros H. unfold filled. destruct r as [s|t|d]; simpl; auto.
  destruct (ctype_named_supported s H) as (t & ->). rewrite ctype_named_name. reflexivity.
Qed.

Lemma Schema_init_ok cols g i sp dn dnan dinf s :
  Schema_init cols g i sp dn dnan dinf = Ok s <->
  ~ In ""%string (dkeys cols)
  /\ (forall c, g = Some c -> In c (dkeys cols))
  /\ (forall c, i = Some c -> In c (dkeys cols))
  /\ (forall c r, In (c, r) cols -> exists t, raw_name r = ctype_name t)
  /\ s = {| sc_cols := map (fun p => (fst p, filled dn dnan dinf (snd p))) cols;
            sc_group := g; sc_id := i; sc_space := sp |}.
Proof.
  unfold Schema_init.
  assert (M : forall (c : option string) (d : dict rawdesc), opt_missing c d = false <-> forall x, c = Some x -> In x (dkeys d)).
  { intros [x|] d; simpl.
    - rewrite negb_false_iff, dmem_In. split; [intros H y E; inversion E; subst; auto|auto].
    - split; [discriminate|auto]. }
  destruct (dmem "" cols) eqn:E1; cbn [raise_if bind].
  { split; [discriminate|]. intros (H & _). apply dmem_In in E1. contradiction. }
  assert (N1 : ~ In ""%string (dkeys cols)) by (rewrite <- dmem_In; congruence).
  destruct (opt_missing g cols) eqn:E2; cbn [raise_if bind].
  { split; [discriminate|]. intros (_ & H & _). apply (M g) in H. congruence. }
  destruct (opt_missing i cols) eqn:E3; cbn [raise_if bind].
  { split; [discriminate|]. intros (_ & _ & H & _). apply (M i) in H. congruence. }
  pose proof (proj1 (M g cols) E2) as E2'. pose proof (proj1 (M i cols) E3) as E3'.
  destruct (forallb (fun p => smem (raw_name (snd p)) (map ctype_name all_ctypes)) cols) eqn:E4.
  - cbn [negb raise_if bind].
    rewrite (mapM_total _ (fun p => (fst p, filled dn dnan dinf (snd p)))).
    + cbn [bind]. split.
      * intros H. inversion H. split; [assumption|]. split; [assumption|]. split; [assumption|]. split; [|reflexivity].
        intros c r Hr. rewrite forallb_forall in E4. specialize (E4 _ Hr). apply ctype_named_supported, E4.
      * intros (_ & _ & _ & _ & ->). reflexivity.
    + intros [c r] Hr. rewrite forallb_forall in E4. specialize (E4 _ Hr). cbn [fst snd] in *.
      rewrite fill_ok by assumption. reflexivity.
  - simpl. split; [discriminate|]. intros (_ & _ & _ & H & _).
    assert (X : forallb (fun p => smem (raw_name (snd p)) (map ctype_name all_ctypes)) cols = true); [|congruence].
    apply forallb_forall. intros [c r] Hr. destruct (H c r Hr) as (t & Ht). cbn [snd]. rewrite Ht.
    apply ctype_name_supported.
Qed.

(** Schema(...) with descriptors. *)
Lemma mk_schema_ok cols g i sp s :
  mk_schema cols g i sp = Ok s <->
  ~ In ""%string (dkeys cols)
  /\ (forall c, g = Some c -> In c (dkeys cols))
  /\ (forall c, i = Some c -> In c (dkeys cols))
  /\ s = {| sc_cols := cols; sc_group := g; sc_id := i; sc_space := sp |}.
Proof.
  unfold mk_schema. rewrite Schema_init_ok.
  rewrite (dkeys_map_val (fun d => RDesc d)). rewrite map_map.
  rewrite (map_ext (fun x : string * coldesc => (fst (fst x, RDesc (snd x)), filled false false false (snd (fst x, RDesc (snd x))))) (fun x => x))
    by (intros [c d]; reflexivity). rewrite map_id.
  split; [tauto|]. intros (H1 & H2 & H3 & H4).
  repeat split; try assumption. intros c r Hr. apply in_map_iff in Hr as ((c' & d) & E & _).
  inversion E; subst. simpl. eauto.
Qed.

(** *** Spark *)
Lemma spark_roundtrip t : spark_to_analytics (analytics_to_spark t) = Ok t.
Proof. destruct t; reflexivity. Qed.

(** A descriptor as Spark's own schema can express it. *)
Definition spark_view (d : coldesc) : coldesc :=
  {| cd_type := cd_type d; cd_null := cd_null d;
     cd_nan := ctype_eqb (cd_type d) DECIMAL; cd_inf := ctype_eqb (cd_type d) DECIMAL |}.
(** A descriptor as tmlt.core's column descriptors can express it. *)
Definition core_view (d : coldesc) : coldesc :=
  {| cd_type := cd_type d; cd_null := cd_null d;
     cd_nan := cd_nan d && ctype_eqb (cd_type d) DECIMAL;
     cd_inf := cd_inf d && ctype_eqb (cd_type d) DECIMAL |}.

Lemma via_spark s : wf_schema s ->
  spark_schema_to_analytics_columns (analytics_to_spark_schema s)
  = Ok (map (fun p => (fst p, spark_view (snd p))) (sc_cols s)).
Proof.
  intros W. unfold spark_schema_to_analytics_columns, analytics_to_spark_schema.
  assert (H : forall l : dict coldesc,
    mapM (fun f => let* t := spark_to_analytics (sf_type f) in
      Ok (sf_name f, {| cd_type := t; cd_null := sf_nullable f; cd_nan := ctype_eqb t DECIMAL; cd_inf := ctype_eqb t DECIMAL |}))
      (map (fun p => {| sf_name := fst p; sf_type := analytics_to_spark (cd_type (snd p)); sf_nullable := cd_null (snd p) |}) l)
    = Ok (map (fun p => (fst p, spark_view (snd p))) l)).
  { induction l as [|[c d] r IH]; [reflexivity|]. cbn [map mapM fst snd sf_type sf_name sf_nullable].
    rewrite spark_roundtrip. cbn [bind]. rewrite IH. reflexivity. }
  rewrite H. cbn [bind]. f_equal. apply dict_of_NoDup.
  change (NoDup (dkeys (map (fun p => (fst p, spark_view (snd p))) (sc_cols s)))).
  rewrite (dkeys_map_val spark_view). exact W.
Qed.

Lemma via_core s :
  core_to_analytics (analytics_to_core s) = Ok (map (fun p => (fst p, core_view (snd p))) (sc_cols s)).
Proof.
  unfold core_to_analytics, analytics_to_core. induction (sc_cols s) as [|[c d] r IH]; [reflexivity|].
  cbn [map mapM fst snd]. assert (E : of_core (to_core d) = Ok (core_view d)).
  { destruct d as [[] n a i]; unfold core_view; simpl; rewrite ?andb_true_r, ?andb_false_r; reflexivity. }
  rewrite E. cbn [bind]. rewrite IH. reflexivity.
Qed.

(** *** Coercion *)
Definition widen (t : sparktype) : sparktype :=
  match coercion t with Some ty => ty | None => t end.
Definition widen_field (f : sfield) : sfield :=
  {| sf_name := sf_name f; sf_type := widen (sf_type f); sf_nullable := sf_nullable f |}.

Lemma widen_field_same f : coercion (sf_type f) = None -> widen_field f = f.
Proof. intros H. destruct f as [n t b]. unfold widen_field, widen. simpl in *. rewrite H. reflexivity. Qed.

Lemma count_occ_NoDup (l : list string) x : NoDup l -> count_occ String.string_dec l x <= 1.
Proof. intros H. exact (proj1 (NoDup_count_occ String.string_dec l) H x). Qed.

Lemma coerce_loop_ok fs : forall done rows, NoDup (map sf_name (done ++ fs)) ->
  coerce_loop fs {| sd_fields := map widen_field done ++ fs; sd_rows := rows |}
  = Ok {| sd_fields := map widen_field (done ++ fs); sd_rows := rows |}.
Proof.
  induction fs as [|f r IH]; intros done rows ND; cbn [coerce_loop].
  - rewrite !app_nil_r. reflexivity.
  - assert (Step : coerce_loop r {| sd_fields := map widen_field (done ++ [f]) ++ r; sd_rows := rows |}
                   = Ok {| sd_fields := map widen_field (done ++ f :: r); sd_rows := rows |}).
    { rewrite (IH (done ++ [f]) rows) by (rewrite <- app_assoc; exact ND). rewrite <- app_assoc. reflexivity. }
    rewrite map_app in Step. rewrite <- app_assoc in Step. cbn [map app] in Step.
    destruct (coercion (sf_type f)) as [ty|] eqn:C.
    + unfold with_cast. cbn [sd_fields sd_rows].
      assert (Names : map sf_name (map widen_field done ++ f :: r) = map sf_name (done ++ f :: r)).
      { rewrite !map_app, map_map. reflexivity. }
      rewrite Names.
      pose proof (count_occ_NoDup _ (sf_name f) ND) as L.
      destruct (Nat.ltb_spec 1 (count_occ String.string_dec (map sf_name (done ++ f :: r)) (sf_name f))); [lia|].
      cbn [raise_if bind]. rewrite <- Step. f_equal. f_equal.
      rewrite map_app in ND. cbn [map] in ND. pose proof (NoDup_remove_2 _ _ _ ND) as NI.
      rewrite in_app_iff in NI.
      rewrite map_app. cbn [map]. rewrite String.eqb_refl. f_equal; [|f_equal].
      * rewrite <- (map_id (map widen_field done)) at 2. apply map_ext_in. intros g Hg.
        apply in_map_iff in Hg as (g' & <- & Hg). cbn [widen_field sf_name].
        destruct (String.eqb_spec (sf_name g') (sf_name f)) as [E|]; [|reflexivity].
        exfalso. apply NI. left. rewrite <- E. apply in_map, Hg.
      * unfold widen_field, widen. rewrite C. reflexivity.
      * rewrite <- (map_id r) at 2. apply map_ext_in. intros g Hg.
        destruct (String.eqb_spec (sf_name g) (sf_name f)) as [E|]; [|reflexivity].
        exfalso. apply NI. right. rewrite <- E. apply in_map, Hg.
    + rewrite (widen_field_same f C) in Step. exact Step.
Qed.

Lemma coerce_ok d : NoDup (map sf_name (sd_fields d)) ->
  coerce_spark_schema_or_fail d =
  if smem "" (map sf_name (sd_fields d)) || negb (forallb (fun f => supported (sf_type f)) (sd_fields d))
  then Err ValueError
  else Ok {| sd_fields := map widen_field (sd_fields d); sd_rows := sd_rows d |}.
Proof.
  intros ND. unfold coerce_spark_schema_or_fail.
  destruct (smem "" (map sf_name (sd_fields d))); cbn [raise_if bind orb]; [reflexivity|].
  destruct (forallb _ _); cbn [raise_if bind negb]; [|reflexivity].
  destruct d as [fs rows]. cbn [sd_fields sd_rows] in *.
  apply (coerce_loop_ok fs [] rows). exact ND.
Qed.

(** *** Cells *)
(** Does a cell belong to a column with this descriptor?  SparkDataFrameDomain of
    tmlt.core checks exactly this. *)
Definition cell_ok (d : coldesc) (v : value) : bool :=
  match v, cd_type d with
  | VNull, _ => cd_null d
  | VInt _, INTEGER => true
  | VFloat FNan, DECIMAL => cd_nan d
  | VFloat FPInf, DECIMAL => cd_inf d
  | VFloat FNInf, DECIMAL => cd_inf d
  | VFloat (FFin _), DECIMAL => true
  | VStr _, VARCHAR => true
  | VDate _, DATE => true
  | VTime _, TIMESTAMP => true
  | _, _ => false
  end.
