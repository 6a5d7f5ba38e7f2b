(** Schemas that differ only in the order of columns, and in flags that mean nothing for
    the type of their column, give the same schemas for queries. *)
From Coq Require Import String Bool Arith ZArith QArith Qcanon Lia Permutation List.
From Verif Require Import Prelude Value Rows Constraints ConstraintsSpec ConstraintsProofs Schema SchemaProofs
  Query Transform TransformSpec TransformConform TransformVisit TransformAgree.
Import ListNotations.
Local Open Scope string_scope.
Local Open Scope nat_scope.

(** ** Specification *)

(** The same columns with the same types and allowed special values (allow_nan and
    allow_inf only count for DECIMAL columns), the same special columns. *)
Record same_schema (s s' : schema) : Prop := {
  ss_nodup : NoDup (dkeys (sc_cols s));
  ss_nodup' : NoDup (dkeys (sc_cols s'));
  ss_cols : same_entries (core_cols (sc_cols s)) (core_cols (sc_cols s'));
  ss_group : sc_group s = sc_group s';
  ss_id : sc_id s = sc_id s';
  ss_space : sc_space s = sc_space s'
}.
(** Dictionaries given as arguments are dictionaries, and renamings give different names to
    different columns. *)
Fixpoint dicts (q : query) : Prop :=
  match q with
  | PrivateSource _ => True
  | Rename c m => dicts c /\ NoDup (dkeys m) /\ NoDup (map snd m)
  | MapQ c _ new _ | FlatMap c _ new _ _ | FlatMapByID c _ new => dicts c /\ NoDup (dkeys (sc_cols new))
  | JoinPrivate l r _ _ on => dicts l /\ dicts r /\ (forall l, on = Some l -> NoDup l)
  | JoinPublic c _ on _ => dicts c /\ (forall l, on = Some l -> NoDup l)
  | GetGroups c _ | GetBounds c _ _ _ _ | Filter c _ | Select c _ | ReplaceNullAndNan c _ | ReplaceInfinity c _
  | DropNullAndNan c _ | DropInfinity c _ | EnforceConstraint c _ | GroupByCount c _ _ _ _
  | GroupByCountDistinct c _ _ _ _ _ | GroupByQuantile c _ _ _ _ _ _ | GroupByBounded _ c _ _ _ _ _ _ _
  | SuppressAggregates c _ _ => dicts c
  end.
(** Spark resolves columns by name. *)
Definition by_name (cond_ok : string -> list sfield -> bool) : Prop :=
  forall cond fs fs', Permutation fs fs' -> cond_ok cond fs = cond_ok cond fs'.

(** ** Lists and dictionaries *)

Lemma same_schema_refl s : NoDup (dkeys (sc_cols s)) -> same_schema s s.
Proof. intros N. split; auto. intros c. reflexivity. Qed.
Lemma same_schema_sym s s' : same_schema s s' -> same_schema s' s.
Proof. intros [A B C D F G]. split; auto. intros c. symmetry. apply C. Qed.
Lemma same_schema_trans a b c : same_schema a b -> same_schema b c -> same_schema a c.
Proof. intros [A B C D F G] [A' B' C' D' F' G']. split; [exact A|exact B'|intros k; rewrite (C k); apply C'|congruence|congruence|congruence]. Qed.

Section Same.
Variables s s' : schema.
Hypothesis SS : same_schema s s'.
Lemma ss_keys c : In c (dkeys (sc_cols s)) <-> In c (dkeys (sc_cols s')).
Proof. rewrite <- (dkeys_core_cols (sc_cols s)), <- (dkeys_core_cols (sc_cols s')). apply same_entries_keys, SS. Qed.
Lemma ss_mem c : dmem c (sc_cols s) = dmem c (sc_cols s').
Proof.
  destruct (dmem c (sc_cols s)) eqn:A, (dmem c (sc_cols s')) eqn:B; try reflexivity.
  - apply dmem_In, ss_keys, dmem_In in A. congruence.
  - apply dmem_In, ss_keys, dmem_In in B. congruence.
Qed.
Lemma ss_get c d : dget c (sc_cols s) = Some d -> exists d', dget c (sc_cols s') = Some d' /\ to_core d' = to_core d.
Proof.
  intros G. pose proof (ss_cols _ _ SS c) as X. rewrite !dget_core_cols, G in X. cbn in X. destruct (dget c (sc_cols s')) as [d'|]; [|discriminate].
  exists d'. split; [reflexivity|]. cbn in X. congruence.
Qed.
Lemma ss_missing cols : missing cols (sc_cols s) = missing cols (sc_cols s').
Proof. unfold missing. induction cols as [|c cols IH]; [reflexivity|]. cbn. rewrite ss_mem, IH. reflexivity. Qed.
End Same.

Lemma to_core_type d d' : to_core d = to_core d' -> cd_type d = cd_type d'.
Proof. destruct d as [[] ? ? ?], d' as [[] ? ? ?]; cbn; congruence. Qed.
Lemma to_core_null d d' : to_core d = to_core d' -> cd_null d = cd_null d'.
Proof. destruct d as [[] ? ? ?], d' as [[] ? ? ?]; cbn; congruence. Qed.

Lemma mk_same cols cols' g i sp s : NoDup (dkeys cols) -> NoDup (dkeys cols') -> same_entries (core_cols cols) (core_cols cols') ->
  mk_schema cols g i sp = Ok s -> exists s', mk_schema cols' g i sp = Ok s' /\ same_schema s s'.
Proof.
  intros N N' E M. apply mk_schema_ok in M as (M1 & M2 & M3 & ->).
  assert (K : forall c, In c (dkeys cols) <-> In c (dkeys cols')) by (intros c; rewrite <- (dkeys_core_cols cols), <- (dkeys_core_cols cols'); apply same_entries_keys, E).
  eexists. split.
  - apply mk_schema_ok. split; [rewrite <- K; exact M1|]. split; [intros c H; apply K, M2, H|]. split; [intros c H; apply K, M3, H|reflexivity].
  - split; auto.
Qed.
Lemma core_cols_dict_of l : core_cols (dict_of l) = dict_of (core_cols l).
Proof.
  unfold dict_of, core_cols. assert (G : forall acc : dict coldesc, map (fun p => (fst p, to_core (snd p))) (fold_left (fun d p => dset (fst p) (snd p) d) l acc)
    = fold_left (fun d p => dset (fst p) (snd p) d) (map (fun p => (fst p, to_core (snd p))) l) (map (fun p => (fst p, to_core (snd p))) acc)).
  { induction l as [|[k v] l IH]; intros acc; [reflexivity|]. cbn [fold_left map fst snd]. rewrite IH. f_equal.
    clear. induction acc as [|[k' v'] acc IH]; [reflexivity|]. cbn. destruct (String.eqb k k'); cbn; [reflexivity|]. rewrite IH. reflexivity. }
  apply (G []).
Qed.
Lemma pick_same s s' cols l : same_schema s s' -> pick (sc_cols s) cols = Ok l ->
  exists l', pick (sc_cols s') cols = Ok l' /\ core_cols l = core_cols l' /\ NoDup (dkeys l) /\ NoDup (dkeys l').
Proof.
  intros SS. unfold pick. intros H. apply bind_ok in H as (m & M & H). injection H as <-.
  assert (X : exists m', mapM (fun c => let* x := lookup_col (sc_cols s') c in Ok (c, x)) cols = Ok m' /\ core_cols m = core_cols m').
  { revert m M. induction cols as [|c cols IH]; intros m M; cbn in *.
    - injection M as <-. exists []. auto.
    - apply bind_ok in M as ((c1, d) & M1 & M). apply bind_ok in M as (m1 & M2 & M). injection M as <-. apply bind_ok in M1 as (d1 & M1 & X). injection X as <- <-.
      unfold lookup_col in *. destruct (dget c (sc_cols s)) as [d2|] eqn:G; [|discriminate]. injection M1 as <-.
      destruct (ss_get _ _ SS _ _ G) as (d' & G' & TC). rewrite G'. cbn [bind]. destruct (IH m1 M2) as (m' & -> & EC). cbn [bind]. eexists. split; [reflexivity|].
      cbn. rewrite TC. unfold core_cols in EC. rewrite EC. reflexivity. }
  destruct X as (m' & -> & EC). cbn [bind]. eexists. split; [reflexivity|]. rewrite !core_cols_dict_of, EC. split; [reflexivity|]. split; apply NoDup_dict_of.
Qed.
Lemma same_entries_eq {V} (a b : dict V) : a = b -> same_entries a b. Proof. intros -> c. reflexivity. Qed.
Lemma merge_same a a' e : NoDup (dkeys e) -> same_entries (core_cols a) (core_cols a') ->
  same_entries (core_cols (merge a e)) (core_cols (merge a' e)).
Proof.
  intros N S c. rewrite !dget_core_cols, !dget_merge by exact N. destruct (dget c e); [reflexivity|]. rewrite <- !dget_core_cols. apply S.
Qed.
Lemma rebuild_same f f' s s' t : same_schema s s' -> (forall c d d', dget c (sc_cols s) = Some d -> dget c (sc_cols s') = Some d' -> to_core d = to_core d' -> to_core (f c d) = to_core (f' c d')) ->
  rebuild f s = Ok t -> exists t', rebuild f' s' = Ok t' /\ same_schema t t'.
Proof.
  intros SS F. unfold rebuild. rewrite (ss_group _ _ SS), (ss_id _ _ SS), (ss_space _ _ SS). apply mk_same.
  - rewrite dkeys_map_key. apply SS.
  - rewrite dkeys_map_key. apply SS.
  - intros c. rewrite !dget_core_cols, !dget_map_key. destruct (dget c (sc_cols s)) as [d|] eqn:G.
    + destruct (ss_get _ _ SS _ _ G) as (d' & G' & TC). rewrite G'. cbn. f_equal. apply F; auto.
    + assert (dget c (sc_cols s') = None) as -> by (apply dget_None; rewrite <- (ss_keys _ _ SS); apply dget_None, G). reflexivity.
Qed.
Lemma not_special_same s s' c : same_schema s s' -> not_special s c = not_special s' c.
Proof. intros SS. unfold not_special. rewrite (ss_group _ _ SS), (ss_id _ _ SS). reflexivity. Qed.
Lemma exists_mapM {A B} (f g : A -> res B) l u : (forall a b, f a = Ok b -> exists b', g a = Ok b') -> mapM f l = Ok u -> exists u', mapM g l = Ok u'.
Proof.
  intros F. revert u. induction l as [|a l IH]; intros u H; cbn in *; [eauto|]. apply bind_ok in H as (b & H1 & H). apply bind_ok in H as (u' & H2 & H).
  destruct (F _ _ H1) as (b' & ->). destruct (IH _ H2) as (u2 & ->). cbn. eauto.
Qed.
Lemma raise_ok b e u : raise_if b e = Ok u -> b = false. Proof. destruct b; [discriminate|reflexivity]. Qed.
Lemma raise_no b e : b = false -> raise_if b e = Ok tt. Proof. intros ->. reflexivity. Qed.

(** ** One operation *)
Lemma rename_same m s s' t : same_schema s s' -> NoDup (dkeys m) -> NoDup (map snd m) -> rename_schema m s = Ok t ->
  exists t', rename_schema m s' = Ok t' /\ same_schema t t'.
Proof.
  intros SS NM NV H. unfold rename_schema in *. apply bind_ok in H as ([] & H1 & H). apply bind_ok in H as ([] & H2 & H). apply raise_ok in H1, H2.
  rewrite raise_no by (rewrite <- (ss_missing _ _ SS); exact H1). cbn [bind].
  assert (E2 : forall x : list (string * string), existsb (fun p => dmem (snd p) (sc_cols s') && negb (String.eqb (snd p) (fst p))) x = existsb (fun p => dmem (snd p) (sc_cols s) && negb (String.eqb (snd p) (fst p))) x).
  { induction x as [|p x IH]; [reflexivity|]. cbn. rewrite (ss_mem _ _ SS), IH. reflexivity. }
  rewrite raise_no by (rewrite E2; exact H2). cbn [bind]. clear E2.
  assert (FR : forall p, In p m -> In (snd p) (dkeys (sc_cols s)) -> snd p = fst p).
  { intros p I J. destruct (String.eqb_spec (snd p) (fst p)) as [E|N]; [exact E|exfalso]. apply dmem_In in J.
    assert (existsb (fun p => dmem (snd p) (sc_cols s) && negb (String.eqb (snd p) (fst p))) m = true); [|congruence]. apply existsb_exists. exists p. split; [exact I|].
    rewrite J. cbn. apply negb_true_iff, String.eqb_neq, N. }
  assert (INJ : forall c1 c2, In c1 (dkeys (sc_cols s)) -> In c2 (dkeys (sc_cols s)) -> renamed m c1 = renamed m c2 -> c1 = c2).
  { intros c1 c2 I1 I2 E. unfold renamed in E. destruct (dget c1 m) as [v1|] eqn:G1, (dget c2 m) as [v2|] eqn:G2.
    - subst v2. apply dget_In in G1, G2. clear -NV G1 G2. induction m as [|(k, v) m IH]; [destruct G1|]. cbn in NV. apply NoDup_cons_iff in NV as (N1 & N2).
      destruct G1 as [G1|G1], G2 as [G2|G2].
      + congruence.
      + injection G1 as -> ->. destruct N1. apply in_map_iff. exists (c2, v1). auto.
      + injection G2 as -> ->. destruct N1. apply in_map_iff. exists (c1, v1). auto.
      + auto.
    - apply dget_In in G1. pose proof (FR (c1, v1) G1) as X. cbn in X. subst v1. symmetry. apply X, I2.
    - apply dget_In in G2. pose proof (FR (c2, v2) G2) as X. cbn in X. subst v2. apply X, I1.
    - exact E. }
  assert (ND : forall d : dict coldesc, NoDup (dkeys d) -> (forall c, In c (dkeys d) -> In c (dkeys (sc_cols s))) -> NoDup (dkeys (map (fun p => (renamed m (fst p), snd p)) d))).
  { intros d N I. unfold dkeys in *. rewrite map_map. cbn [fst]. clear H.
    induction d as [|(k, v) d IH]; [constructor|]. cbn in *. apply NoDup_cons_iff in N as (N1 & N2). constructor; [|apply IH; auto].
    intros J. apply in_map_iff in J as ((k', v') & E & J). cbn in E. apply INJ in E; [subst k'; apply N1; exact (in_map fst _ _ J)| |apply I; auto]. apply I. right. exact (in_map fst _ _ J). }
  pose proof (ND (sc_cols s) (ss_nodup _ _ SS) (fun c H => H)) as N1.
  pose proof (ND (sc_cols s') (ss_nodup' _ _ SS) (fun c H => proj2 (ss_keys _ _ SS c) H)) as N2.
  rewrite (dict_of_NoDup _ N1) in H. rewrite (dict_of_NoDup _ N2). rewrite <- (ss_group _ _ SS), <- (ss_id _ _ SS), <- (ss_space _ _ SS).
  eapply mk_same; [exact N1|exact N2| |exact H].
  assert (IN : forall d : dict coldesc, NoDup (dkeys d) -> forall c k, In (c, k) (core_cols (map (fun p => (renamed m (fst p), snd p)) d)) <-> exists c0, c = renamed m c0 /\ dget c0 (core_cols d) = Some k).
  { intros d N c k. unfold core_cols. rewrite map_map. rewrite in_map_iff. split.
    - intros ((c0, d0) & E & I). cbn in E. injection E as <- <-. exists c0. split; [reflexivity|]. change (dget c0 (core_cols d) = Some (to_core d0)). rewrite dget_core_cols.
      apply In_dget in I; [|exact N]. rewrite I. reflexivity.
    - intros (c0 & -> & G). change (dget c0 (core_cols d) = Some k) in G. rewrite dget_core_cols in G. destruct (dget c0 d) as [d0|] eqn:G0; [|discriminate]. injection G as <-.
      exists (c0, d0). split; [reflexivity|]. apply dget_In, G0. }
  apply same_entries_In.
  - rewrite dkeys_core_cols. exact N1.
  - rewrite dkeys_core_cols. exact N2.
  - intros c k. rewrite (IN _ (ss_nodup _ _ SS)), (IN _ (ss_nodup' _ _ SS)). split; intros (c0 & -> & G); exists c0; (split; [reflexivity|]).
    + rewrite <- (ss_cols _ _ SS c0). exact G.
    + rewrite (ss_cols _ _ SS c0). exact G.
Qed.

Lemma spark_fields_perm s s' : same_schema s s' -> Permutation (analytics_to_spark_schema s) (analytics_to_spark_schema s').
Proof.
  intros SS. assert (E : forall x, analytics_to_spark_schema x = map (fun p => {| sf_name := fst p; sf_type := core_type (snd p); sf_nullable := core_null (snd p) |}) (core_cols (sc_cols x))).
  { intros x. unfold analytics_to_spark_schema, core_cols. rewrite map_map. apply map_ext. intros (c, [[] ? ? ?]); reflexivity. }
  rewrite !E. apply Permutation_map. 
  assert (N : forall x, NoDup (dkeys (sc_cols x)) -> NoDup (core_cols (sc_cols x))) by (intros x N; rewrite <- (dkeys_core_cols (sc_cols x)) in N; eapply NoDup_map_inv; exact N).
  apply NoDup_Permutation; [apply N, SS|apply N, SS|]. intros (c, k).
  assert (I : forall x, NoDup (dkeys (sc_cols x)) -> (In (c, k) (core_cols (sc_cols x)) <-> dget c (core_cols (sc_cols x)) = Some k)).
  { intros x Nx. split; [apply In_dget; rewrite dkeys_core_cols; exact Nx|apply dget_In]. }
  rewrite (I s), (I s') by apply SS. rewrite (ss_cols _ _ SS c). reflexivity.
Qed.
Lemma filter_same cond_ok cond s s' t : by_name cond_ok -> same_schema s s' -> filter_schema cond_ok cond s = Ok t ->
  exists t', filter_schema cond_ok cond s' = Ok t' /\ same_schema t t'.
Proof.
  intros BN SS H. unfold filter_schema in *. apply bind_ok in H as ([] & H1 & H). injection H as <-. apply raise_ok in H1.
  rewrite raise_no; [cbn; eauto|]. rewrite <- (BN cond _ _ (spark_fields_perm _ _ SS)). exact H1.
Qed.
Lemma select_same cols s s' t : same_schema s s' -> select_schema cols s = Ok t -> exists t', select_schema cols s' = Ok t' /\ same_schema t t'.
Proof.
  intros SS. unfold select_schema. rewrite <- (ss_missing _ _ SS), <- (ss_group _ _ SS), <- (ss_id _ _ SS), <- (ss_space _ _ SS). intros H.
  apply bind_ok in H as ([] & -> & H). apply bind_ok in H as ([] & -> & H). apply bind_ok in H as ([] & -> & H). cbn [bind].
  apply bind_ok in H as (l & H1 & H). destruct (pick_same _ _ _ _ SS H1) as (l' & -> & EC & N & N'). cbn [bind]. eapply mk_same; [exact N|exact N'|apply same_entries_eq, EC|exact H].
Qed.
Lemma augment_mem s s' (new : dict coldesc) : same_schema s s' -> existsb (fun c => dmem c new) (dkeys (sc_cols s)) = existsb (fun c => dmem c new) (dkeys (sc_cols s')).
Proof.
  intros SS. destruct (existsb (fun c => dmem c new) (dkeys (sc_cols s))) eqn:A, (existsb (fun c => dmem c new) (dkeys (sc_cols s'))) eqn:B; try reflexivity; exfalso.
  - apply existsb_exists in A as (c & I & M). apply (ss_keys _ _ SS) in I. assert (existsb (fun c => dmem c new) (dkeys (sc_cols s')) = true) by (apply existsb_exists; eauto). congruence.
  - apply existsb_exists in B as (c & I & M). apply (ss_keys _ _ SS) in I. assert (existsb (fun c => dmem c new) (dkeys (sc_cols s)) = true) by (apply existsb_exists; eauto). congruence.
Qed.
Lemma map_same new aug s s' t : same_schema s s' -> NoDup (dkeys (sc_cols new)) -> map_schema new aug s = Ok t -> exists t', map_schema new aug s' = Ok t' /\ same_schema t t'.
Proof.
  intros SS N. assert (N1 : NoDup (dkeys (new_columns new))) by (rewrite dkeys_new_columns; exact N). unfold map_schema. rewrite <- (ss_group _ _ SS), <- (ss_id _ _ SS), <- (ss_space _ _ SS), <- (augment_mem _ _ _ SS). destruct aug; intros H.
  - apply bind_ok in H as ([] & -> & H). cbn [bind]. eapply mk_same; [| | |exact H].
    + apply NoDup_merge, SS.
    + apply NoDup_merge, SS.
    + apply merge_same; [exact N1|apply SS].
  - apply bind_ok in H as ([] & -> & H). apply bind_ok in H as ([] & -> & H). cbn [bind]. eapply mk_same; [exact N1|exact N1|apply same_entries_eq; reflexivity|exact H].
Qed.
Lemma flat_map_same new aug s s' t : same_schema s s' -> NoDup (dkeys (sc_cols new)) -> flat_map_schema new aug s = Ok t -> exists t', flat_map_schema new aug s' = Ok t' /\ same_schema t t'.
Proof.
  intros SS N. assert (N1 : NoDup (dkeys (new_columns new))) by (rewrite dkeys_new_columns; exact N). unfold flat_map_schema. rewrite <- (ss_group _ _ SS), <- (ss_id _ _ SS), <- (ss_space _ _ SS), <- (augment_mem _ _ _ SS).
  intros H. apply bind_ok in H as ([] & -> & H). apply bind_ok in H as ([] & -> & H). cbn [bind]. destruct aug.
  - apply bind_ok in H as ([] & -> & H). cbn [bind]. eapply mk_same; [| | |exact H].
    + apply NoDup_merge, SS.
    + apply NoDup_merge, SS.
    + apply merge_same; [exact N1|apply SS].
  - apply bind_ok in H as ([] & -> & H). apply bind_ok in H as ([] & -> & H). cbn [bind]. eapply mk_same; [exact N1|exact N1|apply same_entries_eq; reflexivity|exact H].
Qed.
Lemma flat_map_by_id_same new s s' t : same_schema s s' -> NoDup (dkeys (sc_cols new)) -> flat_map_by_id_schema new s = Ok t -> exists t', flat_map_by_id_schema new s' = Ok t' /\ same_schema t t'.
Proof.
  intros SS N. assert (N1 : NoDup (dkeys (new_columns new))) by (rewrite dkeys_new_columns; exact N). unfold flat_map_by_id_schema. rewrite <- (ss_group _ _ SS), <- (ss_id _ _ SS), <- (ss_space _ _ SS).
  destruct (sc_id s) as [i|]; [|discriminate]. intros H. apply bind_ok in H as ([] & -> & H). apply bind_ok in H as ([] & -> & H). cbn [bind]. apply bind_ok in H as (d & H1 & H).
  unfold lookup_col in *. destruct (dget i (sc_cols s)) as [d1|] eqn:G; [|discriminate]. injection H1 as <-. destruct (ss_get _ _ SS _ _ G) as (d' & G' & TC). rewrite G'. cbn [bind].
  eapply mk_same; [| | |exact H].
  - apply NoDup_merge. repeat constructor. intros [].
  - apply NoDup_merge. repeat constructor. intros [].
  - apply merge_same; [exact N1|]. apply same_entries_eq. cbn. rewrite TC. reflexivity.
Qed.
Lemma replace_null_same rw s s' t : same_schema s s' -> replace_null_schema rw s = Ok t -> exists t', replace_null_schema rw s' = Ok t' /\ same_schema t t'.
Proof.
  intros SS. unfold replace_null_schema. rewrite <- (ss_group _ _ SS), <- (ss_id _ _ SS). intros H. apply bind_ok in H as ([] & -> & H). apply bind_ok in H as ([] & -> & H). cbn [bind].
  apply bind_ok in H as (u & H1 & H). 
  eapply exists_mapM in H1 as (u' & H1); [rewrite H1; cbn [bind]|].
  - eapply rebuild_same; [exact SS| |exact H]. intros c d d' G G' TC.
    assert (X : forall P Q : bool, (P = Q \/ (P = (cd_null d || cd_nan d) && not_special s c /\ Q = (cd_null d' || cd_nan d') && not_special s' c)) ->
      to_core {| cd_type := cd_type d; cd_null := cd_null d && negb P; cd_nan := cd_nan d && negb P; cd_inf := cd_inf d |}
      = to_core {| cd_type := cd_type d'; cd_null := cd_null d' && negb Q; cd_nan := cd_nan d' && negb Q; cd_inf := cd_inf d' |}).
    { intros P Q D. rewrite <- (not_special_same _ _ c SS) in D. destruct d as [ty n x i], d' as [ty' n' x' i']. pose proof (to_core_type _ _ TC) as ET. cbn in ET. subst ty'.
      destruct ty; cbn in *; injection TC; intros; subst; destruct D as [->|(-> & ->)]; try reflexivity; destruct n', x, x', (not_special s c); reflexivity. }
    apply X. destruct (dkeys rw) as [|k0 l]; [right|left; reflexivity].
    rewrite !smem_dkeys. rewrite (dmem_filter _ _ _ (ss_nodup _ _ SS)), (dmem_filter _ _ _ (ss_nodup' _ _ SS)), G, G'. cbn [fst snd]. auto.
  - intros (c, v) b E. cbn [fst snd] in *. destruct (dget c (sc_cols s)) as [d|] eqn:G; [|discriminate]. destruct (ss_get _ _ SS _ _ G) as (d' & G' & TC). rewrite G'.
    rewrite (to_core_type _ _ TC). eauto.
Qed.
Lemma drop_null_same cols s s' t : same_schema s s' -> drop_null_schema cols s = Ok t -> exists t', drop_null_schema cols s' = Ok t' /\ same_schema t t'.
Proof.
  intros SS. unfold drop_null_schema. rewrite <- (ss_group _ _ SS), <- (ss_id _ _ SS), <- (ss_missing _ _ SS). intros H. apply bind_ok in H as ([] & -> & H). apply bind_ok in H as ([] & -> & H).
  apply bind_ok in H as ([] & -> & H). cbn [bind].
  eapply rebuild_same; [exact SS| |exact H]. intros c d d' G G' TC.
  assert (X : forall P Q : bool, (P = Q \/ (P = (cd_null d || cd_nan d) && not_special s c /\ Q = (cd_null d' || cd_nan d') && not_special s' c)) ->
      to_core {| cd_type := cd_type d; cd_null := cd_null d && negb P; cd_nan := cd_nan d && negb P; cd_inf := cd_inf d |}
      = to_core {| cd_type := cd_type d'; cd_null := cd_null d' && negb Q; cd_nan := cd_nan d' && negb Q; cd_inf := cd_inf d' |}).
  { intros P Q D. rewrite <- (not_special_same _ _ c SS) in D. destruct d as [ty n x i], d' as [ty' n' x' i']. pose proof (to_core_type _ _ TC) as ET. cbn in ET. subst ty'.
    destruct ty; cbn in *; injection TC; intros; subst; destruct D as [->|(-> & ->)]; try reflexivity; destruct n', x, x', (not_special s c); reflexivity. }
  apply X. destruct cols as [|k0 l]; [right|left; reflexivity].
  rewrite !smem_dkeys. rewrite (dmem_filter _ _ _ (ss_nodup _ _ SS)), (dmem_filter _ _ _ (ss_nodup' _ _ SS)), G, G'. cbn [fst snd]. auto.
Qed.
Lemma check_decimal_same cols s s' u : same_schema s s' -> check_decimal cols s = Ok u -> check_decimal cols s' = Ok tt.
Proof.
  intros SS. unfold check_decimal. intros H. apply bind_ok in H as (l & H & _). eapply exists_mapM in H as (l' & H); [rewrite H; reflexivity|].
  intros c b E. cbn in *. destruct (dget c (sc_cols s)) as [d|] eqn:G; [|discriminate]. destruct (ss_get _ _ SS _ _ G) as (d' & G' & TC). rewrite G'. unfold is_decimal in *. rewrite (to_core_type _ _ TC). eauto.
Qed.
Lemma no_infinity_same cols s s' t : same_schema s s' -> no_infinity (default_infinity s cols) s = Ok t -> exists t', no_infinity (default_infinity s' cols) s' = Ok t' /\ same_schema t t'.
Proof.
  intros SS H. unfold no_infinity in *. eapply rebuild_same; [exact SS| |exact H]. intros c d d' G G' TC.
  assert (X : forall P Q : bool, (P = Q \/ (P = is_decimal d && cd_inf d && not_special s c /\ Q = is_decimal d' && cd_inf d' && not_special s' c)) ->
      to_core {| cd_type := cd_type d; cd_null := cd_null d; cd_nan := cd_nan d; cd_inf := cd_inf d && negb P |}
      = to_core {| cd_type := cd_type d'; cd_null := cd_null d'; cd_nan := cd_nan d'; cd_inf := cd_inf d' && negb Q |}).
  { intros P Q D. rewrite <- (not_special_same _ _ c SS) in D. destruct d as [ty n x i], d' as [ty' n' x' i']. pose proof (to_core_type _ _ TC) as ET. cbn in ET. subst ty'.
    destruct ty; cbn in *; injection TC; intros; subst; destruct D as [->|(-> & ->)]; reflexivity. }
  apply X. unfold default_infinity. destruct cols as [|k0 l]; [right|left; reflexivity].
  rewrite !smem_dkeys. rewrite (dmem_filter _ _ _ (ss_nodup _ _ SS)), (dmem_filter _ _ _ (ss_nodup' _ _ SS)), G, G'. cbn [fst snd]. auto.
Qed.
Lemma replace_inf_same rw s s' t : same_schema s s' -> replace_inf_schema rw s = Ok t -> exists t', replace_inf_schema rw s' = Ok t' /\ same_schema t t'.
Proof.
  intros SS. unfold replace_inf_schema. rewrite <- (ss_group _ _ SS), <- (ss_id _ _ SS). intros H. apply bind_ok in H as ([] & -> & H). apply bind_ok in H as ([] & -> & H). apply bind_ok in H as (u & H1 & H).
  rewrite (check_decimal_same _ _ _ _ SS H1). cbn [bind]. eapply no_infinity_same; eassumption.
Qed.
Lemma drop_inf_same cols s s' t : same_schema s s' -> drop_inf_schema cols s = Ok t -> exists t', drop_inf_schema cols s' = Ok t' /\ same_schema t t'.
Proof.
  intros SS. unfold drop_inf_schema. rewrite <- (ss_group _ _ SS), <- (ss_id _ _ SS). intros H. apply bind_ok in H as ([] & -> & H). apply bind_ok in H as ([] & -> & H). apply bind_ok in H as (u & H1 & H).
  rewrite (check_decimal_same _ _ _ _ SS H1). cbn [bind]. eapply no_infinity_same; eassumption.
Qed.
Lemma enforce_same k s s' t : same_schema s s' -> enforce_schema k s = Ok t -> exists t', enforce_schema k s' = Ok t' /\ same_schema t t'.
Proof.
  intros SS. unfold enforce_schema. rewrite <- (ss_id _ _ SS). destruct (sc_id s) as [i|]; [|discriminate]. destruct k as [n|g n|g n]; rewrite <- ?(ss_mem _ _ SS); intros H.
  - injection H as <-. eauto.
  - apply bind_ok in H as ([] & -> & H). apply bind_ok in H as ([] & -> & H). injection H as <-. cbn. eauto.
  - apply bind_ok in H as ([] & -> & H). apply bind_ok in H as ([] & -> & H). injection H as <-. cbn. eauto.
Qed.
Lemma get_groups_same cols s s' t : same_schema s s' -> get_groups_schema cols s = Ok t -> exists t', get_groups_schema cols s' = Ok t' /\ same_schema t t'.
Proof.
  intros SS. unfold get_groups_schema. destruct cols as [|c cols]; intros H.
  - rewrite <- (ss_id _ _ SS). eapply mk_same; [| | |exact H].
    + apply NoDup_filter_keys, SS.
    + apply NoDup_filter_keys, SS.
    + intros c. rewrite !dget_core_cols.
      assert (X : forall d : dict coldesc, dget c (filter (fun p => negb (is_col (sc_id s) (fst p))) d) = if negb (is_col (sc_id s) c) then dget c d else None).
      { induction d as [|(k, v) d IH]; [destruct (negb _); reflexivity|]. cbn [filter fst]. destruct (negb (is_col (sc_id s) k)) eqn:B; cbn [dget].
        - destruct (String.eqb_spec c k) as [->|]; [rewrite B; reflexivity|exact IH].
        - rewrite IH. destruct (String.eqb_spec c k) as [->|]; [rewrite B|]; reflexivity. }
      rewrite !X. destruct (negb _); [|reflexivity]. rewrite <- !dget_core_cols. apply SS.
  - rewrite <- (ss_missing _ _ SS). apply bind_ok in H as ([] & -> & H). cbn [bind]. apply bind_ok in H as (l & H1 & H).
    destruct (pick_same _ _ _ _ SS H1) as (l' & -> & EC & N & N'). cbn [bind]. eapply mk_same; [exact N|exact N'|apply same_entries_eq, EC|exact H].
Qed.
Lemma groupby_same k m outs s s' t : same_schema s s' -> groupby_schema k m outs s = Ok t -> exists t', groupby_schema k m outs s' = Ok t' /\ same_schema t t'.
Proof.
  intros SS. unfold groupby_schema. intros H. apply bind_ok in H as ([] & H1 & H).
  assert (V : validate_groupby k m s' = Ok tt).
  { unfold validate_groupby in *. apply bind_ok in H1 as ([] & A & H1). apply bind_ok in H1 as ([] & B & H1).
    assert ((match k with KSet cols _ => let* _ := mapM (fun p => let* d := lookup_col (sc_cols s') (fst p) in raise_if (negb (ctype_eqb (cd_type (snd p)) (cd_type d))) ValueError) cols in Ok tt
                        | KCols l => raise_if (missing l (sc_cols s')) ValueError end) = Ok tt) as ->.
    { destruct k as [cols rows|l]; [|rewrite <- (ss_missing _ _ SS); exact A]. apply bind_ok in A as (u & A & _). eapply exists_mapM in A as (u' & ->); [reflexivity|].
      intros (c, d0) b E. cbn [fst snd] in *. unfold lookup_col in *. destruct (dget c (sc_cols s)) as [d|] eqn:G; [|discriminate]. destruct (ss_get _ _ SS _ _ G) as (d' & G' & TC). rewrite G'.
      cbn [bind] in *. rewrite (to_core_type _ _ TC). eauto. }
    rewrite <- (ss_group _ _ SS), <- (ss_id _ _ SS). cbn [bind]. rewrite B. cbn [bind]. destruct m as [m|]; [|exact H1]. apply bind_ok in H1 as ([] & -> & H1). cbn [bind].
    destruct (dget m (sc_cols s)) as [d|] eqn:G; [|discriminate]. destruct (ss_get _ _ SS _ _ G) as (d' & G' & TC). rewrite G'. unfold is_decimal in *. rewrite (to_core_type _ _ TC). exact H1. }
  rewrite V. cbn [bind]. assert (ET : (match m with Some m0 => match dget m0 (sc_cols s') with Some d => cd_type d | None => INTEGER end | None => INTEGER end)
    = (match m with Some m0 => match dget m0 (sc_cols s) with Some d => cd_type d | None => INTEGER end | None => INTEGER end)).
  { destruct m as [m|]; [|reflexivity]. destruct (dget m (sc_cols s)) as [d|] eqn:G.
    - destruct (ss_get _ _ SS _ _ G) as (d' & -> & TC). apply to_core_type, TC.
    - assert (dget m (sc_cols s') = None) as -> by (apply dget_None; rewrite <- (ss_keys _ _ SS); apply dget_None, G). reflexivity. }
  rewrite ET. unfold schema_for_groupby in *. apply bind_ok in H as (l & H2 & H). destruct (pick_same _ _ _ _ SS H2) as (l' & -> & EC & N & N'). cbn [bind].
  eapply mk_same; [apply NoDup_merge, N|apply NoDup_merge, N'| |exact H]. apply merge_same; [apply NoDup_dict_of|apply same_entries_eq, EC].
Qed.

(** ** Joins *)
Lemma same_perm {V} (a b : dict V) : NoDup (dkeys a) -> NoDup (dkeys b) -> same_entries a b -> Permutation a b.
Proof.
  intros Na Nb E. apply NoDup_Permutation.
  - eapply NoDup_map_inv. exact Na.
  - eapply NoDup_map_inv. exact Nb.
  - intros (c, v). split; intros I.
    + apply In_dget in I; [|exact Na]. apply dget_In. rewrite <- (E c). exact I.
    + apply In_dget in I; [|exact Nb]. apply dget_In. rewrite (E c). exact I.
Qed.
Lemma perm_same {V} (a b : dict V) : NoDup (dkeys a) -> Permutation a b -> same_entries a b.
Proof.
  intros N P. apply same_entries_In; [exact N| |].
  - eapply Permutation_NoDup; [apply Permutation_map, P|exact N].
  - intros c k. split; apply Permutation_in; [exact P|apply Permutation_sym, P].
Qed.
Lemma mapM_perm {A B} (f : A -> res B) l l' u : Permutation l l' -> mapM f l = Ok u -> exists u', mapM f l' = Ok u' /\ Permutation u u'.
Proof.
  intros P. revert u. induction P as [|x l l' P IH|x y l|l l' l'' P IH P' IH']; intros u H; cbn in *.
  - exists u. auto.
  - apply bind_ok in H as (b & Hb & H). apply bind_ok in H as (v & Hv & H). injection H as <-. destruct (IH _ Hv) as (v' & -> & PV). rewrite Hb. cbn. eexists. split; [reflexivity|]. now constructor.
  - apply bind_ok in H as (b & Hb & H). apply bind_ok in H as (v & Hv & H). apply bind_ok in Hv as (b' & Hb' & Hv). apply bind_ok in Hv as (w & Hw & Hv). injection Hv as <-. injection H as <-.
    rewrite Hb', Hb, Hw. cbn. eexists. split; [reflexivity|]. constructor.
  - destruct (IH _ H) as (v & Hv & PV). destruct (IH' _ Hv) as (w & Hw & PW). exists w. split; [exact Hw|]. etransitivity; eassumption.
Qed.
Lemma mapM_ext {A B} (f g : A -> res B) l : (forall a, In a l -> f a = g a) -> mapM f l = mapM g l.
Proof. induction l as [|a l IH]; intros H; [reflexivity|]. cbn. rewrite (H a (or_introl eq_refl)), IH; [reflexivity|]. intros b I. apply H. right. exact I. Qed.
Lemma filter_perm {A} (f : A -> bool) l l' : Permutation l l' -> Permutation (filter f l) (filter f l').
Proof.
  induction 1; cbn.
  - constructor.
  - destruct (f x); [constructor|]; assumption.
  - destruct (f x), (f y); try constructor; reflexivity.
  - etransitivity; eassumption.
Qed.
Lemma has_dup_perm l l' : Permutation l l' -> has_dup l = false -> has_dup l' = false.
Proof. intros P H. apply has_dup_false in H. apply has_dup_false. eapply Permutation_NoDup; eassumption. Qed.
Lemma join_domain_perm on on' lj l l' r r' out : Permutation on on' -> NoDup (dkeys l) -> NoDup (dkeys r) -> Permutation l l' -> Permutation r r' ->
  join_domain on lj l r = Ok out -> exists out', join_domain on' lj l' r' = Ok out' /\ Permutation out out'.
Proof.
  intros PO Nl Nr PL PR H. pose proof (perm_same _ _ Nl PL) as EL. pose proof (perm_same _ _ Nr PR) as ER. unfold join_domain in *.
  apply bind_ok in H as ([] & H1 & H). apply bind_ok in H as (j & HJ & H). apply bind_ok in H as ([] & HD & H). injection H as <-. apply raise_ok in H1, HD.
  rewrite raise_no by (rewrite <- (Permutation_length PO); exact H1). cbn [bind].
  destruct (mapM_perm _ _ _ _ PO HJ) as (j' & HJ' & PJ).
  rewrite (mapM_ext _ (fun c => match dget c l, dget c r with
      | Some a, Some b => let* _ := raise_if (negb (core_same_type a b)) ValueError in Ok (c, if lj then a else core_and a b)
      | _, _ => Err ValueError end) on').
  2:{ intros c _. rewrite (EL c), (ER c). reflexivity. }
  rewrite HJ'. cbn [bind].
  assert (SM : forall c, smem c on = smem c on').
  { intros c. destruct (smem c on) eqn:A, (smem c on') eqn:B; try reflexivity; exfalso.
    - apply smem_In in A. apply smem_false in B. apply B. eapply Permutation_in; eassumption.
    - apply smem_In in B. apply smem_false in A. apply A. eapply Permutation_in; [apply Permutation_sym|]; eassumption. }
  assert (P : Permutation (j ++ map (fun p => (suffixed r "_left" (fst p), snd p)) (filter (fun p => negb (smem (fst p) on)) l)
        ++ map (fun p => (suffixed l "_right" (fst p), if lj then core_nullable (snd p) else snd p)) (filter (fun p => negb (smem (fst p) on)) r))%list
      (j' ++ map (fun p => (suffixed r' "_left" (fst p), snd p)) (filter (fun p => negb (smem (fst p) on')) l')
        ++ map (fun p => (suffixed l' "_right" (fst p), if lj then core_nullable (snd p) else snd p)) (filter (fun p => negb (smem (fst p) on')) r'))%list).
  { apply Permutation_app; [exact PJ|]. apply Permutation_app.
    - rewrite (filter_ext (fun p : string * coredesc => negb (smem (fst p) on)) (fun p => negb (smem (fst p) on'))) by (intros p; rewrite SM; reflexivity).
      rewrite (map_ext (fun p : string * coredesc => (suffixed r "_left" (fst p), snd p)) (fun p => (suffixed r' "_left" (fst p), snd p)))
        by (intros p; unfold suffixed; rewrite (same_entries_dmem _ _ (fst p) ER); reflexivity).
      apply Permutation_map, filter_perm, PL.
    - rewrite (filter_ext (fun p : string * coredesc => negb (smem (fst p) on)) (fun p => negb (smem (fst p) on'))) by (intros p; rewrite SM; reflexivity).
      rewrite (map_ext (fun p : string * coredesc => (suffixed l "_right" (fst p), if lj then core_nullable (snd p) else snd p)) (fun p => (suffixed l' "_right" (fst p), if lj then core_nullable (snd p) else snd p)))
        by (intros p; unfold suffixed; rewrite (same_entries_dmem _ _ (fst p) EL); reflexivity).
      apply Permutation_map, filter_perm, PR. }
  rewrite raise_no by (eapply has_dup_perm; [apply Permutation_map, P|exact HD]). cbn [bind]. eexists. split; [reflexivity|exact P].
Qed.
Lemma common_perm l l' r r' : same_schema l l' -> same_schema r r' -> Permutation (common_columns (sc_cols l) (sc_cols r)) (common_columns (sc_cols l') (sc_cols r')).
Proof.
  intros SL SR. unfold common_columns. apply NoDup_Permutation.
  - apply List.NoDup_filter, SL.
  - apply List.NoDup_filter, SL.
  - intros c. rewrite !filter_In, (ss_keys _ _ SL), (ss_mem _ _ SR). reflexivity.
Qed.
Lemma existsb_perm {A} (f : A -> bool) l l' : Permutation l l' -> existsb f l = existsb f l'.
Proof.
  intros P. induction P; cbn; [reflexivity| | |congruence].
  - rewrite IHP. reflexivity.
  - destruct (f x), (f y); reflexivity.
Qed.
Lemma validate_join_same l l' r r' on u : same_schema l l' -> same_schema r r' -> validate_join l r on = Ok u -> validate_join l' r' on = Ok tt.
Proof.
  intros SL SR. pose proof (common_perm _ _ _ _ SL SR) as PC. unfold validate_join. rewrite <- (ss_group _ _ SL), <- (ss_group _ _ SR), <- (Permutation_length PC). intros H.
  apply bind_ok in H as ([] & -> & H). apply bind_ok in H as ([] & -> & H). apply bind_ok in H as ([] & -> & H). cbn [bind]. apply bind_ok in H as ([] & HE & H). apply bind_ok in H as (v & HM & _).
  assert (SM : forall c, smem c (common_columns (sc_cols l) (sc_cols r)) = smem c (common_columns (sc_cols l') (sc_cols r'))).
  { intros c. destruct (smem c (common_columns (sc_cols l) (sc_cols r))) eqn:A, (smem c (common_columns (sc_cols l') (sc_cols r'))) eqn:B; try reflexivity; exfalso.
    - apply smem_In in A. apply smem_false in B. apply B. eapply Permutation_in; eassumption.
    - apply smem_In in B. apply smem_false in A. apply A. eapply Permutation_in; [apply Permutation_sym|]; eassumption. }
  assert (PO : Permutation (match on with Some c => c | None => common_columns (sc_cols l) (sc_cols r) end) (match on with Some c => c | None => common_columns (sc_cols l') (sc_cols r') end)) by (destruct on; [reflexivity|exact PC]).
  apply raise_ok in HE. rewrite raise_no.
  2:{ rewrite <- (existsb_perm _ _ _ PO). rewrite <- HE. clear -SM. induction (match on with Some c => c | None => _ end) as [|c x IH]; [reflexivity|]. cbn. rewrite SM, IH. reflexivity. }
  cbn [bind]. destruct (mapM_perm _ _ _ _ PO HM) as (v' & HM' & _). eapply exists_mapM in HM' as (v2 & ->); [reflexivity|].
  intros c b E. apply bind_ok in E as (a & E1 & E). apply bind_ok in E as (a2 & E2 & E). unfold lookup_col in *.
  destruct (dget c (sc_cols l)) as [d1|] eqn:G1; [|discriminate]. injection E1 as <-. destruct (dget c (sc_cols r)) as [d2|] eqn:G2; [|discriminate]. injection E2 as <-.
  destruct (ss_get _ _ SL _ _ G1) as (d1' & -> & T1). destruct (ss_get _ _ SR _ _ G2) as (d2' & -> & T2). cbn [bind]. rewrite (to_core_type _ _ T1), (to_core_type _ _ T2). eauto.
Qed.
Lemma core_to_analytics_perm a b x : Permutation a b -> core_to_analytics a = Ok x -> exists y, core_to_analytics b = Ok y /\ Permutation x y.
Proof. unfold core_to_analytics. intros P. apply mapM_perm, P. Qed.
Lemma join_domain_nodup on lj l r out : join_domain on lj l r = Ok out -> NoDup (dkeys out).
Proof. intros H. apply join_domain_spec in H. destruct H. assumption. Qed.
Lemma core_to_analytics_keys a x : core_to_analytics a = Ok x -> dkeys x = dkeys a.
Proof. intros H. apply core_to_analytics_same in H. rewrite <- H. symmetry. apply dkeys_core_cols. Qed.
Lemma schema_for_join_same l l' r r' on sp how t : same_schema l l' -> same_schema r r' ->
  schema_for_join l r on sp how = Ok t -> exists t', schema_for_join l' r' on sp how = Ok t' /\ same_schema t t'.
Proof.
  intros SL SR. unfold schema_for_join. rewrite <- (ss_group _ _ SL), <- (ss_group _ _ SR), <- (ss_id _ _ SL). intros H.
  apply bind_ok in H as (dom & HD & H). apply bind_ok in H as (d & HA & H).
  assert (PO : Permutation (match on with Some c => c | None => common_columns (sc_cols l) (sc_cols r) end) (match on with Some c => c | None => common_columns (sc_cols l') (sc_cols r') end)) by (destruct on; [reflexivity|apply common_perm; assumption]).
  assert (K : forall x, dkeys (analytics_to_core x) = dkeys (sc_cols x)) by (intros x; apply dkeys_core_cols).
  assert (PM : forall x y, same_schema x y -> Permutation (analytics_to_core x) (analytics_to_core y)).
  { intros x y S. apply same_perm; [rewrite K; apply S|rewrite K; apply S|]. rewrite !analytics_to_core_cols. apply S. }
  destruct (join_domain_perm _ _ _ _ _ _ _ _ PO ltac:(rewrite K; apply SL) ltac:(rewrite K; apply SR) (PM _ _ SL) (PM _ _ SR) HD) as (dom' & HD' & PD). rewrite HD'. cbn [bind].
  destruct (core_to_analytics_perm _ _ _ PD HA) as (d' & HA' & PA). rewrite HA'. cbn [bind].
  assert (ND : NoDup (dkeys d)) by (rewrite (core_to_analytics_keys _ _ HA); eapply join_domain_nodup, HD).
  assert (ND' : NoDup (dkeys d')) by (rewrite (core_to_analytics_keys _ _ HA'); eapply join_domain_nodup, HD').
  eapply mk_same; [exact ND|exact ND'| |exact H]. apply perm_same; [rewrite dkeys_core_cols; exact ND|]. apply Permutation_map, PA.
Qed.
Lemma join_private_same l l' r r' on t : same_schema l l' -> same_schema r r' -> join_private_schema l r on = Ok t ->
  exists t', join_private_schema l' r' on = Ok t' /\ same_schema t t'.
Proof.
  intros SL SR. unfold join_private_schema. rewrite <- (ss_id _ _ SL), <- (ss_id _ _ SR), <- (ss_space _ _ SL), <- (ss_space _ _ SR). intros H.
  apply bind_ok in H as ([] & -> & H). apply bind_ok in H as ([] & -> & H). apply bind_ok in H as (u & HV & H). cbn [bind]. rewrite (validate_join_same _ _ _ _ _ _ SL SR HV). cbn [bind].
  eapply schema_for_join_same; eassumption.
Qed.

(** ** Queries *)

(** Replacing the private tables of a query by queries. *)
Fixpoint replace (f : string -> query) (q : query) : query :=
  match q with
  | PrivateSource s => f s
  | GetGroups c l => GetGroups (replace f c) l
  | GetBounds c k m a b => GetBounds (replace f c) k m a b
  | Rename c m => Rename (replace f c) m
  | Filter c s => Filter (replace f c) s
  | Select c l => Select (replace f c) l
  | MapQ c g n a => MapQ (replace f c) g n a
  | FlatMap c g n a mr => FlatMap (replace f c) g n a mr
  | FlatMapByID c g n => FlatMapByID (replace f c) g n
  | JoinPrivate l r tl tr on => JoinPrivate (replace f l) (replace f r) tl tr on
  | JoinPublic c p on how => JoinPublic (replace f c) p on how
  | ReplaceNullAndNan c rw => ReplaceNullAndNan (replace f c) rw
  | ReplaceInfinity c rw => ReplaceInfinity (replace f c) rw
  | DropNullAndNan c l => DropNullAndNan (replace f c) l
  | DropInfinity c l => DropInfinity (replace f c) l
  | EnforceConstraint c k => EnforceConstraint (replace f c) k
  | GroupByCount c k o m co => GroupByCount (replace f c) k o m co
  | GroupByCountDistinct c k l o m co => GroupByCountDistinct (replace f c) k l o m co
  | GroupByQuantile c k m qu a b o => GroupByQuantile (replace f c) k m qu a b o
  | GroupByBounded kd c k m a b o me co => GroupByBounded kd (replace f c) k m a b o me co
  | SuppressAggregates c x t => SuppressAggregates (replace f c) x t
  end.
Lemma replace_id q : replace PrivateSource q = q.
Proof. induction q; cbn; congruence. Qed.
(** A view's name replaced by the query that defines it. *)
Definition subst (v : string) (d : query) : query -> query := replace (fun s => if String.eqb s v then d else PrivateSource s).

Section Replace.
Variables (cond_ok : string -> list sfield -> bool) (cat cat' : catalog) (f f' : string -> query).
Hypothesis BN : by_name cond_ok.
Hypothesis PUB : cat_public cat' = cat_public cat.
Hypothesis PUBND : forall n s fr, dget n (cat_public cat) = Some (s, fr) -> NoDup (dkeys (sc_cols s)).
Hypothesis SRC : forall n s, schema_of cond_ok cat (f n) = Ok s -> exists s', schema_of cond_ok cat' (f' n) = Ok s' /\ same_schema s s'.

Lemma public_nodup p r : public_schema cat p = Ok r -> NoDup (dkeys (sc_cols r)).
Proof.
  destruct p as [n|fr]; cbn; intros H.
  - destruct (dget n (cat_public cat)) as [(s, fr)|] eqn:G; [|discriminate]. injection H as <-. eapply PUBND, G.
  - apply bind_ok in H as (d & H1 & H). apply mk_schema_ok in H as (_ & _ & _ & ->). cbn. unfold spark_schema_to_analytics_columns in H1. apply bind_ok in H1 as (l & _ & H1). injection H1 as <-. apply NoDup_dict_of.
Qed.
Lemma replace_same q : dicts q -> forall s, schema_of cond_ok cat (replace f q) = Ok s ->
  exists s', schema_of cond_ok cat' (replace f' q) = Ok s' /\ same_schema s s'.
Proof.
  induction q; intros D s H; cbn [replace schema_of dicts] in *; try (apply SRC, H);
    try (apply bind_ok in H as (sc & HC & H); first [destruct D as (D & D2)|idtac]; destruct (IHq D _ HC) as (sc' & HC' & SS); rewrite HC'; cbn [bind]).
  - eapply get_groups_same; eassumption.
  - eapply groupby_same; eassumption.
  - destruct D2. eapply rename_same; eassumption.
  - eapply filter_same; eassumption.
  - eapply select_same; eassumption.
  - eapply map_same; eassumption.
  - eapply flat_map_same; eassumption.
  - eapply flat_map_by_id_same; eassumption.
  - destruct D as (D1 & D2 & _). apply bind_ok in H as (l & HL & H). apply bind_ok in H as (r & HR & H). destruct (IHq1 D1 _ HL) as (l' & -> & SL). destruct (IHq2 D2 _ HR) as (r' & -> & SR). cbn [bind].
    eapply join_private_same; eassumption.
  - unfold join_public_schema in *. apply bind_ok in H as (r & HR & H). apply bind_ok in H as (u & HV & H).
    assert (public_schema cat' public = Ok r) as -> by (destruct public; cbn in *; rewrite ?PUB; exact HR). cbn [bind].
    pose proof (same_schema_refl r (public_nodup _ _ HR)) as SR. rewrite (validate_join_same _ _ _ _ _ _ SS SR HV). cbn [bind]. rewrite <- (ss_space _ _ SS). eapply schema_for_join_same; eassumption.
  - eapply replace_null_same; eassumption.
  - eapply replace_inf_same; eassumption.
  - eapply drop_null_same; eassumption.
  - eapply drop_inf_same; eassumption.
  - eapply enforce_same; eassumption.
  - eapply groupby_same; eassumption.
  - eapply groupby_same; eassumption.
  - eapply groupby_same; eassumption.
  - eapply groupby_same; eassumption.
  - apply IHq; assumption.
Qed.
End Replace.
