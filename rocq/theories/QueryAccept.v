(** Exactly which operations are accepted on a table with a given schema. *)
From Coq Require Import String Bool Arith ZArith QArith Qcanon Lia Permutation List.
From Verif Require Import Prelude Value Rows Constraints ConstraintsSpec Schema SchemaProofs
  Query Transform TransformSpec TransformConform TransformVisit TransformAgree TransformIds QueryProofs RewriteSpec RewriteProofs.
Import ListNotations.
Local Open Scope string_scope.
Local Open Scope nat_scope.

(** *** Vocabulary *)
Definition has_column (s : schema) (c : string) : Prop := In c (dkeys (sc_cols s)).
Definition protected (s : schema) (c : string) : Prop := sc_group s = Some c \/ sc_id s = Some c.
Definition column_type (s : schema) (c : string) (t : ctype) : Prop :=
  exists d, dget c (sc_cols s) = Some d /\ cd_type d = t.
(** Type of a Python value given as a replacement; int is accepted for float, and datetime
    is a kind of date. *)
Definition value_suits (v : value) (t : ctype) : Prop :=
  match v with
  | VNull => False
  | VInt _ => t = INTEGER \/ t = DECIMAL
  | VFloat _ => t = DECIMAL
  | VStr _ => t = VARCHAR
  | VDate _ => t = DATE
  | VTime _ => t = DATE \/ t = TIMESTAMP
  end.

Lemma made_facts s : made s -> ~ has_column s "" /\ forall c, protected s c -> has_column s c.
Proof.
  intros M. pose proof (proj1 (mk_schema_ok _ _ _ _ _) M) as (A & B & C & _). split; [exact A|].
  intros c [P|P]; [apply B|apply C]; exact P.
Qed.
Lemma missing_false l d : missing l d = false <-> forall c, In c l -> In c (dkeys d).
Proof.
  unfold missing. split.
  - intros H c Hc. apply dmem_In. destruct (dmem c d) eqn:E; [reflexivity|].
    assert (X : existsb (fun c => negb (dmem c d)) l = true) by (apply existsb_exists; exists c; rewrite E; auto). congruence.
  - intros H. destruct (existsb _ l) eqn:E; [|reflexivity]. apply existsb_exists in E as (c & Hc & X).
    apply negb_true_iff in X. apply H, dmem_In in Hc. congruence.
Qed.
Lemma opt_in_false o l : opt_in o l = false <-> forall c, o = Some c -> ~ In c l.
Proof.
  destruct o as [x|]; cbn [opt_in].
  - rewrite smem_false. split; [intros H c [= <-]; exact H|intros H; now apply H].
  - split; [discriminate|reflexivity].
Qed.
Lemma protected_false s l : opt_in (sc_group s) l = false /\ opt_in (sc_id s) l = false <-> forall c, In c l -> ~ protected s c.
Proof.
  rewrite !opt_in_false. split.
  - intros [A B] c Hc [P|P]; [exact (A c P Hc)|exact (B c P Hc)].
  - intros H. split; intros c P Hc; apply (H c Hc); [left|right]; exact P.
Qed.
Lemma rebuild_accepted f s : made s -> exists s', rebuild f s = Ok s'.
Proof.
  intros M. pose proof (proj1 (mk_schema_ok _ _ _ _ _) M) as (A & B & C & _). eexists. unfold rebuild. apply mk_schema_ok.
  assert (K : dkeys (map (fun p => (fst p, f (fst p) (snd p))) (sc_cols s)) = dkeys (sc_cols s)) by (unfold dkeys; now rewrite map_map).
  rewrite K. repeat split; assumption.
Qed.
Lemma mapM_accepted {A B} (f : A -> res B) l : (exists l', mapM f l = Ok l') <-> forall x, In x l -> exists y, f x = Ok y.
Proof.
  induction l as [|a l IH]; cbn [mapM].
  - split; [intros _ x []|eexists; reflexivity].
  - split.
    + intros (l' & H). inv_ok H. inv_ok H. intros y [<-|Hy]; [eauto|]. apply IH; eauto.
    + intros H. destruct (H a (or_introl eq_refl)) as (y & ->). destruct (proj2 IH (fun x Hx => H x (or_intror Hx))) as (l' & ->). eexists. reflexivity.
Qed.
Lemma has_column_iff s c : has_column s c <-> exists d, dget c (sc_cols s) = Some d.
Proof. apply in_dkeys. Qed.

(** *** One operation at a time *)
Lemma select_accepts cols s : made s -> NoDup cols ->
  (exists s', select_schema cols s = Ok s') <-> (forall c, In c cols -> has_column s c) /\ (forall c, protected s c -> In c cols).
Proof.
  intros M ND. destruct (made_facts s M) as [NE PH]. unfold select_schema. split.
  - intros (s' & H). inv_ok H. inv_ok H. inv_ok H. split; [apply missing_false; exact E1|].
    intros c [P|P]; rewrite P in *; cbn [is_some opt_in andb] in *; apply negb_false_iff, smem_In in E, E0 || idtac; auto.
    + apply negb_false_iff, smem_In in E. exact E.
    + apply negb_false_iff, smem_In in E0. exact E0.
  - intros [A B].
    assert (G : is_some (sc_group s) && negb (opt_in (sc_group s) cols) = false).
    { destruct (sc_group s) as [g|] eqn:E; [|reflexivity]. cbn [is_some opt_in andb]. apply negb_false_iff, smem_In, B. left. exact E. }
    assert (I : is_some (sc_id s) && negb (opt_in (sc_id s) cols) = false).
    { destruct (sc_id s) as [g|] eqn:E; [|reflexivity]. cbn [is_some opt_in andb]. apply negb_false_iff, smem_In, B. right. exact E. }
    rewrite G, I. cbn [raise_if bind]. rewrite (proj2 (missing_false _ _) A). cbn [raise_if bind].
    unfold pick. destruct (mapM_keyed_ok (lookup_col (sc_cols s)) cols) as (d & D).
    { intros c Hc. apply A, has_column_iff in Hc as (x & Hx). exists x. unfold lookup_col. now rewrite Hx. }
    rewrite D. cbn [bind]. destruct (mapM_keyed _ _ _ D) as [K _]. rewrite dict_of_NoDup by (unfold dkeys in K; rewrite K; exact ND).
    eexists. apply mk_schema_ok. rewrite K. repeat split.
    + intros H. exact (NE (A _ H)).
    + intros c E. apply B. left. exact E.
    + intros c E. apply B. right. exact E.
Qed.

Lemma rename_accepts m s : made s -> (forall p, In p m -> snd p <> "") ->
  (exists s', rename_schema m s = Ok s') <->
  (forall old new, In (old, new) m -> has_column s old /\ (new = old \/ ~ has_column s new)).
Proof.
  intros M NN. destruct (made_facts s M) as [NE PH]. unfold rename_schema. split.
  - intros (s' & H). inv_ok H. inv_ok H. intros old new Hm. split.
    + apply (proj1 (missing_false _ _) E). now apply (in_map fst) in Hm.
    + destruct (String.eqb_spec new old) as [->|N]; [now left|right]. intros X. apply dmem_In in X.
      assert (Y : existsb (fun p => dmem (snd p) (sc_cols s) && negb (String.eqb (snd p) (fst p))) m = true).
      { apply existsb_exists. exists (old, new). split; [exact Hm|]. cbn [fst snd]. rewrite X. apply String.eqb_neq in N. now rewrite N. }
      congruence.
  - intros H. assert (A : missing (dkeys m) (sc_cols s) = false).
    { apply missing_false. intros c Hc. apply in_map_iff in Hc as ([o n] & <- & Hc). exact (proj1 (H o n Hc)). }
    rewrite A. cbn [raise_if bind].
    assert (B : existsb (fun p => dmem (snd p) (sc_cols s) && negb (String.eqb (snd p) (fst p))) m = false).
    { destruct (existsb _ m) eqn:E; [|reflexivity]. apply existsb_exists in E as ([o n] & Hc & E). cbn [fst snd] in E.
      apply andb_prop in E as [E1 E2]. apply negb_true_iff, String.eqb_neq in E2. apply dmem_In in E1.
      destruct (proj2 (H o n Hc)); contradiction. }
    rewrite B. cbn [raise_if bind]. eexists. apply mk_schema_ok.
    assert (K : forall c, In c (dkeys (dict_of (map (fun p => (renamed m (fst p), snd p)) (sc_cols s)))) <-> exists k, has_column s k /\ c = renamed m k).
    { intros c. rewrite dict_of_keys. unfold dkeys at 1. rewrite map_map. cbn [fst]. rewrite in_map_iff. split.
      - intros ((k & v) & E1 & E2). exists k. split; [apply (in_map fst) in E2; exact E2|now symmetry].
      - intros (k & E1 & E2). apply in_map_iff in E1 as ((k' & v) & E1 & E3). cbn [fst] in E1. subst k'. exists (k, v). auto. }
    repeat split.
    + intros X. apply K in X as (k & Hk & E). unfold renamed in E. destruct (dget k m) as [n|] eqn:D.
      * apply dget_In in D. exact (NN _ D (eq_sym E)).
      * subst k. exact (NE Hk).
    + intros c E. destruct (sc_group s) as [g|] eqn:G; [|discriminate E]. injection E as <-. apply K. exists g. split; [|reflexivity]. apply PH. now left.
    + intros c E. destruct (sc_id s) as [g|] eqn:G; [|discriminate E]. injection E as <-. apply K. exists g. split; [|reflexivity]. apply PH. now right.
Qed.
(** No column is lost, provided the new names differ. *)
Lemma rename_columns m s s' : made s -> NoDup (dkeys (sc_cols s)) -> NoDup (dkeys m) -> NoDup (map snd m) ->
  rename_schema m s = Ok s' ->
  dkeys (sc_cols s') = map (renamed m) (dkeys (sc_cols s)) /\ NoDup (dkeys (sc_cols s'))
  /\ forall c d, dget c (sc_cols s) = Some d -> dget (renamed m c) (sc_cols s') = Some d.
Proof.
  intros M ND NK NV H. unfold rename_schema in H. inv_ok H. inv_ok H.
  pose proof (proj1 (mk_schema_ok _ _ _ _ _) H) as (_ & _ & _ & ->). cbn [sc_cols].
  assert (INJ : NoDup (map (renamed m) (dkeys (sc_cols s)))).
  { assert (forall a b, In a (dkeys (sc_cols s)) -> In b (dkeys (sc_cols s)) -> renamed m a = renamed m b -> a = b) as I.
    { intros a b Ha Hb Eab. unfold renamed in Eab.
      assert (FR : forall o n, dget o m = Some n -> has_column s n -> n = o).
      { intros o n D X. apply dget_In in D. destruct (String.eqb_spec n o) as [->|N]; [reflexivity|].
        assert (Y : existsb (fun p => dmem (snd p) (sc_cols s) && negb (String.eqb (snd p) (fst p))) m = true).
        { apply existsb_exists. exists (o, n). split; [exact D|]. cbn [fst snd]. apply dmem_In in X. rewrite X. apply String.eqb_neq in N. now rewrite N. }
        congruence. }
      destruct (dget a m) as [na|] eqn:Da, (dget b m) as [nb|] eqn:Db.
      - subst nb. apply dget_In in Da, Db. clear - NV Da Db. induction m as [|[k v] m IH]; [destruct Da|]. cbn [map snd] in NV. inversion NV as [|? ? N1 N2]; subst.
        destruct Da as [Da|Da], Db as [Db|Db]; try (injection Da; intros); try (injection Db; intros); subst; auto.
        + exfalso. apply N1. now apply (in_map snd) in Db.
        + exfalso. apply N1. now apply (in_map snd) in Da.
      - subst na. symmetry. exact (FR a b Da Hb).
      - subst nb. exact (FR b a Db Ha).
      - exact Eab. }
    revert ND I. generalize (dkeys (sc_cols s)). induction l as [|a l IH]; intros N I; cbn [map]; constructor.
    - intros X. apply in_map_iff in X as (b & Eb & Hb). inversion N as [|? ? N1 N2]; subst. apply N1.
      rewrite (I a b (or_introl eq_refl) (or_intror Hb) (eq_sym Eb)). exact Hb.
    - inversion N as [|? ? N1 N2]; subst. apply IH; [exact N2|]. intros x y Hx Hy. apply I; now right. }
  assert (K : dkeys (map (fun p => (renamed m (fst p), snd p)) (sc_cols s)) = map (renamed m) (dkeys (sc_cols s))) by apply dkeys_rekey.
  rewrite dict_of_NoDup by (unfold dkeys in K at 1; rewrite K; exact INJ).
  rewrite K. split; [reflexivity|]. split; [exact INJ|]. intros c d D. rewrite (dget_rekey (renamed m)); [exact D|exact INJ|].
  apply in_dkeys. eauto.
Qed.

Lemma drop_null_accepts cols s : made s ->
  (exists s', drop_null_schema cols s = Ok s') <-> forall c, In c cols -> has_column s c /\ ~ protected s c.
Proof.
  intros M. unfold drop_null_schema. split.
  - intros (s' & H). inv_ok H. inv_ok H. inv_ok H. intros c Hc. split.
    + exact (proj1 (missing_false _ _) E1 c Hc).
    + exact (proj1 (protected_false s cols) (conj E E0) c Hc).
  - intros H. destruct (proj2 (protected_false s cols) (fun c Hc => proj2 (H c Hc))) as [-> ->]. cbn [raise_if bind].
    rewrite (proj2 (missing_false cols (sc_cols s)) (fun c Hc => proj1 (H c Hc))). cbn [raise_if bind]. now apply rebuild_accepted.
Qed.
Lemma check_decimal_accepts cols s : check_decimal cols s = Ok tt <-> forall c, In c cols -> column_type s c DECIMAL.
Proof.
  unfold check_decimal. split.
  - intros H c Hc. inv_ok H. destruct (proj1 (mapM_accepted _ cols) (ex_intro _ x E) c Hc) as (y & Y).
    destruct (dget c (sc_cols s)) as [d|] eqn:D; [|discriminate Y]. destruct y. apply raise_if_ok, negb_false_iff in Y. exists d. split; [exact D|].
    unfold is_decimal in Y. destruct (cd_type d); try discriminate Y; reflexivity.
  - intros H. match goal with |- (let* _ := mapM ?f ?l in Ok tt) = _ => assert (X : exists l', mapM f l = Ok l') end.
    { apply mapM_accepted. intros c Hc. destruct (H c Hc) as (d & D & T). rewrite D. unfold is_decimal. rewrite T. eexists. reflexivity. }
    destruct X as (l' & ->). reflexivity.
Qed.
Lemma column_type_has s c t : column_type s c t -> has_column s c.
Proof. intros (d & D & _). apply has_column_iff. eauto. Qed.
Lemma drop_inf_accepts cols s : made s ->
  (exists s', drop_inf_schema cols s = Ok s') <-> forall c, In c cols -> column_type s c DECIMAL /\ ~ protected s c.
Proof.
  intros M. unfold drop_inf_schema. split.
  - intros (s' & H). inv_ok H. inv_ok H. inv_ok H. destruct x. intros c Hc. split.
    + exact (proj1 (check_decimal_accepts _ _) E1 c Hc).
    + exact (proj1 (protected_false s cols) (conj E E0) c Hc).
  - intros H. destruct (proj2 (protected_false s cols) (fun c Hc => proj2 (H c Hc))) as [-> ->]. cbn [raise_if bind].
    rewrite (proj2 (check_decimal_accepts cols s) (fun c Hc => proj1 (H c Hc))). cbn [bind]. now apply rebuild_accepted.
Qed.
Lemma replace_inf_accepts rw s : made s ->
  (exists s', replace_inf_schema rw s = Ok s') <-> forall c b, In (c, b) rw -> column_type s c DECIMAL /\ ~ protected s c.
Proof.
  intros M. transitivity (forall c, In c (dkeys rw) -> column_type s c DECIMAL /\ ~ protected s c).
  - exact (drop_inf_accepts (dkeys rw) s M).
  - split.
    + intros H c b Hc. apply H. now apply (in_map fst) in Hc.
    + intros H c Hc. apply in_map_iff in Hc as ((k & b) & <- & Hc). exact (H k b Hc).
Qed.
Lemma value_fits_spec v t : value_fits v t = true <-> value_suits v t.
Proof. destruct v, t; cbn; split; intros H; try discriminate H; try tauto; try (destruct H; discriminate); intuition discriminate. Qed.
Lemma replace_null_accepts rw s : made s ->
  (exists s', replace_null_schema rw s = Ok s') <->
  forall c v, In (c, v) rw -> ~ protected s c /\ exists t, column_type s c t /\ value_suits v t.
Proof.
  intros M. unfold replace_null_schema. split.
  - intros (s' & H). inv_ok H. inv_ok H. inv_ok H. intros c v Hc. split.
    + apply (proj1 (protected_false s (dkeys rw)) (conj E E0)). now apply (in_map fst) in Hc.
    + destruct (proj1 (mapM_accepted _ rw) (ex_intro _ x E1) (c, v) Hc) as (y & Y). cbn [fst snd] in Y.
      destruct (dget c (sc_cols s)) as [d|] eqn:D; [|discriminate Y]. destruct y. apply raise_if_ok, negb_false_iff, value_fits_spec in Y.
      exists (cd_type d). split; [exists d; auto|exact Y].
  - intros H. destruct (proj2 (protected_false s (dkeys rw))) as [-> ->].
    { intros c Hc. apply in_map_iff in Hc as ((k & b) & <- & Hc). exact (proj1 (H k b Hc)). }
    cbn [raise_if bind].
    match goal with |- exists _, (let* _ := mapM ?f ?l in _) = _ => assert (X : exists l', mapM f l = Ok l') end.
    { apply mapM_accepted. intros (c & v) Hc. destruct (H c v Hc) as (_ & t & (d & D & T) & F). cbn [fst snd]. rewrite D, T.
      apply value_fits_spec in F. rewrite F. eexists. reflexivity. }
    destruct X as (l' & ->). cbn [bind]. now apply rebuild_accepted.
Qed.
Lemma enforce_accepts c s : made s ->
  (exists s', enforce_schema c s = Ok s') <->
  exists i, sc_id s = Some i /\ forall g, grouping c = Some g -> has_column s g /\ g <> i.
Proof.
  intros M. unfold enforce_schema. destruct (sc_id s) as [i|].
  2:{ split; [intros (s' & H); discriminate H|intros (i & H & _); discriminate H]. }
  assert (G : forall g, (exists s', (let* _ := raise_if (negb (dmem g (sc_cols s))) ValueError in
             let* _ := raise_if (String.eqb g i) ValueError in Ok s) = Ok s') <-> has_column s g /\ g <> i).
  { intros g. unfold has_column. rewrite <- dmem_In. destruct (dmem g (sc_cols s)); cbn [negb raise_if bind].
    - destruct (String.eqb_spec g i) as [->|N]; cbn [raise_if bind].
      + split; [intros (? & H); discriminate H|intros [_ H]; contradiction].
      + split; [auto|eauto].
    - split; [intros (? & H); discriminate H|intros [H _]; discriminate H]. }
  destruct c as [n|g n|g n]; cbn [grouping].
  - split; [intros _; exists i; split; [reflexivity|discriminate]|eauto].
  - rewrite G. split.
    + intros H. exists i. split; [reflexivity|]. intros g' [= <-]. exact H.
    + intros (i' & [= <-] & H). now apply H.
  - rewrite G. split.
    + intros H. exists i. split; [reflexivity|]. intros g' [= <-]. exact H.
    + intros (i' & [= <-] & H). now apply H.
Qed.

(** Grouped aggregations. *)
Definition key_types_agree (k : gkeys) (s : schema) : Prop :=
  match k with
  | KSet cols _ => forall c d, In (c, d) cols -> column_type s c (cd_type d)
  | KCols l => forall c, In c l -> has_column s c
  end.
Lemma ctype_eqb_spec a b : ctype_eqb a b = true <-> a = b.
Proof. destruct a, b; cbn; split; congruence. Qed.
Lemma validate_accepts k m s :
  validate_groupby k m s = Ok tt <->
  key_types_agree k s
  /\ (forall g, sc_group s = Some g -> In g (keys_columns k))
  /\ (forall c, m = Some c -> ~ In c (keys_columns k) /\ sc_id s <> Some c /\ (column_type s c INTEGER \/ column_type s c DECIMAL)).
Proof.
  unfold validate_groupby.
  assert (K : match k with
            | KSet cols _ =>
                let* _ := mapM (fun p => let* d := lookup_col (sc_cols s) (fst p) in
                                 raise_if (negb (ctype_eqb (cd_type (snd p)) (cd_type d))) ValueError) cols in Ok tt
            | KCols l => raise_if (missing l (sc_cols s)) ValueError
            end = Ok tt <-> key_types_agree k s).
  { destruct k as [cols v|l]; cbn [key_types_agree].
    - split.
      + intros H c d Hc. inv_ok H. destruct (proj1 (mapM_accepted _ cols) (ex_intro _ x E) (c, d) Hc) as (y & Y). cbn [fst snd] in Y.
        inv_ok Y. destruct y. apply raise_if_ok, negb_false_iff, ctype_eqb_spec in Y. unfold lookup_col in E0.
        destruct (dget c (sc_cols s)) as [x1|] eqn:D; [|discriminate E0]. injection E0 as ->. exists x0. auto.
      + intros H. match goal with |- (let* _ := mapM ?f ?l in Ok tt) = _ => assert (X : exists l', mapM f l = Ok l') end.
        { apply mapM_accepted. intros (c & d) Hc. destruct (H c d Hc) as (x & D & T). unfold lookup_col. cbn [fst snd]. rewrite D. cbn [bind].
          rewrite T. rewrite (proj2 (ctype_eqb_spec _ _) eq_refl). eexists. reflexivity. }
        destruct X as (l' & ->). reflexivity.
    - rewrite raise_if_ok. apply missing_false. }
  split.
  - intros H. inv_ok H. destruct x. split; [now apply K|]. inv_ok H. split.
    + intros g G. rewrite G in E0. cbn [is_some opt_in andb] in E0. apply negb_false_iff, smem_In in E0. exact E0.
    + intros c ->. inv_ok H. apply smem_false in E1. split; [exact E1|]. destruct (dget c (sc_cols s)) as [d|] eqn:D; [|discriminate H].
      inv_ok H. apply raise_if_ok in H. split.
      * intros I. rewrite I in H. cbn [is_col] in H. rewrite String.eqb_refl in H. discriminate H.
      * apply negb_false_iff, orb_true_iff in E2 as [E2|E2].
        -- left. exists d. split; [exact D|]. now apply ctype_eqb_spec.
        -- right. exists d. split; [exact D|]. now apply ctype_eqb_spec.
  - intros (A & B & C). apply K in A. rewrite A. cbn [bind].
    assert (G : is_some (sc_group s) && negb (opt_in (sc_group s) (keys_columns k)) = false).
    { destruct (sc_group s) as [g|]; [|reflexivity]. cbn [is_some opt_in andb]. apply negb_false_iff, smem_In. now apply B. }
    rewrite G. cbn [raise_if bind]. destruct m as [c|]; [|reflexivity]. destruct (C c eq_refl) as (C1 & C2 & C3).
    rewrite (proj2 (smem_false _ _) C1). cbn [raise_if bind].
    destruct C3 as [(d & D & T)|(d & D & T)]; rewrite D; unfold is_decimal; rewrite T; cbn [ctype_eqb orb negb raise_if bind];
      apply raise_if_ok; (destruct (sc_id s) as [i|]; [|reflexivity]); cbn [is_col]; apply String.eqb_neq; congruence.
Qed.

(** User functions. *)
Definition disjoint_columns (s new : schema) : Prop := forall c, has_column s c -> ~ has_column new c.
Lemma overlap_false s new : existsb (fun c => dmem c (sc_cols new)) (dkeys (sc_cols s)) = false <-> disjoint_columns s new.
Proof.
  unfold disjoint_columns, has_column. split.
  - intros H c A B. apply dmem_In in B.
    assert (existsb (fun c => dmem c (sc_cols new)) (dkeys (sc_cols s)) = true) by (apply existsb_exists; eauto). congruence.
  - intros H. destruct (existsb _ _) eqn:E; [|reflexivity]. apply existsb_exists in E as (c & A & B). apply dmem_In in B. destruct (H c A B).
Qed.
Lemma dkeys_new_columns new : dkeys (new_columns new) = dkeys (sc_cols new).
Proof. unfold new_columns, dkeys. now rewrite map_map. Qed.
Lemma map_accepts new aug s : made s -> made new -> NoDup (dkeys (sc_cols new)) ->
  (exists s', map_schema new aug s = Ok s') <->
  if aug then disjoint_columns s new else sc_group s = None /\ sc_id s = None.
Proof.
  intros M MN ND. destruct (made_facts s M) as [NE PH]. destruct (made_facts new MN) as [NE' _]. unfold map_schema. destruct aug.
  - rewrite <- overlap_false. split.
    + intros (s' & H). inv_ok H. exact E.
    + intros ->. cbn [raise_if bind]. eexists. apply mk_schema_ok.
      assert (K : forall c, In c (dkeys (merge (sc_cols s) (new_columns new))) <-> has_column s c \/ has_column new c).
      { intros c. unfold has_column. rewrite in_dkeys_merge, dkeys_new_columns; [reflexivity|]. now rewrite dkeys_new_columns. }
      repeat split.
      * intros X. apply K in X as [X|X]; auto.
      * intros c E. apply K. left. apply PH. now left.
      * intros c E. apply K. left. apply PH. now right.
  - split.
    + intros (s' & H). inv_ok H. inv_ok H. destruct (sc_group s), (sc_id s); try discriminate E; try discriminate E0. auto.
    + intros [-> ->]. cbn [is_some raise_if bind]. eexists. apply mk_schema_ok. rewrite dkeys_new_columns. repeat split; try discriminate. exact NE'.
Qed.
Lemma flat_map_accepts new aug s : made s -> made new -> NoDup (dkeys (sc_cols new)) ->
  (exists s', flat_map_schema new aug s = Ok s') <->
  (sc_group new <> None -> sc_group s = None /\ sc_id s = None)
  /\ if aug then disjoint_columns s new else sc_group s = None /\ sc_id s = None.
Proof.
  intros M MN ND. destruct (made_facts s M) as [NE PH]. destruct (made_facts new MN) as [NE' PH']. unfold flat_map_schema.
  assert (G : raise_if (is_some (sc_group new) && is_some (sc_group s)) ValueError = Ok tt
              /\ raise_if (is_some (sc_group new) && is_some (sc_id s)) ValueError = Ok tt
              <-> (sc_group new <> None -> sc_group s = None /\ sc_id s = None)).
  { destruct (sc_group new), (sc_group s), (sc_id s); cbn; intuition congruence. }
  destruct aug.
  - rewrite <- overlap_false. split.
    + intros (s' & H). inv_ok H. inv_ok H. inv_ok H. split; [apply G; now rewrite !raise_if_ok|exact E1].
    + intros [A ->]. apply G in A as [-> ->]. cbn [raise_if bind]. eexists. apply mk_schema_ok.
      assert (K : forall c, In c (dkeys (merge (sc_cols s) (new_columns new))) <-> has_column s c \/ has_column new c).
      { intros c. unfold has_column. rewrite in_dkeys_merge, dkeys_new_columns; [reflexivity|]. now rewrite dkeys_new_columns. }
      repeat split.
      * intros X. apply K in X as [X|X]; auto.
      * intros c E. apply K. destruct (sc_group new) as [g|] eqn:GN.
        -- injection E as <-. right. apply PH'. now left.
        -- left. apply PH. now left.
      * intros c E. apply K. left. apply PH. now right.
  - split.
    + intros (s' & H). inv_ok H. inv_ok H. inv_ok H. inv_ok H. split; [apply G; now rewrite !raise_if_ok|].
      destruct (sc_group s), (sc_id s); try discriminate E1; try discriminate E2. auto.
    + intros [A [B C]]. apply G in A as [-> ->]. rewrite B, C. cbn [is_some raise_if bind]. eexists. apply mk_schema_ok.
      rewrite dkeys_new_columns. repeat split; try discriminate. exact NE'.
Qed.
Lemma flat_map_by_id_accepts new s : made s -> made new -> NoDup (dkeys (sc_cols new)) ->
  (exists s', flat_map_by_id_schema new s = Ok s') <->
  sc_group s = None /\ exists i, sc_id s = Some i /\ ~ has_column new i.
Proof.
  intros M MN ND. destruct (made_facts s M) as [NE PH]. destruct (made_facts new MN) as [NE' PH']. unfold flat_map_by_id_schema.
  destruct (sc_id s) as [i|] eqn:SI.
  2:{ split; [intros (s' & H); discriminate H|intros (_ & i & H & _); discriminate H]. }
  split.
  - intros (s' & H). inv_ok H. inv_ok H. split; [destruct (sc_group s); [discriminate E|reflexivity]|]. exists i. split; [reflexivity|].
    intros X. apply dmem_In in X. congruence.
  - intros (G & i' & [= <-] & N). rewrite G. cbn [is_some raise_if bind].
    assert (X : dmem i (sc_cols new) = false) by (destruct (dmem i (sc_cols new)) eqn:E; [apply dmem_In in E; contradiction|reflexivity]).
    rewrite X. cbn [raise_if bind]. assert (HI : has_column s i) by (apply PH; now right).
    apply has_column_iff in HI as (d & D). unfold lookup_col. rewrite D. cbn [bind]. eexists. apply mk_schema_ok.
    assert (K : forall c, In c (dkeys (merge [(i, d)] (new_columns new))) <-> c = i \/ has_column new c).
    { intros c. rewrite in_dkeys_merge, dkeys_new_columns by (now rewrite dkeys_new_columns). cbn [dkeys map fst In]. unfold has_column. intuition. }
    repeat split; try discriminate.
    + intros Y. apply K in Y as [Y|Y]; [|exact (NE' Y)]. subst i. apply NE. apply has_column_iff. eauto.
    + intros c [= <-]. apply K. now left.
Qed.
