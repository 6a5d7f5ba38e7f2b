(** Facts about session builders. *)
From Coq Require Import String Bool Arith ZArith QArith Lia Permutation List.
From Verif Require Import Prelude Budget BudgetProofs Value Rows Constraints Schema SchemaProofs Query Transform Tables TablesProofs
  Accountant AccountantProofs Session SessionSpec SessionTables SessionInv SessionViews Neighboring NeighboringSpec NeighboringProofs Builder.
Import ListNotations.
Local Open Scope string_scope.
Local Open Scope nat_scope.

Lemma nodup_flat_map {A B} (f : A -> list B) l : NoDup l -> (forall x, In x l -> NoDup (f x)) ->
  (forall x y b, In x l -> In y l -> In b (f x) -> In b (f y) -> x = y) -> NoDup (flat_map f l).
Proof.
  induction l as [|x l IH]; intros N F D; [constructor|]. inversion N; subst. cbn. apply nodup_append.
  - apply F. now left.
  - apply IH; [assumption|intros; apply F; now right|]. intros a b c HA HB. apply D; now right.
  - intros b I J. apply in_flat_map in J as (y & J & K). assert (x = y) by (eapply D; [now left|right; exact J|exact I|exact K]). subst. contradiction.
Qed.

(** ** Coercion twice *)

Definition stable_type (t : sparktype) : Prop := coercion t = None.
Lemma coercion_stable t ty : coercion t = Some ty -> stable_type ty /\ supported ty = true.
Proof. destruct t; cbn; intros H; try discriminate; injection H as <-; split; reflexivity. Qed.
Lemma coerce_loop_facts : forall fs d d', coerce_loop fs d = Ok d' ->
  map sf_name (sd_fields d') = map sf_name (sd_fields d) /\ sd_rows d' = sd_rows d
  /\ (forall g, In g (sd_fields d') -> exists g0, In g0 (sd_fields d) /\ sf_name g0 = sf_name g /\ (sf_type g = sf_type g0 \/ (stable_type (sf_type g) /\ supported (sf_type g) = true)))
  /\ (forall f g, In f fs -> coercion (sf_type f) <> None -> In g (sd_fields d') -> sf_name g = sf_name f -> stable_type (sf_type g)).
Proof.
  induction fs as [|f fs IH]; cbn; intros d d' H.
  - injection H as <-. split; [reflexivity|]. split; [reflexivity|]. split; [eauto|intros ? ? []].
  - destruct (coercion (sf_type f)) as [ty|] eqn:C.
    + apply bind_ok in H as (d1 & W & H). unfold with_cast in W. apply bind_ok in W as ([] & _ & W). injection W as <-. apply IH in H as (A & B & D & F). cbn in *.
      destruct (coercion_stable _ _ C) as (ST & SU).
      assert (G0 : forall g, In g (sd_fields d') -> exists g0, In g0 (sd_fields d) /\ sf_name g0 = sf_name g
                 /\ ((sf_type g = sf_type g0 /\ sf_name g <> sf_name f) \/ (stable_type (sf_type g) /\ supported (sf_type g) = true))).
      { intros g I. destruct (D g I) as (g1 & I1 & N1 & T1). apply in_map_iff in I1 as (g0 & E & I0). exists g0. split; [exact I0|].
        destruct (String.eqb_spec (sf_name g0) (sf_name f)) as [EQ|NE].
        - subst g1. cbn in *. split; [exact N1|]. right. destruct T1 as [->|T1]; [split; assumption|exact T1].
        - subst g1. split; [exact N1|]. destruct T1 as [T1|T1]; [left; split; [exact T1|congruence]|right; exact T1]. }
      split; [rewrite A, map_map; apply map_ext; intros g; now destruct (String.eqb _ _)|]. split; [exact B|]. split.
      * intros g I. destruct (G0 g I) as (g0 & I0 & N0 & [(T0 & _)|T0]); exists g0; auto.
      * intros f' g [<-|I] NC J NM; [|eapply F; eassumption]. destruct (G0 g J) as (g0 & _ & _ & [(_ & X)|(X & _)]); [congruence|exact X].
    + apply IH in H as (A & B & D & F). split; [exact A|]. split; [exact B|]. split; [exact D|]. intros f' g [<-|I] NC J NM; [congruence|]. eapply F; eassumption.
Qed.
Lemma stable_loop : forall fs d, (forall f, In f fs -> stable_type (sf_type f)) -> coerce_loop fs d = Ok d.
Proof. induction fs as [|f fs IH]; cbn; intros d H; [reflexivity|]. rewrite (H f (or_introl eq_refl)). apply IH. auto. Qed.
Definition coerced (f : sframe) : Prop := coerce_spark_schema_or_fail f = Ok f.
Lemma coerce_coerced f f' : coerce_spark_schema_or_fail f = Ok f' -> coerced f'.
Proof.
  unfold coerced, coerce_spark_schema_or_fail. intros H. apply bind_ok in H as ([] & A & H). apply bind_ok in H as ([] & B & H).
  apply raise_if_ok in A. apply raise_if_ok in B. apply Bool.negb_false_iff in B. rewrite forallb_forall in B. apply coerce_loop_facts in H as (N & _ & D & F).
  assert (S : forall g, In g (sd_fields f') -> stable_type (sf_type g) /\ supported (sf_type g) = true).
  { intros g I. destruct (D g I) as (g0 & I0 & N0 & [T|T]); [|exact T]. split; [|rewrite T; apply B, I0].
    destruct (coercion (sf_type g0)) eqn:C; [|unfold stable_type; now rewrite T]. eapply F; [exact I0|congruence|exact I|now symmetry]. }
  rewrite N, A. cbn [raise_if bind]. replace (forallb _ _) with true.
  - cbn. apply stable_loop. intros g I. apply S, I.
  - symmetry. apply forallb_forall. intros g I. apply S, I.
Qed.
Lemma coerce_columns f f' : coerce_spark_schema_or_fail f = Ok f' -> columns f' = columns f /\ sd_rows f' = sd_rows f.
Proof. unfold coerce_spark_schema_or_fail. intros H. apply bind_ok in H as ([] & A & H). apply bind_ok in H as ([] & B & H). apply coerce_loop_facts in H as (N & R & _). auto. Qed.
Lemma coerced_supported f : coerced f -> ~ In "" (columns f) /\ forall g, In g (sd_fields f) -> supported (sf_type g) = true.
Proof.
  unfold coerced, coerce_spark_schema_or_fail. intros H. apply bind_ok in H as ([] & A & H). apply bind_ok in H as ([] & B & H).
  apply raise_if_ok in A. apply smem_false in A. apply raise_if_ok in B. apply Bool.negb_false_iff in B. rewrite forallb_forall in B. auto.
Qed.

(** ** The relation of a builder *)

Definition checked (l : list (string * change)) : Prop := forall n c, In (n, c) l -> check_change c = Ok tt.
Definition children_of (l : list (string * change)) : list relation :=
  (flat_map row_relation l ++ map (fun p => AddRemoveKeys (fst p) (snd p) 1) (spaces_of l))%list.
Lemma row_relations_flat l : forall r, In r (flat_map row_relation l) -> ~ is_conjunction r.
Proof. intros r H. apply in_flat_map in H as ((n, c) & _ & H). unfold row_relation in H. destruct c; cbn in H; try contradiction; destruct H as [<-|[]]; cbn; auto. Qed.
Lemma children_flat l : forall r, In r (children_of l) -> ~ is_conjunction r.
Proof. intros r H. apply in_app_iff in H as [H|H]; [eapply row_relations_flat, H|]. apply in_map_iff in H as (p & <- & _). cbn. auto. Qed.
Lemma generate_ok l : NoDup (map fst l) -> checked l -> generate_neighboring_relation l = Ok (Conjunction (children_of l)).
Proof.
  intros N CH. unfold generate_neighboring_relation. destruct (relation_fold l N) as (A & B & C & D). fold (spaces_of l) in *. cbn zeta.
  rewrite (mapM_total _ (fun p => AddRemoveKeys (fst p) (snd p) 1)).
  - cbn [bind mk_conjunction]. rewrite A. fold (children_of l). now rewrite (flatten_id _ (children_flat l)).
  - intros (s, d) I. unfold mk_keys. cbn [fst snd]. pose proof (In_dget _ _ _ B I) as G. apply C in G.
    assert (IK : In s (dkeys (spaces_of l))) by (apply in_map_iff; exists (s, d); auto). apply D in IK as (n & c & IK). pose proof (CH _ _ IK) as CC. cbn in CC. apply bind_ok in CC as ([] & CC & _). apply raise_if_ok in CC. rewrite CC. cbn [raise_if bind].
    apply in_space_in in IK. rewrite <- G in IK. destruct d; [destruct IK|reflexivity].
Qed.
Lemma spaces_entry l s d : NoDup (map fst l) -> In (s, d) (spaces_of l) -> d = flat_map (in_space s) l /\ NoDup (dkeys d).
Proof.
  intros N I. destruct (relation_fold l N) as (A & B & C & D). pose proof (In_dget _ _ _ B I) as G. apply C in G. split; [exact G|]. subst d. apply in_space_nodup, N.
Qed.
Lemma spaces_in l s n c : NoDup (map fst l) -> In (n, AddRowsWithID c s) l -> In (s, flat_map (in_space s) l) (spaces_of l).
Proof.
  intros N I. destruct (relation_fold l N) as (A & B & C & D). assert (K : In s (dkeys (spaces_of l))) by (apply D; eauto).
  destruct (dget s (spaces_of l)) as [d|] eqn:G; [|apply dget_None in G; contradiction]. pose proof (C _ _ G) as X. subst d. apply dget_In, G.
Qed.
Lemma spaces_nodup l : NoDup (map fst l) -> NoDup (dkeys (spaces_of l)).
Proof. intros N. apply (relation_fold l N). Qed.
Lemma name_once (l : list (string * change)) n c c' : NoDup (map fst l) -> In (n, c) l -> In (n, c') l -> c = c'.
Proof. intros N I J. pose proof (In_dget _ _ _ N I). pose proof (In_dget _ _ _ N J). congruence. Qed.
(** What covers a table. *)
Lemma children_cover l r n : NoDup (map fst l) -> In r (children_of l) -> In n (tables_of r) -> exists c, In (n, c) l /\ protects n c r.
Proof.
  intros N I T. apply in_app_iff in I as [I|I].
  - apply in_flat_map in I as ((m, c) & I & J). unfold row_relation in J. destruct c as [k|g k k'|c s]; cbn in J; try contradiction; destruct J as [<-|[]]; cbn in T; destruct T as [<-|[]]; eexists; (split; [exact I|]); cbn; auto.
  - apply in_map_iff in I as ((s, d) & <- & I). apply spaces_entry in I as (-> & ND); [|exact N]. cbn in T. apply in_map_iff in T as ((m, c) & <- & T). exists (AddRowsWithID c s). cbn [fst].
    split; [apply in_space_in, T|]. cbn. split; [reflexivity|]. split; [|reflexivity]. apply In_dget; assumption.
Qed.
Lemma children_protect l n c : NoDup (map fst l) -> In (n, c) l -> exists r, In r (children_of l) /\ In n (tables_of r) /\ protects n c r.
Proof.
  intros N I. destruct c as [k|g k m|c s].
  - exists (AddRemoveRows n k). split; [|cbn; auto]. apply in_app_iff. left. apply in_flat_map. exists (n, AddMaxRows k). split; [exact I|now left].
  - exists (AddRemoveRowsAcrossGroups n g k m). split; [|cbn; auto]. apply in_app_iff. left. apply in_flat_map. exists (n, AddMaxRowsInMaxGroups g k m). split; [exact I|now left].
  - exists (AddRemoveKeys s (flat_map (in_space s) l) 1). pose proof (in_space_nodup s l N) as NS. apply in_space_in in I as J. split.
    + apply in_app_iff. right. apply in_map_iff. exists (s, flat_map (in_space s) l). split; [reflexivity|]. eapply spaces_in; eassumption.
    + split; [cbn; apply in_map_iff; exists (n, c); auto|]. cbn. split; [reflexivity|]. split; [|reflexivity]. apply In_dget; assumption.
Qed.
Lemma children_distinct_tables l : NoDup (map fst l) -> NoDup (flat_map tables_of (children_of l)).
Proof.
  intros N. pose proof (NoDup_map_inv _ _ N) as NL. unfold children_of. rewrite flat_map_app. apply nodup_append.
  - rewrite flat_map_flat_map. apply nodup_flat_map; [exact NL| |].
    + intros (n, c) _. destruct c; cbn; repeat constructor; intros [].
    + intros (n, c) (m, c') b I J A B. assert (b = n) by (destruct c; cbn in A; intuition congruence). assert (b = m) by (destruct c'; cbn in B; intuition congruence).
      subst n m. f_equal. eapply name_once; eassumption.
  - rewrite flat_map_concat_map, map_map, <- flat_map_concat_map. cbn. apply nodup_flat_map.
    + apply (NoDup_map_inv fst), (spaces_nodup _ N).
    + intros (s, d) I. apply spaces_entry in I as (_ & ND); assumption.
    + intros (s, d) (s', d') b I J A B. cbn in *. pose proof I as I'. pose proof J as J'. apply spaces_entry in I as (-> & _); [|exact N]. apply spaces_entry in J as (-> & _); [|exact N].
      apply in_map_iff in A as ((n, c) & <- & A). apply in_map_iff in B as ((m, c') & E & B). cbn in E. subst m. apply in_space_in in A. apply in_space_in in B. pose proof (name_once _ _ _ _ N A B) as E. injection E as _ ->. reflexivity.
  - intros n A B. apply in_flat_map in A as (r & A & TA). apply in_flat_map in B as (r' & B & TB).
    apply in_flat_map in A as ((m, c) & IA & RA). apply in_map_iff in B as ((s, d) & <- & IB). apply spaces_entry in IB as (-> & _); [|exact N]. cbn in TB. apply in_map_iff in TB as ((m', c') & <- & TB). apply in_space_in in TB.
    unfold row_relation in RA. destruct c; cbn in RA; try contradiction; destruct RA as [<-|[]]; cbn in TA; destruct TA as [E|[]]; subst; cbn in *; pose proof (name_once _ _ _ _ N IA TB); discriminate.
Qed.
Lemma children_tables l n : NoDup (map fst l) -> In n (flat_map tables_of (children_of l)) <-> In n (map fst l).
Proof.
  intros N. split.
  - intros H. apply in_flat_map in H as (r & I & T). destruct (children_cover _ _ _ N I T) as (c & IC & _). apply in_map_iff. exists (n, c). auto.
  - intros H. apply in_map_iff in H as ((m, c) & <- & I). cbn. destruct (children_protect _ _ _ N I) as (r & IR & T & _). apply in_flat_map. eauto.
Qed.

(** ** Validation *)

(** A column that can be grouped by or hold IDs. *)
Definition usable (f : sframe) (c : string) : Prop :=
  In c (columns f) /\ forall x, In x (sd_fields f) -> sf_name x = c -> In (sf_type x) [LongT; StringT; DateT].
Lemma allowed_in t : allowed t = true <-> In t [LongT; StringT; DateT].
Proof. destruct t; cbn; intuition congruence. Qed.
Definition types (c : string) (fs : list sfield) : list sparktype := map sf_type (filter (fun x => String.eqb (sf_name x) c) fs).
Definition uniform {A} (l : list A) : Prop := forall x y, In x l -> In y l -> x = y.
Definition opt_list {A} (o : option A) : list A := match o with Some x => [x] | None => [] end.
Lemma sparktype_eqb_eq a b : sparktype_eqb a b = true <-> a = b.
Proof. destruct a, b; cbn; try (split; intros; congruence). rewrite Nat.eqb_eq. split; intros; congruence. Qed.
Lemma uniform_dup {A} (x : A) l : uniform (x :: x :: l) <-> uniform (x :: l).
Proof. split; intros U a b I J; apply U; cbn in *; tauto. Qed.
Lemma key_fields_ok key : forall fs seen out, key_fields key fs seen = Ok out <->
  Forall (fun t => allowed t = true) (types key fs) /\ uniform (opt_list seen ++ types key fs) /\ out = hd_error (opt_list seen ++ types key fs).
Proof.
  induction fs as [|f fs IH]; intros seen out; cbn [key_fields].
  - unfold types. cbn. rewrite app_nil_r. split.
    + intros H. injection H as <-. split; [constructor|]. split; [|now destruct seen]. destruct seen; cbn; intros x y; cbn; [intros [<-|[]] [<-|[]]; reflexivity|intros []].
    + intros (_ & _ & ->). now destruct seen.
  - unfold types. cbn [filter]. destruct (String.eqb (sf_name f) key); cbn [negb]; [|apply IH]. cbn [map]. fold (types key fs).
    destruct (allowed (sf_type f)) eqn:A; cbn [negb raise_if bind].
    2:{ split; [discriminate|]. intros (H & _). inversion H; congruence. }
    destruct seen as [t|]; cbn [opt_list app].
    + destruct (sparktype_eqb (sf_type f) t) eqn:Q; cbn [negb raise_if bind].
      * apply sparktype_eqb_eq in Q. rewrite IH. cbn [opt_list app]. rewrite Q in *. rewrite uniform_dup. cbn [hd_error].
        split; intros (H1 & H2 & H3); (split; [|auto]); [constructor; assumption|inversion H1; assumption].
      * split; [discriminate|]. intros (_ & H & _). apply Bool.not_true_iff_false in Q. destruct Q. apply sparktype_eqb_eq. apply H; cbn; auto.
    + rewrite IH. cbn [opt_list app]. split; intros (H1 & H2 & H3); (split; [|auto]); [constructor; assumption|inversion H1; assumption].
Qed.
(** The types of the key columns of all tables of a relation. *)
Definition key_types (d : dict string) (dfs : dict sframe) : list sparktype :=
  flat_map (fun p => match dget (fst p) d with Some key => types key (sd_fields (snd p)) | None => [] end) dfs.
Lemma types_in c fs t : In t (types c fs) <-> exists x, In x fs /\ sf_name x = c /\ sf_type x = t.
Proof.
  unfold types. rewrite in_map_iff. split.
  - intros (x & <- & I). apply filter_In in I as (I & E). apply String.eqb_eq in E. eauto.
  - intros (x & I & <- & <-). exists x. split; [reflexivity|]. apply filter_In. split; [exact I|apply String.eqb_refl].
Qed.
Lemma hd_uniform {A} (l m : list A) : uniform l -> uniform (opt_list (hd_error l) ++ m) <-> uniform (l ++ m).
Proof.
  intros U. destruct l as [|x l]; [reflexivity|]. cbn [hd_error opt_list app]. split; intros V a b I J; apply V; cbn in *; rewrite ?in_app_iff in *.
  all: try (intuition congruence).
  - destruct I as [I|[I|I]]; auto. left. apply U; cbn; auto.
  - destruct J as [J|[J|J]]; auto. left. apply U; cbn; auto.
Qed.
Lemma uniform_app_l {A} (l m : list A) : uniform (l ++ m) -> uniform l.
Proof. intros U x y I J. apply U; apply in_app_iff; now left. Qed.
Lemma key_tables_ok d : forall dfs seen, (forall n f, In (n, f) dfs -> coerced f) ->
  key_tables d dfs seen = Ok tt <->
  (forall n f key, In (n, f) dfs -> dget n d = Some key -> In key (columns f))
  /\ Forall (fun t => allowed t = true) (key_types d dfs) /\ uniform (opt_list seen ++ key_types d dfs).
Proof.
  induction dfs as [|(n, f) dfs IH]; intros seen CO; cbn [key_tables].
  - unfold key_types. cbn. rewrite app_nil_r. split; [intros _|reflexivity]. split; [intros ? ? ? []|]. split; [constructor|]. destruct seen; intros x y; cbn; [intros [<-|[]] [<-|[]]; reflexivity|intros []].
  - assert (CO' : forall n f, In (n, f) dfs -> coerced f) by (intros; eapply CO; right; eassumption).
    unfold key_types. cbn [flat_map fst snd]. fold (key_types d dfs). destruct (dget n d) as [key|] eqn:G.
    + destruct (smem key (columns f)) eqn:M; cbn [negb raise_if bind].
      2:{ split; [discriminate|]. intros (H & _). apply smem_false in M. destruct M. eapply H; [now left|exact G]. }
      apply smem_In in M. rewrite (CO n f (or_introl eq_refl)). cbn [bind].
      split.
      * intros H. apply bind_ok in H as (out & K & H). apply key_fields_ok in K as (K1 & K2 & ->). apply IH in H as (H1 & H2 & H3); [|exact CO']. split.
        -- intros n' f' key' [I|I] G'; [injection I as <- <-; rewrite G in G'; injection G' as <-; exact M|eauto].
        -- split; [apply Forall_app; split; assumption|]. rewrite app_assoc. apply hd_uniform; assumption.
      * intros (H1 & H2 & H3). apply Forall_app in H2 as (H2 & H4). rewrite app_assoc in H3. pose proof (uniform_app_l _ _ H3) as H5.
        assert (K : key_fields key (sd_fields f) seen = Ok (hd_error (opt_list seen ++ types key (sd_fields f)))) by (apply key_fields_ok; auto).
        rewrite K. cbn [bind]. apply IH; [exact CO'|]. split; [intros; eapply H1; [right|]; eassumption|]. split; [exact H4|]. now apply hd_uniform.
    + cbn [app]. rewrite IH by exact CO'. split; intros (H1 & H2 & H3); (split; [|auto]).
      * intros n' f' key' [I|I] G'; [injection I as <- <-; congruence|eauto].
      * intros; eapply H1; [right|]; eassumption.
Qed.

(** What a protected change asks of its own table. *)
Definition fits (f : sframe) (c : change) : Prop :=
  match c with AddMaxRows _ => True | AddMaxRowsInMaxGroups g _ _ => usable f g | AddRowsWithID i _ => usable f i end.
(** IDs of one space have one type. *)
Definition same_ids (l : dict (sframe * change)) : Prop :=
  forall n n' f f' i i' s x x', In (n, (f, AddRowsWithID i s)) l -> In (n', (f', AddRowsWithID i' s)) l ->
    In x (sd_fields f) -> In x' (sd_fields f') -> sf_name x = i -> sf_name x' = i' -> sf_type x = sf_type x'.
Notation frames l := (map (fun p => (fst p, fst (snd p))) l).
Notation changes l := (map (fun p => (fst p, snd (snd p))) l).
Lemma dget_frames n (l : dict (sframe * change)) : dget n (frames l) = option_map fst (dget n l).
Proof. exact (dget_map_val fst n l). Qed.
Lemma keys_frames (l : dict (sframe * change)) : dkeys (frames l) = dkeys l.
Proof. exact (dkeys_map_val fst l). Qed.
Lemma keys_changes (l : dict (sframe * change)) : map fst (changes l) = dkeys l.
Proof. exact (dkeys_map_val snd l). Qed.
Lemma in_changes (l : dict (sframe * change)) n c : In (n, c) (changes l) <-> exists f, In (n, (f, c)) l.
Proof.
  rewrite in_map_iff. split.
  - intros ((n', (f, c')) & E & I). cbn in E. injection E as <- <-. eauto.
  - intros (f & I). exists (n, (f, c)). auto.
Qed.
Lemma in_frames (l : dict (sframe * change)) n f : In (n, f) (frames l) <-> exists c, In (n, (f, c)) l.
Proof.
  rewrite in_map_iff. split.
  - intros ((n', (f', c)) & E & I). cbn in E. injection E as <- <-. eauto.
  - intros (c & I). exists (n, (f, c)). auto.
Qed.
Lemma key_types_in (l : dict (sframe * change)) s t : NoDup (dkeys l) ->
  In t (key_types (flat_map (in_space s) (changes l)) (frames l)) <->
  exists n f i x, In (n, (f, AddRowsWithID i s)) l /\ In x (sd_fields f) /\ sf_name x = i /\ sf_type x = t.
Proof.
  intros N. assert (NC : NoDup (map fst (changes l))) by (rewrite keys_changes; exact N). unfold key_types. rewrite in_flat_map. split.
  - intros ((n, f) & I & H). cbn [fst snd] in H. destruct (dget n _) as [key|] eqn:G; [|destruct H]. apply dget_In, in_space_in, in_changes in G as (f' & G).
    apply in_frames in I as (c & I). pose proof (In_dget _ _ _ N I). pose proof (In_dget _ _ _ N G). assert (f' = f) by congruence. subst f'. apply types_in in H as (x & I1 & I2 & I3). exists n, f, key, x. auto.
  - intros (n & f & i & x & I & J & A & B). exists (n, f). split; [apply in_frames; eauto|]. cbn [fst snd].
    rewrite (In_dget n i); [|apply in_space_nodup, NC|apply in_space_in, in_changes; eauto]. apply types_in. eauto.
Qed.
Lemma validate_builder (l : dict (sframe * change)) : NoDup (dkeys l) -> (forall n f c, In (n, (f, c)) l -> coerced f) ->
  (validate_input (Conjunction (children_of (changes l))) (frames l) = Ok tt
   <-> (forall n f c, In (n, (f, c)) l -> fits f c) /\ same_ids l).
Proof.
  intros N CO. assert (NC : NoDup (map fst (changes l))) by (rewrite keys_changes; exact N).
  assert (CO' : forall n f, In (n, f) (frames l) -> coerced f) by (intros n f I; apply in_frames in I as (c & I); eauto).
  assert (KT : forall s n i f, In (n, (f, AddRowsWithID i s)) l -> key_tables (flat_map (in_space s) (changes l)) (frames l) None = Ok tt ->
     usable f i /\ forall n' f' i' x x', In (n', (f', AddRowsWithID i' s)) l -> In x (sd_fields f) -> In x' (sd_fields f') -> sf_name x = i -> sf_name x' = i' -> sf_type x = sf_type x').
  { intros s n i f I K. apply key_tables_ok in K as (K1 & K2 & K3); [|exact CO']. cbn [opt_list app] in K3. split.
    - split.
      + eapply K1; [apply in_frames; eauto|]. apply In_dget; [apply in_space_nodup, NC|]. apply in_space_in, in_changes. eauto.
      + intros x J E. rewrite Forall_forall in K2. apply allowed_in, K2. apply key_types_in; [exact N|]. exists n, f, i, x. auto.
    - intros n' f' i' x x' I' J J' E E'. apply K3; apply key_types_in; try exact N; [exists n, f, i, x|exists n', f', i', x']; auto. }
  split.
  - intros H. apply validate_conjunction in H as (V & _ & _).
    assert (KT2 : forall s n i f, In (n, (f, AddRowsWithID i s)) l -> key_tables (flat_map (in_space s) (changes l)) (frames l) None = Ok tt).
    { intros s n i f I. destruct (V (AddRemoveKeys s (flat_map (in_space s) (changes l)) 1)) as (names & W).
      - apply in_app_iff. right. apply in_map_iff. exists (s, flat_map (in_space s) (changes l)). split; [reflexivity|]. eapply spaces_in; [exact NC|]. apply in_changes. eauto.
      - cbn in W. apply bind_ok in W as ([] & _ & W). apply bind_ok in W as ([] & W & _). exact W. }
    split.
    + intros n f c I. destruct c as [k|g k m|i s]; cbn; [exact Logic.I| |].
      * destruct (V (AddRemoveRowsAcrossGroups n g k m)) as (names & W).
        -- apply in_app_iff. left. apply in_flat_map. exists (n, AddMaxRowsInMaxGroups g k m). split; [apply in_changes; eauto|now left].
        -- cbn [validate_one] in W. rewrite dget_frames, (In_dget _ _ _ N I) in W. cbn [option_map fst] in W. apply bind_ok in W as ([] & A & W). apply bind_ok in W as (f' & CF & W). apply bind_ok in W as ([] & B & W).
           rewrite (CO _ _ _ I) in CF. injection CF as <-. apply raise_if_ok in A. apply Bool.negb_false_iff, smem_In in A. apply raise_if_ok in B. split; [exact A|].
           intros x J E. apply allowed_in. destruct (allowed (sf_type x)) eqn:AL; [reflexivity|]. apply Bool.not_true_iff_false in B. destruct B. apply existsb_exists. exists x. split; [exact J|]. rewrite E, String.eqb_refl, AL. reflexivity.
      * eapply KT; [exact I|]. eapply KT2, I.
    + intros n n' f f' i i' s x x' I I' J J' E E'. eapply (proj2 (KT s n i f I (KT2 _ _ _ _ I))); eassumption.
  - intros (F & S). apply validate_conjunction_ok.
    + intros r I. apply in_app_iff in I as [I|I].
      * apply in_flat_map in I as ((n, c) & I & J). apply in_changes in I as (f & I). pose proof (F _ _ _ I) as FC. destruct c as [k|g k m|i s]; cbn in J; try contradiction; destruct J as [<-|[]]; cbn [validate_one]; rewrite dget_frames, (In_dget _ _ _ N I); cbn [option_map fst].
        -- rewrite (CO _ _ _ I). cbn. eauto.
        -- destruct FC as (A & B). apply smem_In in A. rewrite A. cbn [negb raise_if bind]. rewrite (CO _ _ _ I). cbn [bind]. replace (existsb _ _) with false; [cbn; eauto|].
           symmetry. apply Bool.not_true_iff_false. intros H. apply existsb_exists in H as (x & J & H). apply andb_true_iff in H as (H1 & H2). apply String.eqb_eq in H1. rewrite (proj2 (allowed_in _) (B x J H1)) in H2. discriminate.
      * apply in_map_iff in I as ((s, d) & <- & I). pose proof (spaces_entry _ _ _ NC I) as (E & ND). cbn [validate_one fst snd].
        replace (existsb _ (dkeys d)) with false.
        -- cbn [raise_if bind]. assert (K : key_tables d (frames l) None = Ok tt).
           { subst d. apply key_tables_ok; [exact CO'|]. split.
             - intros n f key J G. apply dget_In, in_space_in, in_changes in G as (f' & G). apply in_frames in J as (c & J). pose proof (In_dget _ _ _ N G). pose proof (In_dget _ _ _ N J). assert (f' = f) by congruence. subst f'. apply (F _ _ _ G).
             - split.
               + apply Forall_forall. intros t J. apply key_types_in in J as (n & f & i & x & J1 & J2 & J3 & <-); [|exact N]. apply allowed_in, (F _ _ _ J1); assumption.
               + cbn. intros t t' J J'. apply key_types_in in J as (n & f & i & x & J1 & J2 & J3 & <-); [|exact N]. apply key_types_in in J' as (n' & f' & i' & x' & J1' & J2' & J3' & <-); [|exact N]. exact (S _ _ _ _ _ _ _ _ _ J1 J1' J2 J2' J3 J3'). }
           rewrite K. cbn. eauto.
        -- symmetry. apply Bool.not_true_iff_false. intros H. apply existsb_exists in H as (n & J & H). subst d. apply in_space_keys in J. rewrite keys_changes, <- keys_frames in J. apply dmem_In in J. now rewrite J in H.
    + intros n. rewrite keys_frames, <- keys_changes. apply children_tables, NC.
    + apply children_distinct_tables, NC.
Qed.
