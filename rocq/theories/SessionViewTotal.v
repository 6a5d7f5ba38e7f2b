(** Storing the table of a view never fails. *)
From Coq Require Import String Bool Arith ZArith QArith Lia Permutation List.
From Verif Require Import Prelude Budget BudgetProofs Value Rows Constraints ConstraintsSpec ConstraintsProofs Schema SchemaProofs Query Transform TransformSpec
  TransformConform TransformVisit TransformAgree QueryProofs QuerySame RewriteSpec RewriteProofs QueryAccept TransformTotal Tables TablesProofs
  Accountant AccountantProofs Session SessionSpec SessionMoney SessionSteps SessionTables SessionInv SessionViews SessionWell SessionNames.
Import ListNotations.
Local Open Scope string_scope.
Local Open Scope nat_scope.

Lemma visit_coll W l2 cat data q : forall t cs, visit W l2 cat data q = Ok (t, cs) -> exists n u, dget n data = Some u /\ v_coll t = v_coll u.
Proof.
  induction q; intros t1 cs1 H; cbn [visit] in H; try discriminate; try (apply bind_ok in H as ((t0 & cs0) & H0 & H)).
  - unfold visit_source in H. peel H. injection H as <- <-. eauto.
  - unfold visit_rename in H. peel H. injection H as <- <-. exact (IHq _ _ H0).
  - injection H as <- <-. exact (IHq _ _ H0).
  - unfold visit_select in H. peel H. injection H as <- <-. exact (IHq _ _ H0).
  - unfold visit_map in H. peel H. injection H as <- <-. exact (IHq _ _ H0).
  - unfold visit_flat_map in H. apply bind_ok in H as (y & Y & H). apply bind_ok in H as (cs' & E & H). injection H as <- <-. exact (IHq _ _ H0).
  - unfold visit_flat_map_by_id in H. peel H. injection H as <- <-. exact (IHq _ _ H0).
  - apply bind_ok in H as ((t3 & cs3) & H1 & H). unfold visit_join_private in H. apply bind_ok in H as (? & _ & H). apply bind_ok in H as (((p, lr), rr) & Z & H).
    apply bind_ok in H as (d & _ & H). injection H as <- <-. exact (IHq1 _ _ H0).
  - unfold visit_join_public in H. apply bind_ok in H as (? & _ & H). apply bind_ok in H as (? & _ & H). apply bind_ok in H as (? & _ & H).
    apply bind_ok in H as (? & _ & H). apply bind_ok in H as (? & _ & H). injection H as <- <-. exact (IHq _ _ H0).
  - unfold visit_replace_null in H. peel H. injection H as <- <-. exact (IHq _ _ H0).
  - unfold visit_replace_inf in H. peel H. injection H as <- <-. exact (IHq _ _ H0).
  - unfold visit_drop_null in H. peel H. injection H as <- <-. exact (IHq _ _ H0).
  - unfold visit_drop_inf in H. peel H; injection H as <- <-; exact (IHq _ _ H0).
  - unfold visit_enforce in H. apply bind_ok in H as (y & Y & H). injection H as <- <-. exact (IHq _ _ H0).
Qed.

(** An identifier no dictionary of the tree uses. *)
Definition unused (k : ident) (x : tree) : Prop :=
  match x with TLeaf _ => True | TDict _ kids => ~ In k (ikeys kids) /\ forall k' b l, In (k', TDict b l) kids -> ~ In k (ikeys l) end.
Lemma unused_named n x : layout x -> ~ In n (dkeys (named x)) -> unused (NamedTable n) x.
Proof.
  intros [kids N T _] NI. cbn [unused]. split.
  - intros I. apply in_map_iff in I as ((k, y) & EQ & I). cbn in EQ. subst k. pose proof (T _ I) as TE. cbn in TE. destruct y as [t|]; [|contradiction].
    apply NI. apply in_map_iff. exists (n, t). split; [reflexivity|]. apply (in_named kids n t T). left. exact I.
  - intros k' b l I J. apply in_map_iff in J as ((k, y) & EQ & J). cbn in EQ. subst k. pose proof (T _ I) as TE. destruct k' as [|c|]; cbn in TE; try contradiction. destruct b; [|contradiction].
    destruct TE as (_ & LE). pose proof (LE _ J) as L1. cbn in L1. destruct y as [t|]; [|contradiction].
    apply NI. apply in_map_iff. exists (n, t). split; [reflexivity|]. apply (in_named kids n t T). right. eauto.
Qed.
Lemma list_max_ge l n : In n l -> n <= list_max l.
Proof. intros I. pose proof (proj1 (list_max_le l (list_max l)) (le_n _)) as F. rewrite Forall_forall in F. exact (F n I). Qed.
Lemma unused_fresh x : unused (fresh x) x.
Proof.
  destruct x as [t|a kids]; [exact I|]. unfold unused, fresh. set (m := list_max (temp_ids (TDict a kids))).
  assert (X : forall k, In k (temp_ids (TDict a kids)) -> k <> S m) by (intros k I; apply list_max_ge in I; unfold m; lia).
  cbn [temp_ids] in X. split.
  - intros I. apply in_map_iff in I as ((k, y) & EQ & I). cbn in EQ. subst k. apply (X (S m)); [|reflexivity]. apply in_flat_map. exists (TemporaryTable (S m), y). split; [exact I|]. left. reflexivity.
  - intros k' b l I J. apply in_map_iff in J as ((k, y) & EQ & J). cbn in EQ. subst k. apply (X (S m)); [|reflexivity]. apply in_flat_map. exists (k', TDict b l). split; [exact I|].
    apply in_app_iff. right. cbn [snd temp_ids]. apply in_flat_map. exists (TemporaryTable (S m), y). split; [exact J|]. left. reflexivity.
Qed.
(** The collection [c] exists. *)
Definition has_collection (c : option string) (x : tree) : Prop :=
  match c with None => True | Some c => exists n t, In (n, t) (named x) /\ v_coll t = Some c end.
Lemma has_collection_perm c x y : Permutation (named x) (named y) -> has_collection c y -> has_collection c x.
Proof. destruct c; [|trivial]. intros P (n & t & I & C). exists n, t. split; [|exact C]. eapply Permutation_in; [symmetry; exact P|exact I]. Qed.
Lemma add_exists c k t x : layout x -> has_collection c x -> unused k x -> (c <> None -> has_key (TLeaf t) = true) ->
  exists x', update_at (collection_ref c) (add_entry k (TLeaf t)) x = Ok x'.
Proof.
  intros L HC U K. destruct L as [kids N T ND]. destruct U as (U1 & U2).
  assert (NE : forall l : list (ident * tree), ~ In k (ikeys l) -> existsb (ident_eqb k) (ikeys l) = false).
  { intros l NI. destruct (existsb _ _) eqn:Q; [|reflexivity]. exfalso. apply NI. apply existsb_exists in Q as (k' & I & Q). apply ident_eqb_eq in Q. subst. exact I. }
  destruct c as [c|]; cbn [collection_ref update_at].
  - destruct HC as (n & u & I & C). apply (in_named kids n u T) in I as [I|(c' & l & I & J)].
    + pose proof (T _ I) as (C' & _). congruence.
    + pose proof (T _ I) as (N2 & LE). pose proof (LE _ J) as (C' & _). rewrite C in C'. injection C' as <-. rewrite (in_iget _ _ _ N I).
      cbn [add_entry]. rewrite (NE l (U2 _ _ _ I)). cbn [raise_if bind]. rewrite K by discriminate. cbn [negb andb raise_if bind]. eauto.
  - cbn [add_entry]. rewrite (NE kids U1). cbn [raise_if bind andb]. eauto.
Qed.
Lemma rename_exists c k t x new : layout x -> get_at x (collection_ref c ++ [k]) = Ok (TLeaf t) -> has_collection c x -> unused new x -> (c <> None -> has_key (TLeaf t) = true) ->
  exists x', rename_table x (collection_ref c ++ [k]) new = Ok x'.
Proof.
  intros L G HC U K. unfold rename_table. destruct (ref_split_last (collection_ref c) k) as (E1 & E2). rewrite E1, E2, G. cbn [bind]. apply add_exists; assumption.
Qed.

(** All that create_view does with the table it computes. *)
Lemma store_exists (q : query) name (cache : bool) x x1 cat data y W l2 : layout x -> ~ In name (dkeys (named x)) ->
  data_of x = Ok data -> build_transformation W l2 cat data q = Ok y -> layout x1 -> Permutation (named x1) (named x) ->
  exists z z' x4, add_result (fst y) x1 = Ok z
    /\ (if cache then let* x3 := rename_table (fst z) (snd z) (fresh (fst z)) in
                      let* par := ref_parent (snd z) in Ok (x3, (par ++ [fresh (fst z)])%list) else Ok z) = Ok z'
    /\ rename_table (fst z') (snd z') (NamedTable name) = Ok x4.
Proof.
  intros L NI DA B L1 P1. unfold build_transformation in B. inv_ok B. inv_ok B. inv_ok B. injection B as <-. destruct x2 as (t, cs). cbn [fst] in *.
  assert (PT : placed t) by (eapply visit_placed; [exact (data_placed x data L DA)|exact E0]).
  destruct (visit_coll _ _ _ _ _ _ _ E0) as (n & u & GU & CU). destruct (data_of_spec x L) as (da & DA' & DG). rewrite DA in DA'. injection DA' as <-. rewrite DG in GU.
  assert (HC : has_collection (v_coll t) x). { unfold has_collection. destruct (v_coll t) as [c|] eqn:C; [|exact I]. exists n, u. split; [apply dget_In, GU|congruence]. }
  assert (HK : v_coll t <> None -> has_key (TLeaf t) = true). { unfold placed in PT. intros NC. cbn. destruct (v_place t); try reflexivity; contradiction. }
  destruct (add_exists (v_coll t) (fresh x1) t x1 L1 (has_collection_perm _ _ _ P1 HC) (unused_fresh x1) HK) as (xa & EA).
  destruct (add_layout _ _ _ _ _ L1 EA (fresh_addable _ _ _ _)) as (L2 & P2 & G2 & _). cbn in P2.
  assert (P02 : Permutation (named xa) (named x)) by (etransitivity; [exact P2|exact P1]).
  assert (NN : forall l : dict vtab, Permutation l (named x) -> ~ In name (dkeys l)).
  { intros l P J. apply NI. exact (Permutation_in _ (Permutation_map fst P) J). }
  exists (xa, (collection_ref (v_coll t) ++ [fresh x1])%list). unfold add_result, add_temp. cbn [fst snd]. rewrite EA. cbn [bind].
  destruct cache.
  - destruct (rename_exists (v_coll t) (fresh x1) t xa (fresh xa) L2 G2 (has_collection_perm _ _ _ P02 HC) (unused_fresh xa) HK) as (xb & EB).
    destruct (rename_layout _ _ _ _ _ _ L2 G2 EB (fresh_addable _ _ _ _)) as (L3 & P3 & G3 & _). cbn in P3.
    assert (P03 : Permutation (named xb) (named x)) by (etransitivity; [exact P3|exact P02]).
    destruct (rename_exists (v_coll t) (fresh xa) t xb (NamedTable name) L3 G3 (has_collection_perm _ _ _ P03 HC) (unused_named name xb L3 (NN _ P03)) HK) as (x4 & E4).
    rewrite EB. cbn [bind]. destruct (ref_split_last (collection_ref (v_coll t)) (fresh x1)) as (_ & EP). rewrite EP. cbn [bind].
    exists (xb, (collection_ref (v_coll t) ++ [fresh xa])%list), x4. split; [reflexivity|]. split; [reflexivity|exact E4].
  - destruct (rename_exists (v_coll t) (fresh x1) t xa (NamedTable name) L2 G2 (has_collection_perm _ _ _ P02 HC) (unused_named name xa L2 (NN _ P02)) HK) as (x4 & E4).
    exists (xa, (collection_ref (v_coll t) ++ [fresh x1])%list), x4. split; [reflexivity|]. split; [reflexivity|exact E4].
Qed.
