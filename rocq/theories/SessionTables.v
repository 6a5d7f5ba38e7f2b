(** The tables of a session over all histories. *)
From Coq Require Import String Bool Arith ZArith QArith Lia Permutation List.
From Verif Require Import Prelude Budget BudgetProofs Value Rows Constraints Schema Query Transform TransformVisit Tables TablesProofs
  Accountant AccountantProofs Session SessionSpec SessionMoney SessionSteps.
Import ListNotations.
Local Open Scope string_scope.
Local Open Scope nat_scope.

(** ** Layout of a session's data *)

(** The tables with names, wherever they are. *)
Definition named_leaf (p : ident * tree) : list (string * vtab) :=
  match p with (NamedTable n, TLeaf t) => [(n, t)] | _ => [] end.
Definition named_entry (p : ident * tree) : list (string * vtab) :=
  match snd p with TDict _ l => flat_map named_leaf l | TLeaf _ => named_leaf p end.
Definition named (x : tree) : dict vtab := match x with TDict _ kids => flat_map named_entry kids | TLeaf _ => [] end.

(** Exactly the tables with privacy IDs are in a collection. *)
Definition placed (t : vtab) : Prop :=
  match v_place t with
  | PKeys _ => v_coll t <> None
  | PSym | PGrouped _ _ => v_coll t = None
  | PGroupedIds _ _ _ => False
  end.
Definition leaf_entry (c : option string) (p : ident * tree) : Prop :=
  match p with
  | (NamedTable _, TLeaf t) => v_coll t = c /\ placed t
  | (TemporaryTable _, TLeaf _) => True
  | _ => False
  end.
Definition top_entry (p : ident * tree) : Prop :=
  match p with
  | (TableCollection c, TDict true l) => NoDup (ikeys l) /\ (forall e, In e l -> leaf_entry (Some c) e)
  | (TableCollection _, _) => False
  | _ => leaf_entry None p
  end.
Inductive layout : tree -> Prop :=
| Layout kids : NoDup (ikeys kids) -> (forall e, In e kids -> top_entry e) -> NoDup (dkeys (named (TDict false kids))) ->
    layout (TDict false kids).

Lemma in_named kids n t : (forall e, In e kids -> top_entry e) ->
  (In (n, t) (named (TDict false kids)) <->
   In (NamedTable n, TLeaf t) kids \/ exists c l, In (TableCollection c, TDict true l) kids /\ In (NamedTable n, TLeaf t) l).
Proof.
  intros T. cbn [named]. rewrite in_flat_map. split.
  - intros ((k, y) & I & J). pose proof (T _ I) as TE. unfold named_entry in J. cbn [snd] in J. destruct y as [t'|b l].
    + left. destruct k; cbn in J; try destruct J as [J|[]]; try contradiction. injection J as <- <-. exact I.
    + right. destruct k as [|c|]; try destruct TE. destruct b; [|destruct TE]. exists c, l. split; [exact I|].
      apply in_flat_map in J as ((k, y) & J1 & J2). destruct k, y; cbn in J2; try contradiction. destruct J2 as [J2|[]]. injection J2 as <- <-. exact J1.
  - intros [I|(c & l & I & J)].
    + exists (NamedTable n, TLeaf t). split; [exact I|]. now left.
    + exists (TableCollection c, TDict true l). split; [exact I|]. unfold named_entry. cbn [snd]. apply in_flat_map. exists (NamedTable n, TLeaf t). split; [exact J|now left].
Qed.

(** What references lead to. *)
Definition table_ref (n : string) (t : vtab) : ref := (collection_ref (v_coll t) ++ [NamedTable n])%list.
Lemma layout_distinct x : layout x -> distinct_keys (domain_of x).
Proof.
  intros [kids N T _]. cbn. constructor; [rewrite ikeys_map; exact N|]. intros k d I. apply in_map_iff in I as ((k', y) & [= <- <-] & I).
  apply T in I. destruct y as [t|b l]; [constructor|]. cbn. destruct k' as [|c|]; try destruct I. destruct b; [|destruct I]. destruct I as (N2 & L).
  constructor; [rewrite ikeys_map; exact N2|]. intros k d J. apply in_map_iff in J as ((k2, y) & [= <- <-] & J). apply L in J.
  destruct y; [constructor|]. destruct k2; destruct J.
Qed.
Lemma layout_get x n t : layout x -> In (n, t) (named x) -> get_at x (table_ref n t) = Ok (TLeaf t).
Proof.
  intros [kids N T _] I. apply (in_named kids n t T) in I as [I|(c & l & I & J)]; unfold table_ref.
  - pose proof (T _ I) as (C & _). rewrite C. cbn. now rewrite (in_iget _ _ _ N I).
  - pose proof (T _ I) as (N2 & L). pose proof (L _ J) as (C & _). rewrite C. cbn. rewrite (in_iget _ _ _ N I). now rewrite (in_iget _ _ _ N2 J).
Qed.
Lemma reaches_cases d r x : reaches d r x ->
  (r = [] /\ x = d) \/ exists kids k d' r', d = DDict kids /\ r = k :: r' /\ In (k, d') kids /\ reaches d' r' x.
Proof. intros []; [now left|]. right. eauto 10. Qed.
Lemma reaches_called x n r d : layout x -> reaches (domain_of x) r d -> called n r ->
  exists t, In (n, t) (named x) /\ r = table_ref n t /\ d = DFrame (v_dom t).
Proof.
  intros [kids N T _] RE (p & C). apply reaches_cases in RE as [(-> & _)|(ks & k & d' & r' & E & -> & I & RE)]; [destruct p; discriminate C|].
  cbn in E. injection E as <-. apply in_map_iff in I as ((k', y) & [= <- <-] & I). pose proof (T _ I) as TE.
  destruct y as [t|b l].
  - cbn in RE. apply reaches_cases in RE as [(-> & ->)|(? & ? & ? & ? & ? & _)]; [|discriminate].
    destruct p as [|? [|? ?]]; try discriminate C. injection C as ->. destruct TE as (C & _). exists t. split; [apply in_named; [exact T|left; exact I]|].
    split; [unfold table_ref; rewrite C; reflexivity|reflexivity].
  - destruct k' as [|c|]; try destruct TE. destruct b; [|destruct TE]. destruct TE as (N2 & L). cbn in RE.
    apply reaches_cases in RE as [(-> & ->)|(ks & k2 & d2 & r2 & E & -> & J & RE)]; [destruct p as [|? [|? ?]]; discriminate C|].
    injection E as <-. apply in_map_iff in J as ((k3, y) & [= <- <-] & J). pose proof (L _ J) as LE. destruct y as [t|]; [|destruct k3; destruct LE].
    cbn in RE. apply reaches_cases in RE as [(-> & ->)|(? & ? & ? & ? & ? & _)]; [|discriminate].
    destruct p as [|? [|? [|? ?]]]; try discriminate C. injection C as <- ->. destruct LE as (C & _). exists t. split; [apply in_named; [exact T|right; eauto]|].
    split; [unfold table_ref; rewrite C; reflexivity|reflexivity].
Qed.
Lemma in_dget {V} (d : dict V) k v : NoDup (dkeys d) -> In (k, v) d -> dget k d = Some v.
Proof.
  induction d as [|(k', v') d IH]; intros N I; [destruct I|]. inversion N as [|? ? N1 N2]; subst. cbn. destruct I as [[= -> ->]|I]; [now rewrite String.eqb_refl|].
  destruct (String.eqb_spec k k') as [->|]; [|auto]. exfalso. apply N1. apply in_map_iff. exists (k', v). auto.
Qed.
Lemma dget_in {V} (d : dict V) k v : dget k d = Some v -> In (k, v) d.
Proof.
  induction d as [|(k', v') d IH]; [discriminate|]. cbn. destruct (String.eqb_spec k k') as [->|]; [intros [= ->]; now left|right; auto].
Qed.
Lemma layout_nodup x : layout x -> NoDup (dkeys (named x)). Proof. intros []; assumption. Qed.
Lemma layout_unambiguous x n : layout x -> unambiguous n (domain_of x).
Proof.
  intros L r r' d d' A B C C'. destruct (reaches_called x n r d L A C) as (t & I & -> & _). destruct (reaches_called x n r' d' L B C') as (t' & I' & -> & _).
  pose proof (in_dget _ _ _ (layout_nodup x L) I). pose proof (in_dget _ _ _ (layout_nodup x L) I'). congruence.
Qed.
Lemma get_reaches : forall r x y, get_at x r = Ok y -> reaches (domain_of x) r (domain_of y).
Proof.
  induction r as [|k r IH]; intros x y H; cbn in H; [injection H as <-; constructor|].
  destruct x as [t|b kids]; [discriminate|]. destruct (iget k kids) as [x|] eqn:G; [|discriminate]. cbn. econstructor; [|apply IH; exact H].
  apply in_map_iff. exists (k, x). split; [reflexivity|]. now apply iget_in.
Qed.
Lemma find_reference_named x n : layout x -> find_reference n (domain_of x) = option_map (table_ref n) (dget n (named x)).
Proof.
  intros L. destruct (dget n (named x)) as [t|] eqn:G; cbn.
  - apply dget_in in G. pose proof (layout_get x n t L G) as GA. eapply find_reference_iff; [apply layout_distinct, L|apply layout_unambiguous, L|apply get_reaches, GA|].
    now exists (collection_ref (v_coll t)).
  - destruct (find_reference n (domain_of x)) as [r|] eqn:F; [|reflexivity]. exfalso. apply find_reference_some in F as (C & d & RE).
    destruct (reaches_called x n r d L RE C) as (t & I & _). rewrite (in_dget _ _ _ (layout_nodup x L) I) in G. discriminate.
Qed.
Lemma table_named_spec x n : layout x -> table_named x n = match dget n (named x) with Some t => Ok t | None => Err KeyError end.
Proof.
  intros L. unfold table_named. rewrite (find_reference_named x n L). destruct (dget n (named x)) as [t|] eqn:G; cbn [option_map]; [|reflexivity].
  rewrite (layout_get x n t L (dget_in _ _ _ G)). reflexivity.
Qed.
Lemma mapM_total {A B} (f : A -> res B) (g : A -> B) l : (forall a, In a l -> f a = Ok (g a)) -> mapM f l = Ok (map g l).
Proof.
  induction l as [|a l IH]; intros H; [reflexivity|]. cbn [mapM map]. rewrite (H a (or_introl eq_refl)), IH by (intros b I; apply H; now right). reflexivity.
Qed.
Lemma private_sources_spec x : layout x -> exists names, private_sources x = Ok names /\ NoDup names /\ forall n, In n names <-> In n (dkeys (named x)).
Proof.
  intros L. assert (D : exists kids, domain_of x = DDict kids) by (destruct L; cbn; eauto).
  destruct (find_named_tables_spec (domain_of x) (layout_distinct x L) D) as (l & F & N & I).
  assert (M : mapM ref_identifier l = Ok (map (fun r => last r (TemporaryTable 0)) l)).
  { apply mapM_total. intros r J. apply I in J as (n & cols & (p & ->) & _). unfold ref_identifier. rewrite rev_unit, last_last. reflexivity. }
  assert (X : forall r, In r l -> exists n t, r = table_ref n t /\ In (n, t) (named x)).
  { intros r J. apply I in J as (n & cols & C & RE). destruct (reaches_called x n r _ L RE C) as (t & J & -> & _). eauto. }
  exists (flat_map ident_name (map (fun r => last r (TemporaryTable 0)) l)). split; [unfold private_sources; rewrite F; cbn [bind]; now rewrite M|].
  assert (K : forall n, In n (flat_map ident_name (map (fun r => last r (TemporaryTable 0)) l)) <-> exists r, In r l /\ called n r).
  { intros n. rewrite in_flat_map. split.
    - intros (k & J & J2). apply in_map_iff in J as (r & <- & J). destruct (X r J) as (n' & t & -> & _). unfold table_ref in J2. rewrite last_last in J2.
      destruct J2 as [<-|[]]. exists (table_ref n' t). split; [exact J|]. now exists (collection_ref (v_coll t)).
    - intros (r & J & (p & C)). exists (NamedTable n). split; [|now left]. apply in_map_iff. exists r. split; [rewrite C; apply last_last|exact J]. }
  split.
  - clear K M F I. induction l as [|r l IH]; [constructor|]. cbn [map flat_map]. inversion N as [|? ? N1 N2]; subst.
    destruct (X r (or_introl eq_refl)) as (n & t & -> & J). unfold table_ref at 1. rewrite last_last. cbn [ident_name app]. constructor; [|apply IH; [exact N2|intros r' J'; apply X; now right]].
    intros J2. apply in_flat_map in J2 as (k & J2 & J3). apply in_map_iff in J2 as (r & <- & J2). destruct (X r (or_intror J2)) as (n' & t' & -> & J').
    unfold table_ref in J3. rewrite last_last in J3. destruct J3 as [->|[]].
    pose proof (in_dget _ _ _ (layout_nodup x L) J). pose proof (in_dget _ _ _ (layout_nodup x L) J'). assert (t' = t) by congruence. subst t'. contradiction.
  - intros n. rewrite K. split.
    + intros (r & J & C). destruct (X r J) as (n' & t & -> & J'). destruct C as (p & C). apply app_inj_tail in C as (_ & [= ->]). apply in_map_iff. exists (n, t). auto.
    + intros J. apply in_map_iff in J as ((n', t) & <- & J). cbn [fst]. exists (table_ref n' t). split; [|now exists (collection_ref (v_coll t))].
      apply I. exists n', (v_dom t). split; [now exists (collection_ref (v_coll t))|]. exact (get_reaches _ _ _ (layout_get x n' t L J)).
Qed.

(** ** Accessors *)

Lemma private_ref_named x pub n t : layout x -> dget n (named x) = Some t -> private_ref x pub n = Ok (table_ref n t).
Proof. intros L G. unfold private_ref. now rewrite (find_reference_named x n L), G. Qed.
Lemma layout_metric x n t : layout x -> In (n, t) (named x) -> lookup_metric (metric_of x) (table_ref n t) = Ok (MTable (v_place t)).
Proof.
  intros [kids N T _] I. apply (in_named kids n t T) in I as [I|(c & l & I & J)]; unfold table_ref.
  - pose proof (T _ I) as (C & _). rewrite C. cbn. rewrite (iget_map metric_of), (in_iget _ _ _ N I). reflexivity.
  - pose proof (T _ I) as (N2 & L). pose proof (L _ J) as (C & P). rewrite C. cbn. rewrite (iget_map metric_of), (in_iget _ _ _ N I). cbn.
    rewrite (iget_map key_column), (in_iget _ _ _ N2 J). cbn. unfold placed in P. rewrite C in P. destruct (v_place t); try discriminate; try contradiction. reflexivity.
Qed.
Lemma layout_domain x n t : layout x -> In (n, t) (named x) -> lookup_domain (domain_of x) (table_ref n t) = Ok (DFrame (v_dom t)).
Proof. intros L I. apply reaches_lookup; [apply layout_distinct, L|]. exact (get_reaches _ _ _ (layout_get x n t L I)). Qed.
Definition grouping_column (p : place) : option string := match p with PGrouped g _ | PGroupedIds g _ _ => Some g | _ => None end.
Definition id_column (p : place) : option string := match p with PKeys i => Some i | _ => None end.
Lemma get_grouping_spec x pub n t : layout x -> dget n (named x) = Some t -> get_grouping_column x pub n = Ok (grouping_column (v_place t)).
Proof. intros L G. unfold get_grouping_column. rewrite (private_ref_named x pub n t L G). cbn [bind]. rewrite (layout_metric x n t L (dget_in _ _ _ G)). reflexivity. Qed.
Lemma get_id_column_spec x pub n t : layout x -> dget n (named x) = Some t -> get_id_column x pub n = Ok (id_column (v_place t)).
Proof. intros L G. unfold get_id_column. rewrite (private_ref_named x pub n t L G). cbn [bind]. rewrite (layout_metric x n t L (dget_in _ _ _ G)). reflexivity. Qed.
Lemma get_id_space_spec x pub n t : layout x -> dget n (named x) = Some t -> get_id_space x pub n = Ok (v_coll t).
Proof.
  intros L G. unfold get_id_space. rewrite (private_ref_named x pub n t L G). cbn [bind]. unfold table_ref, ref_parent. rewrite rev_unit. cbn [bind].
  destruct (v_coll t) as [c|]; reflexivity.
Qed.
Lemma get_schema_spec x pub n t : layout x -> dget n (named x) = Some t -> get_schema x pub n = core_to_analytics (v_dom t).
Proof.
  intros L G. unfold get_schema. rewrite (find_reference_named x n L), G. cbn [option_map]. rewrite (layout_domain x n t L (dget_in _ _ _ G)). reflexivity.
Qed.

(** ** Adding and deleting *)

Lemma iget_split {A} k (a : A) d : iget k d = Some a -> exists l1 l2, d = (l1 ++ (k, a) :: l2)%list /\ forall b, iset k b d = (l1 ++ (k, b) :: l2)%list.
Proof.
  induction d as [|(k', a') d IH]; [discriminate|]. cbn. destruct (ident_eqb k k') eqn:E.
  - intros [= ->]. apply ident_eqb_eq in E as ->. exists [], d. split; [reflexivity|]. intros b. reflexivity.
  - intros H. destruct (IH H) as (l1 & l2 & -> & I). exists ((k', a') :: l1), l2. split; [reflexivity|]. intros b. now rewrite I.
Qed.
Lemma ikeys_app {A} (l l' : list (ident * A)) : ikeys (l ++ l') = (ikeys l ++ ikeys l')%list. Proof. apply map_app. Qed.
Lemma existsb_ident k l : existsb (ident_eqb k) l = false -> ~ In k l.
Proof. intros H I. assert (existsb (ident_eqb k) l = true) by (apply existsb_exists; exists k; split; [exact I|apply ident_eqb_refl]). congruence. Qed.
Lemma NoDup_snoc {A} (l : list A) x : NoDup l -> ~ In x l -> NoDup (l ++ [x]).
Proof.
  intros N I. eapply Permutation_NoDup; [apply Permutation_cons_append|]. constructor; assumption.
Qed.
Lemma flat_map_snoc {A B} (f : A -> list B) l x : flat_map f (l ++ [x]) = (flat_map f l ++ f x)%list.
Proof. rewrite flat_map_app. cbn. now rewrite app_nil_r. Qed.
Lemma iget_app {A} k (l l' : list (ident * A)) : iget k (l ++ l') = match iget k l with Some a => Some a | None => iget k l' end.
Proof. induction l as [|(k', a) l IH]; [reflexivity|]. cbn. destruct (ident_eqb k k'); [reflexivity|exact IH]. Qed.
(** What adding the entry [k] needs, besides what tmlt.core checks. *)
Definition addable (c : option string) (k : ident) (t : vtab) (x : tree) : Prop :=
  match k with
  | NamedTable n => v_coll t = c /\ placed t /\ ~ In n (dkeys (named x))
  | TemporaryTable _ => True
  | TableCollection _ => False
  end.
Lemma named_key_names (l : dict vtab) l' : Permutation l l' -> NoDup (dkeys l) -> NoDup (dkeys l').
Proof. intros P N. eapply Permutation_NoDup; [apply Permutation_map, P|exact N]. Qed.
Lemma add_layout c k t x x' : layout x -> update_at (collection_ref c) (add_entry k (TLeaf t)) x = Ok x' -> addable c k t x ->
  layout x' /\ Permutation (named x') (named_leaf (k, TLeaf t) ++ named x)
  /\ get_at x' (collection_ref c ++ [k]) = Ok (TLeaf t)
  /\ (forall r y, get_at x r = Ok (TLeaf y) -> get_at x' r = Ok (TLeaf y)).
Proof.
  intros L H A. assert (NN : NoDup (dkeys (named_leaf (k, TLeaf t) ++ named x)%list)).
  { destruct k as [n| |]; cbn; try apply (layout_nodup x L). constructor; [apply A|apply (layout_nodup x L)]. }
  destruct L as [kids N T ND]. destruct c as [c|]; cbn [collection_ref update_at add_entry] in H.
  - destruct (iget (TableCollection c) kids) as [y|] eqn:G; [|discriminate]. apply bind_ok in H as (y' & H & H'). injection H' as <-.
    destruct y as [|b l]; [discriminate|]. apply bind_ok in H as (u & H1 & H). apply raise_if_ok in H1. apply bind_ok in H as (u' & H2 & H). apply raise_if_ok in H2. injection H as <-.
    destruct (iget_split _ _ _ G) as (l1 & l2 & -> & IS). rewrite IS.
    assert (TE : top_entry (TableCollection c, TDict b l)) by (apply T, in_elt). cbn in TE. destruct b; [|destruct TE]. destruct TE as (N2 & LE).
    assert (LK : leaf_entry (Some c) (k, TLeaf t)) by (destruct k; cbn in *; tauto).
    assert (P : Permutation (named (TDict false (l1 ++ (TableCollection c, TDict true (l ++ [(k, TLeaf t)])) :: l2)))
                            (named_leaf (k, TLeaf t) ++ named (TDict false (l1 ++ (TableCollection c, TDict true l) :: l2)))).
    { cbn [named]. rewrite !flat_map_app. cbn [flat_map]. unfold named_entry at 2. unfold named_entry at 4. cbn [snd]. rewrite flat_map_snoc.
      rewrite <- !app_assoc. etransitivity; [|apply Permutation_app_comm]. rewrite <- !app_assoc. apply Permutation_app_head. apply Permutation_app_head. apply Permutation_app_comm. }
    split; [|split; [exact P|]].
    + constructor.
      * rewrite ikeys_app in *. exact N.
      * intros e I. apply in_app_iff in I as [I|[<-|I]]; [apply T; apply in_app_iff; now left| |apply T; apply in_app_iff; right; now right].
        cbn. split; [rewrite ikeys_app; apply NoDup_snoc; [exact N2|exact (existsb_ident _ _ H1)]|].
        intros e I. apply in_app_iff in I as [I|[<-|[]]]; [exact (LE e I)|exact LK].
      * eapply named_key_names; [symmetry; exact P|exact NN].
    + assert (G1 : iget (TableCollection c) l1 = None).
      { apply iget_none. intros I. rewrite ikeys_app in N. apply NoDup_remove_2 in N. apply N, in_app_iff. now left. }
      split.
      * cbn [collection_ref app get_at]. rewrite iget_app, G1. cbn [iget]. rewrite ident_eqb_refl. cbn [get_at]. rewrite iget_app.
        rewrite (proj2 (iget_none k l) (existsb_ident _ _ H1)). cbn [iget]. rewrite ident_eqb_refl. reflexivity.
      * intros [|k0 r] y GY; [discriminate|]. cbn [get_at] in *. rewrite iget_app in *. destruct (iget k0 l1) as [z|]; [exact GY|]. cbn [iget] in *.
        destruct (ident_eqb k0 (TableCollection c)) eqn:E0; [|exact GY]. destruct r as [|k1 r]; [discriminate|]. cbn [get_at] in *.
        rewrite iget_app. destruct (iget k1 l); [exact GY|discriminate].
  - apply bind_ok in H as (u & H1 & H). apply raise_if_ok in H1. apply bind_ok in H as (u' & H2 & H). injection H as <-.
    assert (P : Permutation (named (TDict false (kids ++ [(k, TLeaf t)]))) (named_leaf (k, TLeaf t) ++ named (TDict false kids))).
    { cbn [named]. rewrite flat_map_snoc. apply Permutation_app_comm. }
    split; [|split; [exact P|]].
    + constructor.
      * rewrite ikeys_app. apply NoDup_snoc; [exact N|exact (existsb_ident _ _ H1)].
      * intros e I. apply in_app_iff in I as [I|[<-|[]]]; [exact (T e I)|]. destruct k; cbn in *; tauto.
      * eapply named_key_names; [symmetry; exact P|exact NN].
    + split.
      * cbn [collection_ref app get_at]. rewrite iget_app, (proj2 (iget_none k kids) (existsb_ident _ _ H1)). cbn. now rewrite ident_eqb_refl.
      * intros [|k0 r] y GY; [discriminate|]. cbn [get_at] in *. rewrite iget_app. destruct (iget k0 kids); [exact GY|discriminate].
Qed.
Lemma fresh_addable c t x y : addable c (fresh x) t y. Proof. exact I. Qed.
Lemma add_temps_layout l : forall x x', layout x -> add_temps l x = Ok x' -> layout x' /\ Permutation (named x') (named x).
Proof.
  induction l as [|(c, t) l IH]; intros x x' L H; cbn in H; [injection H as <-; auto|]. apply bind_ok in H as (y & A & H).
  destruct (add_layout _ _ _ _ _ L A (fresh_addable _ _ _ _)) as (L1 & P1 & _). destruct (IH y x' L1 H) as (L2 & P2). split; [exact L2|].
  etransitivity; [exact P2|exact P1].
Qed.
Lemma ref_split_last (p : ref) k : ref_identifier (p ++ [k]) = Ok k /\ ref_parent (p ++ [k]) = Ok p.
Proof. unfold ref_identifier, ref_parent. rewrite rev_unit, rev_involutive. auto. Qed.
Lemma rename_layout c k t x x' new : layout x -> get_at x (collection_ref c ++ [k]) = Ok (TLeaf t) ->
  rename_table x (collection_ref c ++ [k]) new = Ok x' -> addable c new t x ->
  layout x' /\ Permutation (named x') (named_leaf (new, TLeaf t) ++ named x)
  /\ get_at x' (collection_ref c ++ [new]) = Ok (TLeaf t)
  /\ (forall r y, get_at x r = Ok (TLeaf y) -> get_at x' r = Ok (TLeaf y)).
Proof.
  intros L G H A. unfold rename_table in H. destruct (ref_split_last (collection_ref c) k) as (E1 & E2). rewrite E1, E2, G in H. cbn [bind] in H.
  exact (add_layout _ _ _ _ _ L H A).
Qed.
Lemma flat_map_filter {A B} (f : A -> list B) keep l : (forall e, In e l -> keep e = false -> f e = []) -> flat_map f (filter keep l) = flat_map f l.
Proof.
  induction l as [|e l IH]; intros H; [reflexivity|]. cbn [filter flat_map]. rewrite <- IH by (intros; apply H; [now right|assumption]).
  destruct (keep e) eqn:K; [reflexivity|]. rewrite (H e (or_introl eq_refl) K). reflexivity.
Qed.
Definition deletes (n : string) (e : ident * tree) : bool := negb (is_temporary (fst e)) && negb (ident_eqb (NamedTable n) (fst e)).
Lemma delete_one (f : ident * tree -> list (string * vtab)) n t l : NoDup (ikeys l) -> In (NamedTable n, TLeaf t) l ->
  f (NamedTable n, TLeaf t) = [(n, t)] -> (forall k y, In (TemporaryTable k, y) l -> f (TemporaryTable k, y) = []) ->
  Permutation (flat_map f l) ((n, t) :: flat_map f (filter (deletes n) l)).
Proof.
  intros N I F T. apply in_split in I as (l1 & l2 & ->). rewrite ikeys_app in N. cbn [ikeys map fst] in N. pose proof (NoDup_remove_2 _ _ _ N) as N2.
  assert (X : forall e, In e (l1 ++ l2) -> deletes n e = false -> f e = []).
  { intros (k, y) I K. unfold deletes in K. cbn [fst] in K. apply andb_false_iff in K as [K|K]; apply negb_false_iff in K.
    - destruct k as [| |i]; try discriminate. apply T. apply in_app_iff in I as [I|I]; apply in_app_iff; [now left|right; now right].
    - apply ident_eqb_eq in K. subst k. exfalso. apply N2. fold (@ikeys tree l2). rewrite <- ikeys_app. apply in_map_iff. exists (NamedTable n, y). auto. }
  assert (E : filter (deletes n) (l1 ++ (NamedTable n, TLeaf t) :: l2) = filter (deletes n) (l1 ++ l2)).
  { rewrite !filter_app. cbn [filter]. unfold deletes at 2. cbn [fst]. rewrite ident_eqb_refl, andb_false_r. reflexivity. }
  rewrite E, (flat_map_filter f (deletes n) (l1 ++ l2) X), !flat_map_app. cbn [flat_map]. rewrite F. cbn [app].
  symmetry. apply Permutation_middle.
Qed.
Lemma ikeys_filter_nodup {A} keep (l : list (ident * A)) : NoDup (ikeys l) -> NoDup (ikeys (filter keep l)).
Proof.
  induction l as [|(k, a) l IH]; intros N; [constructor|]. inversion N as [|? ? N1 N2]; subst. cbn [filter]. destruct (keep (k, a)); [|auto].
  cbn. constructor; [|auto]. intros I. apply N1. apply in_map_iff in I as (e & E & I). apply filter_In in I as (I & _). apply in_map_iff. eauto.
Qed.
Lemma delete_layout empty_ok shuffle x x' n t : (forall l, Permutation (shuffle l) l) -> layout x -> In (n, t) (named x) ->
  delete_table empty_ok shuffle x (table_ref n t) = Ok x' -> layout x' /\ Permutation (named x) ((n, t) :: named x').
Proof.
  intros SH L I H. pose proof L as L0. destruct L as [kids N T ND]. unfold delete_table, table_ref in H.
  destruct (ref_split_last (collection_ref (v_coll t)) (NamedTable n)) as (E1 & E2). rewrite E1, E2 in H. cbn [bind] in H.
  apply (in_named kids n t T) in I as [I|(c & l & I & J)].
  - pose proof (T _ I) as (C & _). rewrite C in H. cbn [collection_ref update_at] in H. apply bind_ok in H as (u & _ & H). injection H as <-.
    fold (deletes n). change (filter (fun e => negb (is_temporary (fst e)) && negb (ident_eqb (NamedTable n) (fst e))) kids) with (filter (deletes n) kids).
    assert (P : Permutation (named (TDict false kids)) ((n, t) :: named (TDict false (shuffle (filter (deletes n) kids))))).
    { cbn [named]. etransitivity; [apply (delete_one named_entry n t kids N I)|].
      - reflexivity.
      - intros k y K. pose proof (T _ K) as TE. destruct y; [reflexivity|destruct TE].
      - constructor. apply Permutation_flat_map. symmetry. apply SH. }
    split; [|exact P]. constructor.
    + eapply Permutation_NoDup; [apply Permutation_map; symmetry; apply SH|]. apply ikeys_filter_nodup, N.
    + intros e K. apply (Permutation_in _ (SH _)) in K. apply filter_In in K as (K & _). exact (T e K).
    + eapply named_key_names in P; [|exact ND]. inversion P; assumption.
  - pose proof (T _ I) as (N2 & LE). pose proof (LE _ J) as (C & _). rewrite C in H. cbn [collection_ref update_at] in H.
    rewrite (in_iget _ _ _ N I) in H. apply bind_ok in H as (y & H & H'). apply bind_ok in H as (u & _ & H). injection H as <-. cbn in H'. injection H' as <-.
    change (filter (fun e => negb (is_temporary (fst e)) && negb (ident_eqb (NamedTable n) (fst e))) l) with (filter (deletes n) l).
    destruct (iget_split _ _ _ (in_iget _ _ _ N I)) as (l1 & l2 & -> & IS). rewrite IS.
    assert (P : Permutation (named (TDict false (l1 ++ (TableCollection c, TDict true l) :: l2)))
                            ((n, t) :: named (TDict false (l1 ++ (TableCollection c, TDict true (shuffle (filter (deletes n) l))) :: l2)))).
    { cbn [named]. rewrite !flat_map_app. cbn [flat_map]. unfold named_entry at 2. unfold named_entry at 4. cbn [snd].
      assert (P1 : Permutation (flat_map named_leaf l) ((n, t) :: flat_map named_leaf (shuffle (filter (deletes n) l)))).
      { etransitivity; [apply (delete_one named_leaf n t l N2 J)|].
        - reflexivity.
        - intros k y K. reflexivity.
        - constructor. apply Permutation_flat_map. symmetry. apply SH. }
      rewrite P1. cbn [app]. symmetry. apply Permutation_middle. }
    split; [|exact P]. constructor.
    + rewrite ikeys_app in *. exact N.
    + intros e K. apply in_app_iff in K as [K|[<-|K]]; [apply T; apply in_app_iff; now left| |apply T; apply in_app_iff; right; now right].
      cbn. split.
      * eapply Permutation_NoDup; [apply Permutation_map; symmetry; apply SH|]. apply ikeys_filter_nodup, N2.
      * intros e K. apply (Permutation_in _ (SH _)) in K. apply filter_In in K as (K & _). exact (LE e K).
    + eapply named_key_names in P; [|exact ND]. inversion P; assumption.
Qed.

(** ** Views are placed like their sources *)

Section Placed.
Variables (W : world) (l2 : bool) (cat : catalog) (data : dict vtab).
Hypothesis data_placed : forall n t, dget n data = Some t -> placed t.
Lemma visit_placed : forall q t cs, visit W l2 cat data q = Ok (t, cs) -> placed t.
Proof.
  induction q; intros t0 cs0 H; cbn [visit] in H; try discriminate H.
  - unfold visit_source in H. destruct (dget source_id data) as [t|] eqn:D; [|discriminate].
    destruct (dget source_id (cat_private cat)) as [(?, ?)|]; [|discriminate]. injection H as <- <-. eapply data_placed, D.
  - inv_ok H. destruct x as (t, cs). specialize (IHq t cs E). unfold visit_rename in H. inv_ok H. injection H as <- <-.
    unfold placed in *. cbn. destruct (v_place t); exact IHq.
  - inv_ok H. destruct x as (t, cs). specialize (IHq t cs E). unfold visit_filter in H. injection H as <- <-. exact IHq.
  - inv_ok H. destruct x as (t, cs). specialize (IHq t cs E). unfold visit_select in H. repeat inv_ok H. injection H as <- <-. exact IHq.
  - inv_ok H. destruct x as (t, cs). specialize (IHq t cs E). unfold visit_map in H. repeat inv_ok H. injection H as <- <-. exact IHq.
  - inv_ok H. destruct x as (t, cs). specialize (IHq t cs E). unfold visit_flat_map in H. inv_ok H. inv_ok H. injection H as <- <-.
    destruct (in_collection (v_place t)) eqn:IC.
    + repeat inv_ok E0. injection E0 as <-. exact IHq.
    + destruct max_rows; [|discriminate]. destruct (sc_group new) eqn:G; [|injection E0 as <-; exact IHq].
      destruct (v_place t) eqn:PT; try discriminate. injection E0 as <-. unfold placed in *. cbn. rewrite PT in IHq. exact IHq.
  - inv_ok H. destruct x as (t, cs). specialize (IHq t cs E). unfold visit_flat_map_by_id in H.
    destruct (v_place t) eqn:PT; try discriminate. destruct (dget idc (v_dom t)); [|discriminate]. inv_ok H. injection H as <- <-. unfold placed in *. cbn. rewrite PT in IHq. exact IHq.
  - inv_ok H. inv_ok H. destruct x as (l, lcs), x0 as (r, rcs). specialize (IHq1 l lcs E). unfold visit_join_private in H. inv_ok H. inv_ok H.
    destruct x as ((p, lr), rr). inv_ok H. injection H as <- <-. unfold placed in *. cbn.
    destruct (v_place l) eqn:PL; try discriminate; destruct (v_place r) eqn:PR; try discriminate.
    + inv_ok E2. inv_ok E2. injection E2 as <- _ _. exact IHq1.
    + destruct tl; [|discriminate]. destruct tr; [|discriminate]. injection E2 as <- _ _. exact IHq1.
  - inv_ok H. destruct x as (t, cs). specialize (IHq t cs E). unfold visit_join_public in H. repeat inv_ok H. injection H as <- <-. exact IHq.
  - inv_ok H. destruct x as (t, cs). specialize (IHq t cs E). unfold visit_replace_null in H. repeat inv_ok H. injection H as <- <-. exact IHq.
  - inv_ok H. destruct x as (t, cs). specialize (IHq t cs E). unfold visit_replace_inf in H. repeat inv_ok H. injection H as <- <-. exact IHq.
  - inv_ok H. destruct x as (t, cs). specialize (IHq t cs E). unfold visit_drop_null in H. repeat inv_ok H. injection H as <- <-. exact IHq.
  - inv_ok H. destruct x as (t, cs). specialize (IHq t cs E). unfold visit_drop_inf in H. repeat inv_ok H. injection H as <- <-. exact IHq.
  - inv_ok H. destruct x as (t, cs). specialize (IHq t cs E). unfold visit_enforce in H. inv_ok H. injection H as <- <-.
    unfold placed in *. cbn. destruct (v_place t) eqn:PT; destruct c; cbn in E0; rewrite ?PT in E0; try discriminate E0; try (injection E0 as <-; exact IHq); try contradiction.
Qed.
End Placed.
