(** Every session of a tree keeps its tables in order. *)
From Coq Require Import String Bool Arith ZArith QArith Lia Permutation List.
From Verif Require Import Prelude Budget BudgetProofs Value Rows Constraints Schema SchemaProofs Query Transform TransformVisit Tables TablesProofs
  Accountant AccountantProofs Session SessionSpec SessionMoney SessionSteps SessionTables.
Import ListNotations.
Local Open Scope string_scope.
Local Open Scope nat_scope.

Section Inv.
Variable E : env.
Notation W := (e_world E).

(** Tables are laid out as above, and exactly they have recorded constraints. *)
Record tables_ok (s : sess) : Prop := {
  tk_layout : layout (s_tree s);
  tk_nodup : NoDup (dkeys (s_cons s));
  tk_names : forall n, In n (dkeys (s_cons s)) <-> In n (dkeys (named (s_tree s)))
}.
Definition all_sessions (P : sess -> Prop) (st : state) : Prop := forall p s, session st p s -> P s.

Lemma mem_names x names n : layout x -> private_sources x = Ok names -> (smem n names = true <-> In n (dkeys (named x))).
Proof.
  intros L H. destruct (private_sources_spec x L) as (names' & H' & _ & I). rewrite H in H'. injection H' as <-. rewrite <- I. apply smem_In.
Qed.
Lemma data_of_spec x : layout x -> exists data, data_of x = Ok data /\ forall n, dget n data = dget n (named x).
Proof.
  intros L. destruct (private_sources_spec x L) as (names & PS & N & I). unfold data_of. rewrite PS. cbn [bind].
  assert (TN : forall n, In n names -> exists t, dget n (named x) = Some t /\ table_named x n = Ok t).
  { intros n J. apply I in J. destruct (dget n (named x)) as [t|] eqn:G; [|apply dget_None in G; contradiction]. exists t. split; [reflexivity|]. rewrite (table_named_spec x n L), G. reflexivity. }
  assert (NI : forall n, ~ In n names -> dget n (named x) = None).
  { intros n J. destruct (dget n (named x)) eqn:G; [|reflexivity]. exfalso. apply J, I. apply dget_In in G. apply in_map_iff. exists (n, v). auto. }
  clear PS I. revert N TN NI. generalize (named x) as nm. intros nm N TN NI.
  assert (X : forall l, (forall n, In n l -> In n names) -> exists data, mapM (fun n => let* t := table_named x n in Ok (n, t)) l = Ok data
    /\ forall n, dget n data = if in_dec string_dec n l then dget n nm else None).
  { induction l as [|n l IH]; intros S; [exists []; split; reflexivity|]. destruct (TN n (S n (or_introl eq_refl))) as (t & G & TT).
    destruct IH as (data & M & D); [intros m J; apply S; now right|]. exists ((n, t) :: data). cbn [mapM]. rewrite TT. cbn [bind]. rewrite M. split; [reflexivity|].
    intros m. cbn [dget]. destruct (String.eqb_spec m n) as [->|NE].
    - destruct (in_dec string_dec n (n :: l)) as [_|NI']; [now rewrite G|]. destruct NI'. now left.
    - rewrite D. destruct (in_dec string_dec m l) as [J|J], (in_dec string_dec m (n :: l)) as [J'|J']; try reflexivity.
      + destruct J'. now right.
      + destruct J' as [->|J']; [now destruct NE|contradiction]. }
  destruct (X names (fun _ H => H)) as (data & M & D). exists data. split; [exact M|]. intros n. rewrite D. destruct (in_dec string_dec n names); [reflexivity|]. now rewrite NI.
Qed.
Lemma data_placed x data : layout x -> data_of x = Ok data -> forall n t, dget n data = Some t -> placed t.
Proof.
  intros L H n t G. destruct (data_of_spec x L) as (data' & H' & D). rewrite H in H'. injection H' as <-. rewrite D in G. apply dget_in in G.
  destruct L as [kids N T _]. apply (in_named kids n t T) in G as [G|(c & l & G & J)].
  - apply T in G. apply G.
  - apply T in G as (_ & LE). apply LE in J. apply J.
Qed.
Lemma dset_keys {V} k (v : V) d : NoDup (dkeys d) -> NoDup (dkeys (dset k v d)) /\ forall n, In n (dkeys (dset k v d)) <-> n = k \/ In n (dkeys d).
Proof.
  intros N. split; [apply NoDup_dset, N|]. intros n. rewrite <- !dmem_In. unfold dmem. rewrite dget_dset. destruct (String.eqb_spec k n) as [->|NE]; [tauto|]. split; [auto|intros [X|X]; [congruence|exact X]].
Qed.
Lemma view_tables q name (cache : bool) x x1 cat data y z z' x4 names : layout x -> private_sources x = Ok names -> smem name names = false ->
  data_of x = Ok data -> forall l2, build_transformation W l2 cat data q = Ok y -> add_temps (e_temps E x q) x = Ok x1 -> add_result (fst y) x1 = Ok z ->
  (if cache then let* x3 := rename_table (fst z) (snd z) (fresh (fst z)) in
                 let* par := ref_parent (snd z) in Ok (x3, (par ++ [fresh (fst z)])%list) else Ok z) = Ok z' ->
  rename_table (fst z') (snd z') (NamedTable name) = Ok x4 ->
  layout x4 /\ Permutation (named x4) ((name, fst y) :: named x).
Proof.
  intros L PS NM DA l2 B AT AR RN RN2. destruct (add_temps_layout _ _ _ L AT) as (L1 & P1).
  unfold build_transformation in B. inv_ok B. inv_ok B. inv_ok B. injection B as <-. destruct x2 as (t, cs). cbn [fst] in *.
  assert (PT : placed t) by (eapply visit_placed; [exact (data_placed x data L DA)|exact E1]).
  unfold add_result in AR. apply bind_ok in AR as (xa & EA & AR). injection AR as <-. unfold add_temp in EA. cbn [fst snd] in EA.
  destruct (add_layout _ _ _ _ _ L1 EA (fresh_addable _ _ _ _)) as (L2 & P2 & G2 & _).
  assert (NN : forall l : dict vtab, Permutation l (named x) -> ~ In name (dkeys l)).
  { intros l P I. apply (Permutation_in _ (Permutation_map fst P)) in I. apply (mem_names x names name L PS) in I. congruence. }
  assert (P02 : Permutation (named xa) (named x)) by (etransitivity; [exact P2|exact P1]).
  destruct cache.
  - cbn [fst snd] in RN. apply bind_ok in RN as (xb & EB & RN). apply bind_ok in RN as (par & EC & RN). injection RN as <-. cbn [fst snd] in RN2.
    destruct (rename_layout _ _ _ _ _ _ L2 G2 EB (fresh_addable _ _ _ _)) as (L3 & P3 & G3 & _).
    destruct (ref_split_last (collection_ref (v_coll t)) (fresh x1)) as (_ & EP). rewrite EP in EC. injection EC as <-.
    assert (P03 : Permutation (named xb) (named x)) by (etransitivity; [exact P3|exact P02]).
    destruct (rename_layout _ _ _ _ _ _ L3 G3 RN2) as (L4 & P4 & _); [split; [reflexivity|split; [exact PT|apply NN, P03]]|].
    split; [exact L4|]. etransitivity; [exact P4|]. cbn. constructor. exact P03.
  - injection RN as <-. cbn [fst snd] in RN2.
    destruct (rename_layout _ _ _ _ _ _ L2 G2 RN2) as (L4 & P4 & _); [split; [reflexivity|split; [exact PT|apply NN, P02]]|].
    split; [exact L4|]. etransitivity; [exact P4|]. cbn. constructor. exact P02.
Qed.
Lemma perm_keys (l l' : dict vtab) n : Permutation l l' -> In n (dkeys l) <-> In n (dkeys l').
Proof. intros P. split; intros I; [apply (Permutation_in _ (Permutation_map fst P) I)|apply (Permutation_in _ (Permutation_map fst (Permutation_sym P)) I)]. Qed.
Lemma view_tables_ok s x4 name t cs : tables_ok s -> layout x4 -> Permutation (named x4) ((name, t) :: named (s_tree s)) ->
  tables_ok (with_tables s x4 (dset name cs (s_cons s))).
Proof.
  intros [L N K] L4 P. destruct (dset_keys name cs (s_cons s) N) as (N' & K'). constructor; cbn; [exact L4|exact N'|].
  intros n. rewrite K', (perm_keys _ _ n P), K. cbn. intuition congruence.
Qed.
Lemma delete_tables name x r x1 x2 : layout x -> find_reference name (domain_of x) = Some r -> rename_table x r (fresh x) = Ok x1 ->
  delete_table (e_empty_ok E) (e_shuffle E) x1 r = Ok x2 ->
  exists t, r = table_ref name t /\ dget name (named x) = Some t /\ layout x2 /\ Permutation (named x) ((name, t) :: named x2).
Proof.
  intros L F RN D. rewrite (find_reference_named x name L) in F. destruct (dget name (named x)) as [t|] eqn:G; [|discriminate]. injection F as <-.
  exists t. split; [reflexivity|]. split; [reflexivity|]. pose proof (layout_get x name t L (dget_in _ _ _ G)) as GA. unfold table_ref in RN, GA.
  destruct (rename_layout _ _ _ _ _ _ L GA RN (fresh_addable _ _ _ _)) as (L1 & P1 & _). cbn in P1.
  destruct (delete_layout (e_empty_ok E) (e_shuffle E) x1 x2 name t (e_shuffle_ok E) L1) as (L2 & P2); [|exact D|].
  - apply (Permutation_in _ (Permutation_sym P1)), dget_in, G.
  - split; [exact L2|]. etransitivity; [symmetry; exact P1|exact P2].
Qed.
Lemma ddel_spec {V} k (d : dict V) : NoDup (dkeys d) -> NoDup (dkeys (ddel k d)) /\ forall n, In n (dkeys (ddel k d)) <-> n <> k /\ In n (dkeys d).
Proof.
  intros N. unfold ddel. split.
  - induction d as [|(k', v) d IH]; [constructor|]. inversion N as [|? ? N1 N2]; subst. cbn. destruct (negb (String.eqb k k')); cbn; [|auto]. constructor; [|auto].
    intros I. apply N1. apply in_map_iff in I as (e & X & I). apply filter_In in I as (I & _). apply in_map_iff. eauto.
  - intros n. split.
    + intros I. apply in_map_iff in I as (e & <- & I). apply filter_In in I as (I & J). apply negb_true_iff in J. apply String.eqb_neq in J. split; [congruence|]. apply in_map_iff. eauto.
    + intros (NE & I). apply in_map_iff in I as (e & <- & I). apply in_map_iff. exists e. split; [reflexivity|]. apply filter_In. split; [exact I|]. apply negb_true_iff, String.eqb_neq. congruence.
Qed.
Lemma delete_tables_ok s x2 name t : tables_ok s -> layout x2 -> Permutation (named (s_tree s)) ((name, t) :: named x2) ->
  tables_ok (with_tables s x2 (ddel name (s_cons s))).
Proof.
  intros [L N K] L2 P. destruct (ddel_spec name (s_cons s) N) as (N' & K'). constructor; cbn; [exact L2|exact N'|].
  intros n. rewrite K', K, (perm_keys _ _ n P). cbn. pose proof (named_key_names _ _ P (layout_nodup _ L)) as ND. inversion ND; subst. cbn in *.
  split; [intros (A & [B|B]); [congruence|exact B]|]. intros I. split; [intros ->; contradiction|now right].
Qed.
(** ** Parts *)

(** The table a partition is made of. *)
Lemma partition_source s pub src col sp y : tables_ok s -> create_partition_transformation E s pub src col sp = Ok y ->
  exists t, dget src (named (s_tree s)) = Some t /\ get_id_space (s_tree s) pub src = Ok (v_coll t) /\ fst y = v_dom t
    /\ forall part, In part (snd y) -> match t_place part with
         | PKeys _ => v_coll t <> None
         | PSym => True
         | _ => False end.
Proof.
  intros TK H. pose proof (tk_layout s TK) as L. unfold create_partition_transformation in H. apply bind_ok in H as (r & PR & H).
  unfold private_ref in PR. rewrite (find_reference_named _ src L) in PR. destruct (dget src (named (s_tree s))) as [t|] eqn:G; cbn in PR;
    [|destruct (dmem src pub); discriminate]. injection PR as <-. exists t. split; [reflexivity|]. split; [apply get_id_space_spec; assumption|].
  rewrite (layout_metric _ _ _ L (dget_in _ _ _ G)), (layout_get _ _ _ L (dget_in _ _ _ G)) in H. cbn [bind leaf] in H.
  apply bind_ok in H as (t1 & T1 & H). apply bind_ok in H as (d & _ & H). apply bind_ok in H as (u & _ & H). apply bind_ok in H as (parts & PB & H). injection H as <-.
  split; [reflexivity|]. cbn [snd]. intros part I. unfold partition_by_keys in PB. apply bind_ok in PB as (? & _ & PB). apply bind_ok in PB as (? & _ & PB).
  apply bind_ok in PB as (pl & PP & PB). injection PB as <-. apply in_map_iff in I as (v & <- & _). cbn [t_place].
  assert (PT : placed t).
  { apply dget_in in G. destruct L as [kids N T _]. apply (in_named kids src t T) in G as [G|(c & l & G & J)]; [apply T in G; apply G|]. apply T in G as (_ & LE). apply LE in J. apply J. }
  unfold placed in PT. unfold partition_place in PP. destruct (v_place t) as [i| |g b i|g b] eqn:VP; cbn [t_place] in *.
  - destruct (partition_constraint col _) as [c|]; [|discriminate]. destruct c; cbn in T1; rewrite ?VP in T1; cbn in T1; try discriminate; try (injection T1 as <-; cbn [t_place] in PP).
    + injection PP as <-. exact I.
    + destruct (_ && _); [|discriminate]. injection PP as <-. exact PT.
  - injection T1 as <-. cbn [t_place] in PP. injection PP as <-. exact I.
  - destruct PT.
  - injection T1 as <-. cbn [t_place] in PP. destruct (_ && _); [|discriminate]. injection PP as <-. exact I.
Qed.
Lemma part_tables_ok b space dom name part : match t_place part with PKeys _ => space <> None | PSym => True | _ => False end ->
  tables_ok (part_session b space dom name part).
Proof.
  intros H. unfold part_session. destruct part as [p rows]. cbn [t_place t_rows] in *.
  assert (X : forall t, v_coll t = None -> placed t -> tables_ok {| s_initial := b; s_left := b; s_log := []; s_tree := TDict false [(NamedTable name, TLeaf t)]; s_cons := [(name, [])] |}).
  { intros t C P. constructor; cbn; [constructor; cbn|repeat constructor; intros []|tauto].
    - repeat constructor. intros [].
    - intros e [<-|[]]. cbn. auto.
    - repeat constructor. intros []. }
  destruct p as [i| |g l i|g l]; try contradiction.
  - destruct space as [sp|]; [|destruct (H eq_refl)]. unfold part_tree. cbn [t_place t_rows].
    constructor; cbn; [constructor; cbn|repeat constructor; intros []|tauto].
    + repeat constructor. intros [].
    + intros e [<-|[]]. cbn. split; [repeat constructor; intros []|]. intros e [<-|[]]. cbn. split; [reflexivity|]. unfold placed. cbn. discriminate.
    + repeat constructor. intros [].
  - unfold part_tree. cbn [t_place t_rows]. destruct space; apply X; reflexivity.
Qed.

(** ** All sessions of a tree *)

Lemma path_cases (p q : path) : q = p \/ (exists r, r <> [] /\ q = (p ++ r)%list) \/ (forall r, q <> (p ++ r)%list).
Proof.
  destruct (list_eq_dec (fun a b : nat * nat => ltac:(decide equality; apply Nat.eq_dec)) (firstn (length p) q) p) as [X|X].
  - pose proof (firstn_skipn (length p) q) as F. rewrite X in F. destruct (skipn (length p) q) as [|a r] eqn:S.
    + left. rewrite app_nil_r in F. auto.
    + right. left. exists (a :: r). split; [discriminate|auto].
  - right. right. intros r ->. apply X. rewrite firstn_app, firstn_all, Nat.sub_diag, firstn_O, app_nil_r. reflexivity.
Qed.
Lemma data_change_set (s' : sess) p t c : find p t = Some c -> forall q x, data_at (change p (set_data s') t) q x ->
  (q = p /\ x = s') \/ (q <> p /\ data_at t q x).
Proof.
  intros F q x (d & FD & <-). destruct (path_cases p q) as [->|[(r & NR & ->)|NB]].
  - left. rewrite find_change, F in FD. injection FD as <-. auto.
  - right. split; [intros EQ; destruct r; [now apply NR|]; apply (f_equal (@length _)) in EQ; rewrite app_length in EQ; cbn in EQ; lia|].
    rewrite find_change_below, F in FD. exists d. split; [|reflexivity]. rewrite find_app, F. destruct r as [|(k, i) r]; [now destruct NR|]. exact FD.
  - right. split; [intros ->; apply (NB []); now rewrite app_nil_r|]. pose proof (find_change_other (set_data s') p q t NB) as FO. rewrite FD in FO.
    destruct (find q t) as [d'|] eqn:FQ; [|discriminate]. injection FO as _ ED. exists d'. auto.
Qed.
Lemma nth_new_parts (l : list sess) i c : nth_error (new_parts l) i = Some c -> nth_error l i = Some (a_data c) /\ a_parts c = [].
Proof.
  destruct l as [|s l]; [destruct i; discriminate|]. destruct i as [|i]; cbn; [intros [= <-]; auto|]. rewrite nth_error_map.
  destruct (nth_error l i); [intros [= <-]; auto|discriminate].
Qed.
Lemma data_change_split (s' : sess) l p t c : find p t = Some c -> forall q x, data_at (change p (split_at s' l) t) q x ->
  (q = p /\ x = s') \/ (exists i, q = (p ++ [(length (a_parts c), i)])%list /\ nth_error l i = Some x)
  \/ (q <> p /\ data_at t q x).
Proof.
  intros F q x (d & FD & <-). destruct (path_cases p q) as [->|[(r & NR & ->)|NB]].
  - left. rewrite find_change, F in FD. injection FD as <-. auto.
  - right. rewrite find_change_below, F in FD. destruct r as [|(k, i) r]; [now destruct NR|].
    assert (NP : (p ++ (k, i) :: r)%list <> p) by (intros EQ; apply (f_equal (@length _)) in EQ; rewrite app_length in EQ; cbn in EQ; lia).
    rewrite find_step in FD. unfold split_at in FD. cbn [a_parts] in FD.
    destruct (Nat.lt_ge_cases k (length (a_parts c))) as [LT|GE].
    + right. split; [exact NP|]. exists d. split; [|reflexivity]. rewrite find_app, F, find_step. rewrite nth_error_app1 in FD by exact LT. exact FD.
    + rewrite nth_error_app2 in FD by exact GE. destruct (k - length (a_parts c)) as [|m] eqn:K; cbn [nth_error] in FD; [|destruct m; discriminate].
      destruct (nth_error (new_parts l) i) as [e|] eqn:NE; [|discriminate]. apply nth_new_parts in NE as (NE & PE).
      left. exists i. destruct r as [|(k', i') r].
      * cbn in FD. injection FD as <-. split; [|exact NE]. repeat f_equal. lia.
      * rewrite find_step, PE in FD. destruct k'; discriminate FD.
  - right. right. split; [intros ->; apply (NB []); now rewrite app_nil_r|]. pose proof (find_change_other (split_at s' l) p q t NB) as FO. rewrite FD in FO.
    destruct (find q t) as [d'|] eqn:FQ; [|discriminate]. injection FO as _ ED. exists d'. auto.
Qed.
Lemma quiet_session st st' p s : payload (st_root st') = payload (st_root st) -> session st' p s -> session st p s.
Proof.
  intros P (c & F & D). destruct (payload_find _ _ p c P F) as (c' & F' & D'). exists c'. split; [exact F'|].
  rewrite !payload_eta in D'. injection D' as D' _. congruence.
Qed.
Lemma session_at_iff st p s : session_at st p = Ok s <-> session st p s.
Proof.
  unfold session_at, session, data_at. destruct (find p (st_root st)) as [c|] eqn:F; split.
  - intros [= <-]. eauto.
  - intros (c' & [= <-] & <-). reflexivity.
  - discriminate.
  - intros (c' & ? & _). discriminate.
Qed.

(** A successful partition never fails when naming the ID space of its parts. *)
Lemma split_space st p src col sp s y space r : all_sessions tables_ok st -> session_at st p = Ok s ->
  create_partition_transformation E s (st_public st) src col sp = Ok y ->
  ((get_id_space (s_tree s) (st_public st) src = Ok space /\ r = Ok tt)
     \/ (space = None /\ exists e, get_id_space (s_tree s) (st_public st) src = Err e /\ r = Err e)) -> r = Ok tt /\ get_id_space (s_tree s) (st_public st) src = Ok space.
Proof.
  intros A S C [(G & ->)|(_ & e & G & _)]; [auto|]. apply session_at_iff in S. destruct (partition_source s _ _ _ _ _ (A p s S) C) as (t & _ & G' & _). congruence.
Qed.
Lemma effect_tables st o st' r : all_sessions tables_ok st -> effect E st o st' r -> all_sessions tables_ok st'.
Proof.
  intros A H. destruct H as [o st' e Q|p st' r Q _|p q b s adj rest st1 o K S C SP R RD|p n f f' s names S I PS D M CS
    |p q n c s names cat data y x1 z z' x4 st1 S I PS M D CA DA BT AT AR RN RN2 RD|p n s r cols x1 x2 st1 S F L RN DT RD
    |p src b col sp s b1 adj y rest space r st1 S LP V I PB CP SP RD G].
  - intros p s X. eapply A, quiet_session; [apply Q|exact X].
  - intros p' s X. eapply A, quiet_session; [apply Q|exact X].
  - destruct (ready_session _ _ _ _ S RD) as (c0 & F0 & D0 & A0). intros q' s' X. apply (data_change_set _ _ _ _ F0) in X as [(-> & ->)|(_ & X)].
    + apply session_at_iff in S. destruct (A p s S) as [TL TN TM]. constructor; cbn; assumption.
    + eapply A, quiet_session; [apply RD|exact X].
  - intros q' s' X. apply (A q' s'). exact X.
  - destruct (ready_session _ _ _ _ S RD) as (c0 & F0 & D0 & A0). intros q' s' X. apply (data_change_set _ _ _ _ F0) in X as [(-> & ->)|(_ & X)].
    + apply session_at_iff in S. pose proof (A p s S) as TK.
      destruct (view_tables q n c (s_tree s) x1 cat data y z z' x4 names (tk_layout s TK) PS M DA _ BT AT AR RN RN2) as (L4 & P4).
      exact (view_tables_ok s x4 n (fst y) (snd y) TK L4 P4).
    + eapply A, quiet_session; [apply RD|exact X].
  - destruct (ready_session _ _ _ _ S RD) as (c0 & F0 & D0 & A0). intros q' s' X. apply (data_change_set _ _ _ _ F0) in X as [(-> & ->)|(_ & X)].
    + apply session_at_iff in S. pose proof (A p s S) as TK. destruct (delete_tables n _ _ _ _ (tk_layout s TK) F RN DT) as (t & _ & _ & L2 & P2).
      exact (delete_tables_ok s x2 n t TK L2 P2).
    + eapply A, quiet_session; [apply RD|exact X].
  - destruct (ready_session _ _ _ _ S RD) as (c0 & F0 & D0 & A0). destruct (split_space _ _ _ _ _ _ _ _ _ A S CP G) as (_ & G').
    intros q' s' X. apply (data_change_split _ _ _ _ _ F0) in X as [(-> & ->)|[(i & -> & NI)|(_ & X)]].
    + apply session_at_iff in S. destruct (A p s S) as [TL TN TM]. constructor; cbn; assumption.
    + rewrite nth_error_map in NI. destruct (nth_error (combine (dkeys sp) (snd y)) i) as [(nm, part)|] eqn:NC; [|discriminate]. injection NI as <-.
      apply nth_error_In, in_combine_r in NC. apply session_at_iff in S. destruct (partition_source s _ _ _ _ _ (A p s S) CP) as (t & _ & G2 & _ & PP).
      cbn [fst snd]. apply part_tables_ok. specialize (PP part NC). rewrite G' in G2. injection G2 as ->. exact PP.
    + eapply A, quiet_session; [apply RD|exact X].
Qed.
Lemma run_tables l : forall st, ok (st_root st) -> all_sessions tables_ok st -> all_sessions tables_ok (run E st l).
Proof.
  induction l as [|o l IH]; intros st O A; [exact A|]. cbn. destruct (step E st o) as (st', r) eqn:H. cbn [fst]. apply step_effect in H; [|exact O].
  apply IH; [eapply effect_ok; eassumption|eapply effect_tables; eassumption].
Qed.
Lemma new_tables b x st : layout x -> new_session b x = Ok st -> all_sessions tables_ok st.
Proof.
  intros L H. unfold new_session in H. destruct (private_sources_spec x L) as (names & PS & N & I). rewrite PS in H. cbn [bind] in H. injection H as <-.
  intros [|(k, i) p] s (c & F & <-); [|destruct k; discriminate F]. cbn in F. injection F as <-. cbn [a_data].
  assert (D : dkeys (map (fun n => (n, @nil constraint)) names) = names) by (unfold dkeys; rewrite map_map; apply map_id).
  assert (D2 : dict_of (map (fun n => (n, @nil constraint)) names) = map (fun n => (n, @nil constraint)) names).
  { apply dict_of_NoDup. unfold dkeys in D. rewrite D. exact N. }
  rewrite D2. constructor; cbn [s_tree s_cons]; rewrite ?D; assumption.
Qed.
End Inv.
