(** Two session trees that show the same do the same. *)
From Coq Require Import String Bool Arith ZArith QArith Lia Permutation List.
From Verif Require Import Prelude Budget BudgetProofs Value Rows Constraints Schema SchemaProofs Query Transform TransformConform TransformVisit Tables TablesProofs
  Accountant AccountantProofs Session SessionSpec SessionMoney SessionSteps SessionTables SessionInv SessionViews SessionWell SessionUse SessionViewTotal SessionSound MoreBudget
  BlindSpec Measure Footprint Props_Measure Props_Sound Props_Footprint.
Import ListNotations.
Local Open Scope string_scope.
Local Open Scope nat_scope.

(** ** Specification *)

(** The ID spaces of a session, also those that no table is left in. *)
Definition id_spaces (x : tree) : list string :=
  match x with TDict _ kids => flat_map (fun e => match fst e with TableCollection c => [c] | _ => [] end) kids | TLeaf _ => [] end.
(** The same tables under the same names.  Where they are stored, what else is stored, and
    in which order, may differ. *)
Definition same_tables (x x' : tree) : Prop :=
  (forall n, table_named x n = table_named x' n) /\ (forall c, In c (id_spaces x) <-> In c (id_spaces x')).
(** Two sessions that show the same: budgets, charges, tables and constraints. *)
Record shows (s s' : sess) : Prop := {
  sh_initial : s_initial s = s_initial s';
  sh_left : s_left s = s_left s';
  sh_log : s_log s = s_log s';
  sh_tables : same_tables (s_tree s) (s_tree s');
  sh_cons : forall n, dget n (s_cons s) = dget n (s_cons s')
}.
(** So do all sessions of two trees, and their accountants are in the same states. *)
Inductive tree_shows : acct sess -> acct sess -> Prop :=
| TreeShows st s s' l l' : shows s s' -> Forall2 (Forall2 tree_shows) l l' -> tree_shows (Acct st s l) (Acct st s' l').
Definition state_shows (st st' : state) : Prop :=
  tree_shows (st_root st) (st_root st') /\ forall n, dget n (st_public st) = dget n (st_public st').
(** What is left open about tmlt.core does not depend on where tables are stored, and
    intermediate tables can be stored. *)
Record indifferent (E : env) (K : core) (auto : bool) (so : list string -> list string) : Prop := {
  in_compiles : compiles_with E K auto so;
  in_relation : forall x x' q b, same_tables x x' -> e_relation E x q b = e_relation E x' q b;
  in_temps : forall x q, layout x -> exists x1, add_temps (e_temps E x q) x = Ok x1
}.

(** ** Trees *)

Lemma tree_shows_state t t' : tree_shows t t' -> a_state t' = a_state t. Proof. intros []; reflexivity. Qed.
Lemma tree_shows_data t t' : tree_shows t t' -> shows (a_data t) (a_data t'). Proof. intros []; assumption. Qed.
Lemma tree_shows_parts t t' : tree_shows t t' -> Forall2 (Forall2 tree_shows) (a_parts t) (a_parts t'). Proof. intros []; assumption. Qed.
Lemma tree_shows_find p : forall t t', tree_shows t t' ->
  match find p t, find p t' with Some c, Some c' => tree_shows c c' | None, None => True | _, _ => False end.
Proof.
  induction p as [|(k, i) p IH]; intros t t' H; [exact H|]. cbn [find]. pose proof (forall2_nth_error _ _ _ (tree_shows_parts _ _ H) k) as X.
  destruct (nth_error (a_parts t) k) as [pt|], (nth_error (a_parts t') k) as [pt'|]; try contradiction; [|exact I].
  pose proof (forall2_nth_error _ _ _ X i) as Y. destruct (nth_error pt i), (nth_error pt' i); try contradiction; [|exact I]. apply IH, Y.
Qed.
Lemma tree_shows_change p f g : (forall t t', tree_shows t t' -> tree_shows (f t) (g t')) -> forall t t', tree_shows t t' -> tree_shows (change p f t) (change p g t').
Proof.
  intros H. induction p as [|(k, i) p IH]; intros t t' A; [apply H, A|]. cbn [change]. rewrite (tree_shows_state _ _ A).
  constructor; [apply tree_shows_data, A|]. apply forall2_upd; [|apply tree_shows_parts, A]. intros l l'. apply forall2_upd. exact IH.
Qed.
Lemma tree_shows_retire_all : forall t t', tree_shows t t' -> tree_shows (retire_all t) (retire_all t').
Proof.
  apply (acct_ind' (fun t => forall t', tree_shows t t' -> tree_shows (retire_all t) (retire_all t'))). intros st s parts IH t' H. inversion H; subst. cbn [retire_all].
  constructor; [assumption|]. apply forall2_map with (R := Forall2 tree_shows); [assumption|]. intros a b I F. apply forall2_map with (R := tree_shows); [exact F|]. intros x y J. apply (IH a x I J).
Qed.
Lemma tree_shows_retired l l' : Forall2 (Forall2 tree_shows) l l' -> Forall2 (Forall2 tree_shows) (map (map retire_all) l) (map (map retire_all) l').
Proof. intros F. apply forall2_map with (R := Forall2 tree_shows); [exact F|]. intros a b _ X. apply forall2_map with (R := tree_shows); [exact X|]. intros x y _. apply tree_shows_retire_all. Qed.
Lemma tree_shows_set_state a t t' : tree_shows t t' -> tree_shows (set_state a t) (set_state a t').
Proof. intros H. unfold set_state. constructor; [apply tree_shows_data, H|apply tree_shows_parts, H]. Qed.
Lemma tree_shows_reclaim t t' : tree_shows t t' -> tree_shows (reclaim t) (reclaim t').
Proof. intros H. unfold reclaim. constructor; [apply tree_shows_data, H|]. apply tree_shows_retired, tree_shows_parts, H. Qed.
Lemma tree_shows_skip i l l' : Forall2 tree_shows l l' -> Forall2 tree_shows (skip_to i l) (skip_to i l').
Proof.
  intros F. unfold skip_to. apply forall2_app.
  - apply forall2_map with (R := tree_shows); [apply forall2_firstn, F|]. intros a b _. apply tree_shows_retire_all.
  - apply forall2_upd; [intros a b; apply tree_shows_set_state|apply forall2_skipn, F].
Qed.
Lemma tree_shows_force p : forall t t', tree_shows t t' -> tree_shows (force_activate p t) (force_activate p t').
Proof.
  induction p as [|(k, i) p IH]; intros t t' H; [apply tree_shows_reclaim, H|]. destruct p as [|x p].
  - cbn [force_activate]. pose proof (tree_shows_find [(k, i)] t t' H) as X. destruct (find [(k, i)] t) as [c|], (find [(k, i)] t') as [c'|]; try contradiction; [|exact H].
    rewrite (tree_shows_state _ _ X). destruct (a_state c); try (apply (tree_shows_change [(k, i)]); [apply tree_shows_reclaim|exact H]).
    rewrite (tree_shows_state _ _ H). constructor; [apply tree_shows_data, H|]. apply forall2_upd; [intros a b; apply tree_shows_skip|apply tree_shows_parts, H].
  - change (force_activate ((k, i) :: x :: p)) with (fun t : acct sess => Acct (a_state t) (a_data t) (upd k (upd i (force_activate (x :: p))) (a_parts t))).
    cbv beta. rewrite (tree_shows_state _ _ H). constructor; [apply tree_shows_data, H|]. apply forall2_upd; [|apply tree_shows_parts, H]. intros a b. apply forall2_upd. exact IH.
Qed.
Lemma tree_shows_retire_part k i t t' : tree_shows t t' -> tree_shows (retire_part k i t) (retire_part k i t').
Proof.
  intros H. unfold retire_part. pose proof (forall2_nth_error _ _ _ (tree_shows_parts _ _ H) k) as X.
  destruct (nth_error (a_parts t) k) as [pt|], (nth_error (a_parts t') k) as [pt'|]; try contradiction; [|exact H].
  assert (F : Forall2 (Forall2 tree_shows) (upd k (upd i retire_all) (a_parts t)) (upd k (upd i retire_all) (a_parts t'))).
  { apply forall2_upd; [|apply tree_shows_parts, H]. intros a b. apply forall2_upd, tree_shows_retire_all. }
  rewrite (forall2_len _ _ _ X). destruct (S i <? length pt).
  - rewrite (tree_shows_state _ _ H). constructor; [apply tree_shows_data, H|]. apply forall2_upd; [|exact F]. intros a b. apply forall2_upd. intros x y. apply tree_shows_set_state.
  - constructor; [apply tree_shows_data, H|exact F].
Qed.
Lemma tree_shows_retire_active p : forall t t', tree_shows t t' -> tree_shows (retire_active p t) (retire_active p t').
Proof.
  induction p as [|(k, i) p IH]; intros t t' H; [apply tree_shows_retire_all, H|]. destruct p as [|x p]; [apply tree_shows_retire_part, H|].
  change (retire_active ((k, i) :: x :: p)) with (fun t : acct sess => Acct (a_state t) (a_data t) (upd k (upd i (retire_active (x :: p))) (a_parts t))).
  cbv beta. rewrite (tree_shows_state _ _ H). constructor; [apply tree_shows_data, H|]. apply forall2_upd; [|apply tree_shows_parts, H]. intros a b. apply forall2_upd. exact IH.
Qed.
Lemma tree_shows_retire w p t t' : tree_shows t t' -> tree_shows (fst (retire w p t)) (fst (retire w p t')) /\ snd (retire w p t') = snd (retire w p t).
Proof.
  intros H. unfold retire. pose proof (tree_shows_find p t t' H) as X. destruct (find p t) as [c|], (find p t') as [c'|]; try contradiction; cbn [option_map]; [|auto].
  rewrite (tree_shows_state _ _ X). destruct (a_state c); cbn [fst snd]; [split; [apply tree_shows_retire_active, H|reflexivity]|auto| |];
    (destruct w; cbn [fst snd]; split; [apply tree_shows_retire_active, tree_shows_force, H|reflexivity|exact H|reflexivity]).
Qed.
Lemma tree_shows_activate p t t' : tree_shows t t' -> tree_shows (fst (activate p t)) (fst (activate p t')) /\ snd (activate p t') = snd (activate p t).
Proof.
  intros H. unfold activate. pose proof (tree_shows_find p t t' H) as X. destruct (find p t) as [c|], (find p t') as [c'|]; try contradiction; cbn [option_map]; [|auto].
  rewrite (tree_shows_state _ _ X). destruct (a_state c); cbn [fst snd]; auto; (split; [apply tree_shows_force, H|reflexivity]).
Qed.
Lemma tree_shows_new l l' : Forall2 shows l l' -> Forall2 tree_shows (new_parts l) (new_parts l').
Proof.
  intros F. destruct F as [|s s' l l' H F]; cbn [new_parts]; constructor; [constructor; [exact H|constructor]|].
  induction F; cbn [map]; constructor; [constructor; [assumption|constructor]|assumption].
Qed.
Lemma tree_shows_split s s' l l' t t' : shows s s' -> Forall2 shows l l' -> tree_shows t t' -> tree_shows (split_at s l t) (split_at s' l' t').
Proof.
  intros R F H. unfold split_at. constructor; [exact R|]. apply forall2_app; [apply tree_shows_parts, H|]. constructor; [apply tree_shows_new, F|constructor].
Qed.
Lemma tree_shows_set_data s s' t t' : shows s s' -> tree_shows t t' -> tree_shows (set_data s t) (set_data s' t').
Proof. intros R H. unfold set_data. rewrite (tree_shows_state _ _ H). constructor; [exact R|apply tree_shows_parts, H]. Qed.


(** ** Tables *)

Lemma same_named x x' : layout x -> layout x' -> ((forall n, table_named x n = table_named x' n) <-> (forall n, dget n (named x) = dget n (named x'))).
Proof.
  intros L L'. split; intros H n; specialize (H n); rewrite ?(table_named_spec x n L), ?(table_named_spec x' n L') in *.
  - destruct (dget n (named x)), (dget n (named x')); congruence.
  - rewrite H. reflexivity.
Qed.
Lemma same_keys (d d' : dict vtab) : (forall n, dget n d = dget n d') -> forall n, In n (dkeys d) <-> In n (dkeys d').
Proof. intros H n. rewrite !in_dkeys. setoid_rewrite H. reflexivity. Qed.
Lemma same_sources x x' names names' n : layout x -> layout x' -> same_tables x x' -> private_sources x = Ok names -> private_sources x' = Ok names' -> smem n names' = smem n names.
Proof.
  intros L L' (T & _) P P'. apply Bool.eq_iff_eq_true. rewrite (mem_names x' names' n L' P'), (mem_names x names n L P). symmetry. apply same_keys, same_named; assumption.
Qed.
Lemma sources_exist x : layout x -> exists names, private_sources x = Ok names.
Proof. intros L. destruct (private_sources_spec x L) as (names & P & _). eauto. Qed.
Lemma same_mem {V} (d d' : dict V) n : (forall n, dget n d = dget n d') -> dmem n d' = dmem n d.
Proof. intros H. unfold dmem. rewrite H. reflexivity. Qed.
Lemma shows_refl s : shows s s.
Proof. split; try reflexivity. split; reflexivity. Qed.
Lemma shows_charged s s' r c : shows s s' -> shows (charged s r c) (charged s' r c).
Proof. intros [A B C D F]. split; cbn; auto. congruence. Qed.
(** ID spaces are kept when tables are added. *)
Lemma spaces_app l l' b b' : id_spaces (TDict b (l ++ l')) = (id_spaces (TDict b' l) ++ id_spaces (TDict b' l'))%list.
Proof. cbn. apply flat_map_app. Qed.
Lemma spaces_iset k y z : forall kids : list (ident * tree), iget k kids = Some z -> id_spaces (TDict false (iset k y kids)) = id_spaces (TDict false kids).
Proof.
  intros kids G. destruct (iget_split k z kids G) as (l1 & l2 & -> & S). rewrite S. cbn [id_spaces]. rewrite !flat_map_app. reflexivity.
Qed.
Lemma spaces_update r f : (forall y y', f y = Ok y' -> id_spaces y' = id_spaces y) -> forall x x', update_at r f x = Ok x' -> id_spaces x' = id_spaces x.
Proof.
  intros F x x' H. destruct r as [|k r]; [apply F, H|]. cbn [update_at] in H. destruct x as [t|ark kids]; [discriminate|]. destruct (iget k kids) as [y|] eqn:G; [|discriminate].
  apply bind_ok in H as (y' & _ & H). apply bind_ok in H as ([] & _ & H). injection H as <-. exact (spaces_iset k y' y kids G).
Qed.
Lemma spaces_add k y r x x' : (forall c, k <> TableCollection c) -> update_at r (add_entry k y) x = Ok x' -> id_spaces x' = id_spaces x.
Proof.
  intros NK. apply spaces_update. intros z z' H. unfold add_entry in H. destruct z as [t|ark kids]; [discriminate|].
  apply bind_ok in H as ([] & _ & H). apply bind_ok in H as ([] & _ & H). injection H as <-. cbn. rewrite flat_map_app. cbn. destruct k; try (exfalso; eapply NK; reflexivity); rewrite app_nil_r; reflexivity.
Qed.
Lemma spaces_add_temps l : forall x x', add_temps l x = Ok x' -> id_spaces x' = id_spaces x.
Proof.
  induction l as [|e l IH]; intros x x' H; [injection H as ->; reflexivity|]. cbn in H. apply bind_ok in H as (y & A & H). rewrite (IH _ _ H). unfold add_temp in A. eapply spaces_add; [|exact A]. discriminate.
Qed.
Lemma spaces_rename x r new x' : rename_table x r new = Ok x' -> (forall c, new <> TableCollection c) -> id_spaces x' = id_spaces x.
Proof.
  intros H N. unfold rename_table in H. apply bind_ok in H as (? & _ & H). apply bind_ok in H as (? & _ & H). apply bind_ok in H as (? & _ & H). eapply spaces_add; [exact N|exact H].
Qed.
Lemma spaces_view l2 E q name (cache : bool) x x1 cat data y z z' x4 : build_transformation (e_world E) l2 cat data q = Ok y -> add_temps (e_temps E x q) x = Ok x1 -> add_result (fst y) x1 = Ok z ->
  (if cache then let* x3 := rename_table (fst z) (snd z) (fresh (fst z)) in
                 let* par := ref_parent (snd z) in Ok (x3, (par ++ [fresh (fst z)])%list) else Ok z) = Ok z' ->
  rename_table (fst z') (snd z') (NamedTable name) = Ok x4 -> id_spaces x4 = id_spaces x.
Proof.
  intros _ A R C N. rewrite (spaces_rename _ _ _ _ N) by discriminate. rewrite <- (spaces_add_temps _ _ _ A).
  assert (Z : id_spaces (fst z) = id_spaces x1). { unfold add_result in R. apply bind_ok in R as (w & W & R). injection R as <-. cbn. unfold add_temp in W. eapply spaces_add; [|exact W]. discriminate. }
  destruct cache; [|injection C as <-; exact Z]. apply bind_ok in C as (x3 & R3 & C). apply bind_ok in C as (par & _ & C). injection C as <-. cbn [fst]. rewrite (spaces_rename _ _ _ _ R3) by (unfold fresh; discriminate). exact Z.
Qed.

(** *** Deleting *)

(** Something else is stored beside the table. *)
Definition crowded (n : string) (t : vtab) (x : tree) : Prop :=
  (exists m u, m <> n /\ dget m (named x) = Some u /\ v_coll u = v_coll t) \/ (v_coll t = None /\ id_spaces x <> []).
Lemma crowded_same n t x x' : (forall m, dget m (named x) = dget m (named x')) -> (forall c, In c (id_spaces x) <-> In c (id_spaces x')) -> crowded n t x -> crowded n t x'.
Proof.
  intros N S [(m & u & NE & G & C)|(C & I)]; [left; exists m, u; rewrite <- N; auto|]. right. split; [exact C|]. intros H. apply I. destruct (id_spaces x) as [|c l]; [reflexivity|].
  exfalso. pose proof (proj1 (S c) (or_introl eq_refl)) as J. rewrite H in J. exact J.
Qed.
Lemma crowded_dec n t x : NoDup (dkeys (named x)) -> crowded n t x \/ ~ crowded n t x.
Proof.
  intros ND. assert (OD : forall a b : option string, {a = b} + {a <> b}) by (decide equality; apply string_dec).
  destruct (existsb (fun p => negb (String.eqb (fst p) n) && if OD (v_coll (snd p)) (v_coll t) then true else false) (named x)) eqn:B.
  - left. left. apply existsb_exists in B as ((m, u) & I & B). cbn in B. apply andb_prop in B as (B & B'). apply Bool.negb_true_iff, String.eqb_neq in B. destruct (OD _ _) as [C|]; [|discriminate].
    exists m, u. split; [exact B|]. split; [apply In_dget; assumption|exact C].
  - assert (X : ~ exists m u, m <> n /\ dget m (named x) = Some u /\ v_coll u = v_coll t).
    { intros (m & u & NE & G & C). apply Bool.not_true_iff_false in B. apply B. apply existsb_exists. exists (m, u). split; [apply dget_In, G|]. cbn. apply String.eqb_neq in NE. rewrite NE. cbn.
      destruct (OD _ _); [reflexivity|contradiction]. }
    destruct (OD (v_coll t) None) as [C|C]; [|right; intros [H|(H & _)]; contradiction]. destruct (id_spaces x) as [|c l] eqn:S.
    + right. intros [H|(_ & H)]; [contradiction|congruence].
    + left. right. split; [exact C|]. rewrite S. discriminate.
Qed.
Lemma filter_nil {A} (f : A -> bool) l : (length (filter f l) =? 0) = true <-> forall e, In e l -> f e = false.
Proof.
  rewrite Nat.eqb_eq. split.
  - intros H e I. destruct (f e) eqn:F; [|reflexivity]. exfalso. pose proof (proj2 (filter_In f e l) (conj I F)) as J. destruct (filter f l); [exact J|discriminate].
  - intros H. destruct (filter f l) as [|e l'] eqn:F; [reflexivity|]. exfalso. assert (J : In e (filter f l)) by (rewrite F; left; reflexivity). apply filter_In in J as (I & J). rewrite (H e I) in J. discriminate.
Qed.
Lemma delete_cases empty_ok shuffle x n t : (forall l, Permutation (shuffle l) l) -> layout x -> In (n, t) (named x) ->
  (empty_ok = true \/ crowded n t x /\ empty_ok = false -> exists x', delete_table empty_ok shuffle x (table_ref n t) = Ok x' /\ forall c, In c (id_spaces x') <-> In c (id_spaces x))
  /\ (~ crowded n t x /\ empty_ok = false -> delete_table empty_ok shuffle x (table_ref n t) = Err ValueError).
Proof.
  intros SH L I. pose proof (layout_nodup x L) as ND. destruct L as [kids N T ND']. unfold delete_table, table_ref. destruct (ref_split_last (collection_ref (v_coll t)) (NamedTable n)) as (E1 & E2). rewrite E1, E2. cbn [bind].
  pose proof I as I0. apply (in_named kids n t T) in I0 as [I0|(c & l & I0 & J0)].
  - pose proof (T _ I0) as (C & _). rewrite C. cbn [collection_ref update_at]. set (keep := fun e : ident * tree => negb (is_temporary (fst e)) && negb (ident_eqb (NamedTable n) (fst e))).
    assert (X : (length (filter keep kids) =? 0) = true <-> ~ crowded n t (TDict false kids)).
    { rewrite filter_nil. split.
      - intros H [(m & u & NE & G & CU)|(_ & NS)].
        + apply dget_In in G. apply (in_named kids m u T) in G as [G|(c & l & G & J)].
          * specialize (H _ G). unfold keep in H. cbn in H. apply Bool.negb_false_iff, String.eqb_eq in H. congruence.
          * pose proof (T _ G) as (_ & LE). pose proof (LE _ J) as (CU' & _). congruence.
        + destruct (id_spaces (TDict false kids)) as [|c0 l0] eqn:Q; [congruence|]. assert (J : In c0 (id_spaces (TDict false kids))) by (rewrite Q; left; reflexivity).
          cbn in J. apply in_flat_map in J as ((k, y) & J & K). specialize (H _ J). destruct k; cbn in K; try contradiction. discriminate H.
      - intros NC (k, y) J. destruct k as [m|c|i]; [|exfalso|reflexivity].
        + unfold keep. cbn. apply Bool.negb_false_iff, String.eqb_eq. destruct (string_dec m n) as [->|NE]; [reflexivity|]. exfalso. apply NC. left.
          pose proof (T _ J) as TE. cbn in TE. destruct y as [u|]; [|contradiction]. exists m, u. split; [exact NE|]. split; [|destruct TE; congruence].
          apply In_dget; [exact ND|]. apply (in_named kids m u T). left. exact J.
        + apply NC. right. split; [exact C|]. cbn. intros Q. assert (W : In c (flat_map (fun e : ident * tree => match fst e with TableCollection c => [c] | _ => [] end) kids)) by (apply in_flat_map; exists (TableCollection c, y); split; [exact J|left; reflexivity]). rewrite Q in W. exact W. }
    split.
    + intros H. assert (B : negb empty_ok && (length (filter keep kids) =? 0) = false).
      { destruct H as [->|(CR & ->)]; [reflexivity|]. cbn. destruct (length (filter keep kids) =? 0); [|reflexivity]. exfalso. apply (proj1 X eq_refl), CR. }
      rewrite B. cbn [raise_if bind]. eexists. split; [reflexivity|]. intros c. cbn [id_spaces]. rewrite !in_flat_map. split; intros (e & J & K).
      * apply (Permutation_in _ (SH _)) in J. apply filter_In in J as (J & _). eauto.
      * exists e. split; [|exact K]. apply (Permutation_in _ (Permutation_sym (SH _))), filter_In. split; [exact J|]. destruct e as (k, y). cbn in K. destruct k; try contradiction. reflexivity.
    + intros (NC & ->). rewrite (proj2 X NC). reflexivity.
  - pose proof (T _ I0) as (N2 & LE). pose proof (LE _ J0) as (C & _). rewrite C. cbn [collection_ref update_at]. rewrite (in_iget _ _ _ N I0). set (keep := fun e : ident * tree => negb (is_temporary (fst e)) && negb (ident_eqb (NamedTable n) (fst e))).
    assert (X : (length (filter keep l) =? 0) = true <-> ~ crowded n t (TDict false kids)).
    { rewrite filter_nil. split.
      - intros H [(m & u & NE & G & CU)|(C' & _)]; [|congruence]. apply dget_In in G. rewrite C in CU. apply (in_named kids m u T) in G as [G|(c' & l' & G & J)].
        + pose proof (T _ G) as (CU' & _). congruence.
        + pose proof (T _ G) as (_ & LE'). pose proof (LE' _ J) as (CU' & _). rewrite CU in CU'. injection CU' as <-. pose proof (in_iget _ _ _ N G) as G1. rewrite (in_iget _ _ _ N I0) in G1. injection G1 as <-.
          specialize (H _ J). unfold keep in H. cbn in H. apply Bool.negb_false_iff, String.eqb_eq in H. congruence.
      - intros NC (k, y) J. pose proof (LE _ J) as TE. cbn in TE. destruct k as [m|c'|i]; [|contradiction|reflexivity]. destruct y as [u|]; [|contradiction].
        unfold keep. cbn. apply Bool.negb_false_iff, String.eqb_eq. destruct (string_dec m n) as [->|NE]; [reflexivity|]. exfalso. apply NC. left. exists m, u. split; [exact NE|]. split; [|destruct TE; congruence].
        apply In_dget; [exact ND|]. apply (in_named kids m u T). right. eauto. }
    split.
    + intros H. assert (B : negb empty_ok && (length (filter keep l) =? 0) = false).
      { destruct H as [->|(CR & ->)]; [reflexivity|]. cbn. destruct (length (filter keep l) =? 0); [|reflexivity]. exfalso. apply (proj1 X eq_refl), CR. }
      rewrite B. cbn [raise_if bind]. eexists. split; [reflexivity|]. intros c'. rewrite (spaces_iset _ _ _ _ (in_iget _ _ _ N I0)). reflexivity.
    + intros (NC & ->). rewrite (proj2 X NC). reflexivity.
Qed.

(** ** Calls *)
Section Shown.
Variables (E : env) (K : core) (auto : bool) (so : list string -> list string).
Hypothesis IN : indifferent E K auto so.

Definition shown {A} (x x' : state * res A) : Prop := state_shows (fst x) (fst x') /\ snd x' = snd x.
(** What is known of a session of a state. *)
Definition known (st : state) (s : sess) : Prop := tables_ok s /\ fine s /\ readable_public st.
Lemma any_known st p s : any_state E st -> session_at st p = Ok s -> known st s.
Proof. intros A S. apply session_at_iff in S. destruct (any_state_facts E st A) as (T & F & R). split; [exact (T p s S)|]. split; [exact (F p s S)|exact R]. Qed.

Lemma attempt_shown {A B} st st' (r : res A) (k k' : A -> state * res B) : state_shows st st' -> (forall a, r = Ok a -> shown (k a) (k' a)) -> shown (attempt st r k) (attempt st' r k').
Proof. intros H C. unfold attempt. destruct r as [a|e]; [apply C; reflexivity|]. split; [exact H|reflexivity]. Qed.
Lemma session_shown {B} st st' p (k k' : sess -> state * res B) : state_shows st st' ->
  (forall s s', session_at st p = Ok s -> session_at st' p = Ok s' -> shows s s' -> shown (k s) (k' s')) -> shown (attempt st (session_at st p) k) (attempt st' (session_at st' p) k').
Proof.
  intros H C. unfold session_at in *. pose proof (tree_shows_find p _ _ (proj1 H)) as X. destruct (find p (st_root st)) as [c|], (find p (st_root st')) as [c'|]; try contradiction; cbn [attempt].
  - apply C; [reflexivity|reflexivity|apply tree_shows_data, X].
  - split; [exact H|reflexivity].
Qed.
Lemma activated_shown {B} st st' p (k k' : state -> state * res B) : state_shows st st' ->
  (forall st1 st1', state_shows st1 st1' -> st_public st1 = st_public st -> st_public st1' = st_public st' -> shown (k st1) (k' st1')) -> shown (activated p st k) (activated p st' k').
Proof.
  intros (H & P) C. unfold activated. destruct (tree_shows_activate p _ _ H) as (A & B'). destruct (activate p (st_root st)) as (t, r), (activate p (st_root st')) as (t', r'). cbn [fst snd] in *. subst r'.
  assert (X : state_shows (set_root st t) (set_root st' t')) by (split; [exact A|exact P]). destruct r as [u|e]; [apply C; [exact X|reflexivity|reflexivity]|]. split; [exact X|reflexivity].
Qed.
Lemma fails_shown {B} st st' e : state_shows st st' -> shown (@fails B st e) (fails st' e).
Proof. intros H. split; [exact H|reflexivity]. Qed.
Lemma put_shown st st' p s s' : state_shows st st' -> shows s s' ->
  state_shows (set_root st (change p (set_data s) (st_root st))) (set_root st' (change p (set_data s') (st_root st'))).
Proof. intros (H & P) R. split; [|exact P]. cbn [st_root set_root]. apply tree_shows_change; [|exact H]. intros t t' A. apply tree_shows_set_data; assumption. Qed.

(** Both sessions have catalogs that agree on every query. *)
Lemma same_for q s s' pub pub' : shows s s' -> (forall n, dget n pub = dget n pub') -> same_tables_for q s pub s' pub'.
Proof.
  intros [_ _ _ (T & _) C] P. split; intros n _; [|apply P]. split; [apply T|]. split; [apply C|]. unfold public_sources. rewrite !in_dkeys. setoid_rewrite P. reflexivity.
Qed.
Lemma both_agree st st' s s' : known st s -> known st' s' -> shows s s' -> (forall n, dget n (st_public st) = dget n (st_public st')) ->
  exists cat data cat' data', catalog_of (s_tree s) (st_public st) (s_cons s) = Ok cat /\ data_of (s_tree s) = Ok data
    /\ catalog_of (s_tree s') (st_public st') (s_cons s') = Ok cat' /\ data_of (s_tree s') = Ok data' /\ forall q, agree_for q cat data cat' data'.
Proof.
  intros (T & F & R) (T' & F' & R') SH P. destruct (catalogs_exist st s T F R) as (cat & data & CA & DA). destruct (catalogs_exist st' s' T' F' R') as (cat' & data' & CA' & DA').
  exists cat, data, cat', data'. repeat (split; [assumption|]). intros q. exact (agree_sessions q s s' _ _ cat cat' data data' T T' CA DA CA' DA' (same_for q s s' _ _ SH P)).
Qed.
Lemma compile_shown st st' s s' q b : known st s -> known st' s' -> shows s s' -> (forall n, dget n (st_public st) = dget n (st_public st')) ->
  compile_and_get_info E s' (st_public st') q b = compile_and_get_info E s (st_public st) q b.
Proof.
  intros KN KN' SH P. destruct (both_agree st st' s s' KN KN' SH P) as (cat & data & cat' & data' & CA & DA & CA' & DA' & AG). specialize (AG q).
  unfold compile_and_get_info. rewrite <- (sh_left _ _ SH). destruct (lift_pure _ _ _) as [b1|]; cbn [bind]; [|reflexivity]. destruct (validate_type _ _); cbn [bind]; [|reflexivity].
  destruct (raise_if _ _); cbn [bind]; [|reflexivity]. destruct (process_budget _ _ _) as [adj|]; cbn [bind]; [|reflexivity]. rewrite CA, CA'. cbn [bind].
  rewrite (schema_same _ _ _ _ _ _ AG). destruct (schema_of _ _ _); cbn [bind]; [|reflexivity]. rewrite !(in_compiles _ _ _ _ IN), DA, DA'. cbn [bind].
  symmetry. erewrite Footprint.compile_same; [reflexivity|exact AG].
Qed.
Lemma evaluate_shown st st' p q b : any_state E st -> any_state E st' -> state_shows st st' -> shown (evaluate E st p q b) (evaluate E st' p q b).
Proof.
  intros A A' H. unfold evaluate. apply session_shown; [exact H|]. intros s s' S S' SH.
  rewrite (compile_shown st st' s s' q b (any_known _ _ _ A S) (any_known _ _ _ A' S') SH (proj2 H)). apply attempt_shown; [exact H|]. intros adj _.
  apply activated_shown; [exact H|]. intros st1 st1' H1 _ _. rewrite (in_relation _ _ _ _ IN _ _ q adj (sh_tables _ _ SH)), <- (sh_left _ _ SH).
  destruct (negb _); [apply fails_shown, H1|]. destruct (spend _ _) as [r|]; [|apply fails_shown, H1]. split; [apply put_shown; [exact H1|apply shows_charged, SH]|reflexivity].
Qed.
Lemma spend_only_shown st st' p q b : any_state E st -> any_state E st' -> state_shows st st' -> shown (spend_without_executing E st p q b) (spend_without_executing E st' p q b).
Proof.
  intros A A' H. unfold spend_without_executing. apply session_shown; [exact H|]. intros s s' S S' SH.
  rewrite (compile_shown st st' s s' q b (any_known _ _ _ A S) (any_known _ _ _ A' S') SH (proj2 H)). apply attempt_shown; [exact H|]. intros adj _.
  apply activated_shown; [exact H|]. intros st1 st1' H1 _ _. rewrite <- (sh_left _ _ SH).
  destruct (spend _ _) as [r|]; [|apply fails_shown, H1]. split; [apply put_shown; [exact H1|apply shows_charged, SH]|reflexivity].
Qed.
Lemma public_shown st st' p n f : any_state E st -> any_state E st' -> state_shows st st' -> shown (add_public_dataframe E st p n f) (add_public_dataframe E st' p n f).
Proof.
  intros A A' H. unfold add_public_dataframe. apply session_shown; [exact H|]. intros s s' S S' SH.
  destruct (any_known _ _ _ A S) as (T & _), (any_known _ _ _ A' S') as (T' & _). pose proof (tk_layout _ T) as L. pose proof (tk_layout _ T') as L'.
  apply attempt_shown; [exact H|]. intros _ _. destruct (sources_exist _ L) as (names & PS), (sources_exist _ L') as (names' & PS'). rewrite PS, PS'. cbn [attempt].
  rewrite (same_sources _ _ names names' n L L' (sh_tables _ _ SH) PS PS'), (same_mem _ _ n (proj2 H)). apply attempt_shown; [exact H|]. intros _ _. apply attempt_shown; [exact H|]. intros f' _.
  split; [|reflexivity]. split; [apply H|]. cbn. intros m. rewrite !SchemaProofs.dget_app, (proj2 H m). reflexivity.
Qed.
Lemma shows_view s s' x x' name t cs : shows s s' -> layout (s_tree s) -> layout (s_tree s') -> layout x -> layout x' -> ~ In name (dkeys (named (s_tree s))) -> ~ In name (dkeys (named (s_tree s'))) ->
  Permutation (named x) ((name, t) :: named (s_tree s)) -> Permutation (named x') ((name, t) :: named (s_tree s')) ->
  id_spaces x = id_spaces (s_tree s) -> id_spaces x' = id_spaces (s_tree s') ->
  shows (with_tables s x (dset name cs (s_cons s))) (with_tables s' x' (dset name cs (s_cons s'))).
Proof.
  intros [A B C (T & S) D] L L' Lx Lx' NI NI' P P' SP SP'. split; cbn; auto.
  - split; [|rewrite SP, SP'; exact S]. apply (same_named x x' Lx Lx'). intros n. rewrite (perm_dget _ _ n (layout_nodup _ Lx) P), (perm_dget _ _ n (layout_nodup _ Lx') P'). cbn.
    destruct (String.eqb n name); [reflexivity|]. apply (same_named _ _ L L'), T.
  - intros n. destruct (string_dec n name) as [->|NE]; [rewrite !dget_dset_same; reflexivity|]. rewrite !dget_dset_other by congruence. apply D.
Qed.
Lemma view_shown st st' p q n c c' : any_state E st -> any_state E st' -> state_shows st st' -> shown (create_view E st p q n c) (create_view E st' p q n c').
Proof.
  intros A A' H. unfold create_view. apply session_shown; [exact H|]. intros s s' S S' SH. pose proof (any_known _ _ _ A S) as KN. pose proof (any_known _ _ _ A' S') as KN'.
  pose proof (tk_layout _ (proj1 KN)) as L. pose proof (tk_layout _ (proj1 KN')) as L'. destruct (both_agree st st' s s' KN KN' SH (proj2 H)) as (cat & data & cat' & data' & CA & DA & CA' & DA' & AG). specialize (AG q).
  apply attempt_shown; [exact H|]. intros _ _. apply activated_shown; [exact H|]. intros st1 st1' H1 P1 P1'. rewrite P1, P1'.
  destruct (sources_exist _ L) as (names & PS), (sources_exist _ L') as (names' & PS'). rewrite PS, PS'. cbn [attempt].
  rewrite (same_sources _ _ names names' n L L' (sh_tables _ _ SH) PS PS'), (same_mem _ _ n (proj2 H)). apply attempt_shown; [exact H1|]. intros [] RA.
  rewrite CA, CA', DA, DA'. cbn [attempt]. rewrite <- (sh_left _ _ SH).
  assert (BE : build_transformation (e_world E) (is_rho (s_left s)) cat data q = build_transformation (e_world E) (is_rho (s_left s)) cat' data' q) by exact (build_same _ _ _ _ _ _ _ AG). rewrite <- BE. apply attempt_shown; [exact H1|]. intros y BT.
  pose proof BT as BT'. rewrite BE in BT'.
  destruct (in_temps _ _ _ _ IN (s_tree s) q L) as (x1 & AT), (in_temps _ _ _ _ IN (s_tree s') q L') as (x1' & AT'). rewrite AT, AT'. cbn [attempt].
  destruct (add_temps_layout _ _ _ L AT) as (L1 & Q1). destruct (add_temps_layout _ _ _ L' AT') as (L1' & Q1').
  apply raise_if_ok in RA. apply Bool.orb_false_iff in RA as (SM & _).
  assert (NI : ~ In n (dkeys (named (s_tree s)))) by (intros I; apply (mem_names _ names n L PS) in I; congruence).
  assert (NI' : ~ In n (dkeys (named (s_tree s')))) by (intros I; apply NI; eapply same_keys; [apply (same_named _ _ L L'), SH|exact I]).
  destruct (store_exists q n c (s_tree s) x1 cat data y _ _ L NI DA BT L1 Q1) as (z & z1 & x4 & AR & RN & RN2).
  destruct (store_exists q n c' (s_tree s') x1' cat' data' y _ _ L' NI' DA' BT' L1' Q1') as (z' & z1' & x4' & AR' & RN' & RN2').
  rewrite AR, AR'. cbn [attempt]. rewrite RN, RN'. cbn [attempt]. rewrite RN2, RN2'. cbn [attempt].
  assert (SM' : smem n names' = false) by (rewrite (same_sources _ _ names names' n L L' (sh_tables _ _ SH) PS PS'); exact SM).
  destruct (view_tables E q n c _ x1 cat data y z z1 x4 names L PS SM DA _ BT AT AR RN RN2) as (LX & PX).
  destruct (view_tables E q n c' _ x1' cat' data' y z' z1' x4' names' L' PS' SM' DA' _ BT' AT' AR' RN' RN2') as (LX' & PX').
  split; [|reflexivity]. cbn [fst]. apply put_shown; [exact H1|]. eapply shows_view; eauto; eapply spaces_view; eassumption.
Qed.
Lemma shows_delete s s' x x' name t : tables_ok s -> tables_ok s' -> shows s s' -> layout x -> layout x' ->
  Permutation (named (s_tree s)) ((name, t) :: named x) -> Permutation (named (s_tree s')) ((name, t) :: named x') ->
  (forall c, In c (id_spaces x) <-> In c (id_spaces (s_tree s))) -> (forall c, In c (id_spaces x') <-> In c (id_spaces (s_tree s'))) ->
  shows (with_tables s x (ddel name (s_cons s))) (with_tables s' x' (ddel name (s_cons s'))).
Proof.
  intros T0 T0' [A B C (T & S) D] Lx Lx' P P' SP SP'. pose proof (tk_layout _ T0) as L. pose proof (tk_layout _ T0') as L'. split; cbn; auto.
  - split; [|intros c; rewrite SP, SP'; apply S]. apply (same_named x x' Lx Lx'). intros n.
    pose proof (perm_dget _ _ n (layout_nodup _ L) P) as G. pose proof (perm_dget _ _ n (layout_nodup _ L') P') as G'. cbn in G, G'.
    assert (X : forall z : tree, layout z -> forall y, NoDup (dkeys (named y)) -> Permutation (named y) ((name, t) :: named z) -> dget name (named z) = None).
    { intros z _ y ND PP. apply dget_None. intros I. apply (Permutation_map fst) in PP. cbn in PP. pose proof (Permutation_NoDup PP ND) as N2. inversion N2; subst. contradiction. }
    destruct (String.eqb n name) eqn:Q; [apply String.eqb_eq in Q; subst n; rewrite (X x Lx _ (layout_nodup _ L) P), (X x' Lx' _ (layout_nodup _ L') P'); reflexivity|].
    rewrite <- G, <- G'. apply (same_named _ _ L L'), T.
  - intros n. destruct (string_dec n name) as [->|NE].
    + assert (X : forall d : dict (list constraint), NoDup (dkeys d) -> dget name (ddel name d) = None) by (intros d ND; apply dget_None; intros I; apply (ddel_spec name d ND) in I as (I & _); congruence).
      rewrite !X by (apply tk_nodup; assumption). reflexivity.
    + rewrite !dget_ddel_other by congruence. apply D.
Qed.
Lemma delete_shown st st' p n : any_state E st -> any_state E st' -> state_shows st st' -> shown (delete_view E st p n) (delete_view E st' p n).
Proof.
  intros A A' H. unfold delete_view. apply session_shown; [exact H|]. intros s s' S S' SH. pose proof (proj1 (any_known _ _ _ A S)) as T. pose proof (proj1 (any_known _ _ _ A' S')) as T'.
  pose proof (tk_layout _ T) as L. pose proof (tk_layout _ T') as L'. pose proof (proj1 (same_named _ _ L L') (proj1 (sh_tables _ _ SH))) as NM.
  apply activated_shown; [exact H|]. intros st1 st1' H1 _ _. rewrite (find_reference_named _ n L), (find_reference_named _ n L'), <- NM.
  destruct (dget n (named (s_tree s))) as [t|] eqn:G; cbn [option_map]; [|apply fails_shown, H1]. pose proof G as G'. rewrite NM in G'. pose proof (dget_In _ _ _ G) as I. pose proof (dget_In _ _ _ G') as I'.
  rewrite (layout_domain _ n t L I), (layout_domain _ n t L' I'). cbn [attempt raise_if].
  assert (PL : v_coll t <> None -> has_key (TLeaf t) = true).
  { assert (PT : placed t). { destruct (data_of_spec _ L) as (d & DA & DG). eapply (data_placed _ d L DA n). rewrite DG. exact G. } unfold placed in PT. intros NC. cbn. destruct (v_place t); try reflexivity; contradiction. }
  assert (R : forall x, layout x -> In (n, t) (named x) -> dget n (named x) = Some t -> exists x1, rename_table x (table_ref n t) (fresh x) = Ok x1 /\ layout x1 /\ Permutation (named x1) (named x) /\ id_spaces x1 = id_spaces x).
  { intros x Lx J _. destruct (rename_exists (v_coll t) (NamedTable n) t x (fresh x) Lx (layout_get x n t Lx J)) as (x1 & RX); [|apply unused_fresh|exact PL|].
    - unfold has_collection. destruct (v_coll t) eqn:C; [|exact Logic.I]. exists n, t. auto.
    - exists x1. destruct (rename_layout _ _ _ _ _ _ Lx (layout_get x n t Lx J) RX (fresh_addable _ _ _ _)) as (LX & PX & _). split; [exact RX|]. split; [exact LX|]. split; [exact PX|].
      eapply spaces_rename; [exact RX|unfold fresh; discriminate]. }
  destruct (R _ L I G) as (x1 & R1 & L1 & P1 & S1). destruct (R _ L' I' G') as (x1' & R1' & L1' & P1' & S1'). rewrite R1, R1'. cbn [attempt].
  assert (I1 : In (n, t) (named x1)) by (eapply Permutation_in; [symmetry; exact P1|exact I]). assert (I1' : In (n, t) (named x1')) by (eapply Permutation_in; [symmetry; exact P1'|exact I']).
  assert (CR : crowded n t x1 <-> crowded n t x1').
  { assert (N1 : forall m, dget m (named x1) = dget m (named x1')). { intros m. rewrite (perm_dget _ _ m (layout_nodup _ L1) P1), (perm_dget _ _ m (layout_nodup _ L1') P1'). apply NM. }
    assert (C1 : forall c, In c (id_spaces x1) <-> In c (id_spaces x1')) by (rewrite S1, S1'; apply (sh_tables _ _ SH)).
    split; apply crowded_same; auto; intros; symmetry; auto. }
  destruct (delete_cases (e_empty_ok E) (e_shuffle E) x1 n t (e_shuffle_ok E) L1 I1) as (Y & N). destruct (delete_cases (e_empty_ok E) (e_shuffle E) x1' n t (e_shuffle_ok E) L1' I1') as (Y' & N').
  assert (GO : (exists x2 x2', delete_table (e_empty_ok E) (e_shuffle E) x1 (table_ref n t) = Ok x2 /\ delete_table (e_empty_ok E) (e_shuffle E) x1' (table_ref n t) = Ok x2'
       /\ (forall c, In c (id_spaces x2) <-> In c (id_spaces x1)) /\ (forall c, In c (id_spaces x2') <-> In c (id_spaces x1')))
     \/ (exists e, delete_table (e_empty_ok E) (e_shuffle E) x1 (table_ref n t) = Err e /\ delete_table (e_empty_ok E) (e_shuffle E) x1' (table_ref n t) = Err e)).
  { destruct (e_empty_ok E) eqn:EO.
    - left. destruct (Y (or_introl eq_refl)) as (x2 & D & C), (Y' (or_introl eq_refl)) as (x2' & D' & C'). exists x2, x2'. auto.
    - destruct (crowded_dec n t x1 (layout_nodup _ L1)) as [CN|CN].
      + left. destruct (Y (or_intror (conj CN eq_refl))) as (y & DY & CY). destruct (Y' (or_intror (conj (proj1 CR CN) eq_refl))) as (y' & DY' & CY'). exists y, y'. auto.
      + right. exists ValueError. split; [apply N; auto|]. apply N'. split; [intros X; apply CN, CR, X|reflexivity]. }
  destruct GO as [(x2 & x2' & D & D' & C & C')|(e & D & D')]; rewrite D, D'; cbn [attempt]; [|apply fails_shown, H1].
  destruct (delete_layout _ _ _ _ _ _ (e_shuffle_ok E) L1 I1 D) as (L2 & P2). destruct (delete_layout _ _ _ _ _ _ (e_shuffle_ok E) L1' I1' D') as (L2' & P2').
  split; [|reflexivity]. cbn [fst]. apply put_shown; [exact H1|]. apply (shows_delete s s' x2 x2' n t T T' SH L2 L2').
  - etransitivity; [symmetry; exact P1|exact P2].
  - etransitivity; [symmetry; exact P1'|exact P2'].
  - intros c. rewrite C, S1. reflexivity.
  - intros c. rewrite C', S1'. reflexivity.
Qed.

(** *** Partitions *)
Lemma partition_info st st' s s' src col sp : known st s -> known st' s' -> shows s s' -> (forall n, dget n (st_public st) = dget n (st_public st')) ->
  create_partition_transformation E s' (st_public st') src col sp = create_partition_transformation E s (st_public st) src col sp.
Proof.
  intros (T & _) (T' & _) SH P. pose proof (tk_layout _ T) as L. pose proof (tk_layout _ T') as L'. pose proof (proj1 (same_named _ _ L L') (proj1 (sh_tables _ _ SH))) as NM.
  unfold create_partition_transformation. rewrite <- (sh_left _ _ SH), <- (sh_cons _ _ SH). destruct (dget src (named (s_tree s))) as [t|] eqn:G.
  - pose proof G as G'. rewrite NM in G'. rewrite (private_ref_named _ _ src t L G), (private_ref_named _ _ src t L' G'). cbn [bind].
    rewrite (layout_metric _ src t L (dget_In _ _ _ G)), (layout_metric _ src t L' (dget_In _ _ _ G')), (layout_get _ src t L (dget_In _ _ _ G)), (layout_get _ src t L' (dget_In _ _ _ G')). reflexivity.
  - pose proof G as G'. rewrite NM in G'. unfold private_ref. rewrite (find_reference_named _ src L), (find_reference_named _ src L'), G, G'. cbn [option_map].
    rewrite (same_mem _ _ src P). destruct (dmem src (st_public st)); reflexivity.
Qed.
Lemma id_space_shown st st' pub pub' s s' src : known st s -> known st' s' -> shows s s' -> (forall n, dget n pub = dget n pub') ->
  get_id_space (s_tree s') pub' src = get_id_space (s_tree s) pub src.
Proof.
  intros (T & _) (T' & _) SH P. pose proof (tk_layout _ T) as L. pose proof (tk_layout _ T') as L'. pose proof (proj1 (same_named _ _ L L') (proj1 (sh_tables _ _ SH))) as NM.
  destruct (dget src (named (s_tree s))) as [t|] eqn:G; pose proof G as G'; rewrite NM in G'.
  - rewrite (get_id_space_spec _ _ src t L G), (get_id_space_spec _ _ src t L' G'). reflexivity.
  - unfold get_id_space, private_ref. rewrite (find_reference_named _ src L), (find_reference_named _ src L'), G, G'. cbn [option_map]. rewrite (same_mem _ _ src P). destruct (dmem src pub); reflexivity.
Qed.
Lemma partition_shown st st' p src b col sp : any_state E st -> any_state E st' -> state_shows st st' ->
  shown (partition_and_create E st p src b col sp) (partition_and_create E st' p src b col sp).
Proof.
  intros A A' H. unfold partition_and_create. apply session_shown; [exact H|]. intros s s' S S' SH. pose proof (any_known _ _ _ A S) as KN. pose proof (any_known _ _ _ A' S') as KN'.
  rewrite <- (sh_left _ _ SH). do 4 (apply attempt_shown; [exact H|]; intros ? _). rewrite (partition_info st st' s s' src col sp KN KN' SH (proj2 H)). apply attempt_shown; [exact H|]. intros y _.
  apply activated_shown; [exact H|]. intros st1 st1' H1 P1 P1'. destruct (spend _ _) as [r|]; [|apply fails_shown, H1]. cbv zeta. rewrite (id_space_shown st st' _ _ s s' src KN KN' SH (proj2 H1)).
  assert (X : forall adj space, state_shows
    (set_root st1 (change p (split_at (charged s r (Split adj)) (map (fun x => part_session adj space (fst y) (fst x) (snd x)) (combine (dkeys sp) (snd y)))) (st_root st1)))
    (set_root st1' (change p (split_at (charged s' r (Split adj)) (map (fun x => part_session adj space (fst y) (fst x) (snd x)) (combine (dkeys sp) (snd y)))) (st_root st1')))).
  { intros adj space. split; [|apply H1]. cbn [st_root set_root]. apply tree_shows_change; [|apply H1]. intros t t' AR. apply tree_shows_split; [apply shows_charged, SH| |exact AR]. apply forall2_refl. intros z _. apply shows_refl. }
  pose proof (tree_shows_find p _ _ (proj1 H1)) as FI. destruct (get_id_space (s_tree s) (st_public st1) src) as [space|e]; (split; [apply X|]); [|reflexivity]. cbn [snd].
  destruct (find p (st_root st1)) as [c|], (find p (st_root st1')) as [c'|]; try contradiction; [|reflexivity].
  rewrite (forall2_len _ _ _ (tree_shows_parts _ _ FI)). reflexivity.
Qed.
Lemma step_shown st st' o : any_state E st -> any_state E st' -> state_shows st st' -> shown (step E st o) (step E st' o).
Proof.
  intros A A' H. destruct o as [p q b|p q b|p n f|p q n c|p n|p src b col sp|p]; cbn [step].
  - apply evaluate_shown; assumption.
  - apply spend_only_shown; assumption.
  - apply public_shown; assumption.
  - apply view_shown; assumption.
  - apply delete_shown; assumption.
  - destruct (partition_shown st st' p src b col sp A A' H) as (X & Y). destruct (partition_and_create E st p src b col sp) as (t, r), (partition_and_create E st' p src b col sp) as (t', r').
    cbn [fst snd] in *. subst r'. split; [exact X|reflexivity].
  - unfold stop. destruct (tree_shows_retire (e_retires_waiting E) p _ _ (proj1 H)) as (X & Y). destruct (retire _ p (st_root st)) as (t, r), (retire _ p (st_root st')) as (t', r'). cbn [fst snd] in *. subst r'.
    split; [split; [exact X|apply H]|reflexivity].
Qed.
Lemma run_shown l : forall st st', any_state E st -> any_state E st' -> state_shows st st' -> Forall proper l -> state_shows (run E st l) (run E st' l) /\ answers E st' l = answers E st l.
Proof.
  induction l as [|o l IH]; intros st st' A A' H P; [split; [exact H|reflexivity]|]. inversion P as [|? ? P1 P2]; subst. destruct (step_shown st st' o A A' H) as (X & Y).
  cbn [run answers]. assert (B : any_state E (fst (step E st o))) by (apply (any_state_run E st [o] A); auto). assert (B' : any_state E (fst (step E st' o))) by (apply (any_state_run E st' [o] A'); auto).
  destruct (IH _ _ B B' X P2) as (Z & V). split; [exact Z|]. rewrite V, Y. reflexivity.
Qed.
End Shown.
