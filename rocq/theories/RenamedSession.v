(** Session trees whose tables have other names do the same when they are called with those
    names.  Proofs for property C82. *)
From Coq Require Import String Bool Arith ZArith QArith Lia Permutation List.
From Verif Require Import Prelude Budget BudgetProofs Value Rows Constraints Schema SchemaProofs Query Transform TransformConform TransformVisit Tables TablesProofs
  Accountant AccountantProofs Session SessionSpec SessionMoney SessionSteps SessionTables SessionInv SessionViews SessionWell SessionUse SessionViewTotal SessionSound MoreBudget
  BlindSpec QuerySame Measure Footprint Props_Measure Props_Sound Props_Footprint Renaming.
From Verif Require Shown.
Import Shown.
Import ListNotations.
Local Open Scope string_scope.
Local Open Scope nat_scope.

(** ** Specification *)

Section Names.
Variable f : string -> string.

(** A call with [f n] for each name [n] of a table. *)
Definition renamed_call (o : op) : op :=
  match o with
  | Evaluate p q b => Evaluate p (renamed f f q) b
  | SpendOnly p q b => SpendOnly p (renamed f f q) b
  | AddPublic p n x => AddPublic p (f n) x
  | CreateView p q n c => CreateView p (renamed f f q) (f n) c
  | DeleteView p n => DeleteView p (f n)
  | Partition p n b c l => Partition p (f n) b c (map (fun e => (f (fst e), snd e)) l)
  | Stop p => Stop p
  end.
(** The same tables under the new names.  Where they are stored, what else is stored, and in
    which order, may differ. *)
Definition tables_as (x x' : tree) : Prop :=
  (forall n, table_named x' (f n) = table_named x n) /\ (forall c, In c (id_spaces x) <-> In c (id_spaces x')).
(** Two sessions that show the same but for the names: budgets, charges, tables, constraints. *)
Record goes (s s' : sess) : Prop := {
  go_initial : s_initial s = s_initial s';
  go_left : s_left s = s_left s';
  go_log : s_log s = s_log s';
  go_tables : tables_as (s_tree s) (s_tree s');
  go_cons : forall n, dget (f n) (s_cons s') = dget n (s_cons s)
}.
(** So do all sessions of two trees, and their accountants are in the same states. *)
Inductive tree_goes : acct sess -> acct sess -> Prop :=
| TreeGoes st s s' l l' : goes s s' -> Forall2 (Forall2 tree_goes) l l' -> tree_goes (Acct st s l) (Acct st s' l').
Definition state_goes (st st' : state) : Prop :=
  tree_goes (st_root st) (st_root st') /\ forall n, dget (f n) (st_public st') = dget n (st_public st).
(** The new names are valid where the old ones are, what is left open about tmlt.core does not
    depend on names, and intermediate tables can be stored. *)
Record name_blind (E : env) (K : core) (auto : bool) (so : list string -> list string) : Prop := {
  nb_compiles : compiles_with E K auto so;
  nb_identifier : forall n, e_identifier E (f n) = e_identifier E n;
  nb_relation : forall x x' q b, tables_as x x' -> e_relation E x' (renamed f f q) b = e_relation E x q b;
  nb_temps : forall x q, layout x -> exists x1, add_temps (e_temps E x q) x = Ok x1
}.

(** ** Trees *)

Lemma tree_goes_state t t' : tree_goes t t' -> a_state t' = a_state t. Proof. intros []; reflexivity. Qed.
Lemma tree_goes_data t t' : tree_goes t t' -> goes (a_data t) (a_data t'). Proof. intros []; assumption. Qed.
Lemma tree_goes_parts t t' : tree_goes t t' -> Forall2 (Forall2 tree_goes) (a_parts t) (a_parts t'). Proof. intros []; assumption. Qed.
Lemma tree_goes_find p : forall t t', tree_goes t t' ->
  match find p t, find p t' with Some c, Some c' => tree_goes c c' | None, None => True | _, _ => False end.
Proof.
  induction p as [|(k, i) p IH]; intros t t' H; [exact H|]. cbn [find]. pose proof (forall2_nth_error _ _ _ (tree_goes_parts _ _ H) k) as X.
  destruct (nth_error (a_parts t) k) as [pt|], (nth_error (a_parts t') k) as [pt'|]; try contradiction; [|exact I].
  pose proof (forall2_nth_error _ _ _ X i) as Y. destruct (nth_error pt i), (nth_error pt' i); try contradiction; [|exact I]. apply IH, Y.
Qed.
Lemma tree_goes_change p h h2 : (forall t t', tree_goes t t' -> tree_goes (h t) (h2 t')) -> forall t t', tree_goes t t' -> tree_goes (change p h t) (change p h2 t').
Proof.
  intros H. induction p as [|(k, i) p IH]; intros t t' A; [apply H, A|]. cbn [change]. rewrite (tree_goes_state _ _ A).
  constructor; [apply tree_goes_data, A|]. apply forall2_upd; [|apply tree_goes_parts, A]. intros l l'. apply forall2_upd. exact IH.
Qed.
Lemma tree_goes_retire_all : forall t t', tree_goes t t' -> tree_goes (retire_all t) (retire_all t').
Proof.
  apply (acct_ind' (fun t => forall t', tree_goes t t' -> tree_goes (retire_all t) (retire_all t'))). intros st s parts IH t' H. inversion H; subst. cbn [retire_all].
  constructor; [assumption|]. apply forall2_map with (R := Forall2 tree_goes); [assumption|]. intros a b I F. apply forall2_map with (R := tree_goes); [exact F|]. intros x y J. apply (IH a x I J).
Qed.
Lemma tree_goes_retired l l' : Forall2 (Forall2 tree_goes) l l' -> Forall2 (Forall2 tree_goes) (map (map retire_all) l) (map (map retire_all) l').
Proof. intros F. apply forall2_map with (R := Forall2 tree_goes); [exact F|]. intros a b _ X. apply forall2_map with (R := tree_goes); [exact X|]. intros x y _. apply tree_goes_retire_all. Qed.
Lemma tree_goes_set_state a t t' : tree_goes t t' -> tree_goes (set_state a t) (set_state a t').
Proof. intros H. unfold set_state. constructor; [apply tree_goes_data, H|apply tree_goes_parts, H]. Qed.
Lemma tree_goes_reclaim t t' : tree_goes t t' -> tree_goes (reclaim t) (reclaim t').
Proof. intros H. unfold reclaim. constructor; [apply tree_goes_data, H|]. apply tree_goes_retired, tree_goes_parts, H. Qed.
Lemma tree_goes_skip i l l' : Forall2 tree_goes l l' -> Forall2 tree_goes (skip_to i l) (skip_to i l').
Proof.
  intros F. unfold skip_to. apply forall2_app.
  - apply forall2_map with (R := tree_goes); [apply forall2_firstn, F|]. intros a b _. apply tree_goes_retire_all.
  - apply forall2_upd; [intros a b; apply tree_goes_set_state|apply forall2_skipn, F].
Qed.
Lemma tree_goes_force p : forall t t', tree_goes t t' -> tree_goes (force_activate p t) (force_activate p t').
Proof.
  induction p as [|(k, i) p IH]; intros t t' H; [apply tree_goes_reclaim, H|]. destruct p as [|x p].
  - cbn [force_activate]. pose proof (tree_goes_find [(k, i)] t t' H) as X. destruct (find [(k, i)] t) as [c|], (find [(k, i)] t') as [c'|]; try contradiction; [|exact H].
    rewrite (tree_goes_state _ _ X). destruct (a_state c); try (apply (tree_goes_change [(k, i)]); [apply tree_goes_reclaim|exact H]).
    rewrite (tree_goes_state _ _ H). constructor; [apply tree_goes_data, H|]. apply forall2_upd; [intros a b; apply tree_goes_skip|apply tree_goes_parts, H].
  - change (force_activate ((k, i) :: x :: p)) with (fun t : acct sess => Acct (a_state t) (a_data t) (upd k (upd i (force_activate (x :: p))) (a_parts t))).
    cbv beta. rewrite (tree_goes_state _ _ H). constructor; [apply tree_goes_data, H|]. apply forall2_upd; [|apply tree_goes_parts, H]. intros a b. apply forall2_upd. exact IH.
Qed.
Lemma tree_goes_retire_part k i t t' : tree_goes t t' -> tree_goes (retire_part k i t) (retire_part k i t').
Proof.
  intros H. unfold retire_part. pose proof (forall2_nth_error _ _ _ (tree_goes_parts _ _ H) k) as X.
  destruct (nth_error (a_parts t) k) as [pt|], (nth_error (a_parts t') k) as [pt'|]; try contradiction; [|exact H].
  assert (F : Forall2 (Forall2 tree_goes) (upd k (upd i retire_all) (a_parts t)) (upd k (upd i retire_all) (a_parts t'))).
  { apply forall2_upd; [|apply tree_goes_parts, H]. intros a b. apply forall2_upd, tree_goes_retire_all. }
  rewrite (forall2_len _ _ _ X). destruct (S i <? length pt).
  - rewrite (tree_goes_state _ _ H). constructor; [apply tree_goes_data, H|]. apply forall2_upd; [|exact F]. intros a b. apply forall2_upd. intros x y. apply tree_goes_set_state.
  - constructor; [apply tree_goes_data, H|exact F].
Qed.
Lemma tree_goes_retire_active p : forall t t', tree_goes t t' -> tree_goes (retire_active p t) (retire_active p t').
Proof.
  induction p as [|(k, i) p IH]; intros t t' H; [apply tree_goes_retire_all, H|]. destruct p as [|x p]; [apply tree_goes_retire_part, H|].
  change (retire_active ((k, i) :: x :: p)) with (fun t : acct sess => Acct (a_state t) (a_data t) (upd k (upd i (retire_active (x :: p))) (a_parts t))).
  cbv beta. rewrite (tree_goes_state _ _ H). constructor; [apply tree_goes_data, H|]. apply forall2_upd; [|apply tree_goes_parts, H]. intros a b. apply forall2_upd. exact IH.
Qed.
Lemma tree_goes_retire w p t t' : tree_goes t t' -> tree_goes (fst (retire w p t)) (fst (retire w p t')) /\ snd (retire w p t') = snd (retire w p t).
Proof.
  intros H. unfold retire. pose proof (tree_goes_find p t t' H) as X. destruct (find p t) as [c|], (find p t') as [c'|]; try contradiction; cbn [option_map]; [|auto].
  rewrite (tree_goes_state _ _ X). destruct (a_state c); cbn [fst snd]; [split; [apply tree_goes_retire_active, H|reflexivity]|auto| |];
    (destruct w; cbn [fst snd]; split; [apply tree_goes_retire_active, tree_goes_force, H|reflexivity|exact H|reflexivity]).
Qed.
Lemma tree_goes_activate p t t' : tree_goes t t' -> tree_goes (fst (activate p t)) (fst (activate p t')) /\ snd (activate p t') = snd (activate p t).
Proof.
  intros H. unfold activate. pose proof (tree_goes_find p t t' H) as X. destruct (find p t) as [c|], (find p t') as [c'|]; try contradiction; cbn [option_map]; [|auto].
  rewrite (tree_goes_state _ _ X). destruct (a_state c); cbn [fst snd]; auto; (split; [apply tree_goes_force, H|reflexivity]).
Qed.
Lemma tree_goes_new l l' : Forall2 goes l l' -> Forall2 tree_goes (new_parts l) (new_parts l').
Proof.
  intros F. destruct F as [|s s' l l' H F]; cbn [new_parts]; constructor; [constructor; [exact H|constructor]|].
  induction F; cbn [map]; constructor; [constructor; [assumption|constructor]|assumption].
Qed.
Lemma tree_goes_split s s' l l' t t' : goes s s' -> Forall2 goes l l' -> tree_goes t t' -> tree_goes (split_at s l t) (split_at s' l' t').
Proof.
  intros R F H. unfold split_at. constructor; [exact R|]. apply forall2_app; [apply tree_goes_parts, H|]. constructor; [apply tree_goes_new, F|constructor].
Qed.
Lemma tree_goes_set_data s s' t t' : goes s s' -> tree_goes t t' -> tree_goes (set_data s t) (set_data s' t').
Proof. intros R H. unfold set_data. rewrite (tree_goes_state _ _ H). constructor; [exact R|apply tree_goes_parts, H]. Qed.



(** ** Tables *)

Variable back : string -> string.
Hypothesis back_f : forall n, back (f n) = n.
Hypothesis f_back : forall n, f (back n) = n.
Lemma f_inj n m : f n = f m -> n = m.
Proof. intros H. rewrite <- (back_f n), H. apply back_f. Qed.
Lemma f_eqb n m : String.eqb (f n) (f m) = String.eqb n m.
Proof.
  destruct (String.eqb n m) eqn:Q; [apply String.eqb_eq in Q as ->; apply String.eqb_refl|]. apply String.eqb_neq. apply String.eqb_neq in Q. intros H. apply Q, f_inj, H.
Qed.
Lemma named_as x x' : layout x -> layout x' -> ((forall n, table_named x' (f n) = table_named x n) <-> (forall n, dget (f n) (named x') = dget n (named x))).
Proof.
  intros L L'. split; intros H n; specialize (H n); rewrite ?(table_named_spec x n L), ?(table_named_spec x' (f n) L') in *.
  - destruct (dget n (named x)), (dget (f n) (named x')); congruence.
  - rewrite H. reflexivity.
Qed.
Lemma keys_as {V} (d d' : dict V) n : dget (f n) d' = dget n d -> In (f n) (dkeys d') <-> In n (dkeys d).
Proof. intros H. rewrite !in_dkeys, H. reflexivity. Qed.
Lemma sources_as x x' names names' n : layout x -> layout x' -> tables_as x x' -> private_sources x = Ok names -> private_sources x' = Ok names' -> smem (f n) names' = smem n names.
Proof.
  intros L L' (T & _) P P'. apply Bool.eq_iff_eq_true. rewrite (mem_names x' names' (f n) L' P'), (mem_names x names n L P). apply keys_as, named_as; assumption.
Qed.
Lemma mem_as {V} (d d' : dict V) n : (forall n, dget (f n) d' = dget n d) -> dmem (f n) d' = dmem n d.
Proof. intros H. unfold dmem. rewrite H. reflexivity. Qed.
Lemma goes_charged s s' r c : goes s s' -> goes (charged s r c) (charged s' r c).
Proof. intros [A B C D F]. split; cbn; auto. congruence. Qed.
Lemma crowded_as n t x x' : (forall m, dget (f m) (named x') = dget m (named x)) -> (forall c, In c (id_spaces x) <-> In c (id_spaces x')) -> crowded n t x <-> crowded (f n) t x'.
Proof.
  intros N S. assert (Z : id_spaces x = [] <-> id_spaces x' = []).
  { split; intros H.
    - destruct (id_spaces x') as [|c l]; [reflexivity|]. pose proof (proj2 (S c) (or_introl eq_refl)) as J. rewrite H in J. destruct J.
    - destruct (id_spaces x) as [|c l]; [reflexivity|]. pose proof (proj1 (S c) (or_introl eq_refl)) as J. rewrite H in J. destruct J. }
  unfold crowded. split; (intros [(m & u & NE & G & C)|(C & I)]; [left|right; split; [exact C|intros X; apply I, Z, X]]).
  - exists (f m), u. split; [intros X; apply NE, f_inj, X|]. rewrite N. auto.
  - exists (back m), u. split; [intros X; apply NE; rewrite <- X; symmetry; apply f_back|]. rewrite <- N, f_back. auto.
Qed.

(** ** Calls *)
Section Kept.
Variables (E : env) (K : core) (auto : bool) (so : list string -> list string).
Hypothesis NB : name_blind E K auto so.

Definition kept {A} (x x' : state * res A) : Prop := state_goes (fst x) (fst x') /\ snd x' = snd x.
Lemma attempt_kept {A B} st st' (r : res A) (k k' : A -> state * res B) : state_goes st st' -> (forall a, r = Ok a -> kept (k a) (k' a)) -> kept (attempt st r k) (attempt st' r k').
Proof. intros H C. unfold attempt. destruct r as [a|e]; [apply C; reflexivity|]. split; [exact H|reflexivity]. Qed.
Lemma session_kept {B} st st' p (k k' : sess -> state * res B) : state_goes st st' ->
  (forall s s', session_at st p = Ok s -> session_at st' p = Ok s' -> goes s s' -> kept (k s) (k' s')) -> kept (attempt st (session_at st p) k) (attempt st' (session_at st' p) k').
Proof.
  intros H C. unfold session_at in *. pose proof (tree_goes_find p _ _ (proj1 H)) as X. destruct (find p (st_root st)) as [c|], (find p (st_root st')) as [c'|]; try contradiction; cbn [attempt].
  - apply C; [reflexivity|reflexivity|apply tree_goes_data, X].
  - split; [exact H|reflexivity].
Qed.
Lemma activated_kept {B} st st' p (k k' : state -> state * res B) : state_goes st st' ->
  (forall st1 st1', state_goes st1 st1' -> st_public st1 = st_public st -> st_public st1' = st_public st' -> kept (k st1) (k' st1')) -> kept (activated p st k) (activated p st' k').
Proof.
  intros (H & P) C. unfold activated. destruct (tree_goes_activate p _ _ H) as (A & B'). destruct (activate p (st_root st)) as (t, r), (activate p (st_root st')) as (t', r'). cbn [fst snd] in *. subst r'.
  assert (X : state_goes (set_root st t) (set_root st' t')) by (split; [exact A|exact P]). destruct r as [u|e]; [apply C; [exact X|reflexivity|reflexivity]|]. split; [exact X|reflexivity].
Qed.
Lemma fails_kept {B} st st' e : state_goes st st' -> kept (@fails B st e) (fails st' e).
Proof. intros H. split; [exact H|reflexivity]. Qed.
Lemma put_kept st st' p s s' : state_goes st st' -> goes s s' ->
  state_goes (set_root st (change p (set_data s) (st_root st))) (set_root st' (change p (set_data s') (st_root st'))).
Proof. intros (H & P) R. split; [|exact P]. cbn [st_root set_root]. apply tree_goes_change; [|exact H]. intros t t' A. apply tree_goes_set_data; assumption. Qed.

(** Both sessions have catalogs that match on every query. *)
Lemma catalogs_match q s s' pub pub' cat cat' data data' : tables_ok s -> tables_ok s' ->
  catalog_of (s_tree s) pub (s_cons s) = Ok cat -> data_of (s_tree s) = Ok data ->
  catalog_of (s_tree s') pub' (s_cons s') = Ok cat' -> data_of (s_tree s') = Ok data' ->
  goes s s' -> (forall n, dget (f n) pub' = dget n pub) -> matches f f q cat data cat' data'.
Proof.
  intros TK TK' CA DA CA' DA' SH PB. pose proof (tk_layout s TK) as L. pose proof (tk_layout s' TK') as L'.
  pose proof (catalog_of_for _ _ _ _ L CA) as CF. pose proof (catalog_of_for _ _ _ _ L' CA') as CF'.
  destruct (data_of_spec _ L) as (d0 & D0 & DG). rewrite D0 in DA. injection DA as ->.
  destruct (data_of_spec _ L') as (d0' & D0' & DG'). rewrite D0' in DA'. injection DA' as ->.
  pose proof (proj1 (named_as _ _ L L') (proj1 (go_tables _ _ SH))) as NM.
  assert (PP : forall n, dget (f n) (cat_public cat') = dget n (cat_public cat)).
  { intros n. pose proof (public_dget _ _ (cf_public _ _ _ _ CF) n) as PU. pose proof (public_dget _ _ (cf_public _ _ _ _ CF') (f n)) as PU'. rewrite PB in PU'.
    destruct (dget n pub); [|congruence]. destruct PU as (c1 & s1 & E1 & F1 & ->), PU' as (c2 & s2 & E2 & F2 & ->). congruence. }
  split; intros n _.
  - pose proof (NM n) as N. destruct (dget n (named (s_tree s))) as [t|] eqn:G.
    + destruct (cf_private _ _ _ _ CF n t G) as (sc & cs & A1 & A2 & ->). destruct (cf_private _ _ _ _ CF' (f n) t N) as (sc' & cs' & B1 & B2 & ->).
      rewrite (go_cons _ _ SH) in B2. congruence.
    + rewrite (cf_none _ _ _ _ CF n G), (cf_none _ _ _ _ CF' (f n) N). reflexivity.
  - rewrite DG, DG'. apply NM.
  - unfold dmem. rewrite PP. reflexivity.
  - apply PP.
Qed.
Lemma both_match st st' s s' : known st s -> known st' s' -> goes s s' -> (forall n, dget (f n) (st_public st') = dget n (st_public st)) ->
  exists cat data cat' data', catalog_of (s_tree s) (st_public st) (s_cons s) = Ok cat /\ data_of (s_tree s) = Ok data
    /\ catalog_of (s_tree s') (st_public st') (s_cons s') = Ok cat' /\ data_of (s_tree s') = Ok data' /\ forall q, matches f f q cat data cat' data'.
Proof.
  intros (T & F & R) (T' & F' & R') SH P. destruct (catalogs_exist st s T F R) as (cat & data & CA & DA). destruct (catalogs_exist st' s' T' F' R') as (cat' & data' & CA' & DA').
  exists cat, data, cat', data'. repeat (split; [assumption|]). intros q. exact (catalogs_match q s s' _ _ cat cat' data data' T T' CA DA CA' DA' SH P).
Qed.
Lemma compile_kept st st' s s' q b : known st s -> known st' s' -> goes s s' -> (forall n, dget (f n) (st_public st') = dget n (st_public st)) ->
  compile_and_get_info E s' (st_public st') (renamed f f q) b = compile_and_get_info E s (st_public st) q b.
Proof.
  intros KN KN' SH P. destruct (both_match st st' s s' KN KN' SH P) as (cat & data & cat' & data' & CA & DA & CA' & DA' & AG). specialize (AG q).
  unfold compile_and_get_info. rewrite <- (go_left _ _ SH). destruct (lift_pure _ _ _) as [b1|]; cbn [bind]; [|reflexivity]. destruct (validate_type _ _); cbn [bind]; [|reflexivity].
  destruct (raise_if _ _); cbn [bind]; [|reflexivity]. destruct (process_budget _ _ _) as [adj|]; cbn [bind]; [|reflexivity]. rewrite CA, CA'. cbn [bind].
  rewrite (schema_ren f f _ _ _ _ _ _ AG). destruct (schema_of _ _ q); cbn [bind]; [|reflexivity]. rewrite !(nb_compiles _ _ _ _ NB), DA, DA'. cbn [bind].
  erewrite compile_ren; [reflexivity|exact AG].
Qed.
Lemma evaluate_kept st st' p q b : any_state E st -> any_state E st' -> state_goes st st' -> kept (evaluate E st p q b) (evaluate E st' p (renamed f f q) b).
Proof.
  intros A A' H. unfold evaluate. apply session_kept; [exact H|]. intros s s' S S' SH.
  rewrite (compile_kept st st' s s' q b (any_known _ _ _ _ A S) (any_known _ _ _ _ A' S') SH (proj2 H)). apply attempt_kept; [exact H|]. intros adj _.
  apply activated_kept; [exact H|]. intros st1 st1' H1 _ _. rewrite (nb_relation _ _ _ _ NB _ _ q adj (go_tables _ _ SH)), <- (go_left _ _ SH).
  destruct (negb _); [apply fails_kept, H1|]. destruct (spend _ _) as [r|]; [|apply fails_kept, H1]. split; [apply put_kept; [exact H1|apply goes_charged, SH]|reflexivity].
Qed.
Lemma spend_only_kept st st' p q b : any_state E st -> any_state E st' -> state_goes st st' -> kept (spend_without_executing E st p q b) (spend_without_executing E st' p (renamed f f q) b).
Proof.
  intros A A' H. unfold spend_without_executing. apply session_kept; [exact H|]. intros s s' S S' SH.
  rewrite (compile_kept st st' s s' q b (any_known _ _ _ _ A S) (any_known _ _ _ _ A' S') SH (proj2 H)). apply attempt_kept; [exact H|]. intros adj _.
  apply activated_kept; [exact H|]. intros st1 st1' H1 _ _. rewrite <- (go_left _ _ SH).
  destruct (spend _ _) as [r|]; [|apply fails_kept, H1]. split; [apply put_kept; [exact H1|apply goes_charged, SH]|reflexivity].
Qed.
Lemma public_kept st st' p n x : any_state E st -> any_state E st' -> state_goes st st' -> kept (add_public_dataframe E st p n x) (add_public_dataframe E st' p (f n) x).
Proof.
  intros A A' H. unfold add_public_dataframe. apply session_kept; [exact H|]. intros s s' S S' SH.
  destruct (any_known _ _ _ _ A S) as (T & _), (any_known _ _ _ _ A' S') as (T' & _). pose proof (tk_layout _ T) as L. pose proof (tk_layout _ T') as L'. rewrite (nb_identifier _ _ _ _ NB).
  apply attempt_kept; [exact H|]. intros _ _. destruct (sources_exist _ L) as (names & PS), (sources_exist _ L') as (names' & PS'). rewrite PS, PS'. cbn [attempt].
  rewrite (sources_as _ _ names names' n L L' (go_tables _ _ SH) PS PS'), (mem_as _ _ n (proj2 H)). apply attempt_kept; [exact H|]. intros _ _. apply attempt_kept; [exact H|]. intros x' _.
  split; [|reflexivity]. split; [apply H|]. cbn. intros m. rewrite !SchemaProofs.dget_app, (proj2 H m). cbn. rewrite f_eqb. reflexivity.
Qed.
Lemma goes_view s s' x x' name t cs : goes s s' -> layout (s_tree s) -> layout (s_tree s') -> layout x -> layout x' ->
  Permutation (named x) ((name, t) :: named (s_tree s)) -> Permutation (named x') ((f name, t) :: named (s_tree s')) ->
  id_spaces x = id_spaces (s_tree s) -> id_spaces x' = id_spaces (s_tree s') ->
  goes (with_tables s x (dset name cs (s_cons s))) (with_tables s' x' (dset (f name) cs (s_cons s'))).
Proof.
  intros [A B C (T & S) D] L L' Lx Lx' P P' SP SP'. split; cbn; auto.
  - split; [|rewrite SP, SP'; exact S]. apply (named_as x x' Lx Lx'). intros n. rewrite (perm_dget _ _ n (layout_nodup _ Lx) P), (perm_dget _ _ (f n) (layout_nodup _ Lx') P'). cbn. rewrite f_eqb.
    destruct (String.eqb n name); [reflexivity|]. apply (named_as _ _ L L'), T.
  - intros n. destruct (string_dec n name) as [->|NE]; [rewrite !dget_dset_same; reflexivity|]. rewrite !dget_dset_other by (try intros X; try apply f_inj in X; congruence). apply D.
Qed.
Lemma view_kept st st' p q n c c' : any_state E st -> any_state E st' -> state_goes st st' -> kept (create_view E st p q n c) (create_view E st' p (renamed f f q) (f n) c').
Proof.
  intros A A' H. unfold create_view. apply session_kept; [exact H|]. intros s s' S S' SH. pose proof (any_known _ _ _ _ A S) as KN. pose proof (any_known _ _ _ _ A' S') as KN'.
  pose proof (tk_layout _ (proj1 KN)) as L. pose proof (tk_layout _ (proj1 KN')) as L'. destruct (both_match st st' s s' KN KN' SH (proj2 H)) as (cat & data & cat' & data' & CA & DA & CA' & DA' & AG). specialize (AG q).
  rewrite (nb_identifier _ _ _ _ NB).
  apply attempt_kept; [exact H|]. intros _ _. apply activated_kept; [exact H|]. intros st1 st1' H1 P1 P1'. rewrite P1, P1'.
  destruct (sources_exist _ L) as (names & PS), (sources_exist _ L') as (names' & PS'). rewrite PS, PS'. cbn [attempt].
  rewrite (sources_as _ _ names names' n L L' (go_tables _ _ SH) PS PS'), (mem_as _ _ n (proj2 H)). apply attempt_kept; [exact H1|]. intros [] RA.
  rewrite CA, CA', DA, DA'. cbn [attempt]. rewrite <- (go_left _ _ SH).
  assert (BE : build_transformation (e_world E) (is_rho (s_left s)) cat' data' (renamed f f q) = build_transformation (e_world E) (is_rho (s_left s)) cat data q) by exact (build_ren f f _ _ _ _ _ _ _ AG). rewrite BE. apply attempt_kept; [exact H1|]. intros y BT.
  pose proof BT as BT'. rewrite <- BE in BT'.
  destruct (nb_temps _ _ _ _ NB (s_tree s) q L) as (x1 & AT), (nb_temps _ _ _ _ NB (s_tree s') (renamed f f q) L') as (x1' & AT'). rewrite AT, AT'. cbn [attempt].
  destruct (add_temps_layout _ _ _ L AT) as (L1 & Q1). destruct (add_temps_layout _ _ _ L' AT') as (L1' & Q1').
  apply raise_if_ok in RA. apply Bool.orb_false_iff in RA as (SM & _).
  assert (SM' : smem (f n) names' = false) by (rewrite (sources_as _ _ names names' n L L' (go_tables _ _ SH) PS PS'); exact SM).
  assert (NI : ~ In n (dkeys (named (s_tree s)))) by (intros I; apply (mem_names _ names n L PS) in I; congruence).
  assert (NI' : ~ In (f n) (dkeys (named (s_tree s')))) by (intros I; apply (mem_names _ names' (f n) L' PS') in I; congruence).
  destruct (store_exists q n c (s_tree s) x1 cat data y _ _ L NI DA BT L1 Q1) as (z & z1 & x4 & AR & RN & RN2).
  destruct (store_exists (renamed f f q) (f n) c' (s_tree s') x1' cat' data' y _ _ L' NI' DA' BT' L1' Q1') as (z' & z1' & x4' & AR' & RN' & RN2').
  rewrite AR, AR'. cbn [attempt]. rewrite RN, RN'. cbn [attempt]. rewrite RN2, RN2'. cbn [attempt].
  destruct (view_tables E q n c _ x1 cat data y z z1 x4 names L PS SM DA _ BT AT AR RN RN2) as (LX & PX).
  destruct (view_tables E (renamed f f q) (f n) c' _ x1' cat' data' y z' z1' x4' names' L' PS' SM' DA' _ BT' AT' AR' RN' RN2') as (LX' & PX').
  split; [|reflexivity]. cbn [fst]. apply put_kept; [exact H1|].
  refine (goes_view s s' x4 x4' n (fst y) (snd y) SH L L' LX LX' PX PX' _ _); [exact (spaces_view _ _ _ _ _ _ _ _ _ _ _ _ _ BT AT AR RN RN2)|exact (spaces_view _ _ _ _ _ _ _ _ _ _ _ _ _ BT' AT' AR' RN' RN2')].
Qed.
Lemma goes_delete s s' x x' name t : tables_ok s -> tables_ok s' -> goes s s' -> layout x -> layout x' ->
  Permutation (named (s_tree s)) ((name, t) :: named x) -> Permutation (named (s_tree s')) ((f name, t) :: named x') ->
  (forall c, In c (id_spaces x) <-> In c (id_spaces (s_tree s))) -> (forall c, In c (id_spaces x') <-> In c (id_spaces (s_tree s'))) ->
  goes (with_tables s x (ddel name (s_cons s))) (with_tables s' x' (ddel (f name) (s_cons s'))).
Proof.
  intros T0 T0' [A B C (T & S) D] Lx Lx' P P' SP SP'. pose proof (tk_layout _ T0) as L. pose proof (tk_layout _ T0') as L'. split; cbn; auto.
  - split; [|intros c; rewrite SP, SP'; apply S]. apply (named_as x x' Lx Lx'). intros n.
    pose proof (perm_dget _ _ n (layout_nodup _ L) P) as G. pose proof (perm_dget _ _ (f n) (layout_nodup _ L') P') as G'. cbn in G, G'. rewrite f_eqb in G'.
    assert (X : forall m (z : tree) y, NoDup (dkeys (named y)) -> Permutation (named y) ((m, t) :: named z) -> dget m (named z) = None).
    { intros m z y ND PP. apply dget_None. intros I. apply (Permutation_map fst) in PP. cbn in PP. pose proof (Permutation_NoDup PP ND) as N2. inversion N2; subst. contradiction. }
    destruct (String.eqb n name) eqn:Q; [apply String.eqb_eq in Q; subst n; rewrite (X _ x _ (layout_nodup _ L) P), (X _ x' _ (layout_nodup _ L') P'); reflexivity|].
    rewrite <- G, <- G'. apply (named_as _ _ L L'), T.
  - intros n. destruct (string_dec n name) as [->|NE].
    + assert (X : forall m (d : dict (list constraint)), NoDup (dkeys d) -> dget m (ddel m d) = None) by (intros m d ND; apply dget_None; intros I; apply (ddel_spec m d ND) in I as (I & _); congruence).
      rewrite !X by (apply tk_nodup; assumption). reflexivity.
    + rewrite !dget_ddel_other by (try intros X; try apply f_inj in X; congruence). apply D.
Qed.
Lemma delete_kept st st' p n : any_state E st -> any_state E st' -> state_goes st st' -> kept (delete_view E st p n) (delete_view E st' p (f n)).
Proof.
  intros A A' H. unfold delete_view. apply session_kept; [exact H|]. intros s s' S S' SH. pose proof (proj1 (any_known _ _ _ _ A S)) as T. pose proof (proj1 (any_known _ _ _ _ A' S')) as T'.
  pose proof (tk_layout _ T) as L. pose proof (tk_layout _ T') as L'. pose proof (proj1 (named_as _ _ L L') (proj1 (go_tables _ _ SH))) as NM.
  apply activated_kept; [exact H|]. intros st1 st1' H1 _ _. rewrite (find_reference_named _ n L), (find_reference_named _ (f n) L'), NM.
  destruct (dget n (named (s_tree s))) as [t|] eqn:G; cbn [option_map]; [|apply fails_kept, H1]. pose proof G as G'. rewrite <- NM in G'. pose proof (dget_In _ _ _ G) as I. pose proof (dget_In _ _ _ G') as I'.
  rewrite (layout_domain _ n t L I), (layout_domain _ (f n) t L' I'). cbn [attempt raise_if].
  assert (PL : v_coll t <> None -> has_key (TLeaf t) = true).
  { assert (PT : placed t). { destruct (data_of_spec _ L) as (d & DA & DG). eapply (data_placed _ d L DA n). rewrite DG. exact G. } unfold placed in PT. intros NC. cbn. destruct (v_place t); try reflexivity; contradiction. }
  assert (R : forall x m, layout x -> In (m, t) (named x) -> dget m (named x) = Some t -> exists x1, rename_table x (table_ref m t) (fresh x) = Ok x1 /\ layout x1 /\ Permutation (named x1) (named x) /\ id_spaces x1 = id_spaces x).
  { intros x m Lx J _. destruct (rename_exists (v_coll t) (NamedTable m) t x (fresh x) Lx (layout_get x m t Lx J)) as (x1 & RX); [|apply unused_fresh|exact PL|].
    - unfold has_collection. destruct (v_coll t) eqn:C; [|exact Logic.I]. exists m, t. auto.
    - exists x1. destruct (rename_layout _ _ _ _ _ _ Lx (layout_get x m t Lx J) RX (fresh_addable _ _ _ _)) as (LX & PX & _). split; [exact RX|]. split; [exact LX|]. split; [exact PX|].
      eapply spaces_rename; [exact RX|unfold fresh; discriminate]. }
  destruct (R _ n L I G) as (x1 & R1 & L1 & P1 & S1). destruct (R _ (f n) L' I' G') as (x1' & R1' & L1' & P1' & S1'). rewrite R1, R1'. cbn [attempt].
  assert (I1 : In (n, t) (named x1)) by (eapply Permutation_in; [symmetry; exact P1|exact I]). assert (I1' : In (f n, t) (named x1')) by (eapply Permutation_in; [symmetry; exact P1'|exact I']).
  assert (CR : crowded n t x1 <-> crowded (f n) t x1').
  { apply crowded_as; [|rewrite S1, S1'; apply (go_tables _ _ SH)].
    intros m. rewrite (perm_dget _ _ m (layout_nodup _ L1) P1), (perm_dget _ _ (f m) (layout_nodup _ L1') P1'). apply NM. }
  destruct (delete_cases (e_empty_ok E) (e_shuffle E) x1 n t (e_shuffle_ok E) L1 I1) as (Y & N). destruct (delete_cases (e_empty_ok E) (e_shuffle E) x1' (f n) t (e_shuffle_ok E) L1' I1') as (Y' & N').
  assert (GO : (exists x2 x2', delete_table (e_empty_ok E) (e_shuffle E) x1 (table_ref n t) = Ok x2 /\ delete_table (e_empty_ok E) (e_shuffle E) x1' (table_ref (f n) t) = Ok x2'
       /\ (forall c, In c (id_spaces x2) <-> In c (id_spaces x1)) /\ (forall c, In c (id_spaces x2') <-> In c (id_spaces x1')))
     \/ (exists e, delete_table (e_empty_ok E) (e_shuffle E) x1 (table_ref n t) = Err e /\ delete_table (e_empty_ok E) (e_shuffle E) x1' (table_ref (f n) t) = Err e)).
  { destruct (e_empty_ok E) eqn:EO.
    - left. destruct (Y (or_introl eq_refl)) as (x2 & D & C), (Y' (or_introl eq_refl)) as (x2' & D' & C'). exists x2, x2'. auto.
    - destruct (crowded_dec n t x1 (layout_nodup _ L1)) as [CN|CN].
      + left. destruct (Y (or_intror (conj CN eq_refl))) as (y & DY & CY). destruct (Y' (or_intror (conj (proj1 CR CN) eq_refl))) as (y' & DY' & CY'). exists y, y'. auto.
      + right. exists ValueError. split; [apply N; auto|]. apply N'. split; [intros X; apply CN, CR, X|reflexivity]. }
  destruct GO as [(x2 & x2' & D & D' & C & C')|(e & D & D')]; rewrite D, D'; cbn [attempt]; [|apply fails_kept, H1].
  destruct (delete_layout _ _ _ _ _ _ (e_shuffle_ok E) L1 I1 D) as (L2 & P2). destruct (delete_layout _ _ _ _ _ _ (e_shuffle_ok E) L1' I1' D') as (L2' & P2').
  split; [|reflexivity]. cbn [fst]. apply put_kept; [exact H1|]. apply (goes_delete s s' x2 x2' n t T T' SH L2 L2').
  - etransitivity; [symmetry; exact P1|exact P2].
  - etransitivity; [symmetry; exact P1'|exact P2'].
  - intros c. rewrite C, S1. reflexivity.
  - intros c. rewrite C', S1'. reflexivity.
Qed.

(** *** Partitions *)
Notation splits_as sp := (map (fun e => (f (fst e), snd e)) sp).
Lemma splits_values (sp : dict value) : map snd (splits_as sp) = map snd sp.
Proof. rewrite map_map. reflexivity. Qed.
Lemma splits_keys (sp : dict value) : dkeys (splits_as sp) = map f (dkeys sp).
Proof. unfold dkeys. rewrite !map_map. reflexivity. Qed.
Lemma combine_as {V} (l1 : list string) : forall l2 : list V, combine (map f l1) l2 = map (fun e => (f (fst e), snd e)) (combine l1 l2).
Proof. induction l1 as [|a l1 IH]; intros [|z l2]; cbn; try reflexivity. rewrite IH. reflexivity. Qed.
Lemma partition_as st st' s s' src col sp : known st s -> known st' s' -> goes s s' -> (forall n, dget (f n) (st_public st') = dget n (st_public st)) ->
  create_partition_transformation E s' (st_public st') (f src) col (splits_as sp) = create_partition_transformation E s (st_public st) src col sp.
Proof.
  intros (T & _) (T' & _) SH P. pose proof (tk_layout _ T) as L. pose proof (tk_layout _ T') as L'. pose proof (proj1 (named_as _ _ L L') (proj1 (go_tables _ _ SH))) as NM.
  unfold create_partition_transformation. rewrite <- (go_left _ _ SH), (go_cons _ _ SH), splits_values. destruct (dget src (named (s_tree s))) as [t|] eqn:G.
  - pose proof G as G'. rewrite <- NM in G'. rewrite (private_ref_named _ _ src t L G), (private_ref_named _ _ (f src) t L' G'). cbn [bind].
    rewrite (layout_metric _ src t L (dget_In _ _ _ G)), (layout_metric _ (f src) t L' (dget_In _ _ _ G')), (layout_get _ src t L (dget_In _ _ _ G)), (layout_get _ (f src) t L' (dget_In _ _ _ G')). reflexivity.
  - pose proof G as G'. rewrite <- NM in G'. unfold private_ref. rewrite (find_reference_named _ src L), (find_reference_named _ (f src) L'), G, G'. cbn [option_map].
    rewrite (mem_as _ _ src P). destruct (dmem src (st_public st)); reflexivity.
Qed.
Lemma id_space_as st st' pub pub' s s' src : known st s -> known st' s' -> goes s s' -> (forall n, dget (f n) pub' = dget n pub) ->
  get_id_space (s_tree s') pub' (f src) = get_id_space (s_tree s) pub src.
Proof.
  intros (T & _) (T' & _) SH P. pose proof (tk_layout _ T) as L. pose proof (tk_layout _ T') as L'. pose proof (proj1 (named_as _ _ L L') (proj1 (go_tables _ _ SH))) as NM.
  destruct (dget src (named (s_tree s))) as [t|] eqn:G; pose proof G as G'; rewrite <- NM in G'.
  - rewrite (get_id_space_spec _ _ src t L G), (get_id_space_spec _ _ (f src) t L' G'). reflexivity.
  - unfold get_id_space, private_ref. rewrite (find_reference_named _ src L), (find_reference_named _ (f src) L'), G, G'. cbn [option_map]. rewrite (mem_as _ _ src P). destruct (dmem src pub); reflexivity.
Qed.
Lemma part_goes adj space dom n t : goes (part_session adj space dom n t) (part_session adj space dom (f n) t).
Proof.
  split; try reflexivity.
  - cbn. split.
    + intros m. unfold table_named, part_tree. destruct space as [c|], (t_place t); cbn; rewrite f_eqb; (destruct (String.eqb n m) eqn:Q; cbn; [rewrite ?String.eqb_refl; cbn; rewrite ?String.eqb_refl; reflexivity|reflexivity]).
    + intros c. unfold part_tree. destruct space, (t_place t); reflexivity.
  - cbn. intros m. rewrite f_eqb. reflexivity.
Qed.
Lemma parts_go adj space dom : forall (l : list string) (ts : list tbl),
  Forall2 goes (map (fun x => part_session adj space dom (fst x) (snd x)) (combine l ts)) (map (fun x => part_session adj space dom (fst x) (snd x)) (combine (map f l) ts)).
Proof. induction l as [|n l IH]; intros [|t ts]; cbn; constructor; [apply part_goes|apply IH]. Qed.
Lemma partition_kept st st' p src b col sp : any_state E st -> any_state E st' -> state_goes st st' ->
  let x := partition_and_create E st p src b col sp in let x' := partition_and_create E st' p (f src) b col (splits_as sp) in
  state_goes (fst x) (fst x') /\ snd x' = (let* l := snd x in Ok (map (fun e => (f (fst e), snd e)) l)).
Proof.
  intros A A' H. cbv zeta.
  enough (X : state_goes (fst (partition_and_create E st p src b col sp)) (fst (partition_and_create E st' p (f src) b col (splits_as sp)))
    /\ snd (partition_and_create E st' p (f src) b col (splits_as sp)) = (let* l := snd (partition_and_create E st p src b col sp) in Ok (splits_as l))) by exact X.
  unfold partition_and_create. unfold session_at. pose proof (tree_goes_find p _ _ (proj1 H)) as X.
  destruct (find p (st_root st)) as [c|] eqn:FC, (find p (st_root st')) as [c'|] eqn:FC'; try contradiction; cbn [attempt]; [|split; [exact H|reflexivity]].
  pose proof (tree_goes_data _ _ X) as SH. set (s := a_data c) in *. set (s' := a_data c') in *.
  assert (S : session_at st p = Ok s) by (unfold session_at; rewrite FC; reflexivity). assert (S' : session_at st' p = Ok s') by (unfold session_at; rewrite FC'; reflexivity).
  pose proof (any_known _ _ _ _ A S) as KN. pose proof (any_known _ _ _ _ A' S') as KN'.
  rewrite <- (go_left _ _ SH). destruct (lift_pure _ _ _) as [b1|]; cbn [attempt]; [|split; [exact H|reflexivity]]. destruct (validate_type _ _); cbn [attempt]; [|split; [exact H|reflexivity]].
  rewrite splits_keys. assert (EX : existsb (fun n => negb (e_identifier E n)) (map f (dkeys sp)) = existsb (fun n => negb (e_identifier E n)) (dkeys sp)).
  { induction (dkeys sp) as [|n l IH]; [reflexivity|]. cbn. rewrite IH, (nb_identifier _ _ _ _ NB). reflexivity. }
  rewrite EX. destruct (raise_if _ _); cbn [attempt]; [|split; [exact H|reflexivity]]. destruct (process_budget _ _) as [adj|]; cbn [attempt]; [|split; [exact H|reflexivity]].
  rewrite (partition_as st st' s s' src col sp KN KN' SH (proj2 H)). destruct (create_partition_transformation _ _ _ _ _ _) as [y|]; cbn [attempt]; [|split; [exact H|reflexivity]].
  unfold activated. destruct (tree_goes_activate p _ _ (proj1 H)) as (TA & TB). destruct (activate p (st_root st)) as (t, r), (activate p (st_root st')) as (t', r'). cbn [fst snd] in TA, TB. subst r'.
  assert (H1 : state_goes (set_root st t) (set_root st' t')) by (split; [exact TA|exact (proj2 H)]). destruct r as [u|e]; [|split; [exact H1|reflexivity]].
  destruct (spend _ _) as [r|]; [|split; [exact H1|reflexivity]]. cbv zeta. rewrite (id_space_as st st' _ _ s s' src KN KN' SH (proj2 H1)).
  assert (Y : forall space, state_goes
    (set_root (set_root st t) (change p (split_at (charged s r (Split adj)) (map (fun x => part_session adj space (fst y) (fst x) (snd x)) (combine (dkeys sp) (snd y)))) (st_root (set_root st t))))
    (set_root (set_root st' t') (change p (split_at (charged s' r (Split adj)) (map (fun x => part_session adj space (fst y) (fst x) (snd x)) (combine (map f (dkeys sp)) (snd y)))) (st_root (set_root st' t'))))).
  { intros space. split; [|apply H1]. cbn [st_root set_root]. apply tree_goes_change; [|exact TA]. intros z z' AR. apply tree_goes_split; [apply goes_charged, SH|apply parts_go|exact AR]. }
  pose proof (tree_goes_find p _ _ (proj1 H1)) as FI. destruct (get_id_space (s_tree s) (st_public (set_root st t)) src) as [space|e]; (split; [apply Y|]); [|reflexivity]. cbn [snd bind].
  assert (LN : match find p (st_root (set_root st' t')) with Some c => length (a_parts c) | None => 0 end = match find p (st_root (set_root st t)) with Some c => length (a_parts c) | None => 0 end).
  { destruct (find p (st_root (set_root st t))) as [d|], (find p (st_root (set_root st' t'))) as [d'|]; try contradiction; [|reflexivity].
    rewrite (forall2_len _ _ _ (tree_goes_parts _ _ FI)). reflexivity. }
  rewrite LN. rewrite !map_length, !combine_length, !map_length.
  generalize (map (fun i => (p ++ [(match find p (st_root (set_root st t)) with Some c => length (a_parts c) | None => 0 end, i)])%list) (seq 0 (Nat.min (length (dkeys sp)) (length (snd y))))) as l2.
  intros l2. rewrite combine_as. reflexivity.
Qed.

(** *** Histories *)
Lemma step_kept st st' o : any_state E st -> any_state E st' -> state_goes st st' -> kept (step E st o) (step E st' (renamed_call o)).
Proof.
  intros A A' H. destruct o as [p q b|p q b|p n x|p q n c|p n|p src b col sp|p]; cbn [step renamed_call].
  - apply evaluate_kept; assumption.
  - apply spend_only_kept; assumption.
  - apply public_kept; assumption.
  - apply view_kept; assumption.
  - apply delete_kept; assumption.
  - destruct (partition_kept st st' p src b col sp A A' H) as (X & Y). destruct (partition_and_create E st p src b col sp) as (t, r), (partition_and_create E st' p (f src) b col _) as (t', r').
    cbn [fst snd] in *. subst r'. split; [exact X|]. cbn [snd]. destruct r; reflexivity.
  - unfold stop. destruct (tree_goes_retire (e_retires_waiting E) p _ _ (proj1 H)) as (X & Y). destruct (retire _ p (st_root st)) as (t, r), (retire _ p (st_root st')) as (t', r'). cbn [fst snd] in *. subst r'.
    split; [split; [exact X|apply H]|reflexivity].
Qed.
Lemma dicts_ren q : dicts q -> dicts (renamed f f q).
Proof. induction q; cbn; intuition. destruct public; cbn; intuition. Qed.
Lemma proper_ren o : proper o -> proper (renamed_call o).
Proof. destruct o; cbn; auto. apply dicts_ren. Qed.
Lemma run_kept l : forall st st', any_state E st -> any_state E st' -> state_goes st st' -> Forall proper l ->
  state_goes (run E st l) (run E st' (map renamed_call l)) /\ answers E st' (map renamed_call l) = answers E st l.
Proof.
  induction l as [|o l IH]; intros st st' A A' H P; [split; [exact H|reflexivity]|]. inversion P as [|? ? P1 P2]; subst. destruct (step_kept st st' o A A' H) as (X & Y).
  cbn [run answers map]. assert (B : any_state E (fst (step E st o))) by (apply (any_state_run E st [o] A); auto).
  assert (B' : any_state E (fst (step E st' (renamed_call o)))) by (apply (any_state_run E st' [renamed_call o] A'); constructor; [apply proper_ren, P1|constructor]).
  destruct (IH _ _ B B' X P2) as (Z & V). split; [exact Z|]. rewrite V, Y. reflexivity.
Qed.
End Kept.
End Names.
