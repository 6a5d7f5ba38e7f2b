(** Proofs about QueryBuilder.v. *)
From Coq Require Import String Ascii Bool Arith ZArith QArith Qcanon Lia Permutation List.
From Verif Require Import Prelude Value Rows Constraints Schema SchemaProofs Query Rewrite RewriteSpec Transform TransformSpec
  TransformVisit QueryProofs QueryEq QueryBuilder.
From Verif Require KeySet KeySetSem KeySetApi KeySetTotal KeySetTotalApi KeySetMoreApi.
Import ListNotations.
Local Open Scope string_scope.
Local Open Scope nat_scope.

(** ** Lists of objects *)
Lemma replace_length {A} (l : list A) i x : length (replace l i x) = length l.
Proof. revert i; induction l as [|y l IH]; intros [|i]; cbn [replace length]; auto. Qed.
Lemma nth_replace_same {A} (l : list A) i x : i < length l -> nth_error (replace l i x) i = Some x.
Proof. revert i; induction l as [|y l IH]; intros [|i] H; cbn [length] in H; [lia|lia|reflexivity|]. cbn [replace nth_error]. apply IH. lia. Qed.
Lemma nth_replace_other {A} (l : list A) i j x : i <> j -> nth_error (replace l i x) j = nth_error l j.
Proof. revert i j; induction l as [|y l IH]; intros [|i] [|j] H; cbn [replace nth_error]; auto; congruence. Qed.
Lemma nth_snoc {A} (l : list A) x i y : nth_error l i = Some y -> nth_error (l ++ [x])%list i = Some y.
Proof. intros H. rewrite nth_error_app1; [exact H|]. apply nth_error_Some. congruence. Qed.
Lemma nth_last {A} (l : list A) x : nth_error (l ++ [x])%list (length l) = Some x.
Proof. rewrite nth_error_app2 by lia. rewrite Nat.sub_diag. reflexivity. Qed.
Lemma object_ok {A} (l : list A) i x : object l i = Ok x <-> nth_error l i = Some x.
Proof. unfold object. destruct (nth_error l i); split; congruence. Qed.

(** ** Key sets made by the builder *)
Section Keys.
Variable KW : KeySet.world.

Definition none_found : KeySetSem.oracle.
Proof. refine {| KeySetSem.found := fun _ _ => False |}. tauto. Defined.

Lemma no_keys : keys_from_dict KW [] = Ok (BySet [] []).
Proof.
  unfold keys_from_dict.
  destruct (KeySetTotalApi.from_dict_total KW none_found []) as (k & E & (C & _)).
  { cbn. split; [constructor|]. split; [tauto|]. intros c vs []. }
  rewrite E. cbn [bind]. unfold erase_keys. rewrite C. reflexivity.
Qed.
Lemma keys_are_a_set d k : keys_from_dict KW d = Ok k -> exists c r, k = BySet c r.
Proof.
  unfold keys_from_dict. intros H. inv_ok H. inv_ok H. destruct x0; [|discriminate]. injection H as <-. eauto.
Qed.
Lemma one_column n vs c r : keys_from_dict KW [(n, vs)] = Ok (BySet c r) ->
  dkeys c = [n] /\ NoDup r /\ forall row, In row r <-> exists v, In v vs /\ row = [(n, v)].
Proof.
  unfold keys_from_dict. intros H. apply bind_ok in H as (k & E & H). apply bind_ok in H as (g & G & H).
  destruct g as [c' r'|]; [|discriminate]. injection H as -> ->.
  apply (KeySetApi.from_dict_stands KW none_found) in E as [S P]. pose proof S as (_ & C & _). cbn [map fst] in *.
  unfold erase_keys in G. rewrite C in G. apply bind_ok in G as (s & SC & G). apply bind_ok in G as (f & F & G). injection G as <- <-.
  split.
  - unfold KeySet.ks_schema in SC. apply bind_ok in SC as (s0 & _ & SC). rewrite C in SC. cbn [mapM] in SC.
    apply bind_ok in SC as (ds & M & SC). apply bind_ok in M as (d & D & M). apply bind_ok in D as (d0 & _ & D). injection D as <-.
    cbn [bind] in M. injection M as <-. injection SC as <-. reflexivity.
  - destruct (KeySetMoreApi.stands_dataframe KW none_found k [n] _ S P ltac:(discriminate)) as (f' & g' & _ & F' & FC & WF & ND & _ & IN).
    rewrite F in F'. injection F' as <-. rewrite FC.
    assert (L : forall x, In x (frows f) -> exists v, x = [v]).
    { intros x X. pose proof (proj2 WF x X) as W. rewrite FC in W. destruct x as [|v [|]]; try discriminate. eauto. }
    split.
    + clear - ND L. induction (frows f) as [|x l IH]; [constructor|]. inversion ND as [|? ? NI ND']; subst. cbn [map].
      constructor; [|apply IH; auto; intros; apply L; right; assumption].
      intros I. apply in_map_iff in I as (y & E & I). destruct (L y (or_intror I)) as (v & ->), (L x (or_introl eq_refl)) as (w & ->).
      cbn in E. injection E as ->. auto.
    + intros row. rewrite in_map_iff. split.
      * intros (x & <- & X). destruct (L x X) as (v & ->). exists v. split; [|reflexivity].
        apply (IN (fun _ => v)) with (c := n); [exact X|left; reflexivity].
      * intros (v & I & ->). exists [v]. split; [reflexivity|]. apply (IN (fun _ => v)). intros c vs' [[= <- <-]|[]]. exact I.
Qed.
End Keys.

(** ** Every expression has passed the checks *)
Lemma built_build auto q : built auto q -> build auto q = Ok q.
Proof.
  induction q; cbn [built build]; intros [P B]; repeat match goal with H : _ /\ _ |- _ => destruct H end;
    repeat match goal with IH : built _ ?q -> build _ ?q = _, H : built _ ?q |- _ => rewrite (IH H); clear IH end; cbn [bind]; exact P.
Qed.
Lemma post_init_mono x a q q' : (x = true -> a = true) -> post_init x q = Ok q' -> post_init a q = Ok q'.
Proof.
  intros M. destruct q; cbn [post_init]; auto; destruct keys as [c r|l]; cbn [check_keys]; auto;
    destruct x, a; cbn [negb raise_if bind]; auto; try discriminate; exfalso; discriminate (M eq_refl).
Qed.
Lemma post_init_built x a q q' : (x = true -> a = true) -> post_init x q = Ok q' -> Forall (built a) (children q) -> built a q'.
Proof.
  intros M P F. apply (post_init_mono _ _ _ _ M) in P. apply built_unfold. split; [eapply post_init_idem, P|].
  rewrite (post_init_children _ _ _ P). exact F.
Qed.

Section Inv.
Variable KW : KeySet.world.
Variable show : pynum -> string.

Record inv (a : bool) (st : state) : Prop := {
  inv_auto : st_auto st = true -> a = true;
  inv_builders : forall i b, nth_error (st_builders st) i = Some b -> built a (bu_expr b);
  inv_groups : forall i g, nth_error (st_groups st) i = Some g -> built a (gr_expr g);
  inv_queries : forall i q, nth_error (st_queries st) i = Some q -> built a (q_expr q)
}.
Lemma new_builder_ok x s b : new_builder x s = Ok b -> is_identifier s = true /\ b = {| bu_source := s; bu_expr := PrivateSource s |}.
Proof.
  unfold new_builder. cbn [post_init]. intros H. inv_ok H. inv_ok E. injection E as <-. injection H as <-. apply negb_false_iff in E0. auto.
Qed.
Lemma new_builder_built x a s b : new_builder x s = Ok b -> built a (bu_expr b).
Proof.
  intros H. apply new_builder_ok in H as (I & ->). cbn [bu_expr built post_init]. rewrite I. auto.
Qed.
Lemma map_expr_built x a e f types aug e' : (x = true -> a = true) -> map_expr x e f types aug = Ok e' -> built a e ->
  built a e' /\ children e' = [e].
Proof.
  unfold map_expr. intros M H B. apply bind_ok in H as (s & _ & H). split.
  - eapply post_init_built; [exact M|exact H|]. cbn [children]. auto.
  - rewrite (post_init_children _ _ _ H). reflexivity.
Qed.
Lemma changed_built a st e c e' : inv a st -> changed st e c = Ok e' -> built a e ->
  built a e' /\ exists r, children e' = e :: r.
Proof.
  intros I H B. pose proof (inv_auto _ _ I) as M.
  assert (one : forall q, post_init (st_auto st) q = Ok e' -> children q = [e] -> built a e' /\ exists r, children e' = e :: r).
  { intros q P C. split; [eapply post_init_built; [exact M|exact P|]; rewrite C; auto|].
    rewrite (post_init_children _ _ _ P), C. eauto. }
  destruct c; cbn [changed] in H;
    try (eapply one; [exact H|reflexivity]).
  - apply bind_ok in H as (r & R & H).
    assert (BR : built a (bu_expr r)).
    { destruct operand as [b|n]; [apply object_ok in R; exact (inv_builders _ _ I _ _ R)|exact (new_builder_built _ a _ _ R)]. }
    split; [eapply post_init_built; [exact M|exact H|]; cbn [children]; auto|].
    rewrite (post_init_children _ _ _ H). cbn [children]. eauto.
  - destruct (map_expr_built _ _ _ _ _ _ _ M H B) as (X & Y). split; [exact X|]. eauto.
  - apply bind_ok in H as (g & _ & H). apply bind_ok in H as (s & _ & H). eapply one; [exact H|reflexivity].
  - apply bind_ok in H as (s & _ & H). eapply one; [exact H|reflexivity].
  - destruct (map_expr_built _ _ _ _ _ _ _ M H B) as (X & Y). split; [exact X|]. eauto.
Qed.
Lemma aggregate_built x a g u q : (x = true -> a = true) -> aggregate show x g u = Ok q -> built a (gr_expr g) ->
  built a (q_expr q) /\ children (q_expr q) = [gr_expr g].
Proof.
  intros M H B.
  assert (one : forall e e', post_init x e = Ok e' -> children e = [gr_expr g] -> built a e' /\ children e' = [gr_expr g]).
  { intros e e' P C. split; [eapply post_init_built; [exact M|exact P|]; rewrite C; auto|].
    rewrite (post_init_children _ _ _ P), C. reflexivity. }
  destruct u; cbn [aggregate] in H; repeat match type of H with bind _ _ = _ => apply bind_ok in H as (? & ? & H) end;
    injection H as <-; cbn [q_expr]; unfold quantile_expr in *; (eapply one; [eassumption|reflexivity]).
Qed.
Lemma suppress_built x a q th q' : (x = true -> a = true) -> suppress x q th = Ok q' -> built a (q_expr q) -> built a (q_expr q').
Proof.
  unfold suppress. intros M H B. apply bind_ok in H as (? & _ & H). destruct (q_expr q) eqn:Q; try discriminate.
  apply bind_ok in H as (e & P & H). injection H as <-. cbn [q_expr]. eapply post_init_built; [exact M|exact P|]. cbn [children]. auto.
Qed.
Lemma nth_app_inv {A} (l : list A) x i y : nth_error (l ++ [x])%list i = Some y -> nth_error l i = Some y \/ y = x.
Proof.
  destruct (Nat.lt_ge_cases i (length l)) as [L|L].
  - rewrite nth_error_app1 by exact L. auto.
  - rewrite nth_error_app2 by exact L. destruct (i - length l) as [|n]; cbn [nth_error]; [intros [= ->]; auto|destruct n; discriminate].
Qed.
Lemma nth_replace_inv {A} (l : list A) i x j y : nth_error (replace l i x) j = Some y -> nth_error l j = Some y \/ y = x.
Proof.
  destruct (Nat.eq_dec i j) as [-> |N].
  - intros H. assert (L : j < length (replace l j x)) by (apply nth_error_Some; congruence).
    rewrite replace_length in L. rewrite nth_replace_same in H by exact L. injection H as <-. auto.
  - rewrite nth_replace_other by exact N. auto.
Qed.
Lemma inv_add_query a st q : inv a st -> built a (q_expr q) -> inv a (add_query st q).
Proof.
  intros [A B G Q] X. constructor; cbn [st_auto st_builders st_groups st_queries add_query]; auto.
  intros i y H. apply nth_app_inv in H as [H| ->]; eauto.
Qed.
Lemma inv_set a st i b e : inv a st -> built a e -> inv a (set_expr st i b e).
Proof.
  intros [A B G Q] X. constructor; cbn [st_auto st_builders st_groups st_queries set_expr with_builders]; auto.
  intros j y H. apply nth_replace_inv in H as [H| ->]; [eauto|exact X].
Qed.
Lemma inv_add_builder a st b : inv a st -> built a (bu_expr b) -> inv a (with_builders st (st_builders st ++ [b])%list).
Proof.
  intros [A B G Q] X. constructor; cbn [st_auto st_builders st_groups st_queries with_builders]; auto.
  intros i y H. apply nth_app_inv in H as [H| ->]; eauto.
Qed.

(** The histogram as a sequence of calls. *)
Lemma count_accepted x b c r : exists q, aggregate show x {| gr_source := bu_source b; gr_expr := bu_expr b; gr_keys := KSet c r |} (UCount None (MechName "default")) = Ok q
  /\ q = {| q_suppress := true; q_expr := GroupByCount (bu_expr b) (KSet c r) "count" MDefault None |}.
Proof. eexists. split; [|reflexivity]. reflexivity. Qed.
Lemma histogram_step st i column spec name st' o : step KW show st (Histogram i column spec name) = (st', o) ->
  (exists e, o = Err e /\ st' = st)
  \/ (exists b s c r e, o = Ok tt /\ nth_error (st_builders st) i = Some b /\ spec = Ok s
        /\ keys_from_dict KW [(if_not name (column ++ "_binned"), bn_bins s)] = Ok (BySet c r)
        /\ bin_expr (st_auto st) (bu_expr b) column s (Some (if_not name (column ++ "_binned"))) = Ok e
        /\ st' = add_query (set_expr st i b e) {| q_suppress := true; q_expr := GroupByCount e (KSet c r) "count" MDefault None |}).
Proof.
  cbn [step]. destruct (let* b := object (st_builders st) i in _) as [[[b e] k]|x] eqn:E; intros H.
  - apply bind_ok in E as (b' & O & E). apply bind_ok in E as (s & S & E). apply bind_ok in E as (k' & Ke & E). apply bind_ok in E as (e' & B & E).
    injection E as -> -> ->. destruct (keys_are_a_set _ _ _ Ke) as (c & r & ->). right. exists b, s, c, r, e.
    cbn [group_by raise_if bind bu_source bu_expr] in H.
    unfold group_by in H. cbn [raise_if bind bu_source bu_expr] in H.
    destruct (count_accepted (st_auto st) {| bu_source := bu_source b; bu_expr := e |} c r) as (q & A & ->).
    cbn [bu_source bu_expr] in A. rewrite A in H. cbn [bind outcome] in H. injection H as <- <-.
    apply object_ok in O. auto 10.
  - injection H as <- <-. left. eauto.
Qed.

Lemma outcome_cases st r st' o : outcome st r = (st', o) -> (r = Ok st' /\ o = Ok tt) \/ (exists e, r = Err e /\ o = Err e /\ st' = st).
Proof. destruct r; cbn [outcome]; intros [= <- <-]; eauto. Qed.

Lemma step_inv a st c st' o : inv a st -> (c = SetAuto true -> a = true) -> step KW show st c = (st', o) -> inv a st'.
Proof.
  intros I SA H. pose proof (inv_auto _ _ I) as M.
  destruct c; try (cbn [step] in H; apply outcome_cases in H as [(H & ->)|(e & _ & _ & ->)]; [|exact I]).
  - apply bind_ok in H as (b & B & H). injection H as <-. apply inv_add_builder; [exact I|exact (new_builder_built _ a _ _ B)].
  - apply bind_ok in H as (b0 & O & H). apply object_ok in O. apply bind_ok in H as (n & _ & H). injection H as <-.
    apply inv_add_builder; [exact I|exact (inv_builders _ _ I _ _ O)].
  - apply bind_ok in H as (b0 & O & H). apply object_ok in O. apply bind_ok in H as (e & C & H). injection H as <-.
    apply inv_set; [exact I|]. exact (proj1 (changed_built _ _ _ _ _ I C (inv_builders _ _ I _ _ O))).
  - apply bind_ok in H as (b0 & O & H). apply object_ok in O. apply bind_ok in H as (e & C & H). injection H as <-.
    apply inv_add_query; [exact I|]. eapply post_init_built; [exact M|exact C|]. cbn [children]. constructor; [|constructor].
    exact (inv_builders _ _ I _ _ O).
  - apply bind_ok in H as (b0 & O & H). apply object_ok in O. apply bind_ok in H as (k & _ & H). apply bind_ok in H as (g & G & H).
    apply bind_ok in H as (q & Q & H). injection H as <-. unfold group_by in G. apply bind_ok in G as (? & _ & G). injection G as <-.
    apply inv_add_query; [exact I|]. eapply aggregate_built; [exact M|exact Q|]. exact (inv_builders _ _ I _ _ O).
  - apply histogram_step in H as [(e & _ & ->)|(b0 & s & c & r & e & _ & O & _ & _ & B & ->)]; [exact I|].
    assert (BE : built a e) by exact (proj1 (map_expr_built _ _ _ _ _ _ _ M B (inv_builders _ _ I _ _ O))).
    apply inv_add_query; [apply inv_set; assumption|]. cbn [q_expr built]. split; [reflexivity|exact BE].
  - apply bind_ok in H as (b0 & O & H). apply object_ok in O. apply bind_ok in H as (g & G & H). injection H as <-.
    unfold group_by in G. apply bind_ok in G as (? & _ & G). injection G as <-. destruct I as [A B G Q].
    constructor; cbn [st_auto st_builders st_groups st_queries add_group]; auto.
    intros i y H. apply nth_app_inv in H as [H| ->]; [eauto|]. cbn [gr_expr]. eauto.
  - apply bind_ok in H as (g0 & O & H). apply object_ok in O. apply bind_ok in H as (q & Q & H). injection H as <-.
    apply inv_add_query; [exact I|]. eapply aggregate_built; [exact M|exact Q|]. exact (inv_groups _ _ I _ _ O).
  - apply bind_ok in H as (q0 & O & H). apply object_ok in O. apply bind_ok in H as (q' & Q & H). injection H as <-.
    apply inv_add_query; [exact I|]. eapply suppress_built; [exact M|exact Q|]. exact (inv_queries _ _ I _ _ O).
  - cbn [step] in H. injection H as <- <-. destruct I as [A B G Q]. constructor; cbn [st_auto st_builders st_groups st_queries]; auto.
    intros ->. auto.
Qed.
Lemma run_inv a l : forall st, inv a st -> (In (SetAuto true) l -> a = true) -> inv a (run KW show st l).
Proof.
  induction l as [|c l IH]; intros st I S; [exact I|]. cbn [run]. apply IH.
  - destruct (step KW show st c) as (st', o) eqn:E. refine (step_inv _ _ c _ _ I _ E). intros ->. apply S. left. reflexivity.
  - intros X. apply S. right. exact X.
Qed.
Lemma init_inv a auto : (auto = true -> a = true) -> inv a (init auto).
Proof. intros M. constructor; cbn; auto; intros [|i]; discriminate. Qed.
End Inv.

(** ** Calls on other builders *)

(** The builder a call changes. *)
Definition changes (c : call) : option nat :=
  match c with Change b _ | Histogram b _ _ _ => Some b | _ => None end.
(** The builder a call joins with. *)
Definition joins (c : call) : option nat :=
  match c with Change _ (ChJoinPrivate (inl b) _ _ _) => Some b | _ => None end.

Section Calls.
Variable KW : KeySet.world.
Variable show : pynum -> string.

Lemma step_failed st c st' e : step KW show st c = (st', Err e) -> st' = st.
Proof.
  intros H. destruct c; try (cbn [step] in H; apply outcome_cases in H as [(_ & X)|(x & _ & _ & X)]; [discriminate|exact X]).
  - apply histogram_step in H as [(x & _ & X)|(? & ? & ? & ? & ? & X & _)]; [exact X|discriminate].
  - discriminate H.
Qed.

(** What a call leaves alone. *)
Lemma step_others st c st' o : step KW show st c = (st', o) ->
  (forall i q, nth_error (st_queries st) i = Some q -> nth_error (st_queries st') i = Some q)
  /\ (forall i g, nth_error (st_groups st) i = Some g -> nth_error (st_groups st') i = Some g)
  /\ (forall i b, nth_error (st_builders st) i = Some b -> changes c <> Some i -> nth_error (st_builders st') i = Some b)
  /\ length (st_builders st) <= length (st_builders st').
Proof.
  intros H. destruct c; try (cbn [step] in H; apply outcome_cases in H as [(H & ->)|(e & _ & _ & ->)]; [|auto]);
    repeat match type of H with bind _ _ = _ => apply bind_ok in H as (? & ? & H) end; cbn [changes].
  all: try (injection H as <-; cbn [st_queries st_groups st_builders with_builders add_query add_group set_expr];
    rewrite ?app_length, ?replace_length; cbn [length]; repeat split; intros; auto using nth_snoc; try lia;
    rewrite nth_replace_other by congruence; assumption).
  - apply histogram_step in H as [(x & _ & ->)|(? & ? & ? & ? & ? & _ & _ & _ & _ & _ & ->)]; [auto|].
    cbn [st_queries st_groups st_builders with_builders add_query add_group set_expr]. rewrite replace_length.
    repeat split; intros; auto using nth_snoc. rewrite nth_replace_other by congruence. assumption.
Qed.
Lemma run_others l : forall st,
  (forall i q, nth_error (st_queries st) i = Some q -> nth_error (st_queries (run KW show st l)) i = Some q)
  /\ (forall i g, nth_error (st_groups st) i = Some g -> nth_error (st_groups (run KW show st l)) i = Some g)
  /\ (forall i b, nth_error (st_builders st) i = Some b -> (forall c, In c l -> changes c <> Some i) ->
        nth_error (st_builders (run KW show st l)) i = Some b).
Proof.
  induction l as [|c l IH]; intros st; cbn [run]; [auto|].
  destruct (step KW show st c) as (st', o) eqn:E. destruct (step_others _ _ _ _ E) as (A & B & C & _). cbn [fst].
  destruct (IH st') as (A' & B' & C'). repeat split; intros; auto. apply C'; [apply C; [assumption|]|]; intros; auto with datatypes.
Qed.

(** Only the calls on the builders in [S] matter to them. *)
Lemma post_init_change x y q : match q with GetBounds _ _ _ _ _ | GroupByCount _ _ _ _ _ | GroupByCountDistinct _ _ _ _ _ _
    | GroupByQuantile _ _ _ _ _ _ _ | GroupByBounded _ _ _ _ _ _ _ _ _ => False | _ => True end -> post_init x q = post_init y q.
Proof. destruct q; cbn [post_init]; tauto. Qed.
Lemma changed_agree st1 st2 e c : (forall b, joins (Change 0 c) = Some b -> nth_error (st_builders st1) b = nth_error (st_builders st2) b) ->
  changed st1 e c = changed st2 e c.
Proof.
  intros J. destruct c; cbn [changed]; unfold bin_expr, map_expr; try (apply post_init_change; exact I).
  - cbn [joins] in J. destruct operand as [b|n]; [|reflexivity].
    unfold object. rewrite (J b eq_refl). reflexivity.
  - destruct (new_columns_schema types None); reflexivity.
  - destruct (if grouping then _ else _); [|reflexivity]. cbn [bind]. destruct (new_columns_schema types a); reflexivity.
  - destruct (new_columns_schema types None); reflexivity.
  - destruct (new_columns_schema _ None); reflexivity.
Qed.

Definition on (S : nat -> bool) (c : call) : bool := match changes c with Some b => S b | None => false end.
Definition agree (S : nat -> bool) (st1 st2 : state) : Prop :=
  forall i, S i = true -> nth_error (st_builders st1) i = nth_error (st_builders st2) i /\ i < length (st_builders st1).
Lemma step_same S st1 st2 c : on S c = true -> (forall b, joins c = Some b -> S b = true) -> agree S st1 st2 ->
  agree S (fst (step KW show st1 c)) (fst (step KW show st2 c)).
Proof.
  intros O J A. unfold on in O. destruct c; cbn [changes] in O; try discriminate.
  - cbn [step]. destruct (A b O) as (Eb & Lb). unfold object. rewrite <- Eb.
    destruct (nth_error (st_builders st1) b) as [x|] eqn:N; [|exact A]. cbn [bind].
    rewrite (changed_agree st1 st2) by (intros b' X; apply A, J; exact X).
    destruct (changed st2 (bu_expr x) c) as [e|]; [|exact A]. cbn [bind outcome fst].
    intros i Si. cbn [set_expr with_builders st_builders]. rewrite replace_length. destruct (A i Si) as (Ei & Li).
    split; [|exact Li]. destruct (Nat.eq_dec b i) as [-> |NE].
    + rewrite !nth_replace_same; [reflexivity| |exact Li]. apply nth_error_Some. congruence.
    + rewrite !nth_replace_other by exact NE. exact Ei.
  - cbn [step]. destruct (A b O) as (Eb & Lb). unfold object. rewrite <- Eb.
    destruct (nth_error (st_builders st1) b) as [x|] eqn:N; [|exact A]. cbn [bind].
    destruct spec as [s|]; [|exact A]. cbn [bind].
    destruct (keys_from_dict KW [(if_not name (column ++ "_binned"), bn_bins s)]) as [k|] eqn:Ke; [|exact A]. cbn [bind].
    assert (BE : bin_expr (st_auto st2) (bu_expr x) column s (Some (if_not name (column ++ "_binned")))
               = bin_expr (st_auto st1) (bu_expr x) column s (Some (if_not name (column ++ "_binned")))).
    { unfold bin_expr, map_expr. destruct (new_columns_schema _ None); reflexivity. }
    rewrite BE. destruct (bin_expr (st_auto st1) _ _ _ _) as [e|]; [|exact A]. cbn [bind].
    destruct (keys_are_a_set _ _ _ Ke) as (c & r & ->). unfold group_by. cbn [raise_if bind bu_source bu_expr].
    destruct (count_accepted show (st_auto st1) {| bu_source := bu_source x; bu_expr := e |} c r) as (q1 & A1 & ->).
    destruct (count_accepted show (st_auto st2) {| bu_source := bu_source x; bu_expr := e |} c r) as (q2 & A2 & ->).
    cbn [bu_source bu_expr] in *. rewrite A1, A2. cbn [bind outcome fst].
    intros i Si. cbn [add_query set_expr with_builders st_builders]. rewrite replace_length. destruct (A i Si) as (Ei & Li).
    split; [|exact Li]. destruct (Nat.eq_dec b i) as [-> |NE].
    + rewrite !nth_replace_same; [reflexivity| |exact Li]. apply nth_error_Some. congruence.
    + rewrite !nth_replace_other by exact NE. exact Ei.
Qed.
Lemma agree_sym S st1 st2 : agree S st1 st2 -> agree S st2 st1.
Proof.
  intros A i Si. destruct (A i Si) as (U & V). split; [congruence|]. apply nth_error_Some. rewrite <- U. apply nth_error_Some. exact V.
Qed.
Lemma step_skip S st1 st2 c : on S c = false -> agree S st1 st2 -> agree S (fst (step KW show st1 c)) st2.
Proof.
  intros O A i Si. destruct (step KW show st1 c) as (st', o) eqn:E. destruct (step_others _ _ _ _ E) as (_ & _ & C & L). cbn [fst].
  destruct (A i Si) as (U & V). split; [|lia]. rewrite <- U. destruct (nth_error (st_builders st1) i) as [b|] eqn:N.
  - apply C; [exact N|]. intros X. unfold on in O. rewrite X in O. congruence.
  - apply nth_error_None in N. lia.
Qed.
Lemma run_slice S l : (forall c b, In c l -> on S c = true -> joins c = Some b -> S b = true) ->
  forall st1 st2, agree S st1 st2 -> agree S (run KW show st1 l) (run KW show st2 (filter (on S) l)).
Proof.
  induction l as [|c l IH]; intros J st1 st2 A; [exact A|]. cbn [run filter]. destruct (on S c) eqn:O; cbn [run].
  - apply IH; [intros; apply (J c0); auto with datatypes|]. apply step_same; [exact O| |exact A]. intros b. apply J; [left; reflexivity|exact O].
  - apply IH; [intros; apply (J c0); auto with datatypes|]. apply step_skip; [exact O|exact A].
Qed.
End Calls.
