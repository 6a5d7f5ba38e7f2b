(** Which tables a query reads: schemas, transformations, rewriting and compilation look at
    no table that the query does not name.  Proofs for property C69. *)
From Coq Require Import String Bool Arith ZArith QArith Qcanon Lia Permutation List.
From Verif Require Import Prelude Budget Value Rows Constraints Schema Query Rewrite Transform TransformSpec Session Measure.
Import ListNotations.
Local Open Scope string_scope.
Local Open Scope nat_scope.

(** ** Specification *)

(** The public tables a query names.  ([sources], TransformSpec.v, are the private ones.) *)
Fixpoint joined (q : query) : list string :=
  match q with
  | PrivateSource _ => []
  | JoinPrivate l r _ _ _ => (joined l ++ joined r)%list
  | JoinPublic c (PubName n) _ _ => n :: joined c
  | JoinPublic c (PubFrame _) _ _ => joined c
  | GetGroups c _ | GetBounds c _ _ _ _ | Rename c _ | Filter c _ | Select c _ | MapQ c _ _ _
  | FlatMap c _ _ _ _ | FlatMapByID c _ _ | ReplaceNullAndNan c _
  | ReplaceInfinity c _ | DropNullAndNan c _ | DropInfinity c _ | EnforceConstraint c _
  | GroupByCount c _ _ _ _ | GroupByCountDistinct c _ _ _ _ _ | GroupByQuantile c _ _ _ _ _ _
  | GroupByBounded _ c _ _ _ _ _ _ _ | SuppressAggregates c _ _ => joined c
  end.
(** Two sets of tables, with their schemas and constraints, that agree on the tables [q]
    names: the private tables it reads (which are not public in one of them only) and the
    public tables it joins.  Nothing is said about other tables, not even whether they exist. *)
Record agree_for (q : query) (cat : catalog) (data : dict vtab) (cat' : catalog) (data' : dict vtab) : Prop := {
  ag_schema : forall n, In n (sources q) -> dget n (cat_private cat) = dget n (cat_private cat');
  ag_rows : forall n, In n (sources q) -> dget n data = dget n data';
  ag_clash : forall n, In n (sources q) -> dmem n (cat_public cat) = dmem n (cat_public cat');
  ag_public : forall n, In n (joined q) -> dget n (cat_public cat) = dget n (cat_public cat')
}.

(** ** Proofs *)
Section Footprint.
Variables (W : world) (auto : bool) (mu : measure) (cat cat' : catalog) (data data' : dict vtab).
Notation sch c := (schema_of (w_cond_ok W) c).
Notation agrees q := (agree_for q cat data cat' data').

Lemma agree_child q c : (forall n, In n (sources c) -> In n (sources q)) -> (forall n, In n (joined c) -> In n (joined q)) -> agrees q -> agrees c.
Proof. intros S J [A B C D]. split; auto. Qed.
Lemma agree_same q c : sources c = sources q -> joined c = joined q -> agrees q -> agrees c.
Proof. intros S J. apply agree_child; [rewrite S|rewrite J]; auto. Qed.
Ltac child := solve [match goal with A : agree_for _ _ _ _ _ |- _ => revert A; apply agree_child; cbn [sources joined]; intros; auto; apply in_or_app; auto end
                    | match goal with A : agree_for (JoinPublic _ ?p _ _) _ _ _ _ |- _ => destruct p; revert A; apply agree_child; cbn [sources joined In]; auto end].

Lemma schema_same q : agrees q -> sch cat q = sch cat' q.
Proof.
  induction q; intros A; cbn [schema_of]; try (rewrite IHq by child; reflexivity).
  - unfold source_schema. rewrite (ag_clash _ _ _ _ _ A), (ag_schema _ _ _ _ _ A) by (left; reflexivity). reflexivity.
  - rewrite IHq1, IHq2 by child. reflexivity.
  - rewrite IHq by child. destruct (sch cat' q) as [s|]; cbn [bind]; [|reflexivity]. unfold join_public_schema.
    assert (public_schema cat public = public_schema cat' public) as ->; [|reflexivity].
    destruct public as [n|f]; [|reflexivity]. cbn [public_schema]. rewrite (ag_public _ _ _ _ _ A) by (left; reflexivity). reflexivity.
Qed.

Lemma visit_same l2 q : agrees q -> visit W l2 cat data q = visit W l2 cat' data' q.
Proof.
  induction q; intros A; cbn [visit]; try reflexivity; try (rewrite IHq by child; reflexivity).
  - unfold visit_source. rewrite (ag_rows _ _ _ _ _ A), (ag_schema _ _ _ _ _ A) by (left; reflexivity). reflexivity.
  - rewrite IHq1, IHq2 by child. reflexivity.
  - rewrite IHq by child. destruct (visit W l2 cat' data' q) as [(t, cs)|]; cbn [bind]; [|reflexivity]. unfold visit_join_public.
    assert (public_frame cat public = public_frame cat' public) as ->; [|reflexivity].
    destruct public as [n|f]; [|reflexivity]. cbn [public_frame]. rewrite (ag_public _ _ _ _ _ A) by (left; reflexivity). reflexivity.
Qed.
Lemma build_same l2 q : agrees q -> build_transformation W l2 cat data q = build_transformation W l2 cat' data' q.
Proof. intros A. unfold build_transformation. rewrite schema_same, visit_same by exact A. reflexivity. Qed.

(** Rewriting names the same tables. *)
Definition names_as (q q' : query) : Prop := sources q' = sources q /\ joined q' = joined q.
Lemma names_refl q : names_as q q. Proof. split; reflexivity. Qed.
Lemma names_trans a b c : names_as a b -> names_as b c -> names_as a c.
Proof. intros [A B] [C D]. split; congruence. Qed.
Lemma post_names q q' : post_init auto q = Ok q' -> names_as q q'.
Proof.
  intros H. destruct q; cbn [post_init] in H;
    try (injection H as <-; apply names_refl);
    try (apply bind_ok in H as (? & _ & H); injection H as <-; apply names_refl).
  - apply bind_ok in H as (? & _ & H). apply bind_ok in H as (? & _ & H). injection H as <-. apply names_refl.
  - apply bind_ok in H as (? & _ & H). apply bind_ok in H as (p' & P & H). apply bind_ok in H as (? & _ & H). injection H as <-.
    destruct public as [n|f]; [injection P as <-; apply names_refl|]. apply bind_ok in P as (f' & _ & P). injection P as <-. split; reflexivity.
  - apply bind_ok in H as (? & _ & H). apply bind_ok in H as (? & _ & H). apply bind_ok in H as (? & _ & H). injection H as <-. split; reflexivity.
  - apply bind_ok in H as (? & _ & H). apply bind_ok in H as (? & _ & H). injection H as <-. split; reflexivity.
Qed.
Lemma measured_names q c m b : measured q = Some (c, m, b) -> names_as q c /\ forall c', names_as c (with_child q c') <-> names_as c c'.
Proof. destruct q; cbn [measured]; intros H; try discriminate; injection H as <- <- <-; (split; [split; reflexivity|]); intros c'; split; intros [A B]; split; assumption. Qed.

Definition steady (f : query -> res query) : Prop := forall q q', f q = Ok q' -> names_as q q'.
Lemma select_steady c : steady (select_noise auto (w_cond_ok W) mu c).
Proof.
  intros q q' H. destruct q; cbn [select_noise] in H; try (injection H as <-; apply names_refl);
    repeat (match type of H with bind _ _ = Ok _ => apply bind_ok in H as (? & _ & H) end);
    apply post_names in H; (eapply names_trans; [|exact H]); split; reflexivity.
Qed.
Lemma special_steady c : steady (handle_special_values auto (w_cond_ok W) c).
Proof.
  intros q q' H. unfold handle_special_values in H. destruct (measured q) as [[[c0 m] bounds]|] eqn:M; [|injection H as <-; apply names_refl].
  destruct (measured_names _ _ _ _ M) as (NC & WC). assert (CW : forall q1 c', names_as q q1 -> (exists b, measured q1 = Some (b, m, bounds)) -> names_as q c' -> names_as q (with_child q1 c')).
  { intros q1 c' N1 (b & M1) N2. destruct (measured_names _ _ _ _ M1) as (NB & WB). eapply names_trans; [exact N1|]. eapply names_trans; [exact NB|]. apply WB.
    destruct N1 as [N1a N1b], N2 as [N2a N2b], NB as [NBa NBb]. split; congruence. }
  apply bind_ok in H as (s & _ & H). apply bind_ok in H as (d & _ & H). cbv zeta in H. apply bind_ok in H as (q1 & Q1 & H).
  set (drop := cd_null d || (is_decimal d && cd_nan d)) in *.
  assert (N1 : names_as q q1 /\ exists b bb, measured q1 = Some (b, m, bb) /\ (bounds = None <-> bb = None)).
  { destruct drop.
    - apply bind_ok in Q1 as (c1 & C1 & Q1). apply post_names in C1. split.
      + eapply names_trans; [|exact (post_names _ _ Q1)]. apply CW; [apply names_refl|eauto|]. eapply names_trans; [exact NC|exact C1].
      + destruct q; cbn [measured] in M; try discriminate; injection M as <- <- <-; cbn [with_child post_init] in Q1;
          repeat (match type of Q1 with bind _ _ = Ok _ => apply bind_ok in Q1 as (? & _ & Q1) end); injection Q1 as <-; cbn [measured]; do 2 eexists; (split; [reflexivity|]); split; (intros; first [reflexivity|discriminate]).
    - injection Q1 as <-. split; [apply names_refl|]. exists c0, bounds. split; [exact M|reflexivity]. }
  destruct N1 as (N1 & b & bb & M1 & _). destruct (is_decimal d && cd_inf d); [|injection H as <-; exact N1].
  apply bind_ok in H as (c2 & C2 & H). apply post_names in C2, H. eapply names_trans; [|exact H].
  destruct (measured_names _ _ _ _ M1) as (NB & WB). eapply names_trans; [exact N1|]. eapply names_trans; [exact NB|]. apply WB.
  assert (NC2 : names_as q c2).
  { eapply names_trans; [exact NC|]. eapply names_trans; [|exact C2]. destruct drop, bounds as [[lo hi]|]; split; reflexivity. }
  destruct N1 as [N1a N1b], NC2 as [N2a N2b], NB as [NBa NBb]. split; congruence.
Qed.

Lemma remade_steady f q q' : steady f -> remade auto f q = Ok q' -> names_as q q'.
Proof. intros F H. apply bind_ok in H as (x & P & H). eapply names_trans; [exact (post_names _ _ P)|exact (F _ _ H)]. Qed.
Lemma depth_steady f : steady f -> steady (depth_first auto f).
Proof.
  intros F q. induction q; intros q' H; cbn [depth_first] in H; try exact (F _ _ H);
    try (apply bind_ok in H as (cq & C & H); apply IHq in C as [CS CJ];
         try match type of H with bind (raise_if _ _) _ = _ => apply bind_ok in H as (? & _ & H) end;
         (apply (remade_steady f) in H; [|exact F]); (eapply names_trans; [|exact H]); split; cbn [sources joined]; congruence).
  - apply bind_ok in H as (l & L & H). apply bind_ok in H as (r & R & H). apply IHq1 in L as [LS LJ]. apply IHq2 in R as [RS RJ].
    apply (remade_steady f) in H; [|exact F]. eapply names_trans; [|exact H]. split; cbn [sources joined]; congruence.
  - apply bind_ok in H as (c & C & H). apply IHq in C as [CS CJ]. apply (remade_steady f) in H; [|exact F]. eapply names_trans; [|exact H].
    split; [exact CS|]. cbn [joined]. destruct public; congruence.
Qed.
Lemma agree_names q q' : names_as q q' -> agrees q -> agrees q'.
Proof. intros [S J]. apply agree_same; assumption. Qed.

Lemma remade_same f g q : (forall x, agrees x -> f x = g x) -> agrees q -> remade auto f q = remade auto g q.
Proof.
  intros FG A. unfold remade. destruct (post_init auto q) as [x|] eqn:P; cbn [bind]; [|reflexivity]. apply FG. exact (agree_names _ _ (post_names _ _ P) A).
Qed.
Lemma depth_same f g : steady f -> (forall x, agrees x -> f x = g x) -> forall q, agrees q -> depth_first auto f q = depth_first auto g q.
Proof.
  intros F FG q. induction q; intros A; cbn [depth_first]; try (apply FG, A).
  all: try (rewrite <- IHq by child; destruct (depth_first auto f q) as [cq|] eqn:C; cbn [bind]; [apply (depth_steady f F) in C as [CS CJ]|reflexivity]).
  all: try (apply remade_same; [exact FG|]; revert A; apply agree_same; cbn [sources joined]; congruence).
  - rewrite <- IHq1 by child. destruct (depth_first auto f q1) as [l|] eqn:L; cbn [bind]; [|reflexivity]. apply (depth_steady f F) in L as [LS LJ].
    rewrite <- IHq2 by child. destruct (depth_first auto f q2) as [r|] eqn:R; cbn [bind]; [|reflexivity]. apply (depth_steady f F) in R as [RS RJ].
    apply remade_same; [exact FG|]. revert A. apply agree_same; cbn [sources joined]; congruence.
  - apply remade_same; [exact FG|]. revert A. apply agree_same; cbn [sources joined]; [exact CS|]. destruct public; congruence.
  - destruct (raise_if _ _); cbn [bind]; [|reflexivity]. apply remade_same; [exact FG|]. revert A. apply agree_same; cbn [sources joined]; congruence.
Qed.
Lemma select_same q : agrees q -> select_noise auto (w_cond_ok W) mu cat q = select_noise auto (w_cond_ok W) mu cat' q.
Proof.
  intros A. destruct q; try reflexivity. cbn [select_noise]. rewrite schema_same by child. reflexivity.
Qed.
Lemma special_same q : agrees q -> handle_special_values auto (w_cond_ok W) cat q = handle_special_values auto (w_cond_ok W) cat' q.
Proof.
  intros A. unfold handle_special_values. destruct (measured q) as [[[c m] b]|] eqn:M; [|reflexivity].
  rewrite schema_same; [reflexivity|]. exact (agree_names _ _ (proj1 (measured_names _ _ _ _ M)) A).
Qed.
Lemma rewrite_same q : agrees q -> rewrite auto (w_cond_ok W) mu cat q = rewrite auto (w_cond_ok W) mu cat' q.
Proof.
  intros A. unfold rewrite. rewrite (depth_same _ _ (special_steady cat) special_same q A).
  destruct (depth_first _ _ q) as [q1|] eqn:D; cbn [bind]; [|reflexivity]. apply depth_same; [apply select_steady|exact select_same|].
  exact (agree_names _ _ (depth_steady _ (special_steady cat') _ _ D) A).
Qed.
Lemma rewrite_names c q q' : rewrite auto (w_cond_ok W) mu c q = Ok q' -> names_as q q'.
Proof.
  intros H. apply bind_ok in H as (q1 & A & B). eapply names_trans; [exact (depth_steady _ (special_steady c) _ _ A)|exact (depth_steady _ (select_steady c) _ _ B)].
Qed.

(** Compiling. *)
Variables (R : rounding) (K : core) (so : list string -> list string).
Lemma budgets_same b q k m : agrees q -> budgets R W cat b q k m = budgets R W cat' b q k m.
Proof. intros A. unfold budgets. rewrite schema_same by exact A. reflexivity. Qed.
Lemma child_same c q : agrees q -> child_table W cat data c q = child_table W cat' data' c q.
Proof. apply build_same. Qed.
Lemma count_same b c k o m co : agrees c -> visit_count R W K so mu cat data b c k o m co = visit_count R W K so mu cat' data' b c k o m co.
Proof.
  intros A. unfold visit_count. rewrite budgets_same by child. destruct (budgets _ _ _ _ _ _ _); cbn [bind]; [|reflexivity].
  destruct (core_mechanism co); cbn [bind]; [|reflexivity]. rewrite child_same by exact A. reflexivity.
Qed.
Lemma measure_same b q : agrees q -> measure_query R W K auto so mu cat data b q = measure_query R W K auto so mu cat' data' b q.
Proof.
  induction q; intros A; cbn [measure_query]; try reflexivity.
  - unfold visit_groups. rewrite schema_same, child_same by child. reflexivity.
  - unfold visit_bounds. rewrite budgets_same, child_same by child. reflexivity.
  - apply count_same. child.
  - unfold visit_count_distinct. rewrite budgets_same by child. rewrite schema_same by child.
    destruct (budgets _ _ _ _ _ _ _); cbn [bind]; [|reflexivity]. destruct (core_mechanism core); cbn [bind]; [|reflexivity].
    rewrite child_same by child. destruct (child_table _ _ _ _ _) as [x|]; cbn [bind]; [|reflexivity]. destruct (sch cat' q) as [s|]; cbn [bind]; [|reflexivity].
    destruct (constrained_child _ _ _ _ _) as [c'|] eqn:CC; [|reflexivity]. destruct (post_init _ _); cbn [bind]; [|reflexivity]. apply count_same.
    unfold constrained_child in CC. destruct (sc_id s); [|discriminate]. destruct (counts_only _ _ _); [|discriminate].
    destruct (keys_columns _) as [|g [|]]; [injection CC as <-; child| |discriminate]. destruct (existsb _ _); [injection CC as <-; child|discriminate].
  - unfold visit_quantile. rewrite budgets_same, child_same by child. reflexivity.
  - unfold visit_bounded. rewrite budgets_same by child. destruct (budgets _ _ _ _ _ _ _); cbn [bind]; [|reflexivity].
    destruct (core_mechanism _); cbn [bind]; [|reflexivity]. rewrite child_same by child. reflexivity.
  - rewrite schema_same by exact A. rewrite IHq by child. reflexivity.
Qed.
Lemma compile_same b q : agrees q -> compile R W K auto so mu cat data b q = compile R W K auto so mu cat' data' b q.
Proof.
  intros A. unfold compile. rewrite schema_same by exact A. rewrite rewrite_same by exact A.
  destruct (sch cat' q); cbn [bind]; [|reflexivity]. destruct (rewrite _ _ _ _ q) as [q'|] eqn:RW; cbn [bind]; [|reflexivity].
  rewrite measure_same; [reflexivity|]. exact (agree_names _ _ (rewrite_names _ _ _ RW) A).
Qed.
End Footprint.
