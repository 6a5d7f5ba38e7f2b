(** The names of tables carry no meaning: a query with other names, over tables that have
    those names, has the same schema, table and measurement.  Proofs for property C82. *)
From Coq Require Import String Bool Arith ZArith QArith Qcanon Lia Permutation List.
From Verif Require Import Prelude Budget Value Rows Constraints Schema Query Rewrite Transform TransformSpec Session Measure Footprint.
Import ListNotations.
Local Open Scope string_scope.
Local Open Scope nat_scope.

(** ** Specification *)

(** A query with [f n] for each private table [n] and [g n] for each public table [n]. *)
Section Names.
Variables f g : string -> string.
Fixpoint renamed (q : query) : query :=
  match q with
  | PrivateSource n => PrivateSource (f n)
  | GetGroups c l => GetGroups (renamed c) l
  | GetBounds c k m a b => GetBounds (renamed c) k m a b
  | Rename c m => Rename (renamed c) m
  | Filter c s => Filter (renamed c) s
  | Select c l => Select (renamed c) l
  | MapQ c h n a => MapQ (renamed c) h n a
  | FlatMap c h n a mr => FlatMap (renamed c) h n a mr
  | FlatMapByID c h n => FlatMapByID (renamed c) h n
  | JoinPrivate l r tl tr on => JoinPrivate (renamed l) (renamed r) tl tr on
  | JoinPublic c (PubName n) on how => JoinPublic (renamed c) (PubName (g n)) on how
  | JoinPublic c (PubFrame x) on how => JoinPublic (renamed c) (PubFrame x) on how
  | ReplaceNullAndNan c rw => ReplaceNullAndNan (renamed c) rw
  | ReplaceInfinity c rw => ReplaceInfinity (renamed c) rw
  | DropNullAndNan c l => DropNullAndNan (renamed c) l
  | DropInfinity c l => DropInfinity (renamed c) l
  | EnforceConstraint c k => EnforceConstraint (renamed c) k
  | GroupByCount c k o m co => GroupByCount (renamed c) k o m co
  | GroupByCountDistinct c k l o m co => GroupByCountDistinct (renamed c) k l o m co
  | GroupByQuantile c k m qu a b o => GroupByQuantile (renamed c) k m qu a b o
  | GroupByBounded kd c k m a b o me co => GroupByBounded kd (renamed c) k m a b o me co
  | SuppressAggregates c l t => SuppressAggregates (renamed c) l t
  end.
(** Under the new names there are the same tables, for the tables that [q] names. *)
Record matches (q : query) (cat : catalog) (data : dict vtab) (cat' : catalog) (data' : dict vtab) : Prop := {
  ma_schema : forall n, In n (sources q) -> dget (f n) (cat_private cat') = dget n (cat_private cat);
  ma_rows : forall n, In n (sources q) -> dget (f n) data' = dget n data;
  ma_clash : forall n, In n (sources q) -> dmem (f n) (cat_public cat') = dmem n (cat_public cat);
  ma_public : forall n, In n (joined q) -> dget (g n) (cat_public cat') = dget n (cat_public cat)
}.

(** ** Proofs *)
Section Renaming.
Variables (W : world) (auto : bool) (mu : measure) (cat cat' : catalog) (data data' : dict vtab).
Notation sch c := (schema_of (w_cond_ok W) c).
Notation ok q := (matches q cat data cat' data').

Lemma ma_child q c : (forall n, In n (sources c) -> In n (sources q)) -> (forall n, In n (joined c) -> In n (joined q)) -> ok q -> ok c.
Proof. intros S J [A B C D]. split; auto. Qed.
Lemma ma_names q q' : names_as q q' -> ok q -> ok q'.
Proof. intros [S J]. apply ma_child; [rewrite S|rewrite J]; auto. Qed.
Ltac child := solve [match goal with A : matches _ _ _ _ _ |- _ => revert A; apply ma_child; cbn [sources joined]; intros; auto; apply in_or_app; auto end
                    | match goal with A : matches (JoinPublic _ ?p _ _) _ _ _ _ |- _ => destruct p; revert A; apply ma_child; cbn [sources joined In]; auto end].

Lemma schema_ren q : ok q -> sch cat' (renamed q) = sch cat q.
Proof.
  induction q; intros A; cbn [schema_of renamed]; try (rewrite IHq by child; reflexivity).
  - unfold source_schema. rewrite (ma_clash _ _ _ _ _ A), (ma_schema _ _ _ _ _ A) by (left; reflexivity). reflexivity.
  - rewrite IHq1, IHq2 by child. reflexivity.
  - destruct public as [n|x]; cbn [schema_of]; rewrite IHq by child; [|reflexivity]. destruct (sch cat q) as [s|]; cbn [bind]; [|reflexivity]. unfold join_public_schema. cbn [public_schema].
    rewrite (ma_public _ _ _ _ _ A) by (left; reflexivity). reflexivity.
Qed.
Lemma visit_ren l2 q : ok q -> visit W l2 cat' data' (renamed q) = visit W l2 cat data q.
Proof.
  induction q; intros A; cbn [visit renamed]; try reflexivity; try (rewrite IHq by child; reflexivity).
  - unfold visit_source. rewrite (ma_rows _ _ _ _ _ A), (ma_schema _ _ _ _ _ A) by (left; reflexivity). reflexivity.
  - rewrite IHq1, IHq2 by child. reflexivity.
  - destruct public as [n|x]; cbn [visit]; rewrite IHq by child; [|reflexivity]. destruct (visit W l2 cat data q) as [(t, cs)|]; cbn [bind]; [|reflexivity]. unfold visit_join_public. cbn [public_frame].
    rewrite (ma_public _ _ _ _ _ A) by (left; reflexivity). reflexivity.
Qed.
Lemma build_ren l2 q : ok q -> build_transformation W l2 cat' data' (renamed q) = build_transformation W l2 cat data q.
Proof. intros A. unfold build_transformation. rewrite schema_ren, visit_ren by exact A. reflexivity. Qed.

(** Rewriting. *)
Definition mapped (r : res query) : res query := let* x := r in Ok (renamed x).
Definition is_source (q : query) : bool := match q with PrivateSource _ => true | _ => false end.
Lemma count_ren q : is_groupby_count (renamed q) = is_groupby_count q.
Proof. destruct q; try reflexivity. destruct public; reflexivity. Qed.
Lemma post_ren q : is_source q = false -> post_init auto (renamed q) = mapped (post_init auto q).
Proof.
  intros N. destruct q; try discriminate N.
  all: try (match goal with |- context [JoinPublic _ ?p _ _] => destruct p end).
  all: cbn [renamed post_init]; unfold mapped; rewrite ?count_ren; cbn [bind].
  all: repeat (match goal with
    | |- context [bind ?r _] => match r with bind _ _ => fail 1 | Ok _ => fail 1 | _ => destruct r; cbn [bind] end
    | |- context [match ?r with _ => _ end] => destruct r; cbn [bind]
    end); try reflexivity.
Qed.
Lemma post_ma q q' : post_init auto q = Ok q' -> ok q -> ok q'.
Proof. intros P. apply ma_names. exact (post_names auto _ _ P). Qed.
Lemma measured_ren q : measured (renamed q) = match measured q with Some (c, m, b) => Some (renamed c, m, b) | None => None end.
Proof. destruct q; try reflexivity. destruct public; reflexivity. Qed.
Lemma with_child_ren q c : (exists x, measured q = Some x) -> with_child (renamed q) (renamed c) = renamed (with_child q c).
Proof. intros (x & M). destruct q; try discriminate M; reflexivity. Qed.
Lemma measured_not_source q x : measured q = Some x -> is_source q = false.
Proof. destruct q; try discriminate; reflexivity. Qed.
Lemma with_child_measured q c x : measured q = Some x -> exists y, measured (with_child q c) = Some y.
Proof. destruct q; try discriminate; cbn [measured with_child]; eauto. Qed.
Lemma post_measured q q' x : post_init auto q = Ok q' -> measured q = Some x -> exists y, measured q' = Some y.
Proof.
  intros P M. destruct q; try discriminate M; cbn [post_init] in P;
    repeat (match type of P with bind _ _ = Ok _ => apply bind_ok in P as (? & _ & P) end); injection P as <-; cbn [measured]; eauto.
Qed.
Lemma select_ren q : ok q -> select_noise auto (w_cond_ok W) mu cat' (renamed q) = mapped (select_noise auto (w_cond_ok W) mu cat q).
Proof.
  intros A. destruct q; try reflexivity.
  - destruct public; reflexivity.
  - cbn [renamed select_noise]. unfold mapped. destruct (count_noise _ _); cbn [bind]; [|reflexivity].
    match goal with |- _ = bind (post_init auto ?z) _ => exact (post_ren z eq_refl) end.
  - cbn [renamed select_noise]. unfold mapped. destruct (count_noise _ _); cbn [bind]; [|reflexivity].
    match goal with |- _ = bind (post_init auto ?z) _ => exact (post_ren z eq_refl) end.
  - cbn [renamed select_noise]. unfold mapped. destruct (other_noise _ _ _); cbn [bind]; [|reflexivity].
    rewrite schema_ren by child. destruct (schema_of _ _ q); cbn [bind]; [|reflexivity]. destruct (lookup_col _ _); cbn [bind]; [|reflexivity].
    destruct (other_noise _ _ _); cbn [bind]; [|reflexivity].
    match goal with |- _ = bind (post_init auto ?z) _ => exact (post_ren z eq_refl) end.
Qed.
Lemma special_ren q : ok q -> handle_special_values auto (w_cond_ok W) cat' (renamed q) = mapped (handle_special_values auto (w_cond_ok W) cat q).
Proof.
  intros A. unfold handle_special_values. rewrite measured_ren. destruct (measured q) as [[[c m] b]|] eqn:M; [|reflexivity].
  rewrite schema_ren by (revert A; apply ma_names; exact (proj1 (measured_names _ _ _ _ M))). unfold mapped.
  destruct (schema_of _ _ c) as [s|]; cbn [bind]; [|reflexivity]. destruct (lookup_col _ _) as [d|]; cbn [bind]; [|reflexivity]. cbv zeta.
  set (drop := cd_null d || (is_decimal d && cd_nan d)).
  set (r := if drop then _ else Ok q). set (r' := if drop then _ else Ok (renamed q)).
  assert (RR : r' = mapped r /\ forall q1, r = Ok q1 -> exists y, measured q1 = Some y).
  { unfold r, r'. destruct drop; [|split; [reflexivity|intros q1 E; injection E as <-; eauto]]. split.
    - change (DropNullAndNan (renamed c) [m]) with (renamed (DropNullAndNan c [m])). rewrite (post_ren (DropNullAndNan c [m]) eq_refl). unfold mapped. destruct (post_init auto (DropNullAndNan c [m])) as [c1|]; cbn [bind]; [|reflexivity].
      rewrite with_child_ren by eauto. apply post_ren. destruct (with_child_measured q c1 _ M) as (y & Y). exact (measured_not_source _ _ Y).
    - intros q1 E. apply bind_ok in E as (c1 & _ & E). destruct (with_child_measured q c1 _ M) as (y & Y). exact (post_measured _ _ _ E Y). }
  destruct RR as (-> & MR). unfold mapped. destruct r as [q1|]; cbn [bind]; [|reflexivity]. destruct (MR _ eq_refl) as (y & Y).
  destruct (is_decimal d && cd_inf d); [|reflexivity].
  set (x := match b with Some (lo, hi) => ReplaceInfinity (if drop then DropNullAndNan c [m] else c) [(m, (to_float lo, to_float hi))] | None => DropInfinity (if drop then DropNullAndNan c [m] else c) [m] end).
  match goal with |- bind (post_init auto ?z) _ = _ => assert (z = renamed x) as -> by (unfold x; destruct drop, b as [[]|]; reflexivity) end.
  rewrite (post_ren x) by (unfold x; destruct b as [[]|]; reflexivity). unfold mapped. destruct (post_init auto x) as [c2|]; cbn [bind]; [|reflexivity].
  rewrite with_child_ren by eauto. apply post_ren. destruct (with_child_measured q1 c2 _ Y) as (z & Z). exact (measured_not_source _ _ Z).
Qed.
Lemma remade_ren h h' q : (forall x, ok x -> h' (renamed x) = mapped (h x)) -> is_source q = false -> ok q -> remade auto h' (renamed q) = mapped (remade auto h q).
Proof.
  intros HH N A. unfold remade. rewrite post_ren by exact N. unfold mapped at 1 2. destruct (post_init auto q) as [x|] eqn:P; cbn [bind]; [|reflexivity].
  apply HH. exact (post_ma _ _ P A).
Qed.
Lemma depth_ren h h' : steady h -> (forall x, ok x -> h' (renamed x) = mapped (h x)) -> forall q, ok q -> depth_first auto h' (renamed q) = mapped (depth_first auto h q).
Proof.
  intros F HH q. induction q; intros A.
  all: try (destruct public as [n|x]).
  all: cbn [depth_first renamed]; try exact (HH _ A).
  all: try (rewrite IHq by child; unfold mapped at 1; destruct (depth_first auto h q) as [cq|] eqn:C; cbn [bind]; [apply (depth_steady auto h F) in C as [CS CJ]|reflexivity]).
  all: rewrite ?count_ren.
  all: try (destruct (raise_if _ _); cbn [bind]; [|reflexivity]).
  all: try (match goal with |- _ = mapped (remade _ _ ?z) => apply (remade_ren _ _ z HH eq_refl) end; revert A; apply ma_names; split; cbn [sources joined]; congruence).
  rewrite IHq1 by child. unfold mapped at 1. destruct (depth_first auto h q1) as [l|] eqn:L; cbn [bind]; [|reflexivity]. apply (depth_steady auto h F) in L as [LS LJ].
  rewrite IHq2 by child. unfold mapped at 1. destruct (depth_first auto h q2) as [r|] eqn:R; cbn [bind]; [|reflexivity]. apply (depth_steady auto h F) in R as [RS RJ].
  apply (remade_ren h h' (JoinPrivate l r _ _ _) HH eq_refl). revert A. apply ma_names. split; cbn [sources joined]; congruence.
Qed.
Lemma rewrite_ren q : ok q -> rewrite auto (w_cond_ok W) mu cat' (renamed q) = mapped (rewrite auto (w_cond_ok W) mu cat q).
Proof.
  intros A. unfold rewrite. rewrite (depth_ren _ _ (special_steady W auto cat) special_ren q A). unfold mapped at 1 2.
  destruct (depth_first _ _ q) as [q1|] eqn:D; cbn [bind]; [|reflexivity]. apply depth_ren; [apply select_steady|exact select_ren|].
  exact (ma_names _ _ (depth_steady auto _ (special_steady W auto cat) _ _ D) A).
Qed.

(** Compiling. *)
Variables (R : rounding) (K : core) (so : list string -> list string).
Lemma budgets_ren b q k m : ok q -> budgets R W cat' b (renamed q) k m = budgets R W cat b q k m.
Proof. intros A. unfold budgets. rewrite schema_ren by exact A. reflexivity. Qed.
Ltac bud := match goal with |- context [budgets R W cat ?b ?z ?k ?m] => rewrite <- (budgets_ren b z k m) by child; cbn [renamed] end.
Lemma child_ren c q : ok q -> child_table W cat' data' c (renamed q) = child_table W cat data c q.
Proof. apply build_ren. Qed.
Lemma count_visit_ren b c k o m co : ok c -> visit_count R W K so mu cat' data' b (renamed c) k o m co = visit_count R W K so mu cat data b c k o m co.
Proof.
  intros A. unfold visit_count. bud. destruct (budgets _ _ _ _ _ _ _); cbn [bind]; [|reflexivity].
  destruct (core_mechanism co); cbn [bind]; [|reflexivity]. rewrite child_ren by exact A. reflexivity.
Qed.
Lemma measure_ren b q : ok q -> measure_query R W K auto so mu cat' data' b (renamed q) = measure_query R W K auto so mu cat data b q.
Proof.
  induction q; intros A; cbn [measure_query renamed]; try reflexivity.
  - unfold visit_groups. rewrite schema_ren, child_ren by child. reflexivity.
  - unfold visit_bounds. bud; rewrite child_ren by child. reflexivity.
  - destruct public; reflexivity.
  - apply count_visit_ren. child.
  - unfold visit_count_distinct. bud. rewrite schema_ren by child.
    destruct (budgets _ _ _ _ _ _ _); cbn [bind]; [|reflexivity]. destruct (core_mechanism core); cbn [bind]; [|reflexivity].
    rewrite child_ren by child. destruct (child_table _ _ _ _ _) as [x|]; cbn [bind]; [|reflexivity]. destruct (sch cat q) as [s|]; cbn [bind]; [|reflexivity].
    match goal with |- match ?l with _ => _ end = match ?r with _ => _ end => assert (CE : l = option_map renamed r) by
      (unfold constrained_child; destruct (sc_id s); [|reflexivity]; destruct (counts_only _ _ _); [|reflexivity];
       destruct (keys_columns _) as [|z [|]]; try reflexivity; destruct (existsb _ _); reflexivity) end.
    rewrite CE. clear CE. destruct (constrained_child _ _ _ _ _) as [c'|] eqn:CC; cbn [option_map]; [|reflexivity].
    match goal with |- bind ?l _ = bind ?r _ => assert (l = mapped r) as -> by (apply (post_ren (GroupByCount c' _ _ _ _)); reflexivity) end.
    unfold mapped. destruct (post_init _ _); cbn [bind]; [|reflexivity]. apply count_visit_ren.
    unfold constrained_child in CC. destruct (sc_id s); [|discriminate]. destruct (counts_only _ _ _); [|discriminate].
    destruct (keys_columns _) as [|z [|]]; [injection CC as <-; child| |discriminate]. destruct (existsb _ _); [injection CC as <-; child|discriminate].
  - unfold visit_quantile. bud; rewrite child_ren by child. reflexivity.
  - unfold visit_bounded. bud. destruct (budgets _ _ _ _ _ _ _); cbn [bind]; [|reflexivity].
    destruct (core_mechanism _); cbn [bind]; [|reflexivity]. rewrite child_ren by child. reflexivity.
  - change (SuppressAggregates (renamed q) column threshold) with (renamed (SuppressAggregates q column threshold)). rewrite schema_ren by exact A. rewrite IHq by child. reflexivity.
Qed.
Lemma compile_ren b q : ok q -> compile R W K auto so mu cat' data' b (renamed q) = compile R W K auto so mu cat data b q.
Proof.
  intros A. unfold compile. rewrite schema_ren by exact A. rewrite rewrite_ren by exact A.
  destruct (sch cat q); cbn [bind]; [|reflexivity]. unfold mapped. destruct (rewrite _ _ _ _ q) as [q'|] eqn:RW; cbn [bind]; [|reflexivity].
  rewrite measure_ren; [reflexivity|]. exact (ma_names _ _ (rewrite_names W auto mu _ _ _ RW) A).
Qed.
End Renaming.
End Names.
