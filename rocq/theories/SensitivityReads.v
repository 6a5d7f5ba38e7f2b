(** What the measurements of two datasets read: the tables made by the same steps. *)
From Coq Require Import String Bool Arith ZArith QArith Qcanon Lia Permutation List.
From Verif Require Import Prelude Budget Value Rows Constraints ConstraintsSpec ConstraintsProofs ConstraintsStab
  Schema SchemaProofs Query Rewrite RewriteSpec RewriteProofs RewriteRows Transform TransformSpec TransformVisit TransformConform TransformAgree TransformIds
  QueryProofs PropagateProofs Session Measure MeasureProofs MeasureCount MeasureRows Distance SensitivitySpec.
Import ListNotations.
Local Open Scope string_scope.
Local Open Scope nat_scope.

Section Reads.
Variable Ro : rounding.
Variable W : world.
Variable K : core.
Variable auto : bool.
Variable so : list string -> list string.
Variable mu : measure.
Variable cat : catalog.
Variables data data' : dict vtab.
Notation sch := (schema_of (w_cond_ok W) cat).
Notation mq := (measure_query Ro W K auto so mu cat).
Notation bt := (build_transformation W).
Hypothesis MADE : catalog_made cat.
(** What is known of both datasets, for a query. *)
Variable meet : bool -> query -> Prop.
Hypothesis meet_prepared : forall l2 c c', prepared c c' -> meet l2 c -> meet l2 c'.
Hypothesis meet_constraints : forall l2 c x cs x' cs', built auto c -> meet l2 c -> bt l2 cat data c = Ok (x, cs) -> bt l2 cat data' c = Ok (x', cs') -> cs = cs'.

Lemma prepared_trans a b c : prepared a b -> prepared b c -> prepared a c.
Proof. intros P Q. induction Q; [exact P|constructor; auto..]. Qed.
Lemma cleaned_prepared m bo c c' : cleaned (w_cond_ok W) cat m bo c c' -> prepared c c'.
Proof.
  intros (s & d & c1 & _ & _ & A & B). assert (X : prepared c c1) by (destruct A as [(_ & ->)|(_ & ->)]; repeat constructor).
  destruct B as [(_ & ->)|(_ & ->)]; [|exact X]. unfold without_infinities. destruct bo as [(lo & hi)|]; constructor; exact X.
Qed.

(** What the two measurements read. *)
Definition both_read (c : query) (l2 : bool) (gr : list string) (t t' : vtab) : Prop :=
  exists c2 x x' cs y y' f, (prepared c c2 /\ built auto c2 /\ meet l2 c2) /\ bt l2 cat data c2 = Ok (x, cs) /\ bt l2 cat data' c2 = Ok (x', cs)
    /\ truncated W so mu gr (x, cs) = Ok y /\ truncated W so mu gr (x', cs) = Ok y'
    /\ v_rows t = map f (v_rows y) /\ v_rows t' = map f (v_rows y') /\ forall g r, In g gr -> getv g (f r) = getv g r.
Lemma both_read_same c l2 gr x cs x' cs' y y' t t' : built auto c -> meet l2 c ->
  bt l2 cat data c = Ok (x, cs) -> bt l2 cat data' c = Ok (x', cs') -> truncated W so mu gr (x, cs) = Ok y -> truncated W so mu gr (x', cs') = Ok y' ->
  v_rows t = v_rows y -> v_rows t' = v_rows y' -> both_read c l2 gr t t'.
Proof.
  intros B M T T' Y Y' E E'. pose proof (meet_constraints l2 c x cs x' cs' B M T T') as <-.
  exists c, x, x', cs, y, y', (fun r => r). rewrite !map_id. split; [split; [constructor|split; [exact B|exact M]]|]. repeat split; auto.
Qed.
Lemma both_count b c ks o m co r adj r' adj' : (forall x, co = Some x -> gaussian x = asks_gaussian mu m) -> built auto c -> meet (asks_gaussian mu m) c ->
  visit_count Ro W K so mu cat data b c ks o m co = Ok (r, adj) -> visit_count Ro W K so mu cat data' b c ks o m co = Ok (r', adj') ->
  both_read c (asks_gaussian mu m) (keys_columns ks) (table_of r) (table_of r').
Proof.
  intros G B M H H'. unfold visit_count in H, H'.
  apply bind_ok in H as (bs & _ & H). apply bind_ok in H as (cm & CM & H). apply bind_ok in H as ((x & cs) & T & H). apply bind_ok in H as (y & Y & H). apply finish_inv in H as (kb & qb & -> & -> & _).
  apply bind_ok in H' as (bs' & _ & H'). apply bind_ok in H' as (cm' & CM' & H'). apply bind_ok in H' as ((x' & cs') & T' & H'). apply bind_ok in H' as (y' & Y' & H'). apply finish_inv in H' as (kb' & qb' & -> & -> & _).
  rewrite CM in CM'. injection CM' as <-. destruct co as [c0|]; [|discriminate]. injection CM as ->. unfold child_table in T, T'. rewrite (G cm eq_refl) in T, T'.
  eapply both_read_same; try eassumption; reflexivity.
Qed.
Lemma both_read_prepared c c2 l2 gr t t' : prepared c c2 -> both_read c2 l2 gr t t' -> both_read c l2 gr t t'.
Proof. intros P (c3 & H). destruct H as (x & x' & cs & y & y' & f & (P2 & B) & H). exists c3, x, x', cs, y, y', f. split; [split; [eapply prepared_trans; eassumption|exact B]|exact H]. Qed.
Lemma built_agg q : built auto q -> built auto (agg_child q).
Proof. induction q; intros (B0 & B); cbn [agg_child]; try (split; assumption); try exact B; try (apply IHq, B). Qed.

Lemma both_query q : forall b m adj m' adj', everywhere (right_mechanism (w_cond_ok W) mu cat) q -> built auto q ->
  meet (agg_gaussian mu q) (agg_child q) ->
  mq data b q = Ok (m, adj) -> mq data' b q = Ok (m', adj') -> both_read (agg_child q) (agg_gaussian mu q) (agg_columns q) (table_of m) (table_of m').
Proof.
  induction q; intros b m1 adj m1' adj' RM B M H H'; cbn [measure_query] in H, H'; try discriminate H; cbn [agg_child agg_gaussian agg_columns] in *.
  all: try (pose proof (built_agg _ B) as BC; cbn [agg_child] in BC).
  - (* get_groups *)
    unfold visit_groups in H, H'.
    apply bind_ok in H as (u1 & _ & H). apply bind_ok in H as (s1 & S1 & H). apply bind_ok in H as (u2 & _ & H). apply bind_ok in H as ((x & cs) & T & H). apply bind_ok in H as (y & Y & H).
    apply bind_ok in H as ((z & zcs) & Z & H). apply bind_ok in H as (u3 & _ & H). apply bind_ok in H as (u4 & _ & H). injection H as <- <-.
    apply bind_ok in H' as (u5 & _ & H'). apply bind_ok in H' as (s1' & S1' & H'). apply bind_ok in H' as (u6 & _ & H'). apply bind_ok in H' as ((x' & cs') & T' & H'). apply bind_ok in H' as (y' & Y' & H').
    apply bind_ok in H' as ((z' & zcs') & Z' & H'). apply bind_ok in H' as (u7 & _ & H'). apply bind_ok in H' as (u8 & _ & H'). injection H' as <- <-. cbn [table_of fst].
    rewrite S1 in S1'. injection S1' as <-. unfold child_table in T, T'. cbn [gaussian] in T, T'.
    pose proof (meet_constraints _ _ _ _ _ _ BC M T T') as <-.
    unfold visit_select in Z, Z'. apply bind_ok in Z as (u9 & _ & Z). apply bind_ok in Z as (u10 & _ & Z). injection Z as <- _. apply bind_ok in Z' as (u11 & _ & Z'). apply bind_ok in Z' as (u12 & _ & Z'). injection Z' as <- _.
    eexists _, x, x', cs, y, y', _. split; [split; [constructor|split; [exact BC|exact M]]|]. split; [exact T|]. split; [exact T'|]. split; [exact Y|]. split; [exact Y'|]. split; [reflexivity|]. split; [reflexivity|]. intros g r [].
  - (* get_bounds *)
    unfold visit_bounds in H, H'.
    apply bind_ok in H as (bs & _ & H). apply bind_ok in H as ((x & cs) & T & H). apply bind_ok in H as (y & Y & H). apply finish_inv in H as (kb & qb & -> & -> & _).
    apply bind_ok in H' as (bs' & _ & H'). apply bind_ok in H' as ((x' & cs') & T' & H'). apply bind_ok in H' as (y' & Y' & H'). apply finish_inv in H' as (kb' & qb' & -> & -> & _).
    eapply both_read_same; try eassumption; reflexivity.
  - (* count *)
    inversion RM as [? RN _]; subst. cbn [right_mechanism] in RN. destruct RN as (cm & -> & RN). eapply both_count; try eassumption. intros x0 E. injection E as <-. apply (right_gaussian _ _ _ _ RN).
  - (* count distinct *)
    inversion RM as [? RN _]; subst. cbn [right_mechanism] in RN. destruct RN as (cm & -> & RN).
    pose proof (right_gaussian _ _ _ _ RN) as G. unfold visit_count_distinct in H, H'.
    apply bind_ok in H as (bs & _ & H). apply bind_ok in H as (cm1 & CM & H). injection CM as <-. apply bind_ok in H as ((x & cs) & T & H). apply bind_ok in H as (s1 & S1 & H).
    apply bind_ok in H' as (bs' & _ & H'). apply bind_ok in H' as (cm2 & CM' & H'). injection CM' as <-. apply bind_ok in H' as ((x' & cs') & T' & H'). apply bind_ok in H' as (s1' & S1' & H').
    rewrite S1 in S1'. injection S1' as <-. unfold child_table in T, T'. rewrite G in T, T'. pose proof (meet_constraints _ _ _ _ _ _ BC M T T') as <-. cbn [snd] in H, H'.
    destruct (constrained_child q keys columns s1 cs) as [q2|] eqn:CC.
    + apply bind_ok in H as (q3 & PI & H). apply bind_ok in H' as (? & _ & H').
      assert (P : prepared q q2 /\ built auto q2).
      { unfold constrained_child in CC. destruct (sc_id s1); [|discriminate]. destruct (counts_only _ _ _); [|discriminate]. destruct (keys_columns keys) as [|g0 [|]]; try discriminate; [injection CC as <-; split; [repeat constructor|split; [reflexivity|exact BC]]|].
        destruct (existsb _ _); [|discriminate]. injection CC as <-. split; [repeat constructor|split; [reflexivity|exact BC]]. }
      destruct P as (P & B2).
      eapply both_read_prepared; [exact P|]. eapply both_count; try eassumption.
      * intros cm0 E. injection E as <-. exact G.
      * eapply meet_prepared; eassumption.
    + apply bind_ok in H as (y & Y & H). apply bind_ok in H as (z & Z & H). apply finish_inv in H as (kb & qb & -> & -> & _).
      apply bind_ok in H' as (y' & Y' & H'). apply bind_ok in H' as (z' & Z' & H'). apply finish_inv in H' as (kb' & qb' & -> & -> & _). cbn [table_of g_table].
      assert (F : exists f, v_rows z = map f (v_rows y) /\ v_rows z' = map f (v_rows y') /\ forall g r, In g (keys_columns keys) -> getv g (f r) = getv g r).
      { unfold counted_columns in Z, Z'. destruct columns as [|c0 columns].
        - injection Z as <-. injection Z' as <-. exists (fun r => r). rewrite !map_id. auto.
        - destruct keys as [cols rows|cols]; [|discriminate]. apply bind_ok in Z as ((u & ucs) & Z & U). injection U as <-. apply bind_ok in Z' as ((u' & ucs') & Z' & U'). injection U' as <-. cbn [fst].
          unfold visit_select in Z, Z'. apply bind_ok in Z as (? & _ & Z). apply bind_ok in Z as (? & _ & Z). injection Z as <- _. apply bind_ok in Z' as (? & _ & Z'). apply bind_ok in Z' as (? & _ & Z'). injection Z' as <- _.
          exists (select_row (nodup String.string_dec ((c0 :: columns) ++ dkeys cols)%list)). split; [reflexivity|]. split; [reflexivity|]. intros g r I. apply getv_select. apply nodup_In, in_app_iff. right. exact I. }
      destruct F as (f & F1 & F2 & F3).
      exists q, x, x', cs, y, y', f. split; [split; [constructor|split; [exact BC|exact M]]|]. repeat (split; [first [constructor|assumption]|]). exact F3.
  - (* quantile *)
    unfold visit_quantile in H, H'.
    apply bind_ok in H as (bs & _ & H). apply bind_ok in H as ((x & cs) & T & H). apply bind_ok in H as (y & Y & H). apply finish_inv in H as (kb & qb & -> & -> & _).
    apply bind_ok in H' as (bs' & _ & H'). apply bind_ok in H' as ((x' & cs') & T' & H'). apply bind_ok in H' as (y' & Y' & H'). apply finish_inv in H' as (kb' & qb' & -> & -> & _).
    unfold child_table in T, T'. replace (gaussian (default_mechanism mu)) with (match mu with RhoZCDP => true | _ => false end) in T, T' by (destruct mu; reflexivity).
    eapply both_read_same; try eassumption; reflexivity.
  - (* bounded *)
    inversion RM as [? RN _]; subst. cbn [right_mechanism] in RN. destruct RN as (cm & s & d & -> & _ & _ & RN). pose proof (right_gaussian _ _ _ _ RN) as G. unfold visit_bounded in H, H'.
    apply bind_ok in H as (bs & _ & H). apply bind_ok in H as (cm1 & CM & H). injection CM as <-. apply bind_ok in H as ((x & cs) & T & H). apply bind_ok in H as (y & Y & H). apply finish_inv in H as (kb & qb & -> & -> & _).
    apply bind_ok in H' as (bs' & _ & H'). apply bind_ok in H' as (cm2 & CM' & H'). injection CM' as <-. apply bind_ok in H' as ((x' & cs') & T' & H'). apply bind_ok in H' as (y' & Y' & H'). apply finish_inv in H' as (kb' & qb' & -> & -> & _).
    unfold child_table in T, T'. rewrite G in T, T'. eapply both_read_same; try eassumption; reflexivity.
  - (* suppress *)
    apply bind_ok in H as (? & _ & H). apply bind_ok in H as ((m2 & a2) & H & E). injection E as <- <-. apply bind_ok in H' as (? & _ & H'). apply bind_ok in H' as ((m2' & a2') & H' & E'). injection E' as <- <-. cbn [table_of fst].
    inversion RM as [? _ RB]; subst. eapply IHq; try eassumption; [apply RB; left; reflexivity|exact (proj2 B)].
Qed.

(** ** Rewriting *)
Lemma measured_table d q : forall b m adj, mq d b q = Ok (m, adj) -> is_table (agg_child q).
Proof.
  induction q; intros b m0 adj H; cbn [measure_query] in H; try discriminate H; cbn [agg_child].
  - unfold visit_groups in H. apply bind_ok in H as (u1 & _ & H). apply bind_ok in H as (s1 & _ & H). apply bind_ok in H as (u2 & _ & H). apply bind_ok in H as ((x & cs) & T & _).
    apply build_transformation_ok in T as (? & _ & V & _). exact (visit_is_table _ _ _ _ _ _ V).
  - unfold visit_bounds in H. apply bind_ok in H as (bs & _ & H). apply bind_ok in H as ((x & cs) & T & _). apply build_transformation_ok in T as (? & _ & V & _). exact (visit_is_table _ _ _ _ _ _ V).
  - unfold visit_count in H. apply bind_ok in H as (bs & _ & H). apply bind_ok in H as (cm & _ & H). apply bind_ok in H as ((x & cs) & T & _). apply build_transformation_ok in T as (? & _ & V & _). exact (visit_is_table _ _ _ _ _ _ V).
  - unfold visit_count_distinct in H. apply bind_ok in H as (bs & _ & H). apply bind_ok in H as (cm & _ & H). apply bind_ok in H as ((x & cs) & T & _). apply build_transformation_ok in T as (? & _ & V & _). exact (visit_is_table _ _ _ _ _ _ V).
  - unfold visit_quantile in H. apply bind_ok in H as (bs & _ & H). apply bind_ok in H as ((x & cs) & T & _). apply build_transformation_ok in T as (? & _ & V & _). exact (visit_is_table _ _ _ _ _ _ V).
  - unfold visit_bounded in H. apply bind_ok in H as (bs & _ & H). apply bind_ok in H as (cm & _ & H). apply bind_ok in H as ((x & cs) & T & _). apply build_transformation_ok in T as (? & _ & V & _). exact (visit_is_table _ _ _ _ _ _ V).
  - apply bind_ok in H as (? & _ & H). apply bind_ok in H as ((m2 & a2) & H & _). exact (IHq b m2 a2 H).
Qed.
Lemma rewritten_agg q q' : rewritten (w_cond_ok W) cat q q' -> is_table (agg_child q') ->
  prepared (agg_child q) (agg_child q') /\ agg_gaussian mu q' = agg_gaussian mu q /\ agg_columns q' = agg_columns q.
Proof.
  intros RW. induction RW; intros T; cbn [agg_child agg_gaussian agg_columns] in *;
    try (match goal with RC : cleaned _ _ _ _ _ _, RW : rewritten _ _ _ _ |- _ =>
       pose proof (rewritten_to_table _ _ _ _ RW (cleaned_table W cat _ _ _ _ RC T)) as ->; split; [eapply cleaned_prepared, RC|split; reflexivity] end);
    try (match goal with RW : rewritten _ _ ?a ?b, T : is_table ?b |- prepared ?a ?b /\ _ =>
       pose proof (rewritten_to_table _ _ _ _ RW T) as ->; split; [constructor|split; reflexivity] end);
    try (apply IHRW, T);
    try (match goal with RW : rewritten _ _ ?a ?b, T : is_table _ |- _ =>
       assert (TB : is_table b) by (exact T || exact (proj1 T)); pose proof (rewritten_to_table _ _ _ _ RW TB) as ->; split; [constructor|split; reflexivity] end).
  - split; [constructor|split; reflexivity].
  - destruct T as (T1 & T2). pose proof (rewritten_to_table _ _ _ _ RW1 T1) as ->. pose proof (rewritten_to_table _ _ _ _ RW2 T2) as ->. split; [constructor|split; reflexivity].
Qed.
Lemma both_compile b q m m' : built auto q -> meet (agg_gaussian mu q) (agg_child q) ->
  compile Ro W K auto so mu cat data b q = Ok m -> compile Ro W K auto so mu cat data' b q = Ok m' ->
  both_read (agg_child q) (agg_gaussian mu q) (agg_columns q) (table_of m) (table_of m').
Proof.
  intros B M H H'. apply compile_inv in H as (s & q' & adj & S & RW & H). apply compile_inv in H' as (s' & q2 & adj' & S' & RW' & H'). rewrite RW in RW'. injection RW' as <-.
  destruct (rewrite_ok auto (w_cond_ok W) mu cat MADE _ _ _ B S RW) as (B' & _ & RR & _ & RM).
  destruct (rewritten_agg q q' RR (measured_table _ _ _ _ _ H)) as (P & G & C). rewrite <- G, <- C in *. eapply both_read_prepared; [exact P|].
  eapply both_query; try eassumption; eapply meet_prepared; eassumption.
Qed.
End Reads.
