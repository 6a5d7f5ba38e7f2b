(** How much one person can change what an aggregation reads. *)
From Coq Require Import String Bool Arith ZArith QArith Qcanon Lia Permutation List.
From Verif Require Import Prelude Budget Value Rows Constraints ConstraintsSpec ConstraintsProofs ConstraintsStab
  Schema SchemaProofs Query Rewrite RewriteSpec RewriteProofs RewriteRows Transform TransformSpec TransformVisit TransformConform TransformAgree TransformIds
  QueryProofs PropagateProofs Session Measure MeasureProofs MeasureCount MeasureRows Distance SensitivitySpec SensitivityReads.
Import ListNotations.
Local Open Scope string_scope.
Local Open Scope nat_scope.

Section Sensitivity.
Variable Ro : rounding.
Variable W : world.
Variable K : core.
Variable auto : bool.
Variable so : list string -> list string.
Variable mu : measure.
Variable cat : catalog.
Variables data data' : dict vtab.
Variable k : option string.
Variable keep : value -> bool.
Notation R := (restrict k keep).
Notation sch := (schema_of (w_cond_ok W) cat).
Notation mq := (measure_query Ro W K auto so mu cat).
Notation bt := (build_transformation W).
Hypothesis MADE : catalog_made cat.
Hypothesis LIKE : forall n, option_map R (dget n data) = option_map R (dget n data').

Definition meets (l2 : bool) (d : dict vtab) (c : query) : Prop :=
  inputs_ok l2 cat d /\ promises W l2 cat d c /\ finite_ids W l2 cat d c.

Lemma child_pair l2 c x cs x' cs' : built auto c -> meets l2 data c -> meets l2 data' c ->
  bt l2 cat data c = Ok (x, cs) -> bt l2 cat data' c = Ok (x', cs') -> R x = R x' /\ cs = cs'.
Proof.
  intros B (I1 & P1 & F1) (I2 & P2 & F2) BT BT'.
  apply build_transformation_ok in BT as (sc & SC & V & _). apply build_transformation_ok in BT' as (_ & _ & V' & _).
  apply (outside_ids W l2 cat data data' k keep auto c sc x cs x' cs' I1 I2); try assumption.
  intros n. unfold restrict_all. rewrite !(dget_map_val R). apply LIKE.
Qed.
Lemma meets_prepared l2 d c c' : prepared c c' -> meets l2 d c -> meets l2 d c'.
Proof.
  intros P M. induction P as [c|c c' m _ IH|c c' m _ IH|c c' m lo hi _ IH|c c' _ IH|c c' g _ IH]; [exact M|destruct (IH M) as (A & B & C)..]; (split; [exact A|]); cbn [promises finite_ids]; split; try assumption.
  - split; [exact B|]. repeat constructor. intros [].
  - split; [exact C|discriminate].
Qed.
(** What the two measurements read. *)
Definition reads (c : query) (l2 : bool) (gr : list string) (t t' : vtab) : Prop :=
  exists c2 x x' cs y y' f, (prepared c c2 /\ built auto c2) /\ bt l2 cat data c2 = Ok (x, cs) /\ bt l2 cat data' c2 = Ok (x', cs) /\ R x = R x'
    /\ truncated W so mu gr (x, cs) = Ok y /\ truncated W so mu gr (x', cs) = Ok y'
    /\ v_rows t = map f (v_rows y) /\ v_rows t' = map f (v_rows y') /\ forall g r, In g gr -> getv g (f r) = getv g r.
Lemma compile_reads b q m m' : built auto q -> meets (agg_gaussian mu q) data (agg_child q) -> meets (agg_gaussian mu q) data' (agg_child q) ->
  compile Ro W K auto so mu cat data b q = Ok m -> compile Ro W K auto so mu cat data' b q = Ok m' ->
  reads (agg_child q) (agg_gaussian mu q) (agg_columns q) (table_of m) (table_of m').
Proof.
  intros B M M' H H'.
  destruct (both_compile Ro W K auto so mu cat data data' MADE (fun l2 c => meets l2 data c /\ meets l2 data' c)) with (b := b) (q := q) (m := m) (m' := m') as (c2 & x & x' & cs & y & y' & f & (P & B2 & M2 & M2') & T & T' & E); try assumption.
  - intros l2 c c' P (A & A'). split; eapply meets_prepared; eassumption.
  - intros l2 c x cs x' cs' B2 (A & A') T T'. exact (proj2 (child_pair l2 c x cs x' cs' B2 A A' T T')).
  - split; assumption.
  - exists c2, x, x', cs, y, y', f. split; [split; assumption|]. split; [exact T|]. split; [exact T'|]. split; [exact (proj1 (child_pair _ _ _ _ _ _ B2 M2 M2' T T'))|exact E].
Qed.

(** ** Distances *)
Lemma restrict_cases x x' : R x = R x' -> x = x' \/ exists i, v_place x = PKeys i /\ v_place x' = PKeys i /\ option_eqb String.eqb (v_coll x') k = true
  /\ filter (fun r => keep (getv i r)) (v_rows x) = filter (fun r => keep (getv i r)) (v_rows x').
Proof.
  intros H. assert (C : v_coll x = v_coll x') by (rewrite <- (restrict_coll k keep x), <- (restrict_coll k keep x'), H; reflexivity).
  assert (P : v_place x = v_place x') by (rewrite <- (restrict_place k keep x), <- (restrict_place k keep x'), H; reflexivity).
  unfold restrict in H. rewrite <- C, <- P in H. destruct (v_place x) as [i| | |] eqn:PX; auto. destruct (option_eqb String.eqb (v_coll x) k) eqn:OE; auto.
  right. exists i. split; [reflexivity|]. split; [auto|]. split; [congruence|]. exact (f_equal v_rows H).
Qed.
End Sensitivity.

(** ** One person *)
Lemma two_ids i j a a' : filter (fun r => everyone_but j (getv i r)) a = filter (fun r => everyone_but j (getv i r)) a' -> ids_apart i 2 a a'.
Proof.
  intros H. apply (ids_step i 1 a (filter (fun r => everyone_but j (getv i r)) a)).
  - apply (ids_step i 0 a a); [constructor; apply Permutation_refl|]. exists j. left. apply Permutation_refl.
  - exists j. right. rewrite H. apply Permutation_refl.
Qed.
Lemma one_id i j a a' : filter (fun r => everyone_but j (getv i r)) a = filter (fun r => everyone_but j (getv i r)) a' ->
  filter (fun r => everyone_but j (getv i r)) a' = a' -> ids_apart i 1 a a'.
Proof. intros H C. apply (ids_step i 0 a a); [constructor; apply Permutation_refl|]. exists j. left. rewrite <- C, <- H. apply Permutation_refl. Qed.

Section Person.
Variable Ro : rounding.
Variable W : world.
Variable K : core.
Variable auto : bool.
Variable so : list string -> list string.
Variable mu : measure.
Variable cat : catalog.
Variables data data' : dict vtab.
Variable sp : string.
Variable j : value.
Notation R := (restrict (Some sp) (everyone_but j)).
Notation bt := (build_transformation W).
Notation meets := (meets W cat).
Hypothesis MADE : catalog_made cat.
Hypothesis LIKE : forall n, option_map R (dget n data) = option_map R (dget n data').

(** The second dataset has no rows of the person. *)
Definition absent : Prop := forall n, option_map R (dget n data') = dget n data'.
Lemma absent_child l2 c x cs : absent -> built auto c -> meets l2 data' c -> bt l2 cat data' c = Ok (x, cs) -> R x = x.
Proof.
  intros A B (I & P & F) BT. apply build_transformation_ok in BT as (sc & SC & V & _).
  pose proof (visit_restrict W l2 cat data' I (Some sp) (everyone_but j) auto c B P F sc x cs SC V) as H.
  rewrite (visit_ext W l2 cat (restrict_all (Some sp) (everyone_but j) data') data' c) in H by (intros n; unfold restrict_all; rewrite (dget_map_val R); apply A).
  rewrite V in H. injection H as H. auto.
Qed.
Lemma truncated_rows gr x cs y i : v_place x = PKeys i -> truncated W so mu gr (x, cs) = Ok y ->
  truncate_table (w_row_order W) (w_key_order W) so mu gr cs {| t_place := PKeys i; t_rows := v_rows x |} = Ok {| t_place := v_place y; t_rows := v_rows y |}.
Proof.
  intros P H. unfold truncated in H. cbn [fst snd] in H. rewrite P in H. apply bind_ok in H as (z & H & E). injection E as <-. destruct z. exact H.
Qed.
Lemma reads_apart c l2 gr t t' n : meets l2 data c -> meets l2 data' c -> reads W auto so mu cat data data' (Some sp) (everyone_but j) c l2 gr t t' ->
  (n = 2 \/ n = 1 /\ absent) ->
  v_rows t = v_rows t' \/ exists c2 x cs, prepared c c2 /\ bt l2 cat data c2 = Ok (x, cs) /\ apart_at_most so mu n gr cs t t'.
Proof.
  intros M M' (c2 & x & x' & cs & y & y' & f & (P & B) & T & T' & RX & Y & Y' & F & F' & KG) N.
  destruct (restrict_cases (Some sp) (everyone_but j) x x' RX) as [<-|(i & PX & PX' & OE & E)].
  - left. rewrite Y in Y'. injection Y' as <-. congruence.
  - right. exists c2, x, cs. split; [exact P|]. split; [exact T|].
    apply (truncated_rows gr x cs y i PX) in Y. apply (truncated_rows gr x' cs y' i PX') in Y'.
    assert (IA : ids_apart i n (v_rows x) (v_rows x')).
    { destruct N as [->|(-> & A)]; [apply (two_ids i j), E|]. apply (one_id i j); [exact E|].
      pose proof (absent_child l2 c2 x' cs A B (meets_prepared W cat l2 data' c c2 P M') T') as C.
      apply (f_equal v_rows) in C. unfold restrict in C. rewrite PX', OE in C. exact C. }
    destruct (truncate_stability _ _ _ mu gr cs i n _ _ _ _ IA Y Y') as (tr & CT & PL & D). destruct (truncate_ids _ _ _ _ _ _ _ _ _ Y) as (tr1 & CT1 & _ & PL1). assert (tr1 = tr) as -> by congruence.
    exists tr, (v_place y), (v_rows y), (v_rows y'), f. cbn [t_place t_rows] in *. repeat split; assumption.
Qed.
End Person.
