(** From a call on a builder to what tmlt.core is asked to compute. *)
From Coq Require Import String Ascii Bool Arith ZArith QArith Qcanon Lia Permutation List.
From Verif Require Import Prelude Budget Value Rows Constraints ConstraintsSpec ConstraintsProofs
  Schema SchemaProofs Query Rewrite RewriteSpec RewriteProofs Transform TransformSpec TransformVisit TransformConform QueryProofs Session
  Measure MeasureProofs MeasureCount MeasureRows QueryEq QueryBuilder QueryBuilderProofs.
From Verif Require KeySet.
Import ListNotations.
Local Open Scope string_scope.
Local Open Scope nat_scope.

(** ** Specification: what the aggregations are documented to do *)

(** The columns of the answer besides the keys; the default names are those documented. *)
Definition answer_columns (show : Query.pynum -> string) (a : aggcall) : list string :=
  let or_default (name : option string) d := match name with Some n => n | None => d end in
  let or_default' (name : option string) d := match name with Some "" | None => d | Some n => n end in
  match a with
  | UCount name _ => [or_default name "count"]
  | UCountDistinct CNone name _ | UCountDistinct (CList []) name _ => [or_default' name "count_distinct"]
  | UCountDistinct (CStr c) name _ => [or_default' name ("count_distinct(" ++ c ++ ")")]
  | UCountDistinct (CList l) name _ => [or_default' name ("count_distinct(" ++ String.concat ", " l ++ ")")]
  | UQuantile c q _ _ name => [or_default name (c ++ "_quantile(" ++ show q ++ ")")]
  | UMin c _ _ name => [or_default' name (c ++ "_min")]
  | UMax c _ _ name => [or_default' name (c ++ "_max")]
  | UMedian c _ _ name => [or_default' name (c ++ "_median")]
  | UBounded BSum c _ _ name _ => [or_default name (c ++ "_sum")]
  | UBounded BAverage c _ _ name _ => [or_default name (c ++ "_average")]
  | UBounded BVariance c _ _ name _ => [or_default name (c ++ "_variance")]
  | UBounded BStdev c _ _ name _ => [or_default name (c ++ "_stdev")]
  | UBounds c lo hi => [or_default lo (c ++ "_lower_bound"); or_default hi (c ++ "_upper_bound")]
  end.
(** A bound stays the number it was. *)
Definition same_number (given used : Query.pynum) : Prop := to_float used = to_float given.
(** What is computed: the statistic, of the column, between the bounds. *)
Definition is_quantile (c : string) (q : fnum) (low high : Query.pynum) (x : agg) : Prop :=
  exists lo hi, x = AQuantile c q lo hi /\ same_number low lo /\ same_number high hi.
Definition computes (a : aggcall) (x : agg) : Prop :=
  match a with
  | UCount _ _ => x = ACount
  | UCountDistinct _ _ _ => x = ACountDistinct \/ x = ACount      (* see C38 *)
  | UQuantile c q low high _ => is_quantile c (to_float q) low high x
  | UMin c low high _ => is_quantile c (FFin (Q2Qc 0)) low high x
  | UMax c low high _ => is_quantile c (FFin (Q2Qc 1)) low high x
  | UMedian c low high _ => is_quantile c (FFin (Q2Qc (1 # 2))) low high x
  | UBounded kd c low high _ _ => exists lo hi, x = ABounded kd c lo hi /\ same_number low lo /\ same_number high hi
  | UBounds c _ _ => x = ABounds c
  end.
(** Gaussian noise is used if the caller asked for it (in any case), and by default with
    zero-concentrated DP. *)
Definition gaussian_asked (mu : measure) (a : aggcall) : Prop :=
  let wants (m : mecharg) :=
    match m with
    | Mech MGaussian => True
    | Mech MDefault => mu = RhoZCDP
    | Mech MLaplace => False
    | MechName s => upper s = "GAUSSIAN" \/ (upper s = "DEFAULT" /\ mu = RhoZCDP)
    end in
  match a with
  | UCount _ m | UCountDistinct _ _ m | UBounded _ _ _ _ _ m => wants m
  | _ => mu = RhoZCDP
  end.

(** ** Proofs *)
Section Measured.
Variable show : Query.pynum -> string.
Variable R : rounding.
Variable W : world.
Variable K : core.
Variable auto : bool.
Variable so : list string -> list string.
Variable mu : measure.
Variable cat : catalog.
Variable data : dict vtab.
Hypothesis MADE : catalog_made cat.
Notation sch := (schema_of (w_cond_ok W) cat).
Notation mq := (measure_query R W K auto so mu cat data).
Notation cmp := (compile R W K auto so mu cat data).

Lemma count_plan b c k o m co meas adj : visit_count R W K so mu cat data b c k o m co = Ok (meas, adj) ->
  exists g, meas = MGroupBy adj g /\ g_keys g = k /\ g_outs g = [o] /\ g_agg g = ACount /\ co = Some (g_mech g).
Proof.
  unfold visit_count. intros H. apply bind_ok in H as (bs & _ & H). apply bind_ok in H as (cm & CM & H).
  apply bind_ok in H as (x & _ & H). apply bind_ok in H as (t & _ & H). apply finish_inv in H as (kb & qb & _ & -> & _).
  eexists. split; [reflexivity|]. cbn. repeat split. unfold core_mechanism in CM. destruct co; [|discriminate]. injection CM as ->. reflexivity.
Qed.
(** The measurement of a query that is not a suppression, in terms of its root. *)
Definition plan_like (q : query) (g : plan) : Prop :=
  match q with
  | GroupByCount _ k o _ co => g_keys g = k /\ g_outs g = [o] /\ g_agg g = ACount /\ co = Some (g_mech g)
  | GroupByCountDistinct _ k _ o _ co => g_keys g = k /\ g_outs g = [o] /\ (g_agg g = ACountDistinct \/ g_agg g = ACount) /\ co = Some (g_mech g)
  | GroupByQuantile _ k me qu lo hi o => g_keys g = k /\ g_outs g = [o] /\ g_agg g = AQuantile me qu lo hi /\ g_mech g = default_mechanism mu
  | GroupByBounded kd _ k me lo hi o _ co => g_keys g = k /\ g_outs g = [o] /\ g_agg g = ABounded kd me lo hi /\ co = Some (g_mech g)
  | GetBounds _ k me lo hi => g_keys g = k /\ g_outs g = [lo; hi] /\ g_agg g = ABounds me /\ g_mech g = default_mechanism mu
  | _ => False
  end.
Definition aggregation (q : query) : Prop :=
  match q with
  | GroupByCount _ _ _ _ _ | GroupByCountDistinct _ _ _ _ _ _ | GroupByQuantile _ _ _ _ _ _ _ | GroupByBounded _ _ _ _ _ _ _ _ _
  | GetBounds _ _ _ _ _ => True
  | _ => False
  end.
Lemma measure_plan b q meas adj : mq b q = Ok (meas, adj) -> aggregation q -> exists g, meas = MGroupBy adj g /\ plan_like q g.
Proof.
  intros H A. destruct q; try contradiction A; cbn [measure_query] in H.
  - unfold visit_bounds in H. apply bind_ok in H as (bs & _ & H). repeat (apply bind_ok in H as (? & _ & H)).
    apply finish_inv in H as (kb & qb & _ & -> & _). eexists. split; [reflexivity|]. cbn. auto.
  - apply count_plan in H as (g & -> & H). exists g. auto.
  - unfold visit_count_distinct in H. apply bind_ok in H as (bs & _ & H). apply bind_ok in H as (cm & CM & H).
    apply bind_ok in H as (x & _ & H). apply bind_ok in H as (s & _ & H). destruct (constrained_child _ _ _ _ _).
    + apply bind_ok in H as (? & _ & H). apply count_plan in H as (g & -> & E1 & E2 & E3 & E4). exists g. cbn [plan_like]. auto 6.
    + repeat (apply bind_ok in H as (? & _ & H)). apply finish_inv in H as (kb & qb & _ & -> & _). eexists. split; [reflexivity|].
      cbn. repeat split; auto. unfold core_mechanism in CM. destruct core; [|discriminate]. injection CM as ->. reflexivity.
  - unfold visit_quantile in H. apply bind_ok in H as (bs & _ & H). repeat (apply bind_ok in H as (? & _ & H)).
    apply finish_inv in H as (kb & qb & _ & -> & _). eexists. split; [reflexivity|]. cbn. auto.
  - unfold visit_bounded in H. apply bind_ok in H as (bs & _ & H). apply bind_ok in H as (cm & CM & H). repeat (apply bind_ok in H as (? & _ & H)).
    apply finish_inv in H as (kb & qb & _ & -> & _). eexists. split; [reflexivity|]. cbn. repeat split; auto.
    unfold core_mechanism in CM. destruct core; [|discriminate]. injection CM as ->. reflexivity.
Qed.

(** The query as it was before the concrete mechanism was chosen. *)
Definition planned (q : query) (g : plan) : Prop :=
  match q with
  | GroupByCount _ k o m _ => g_keys g = k /\ g_outs g = [o] /\ g_agg g = ACount /\ gaussian (g_mech g) = asks_gaussian mu m
  | GroupByCountDistinct _ k _ o m _ =>
      g_keys g = k /\ g_outs g = [o] /\ (g_agg g = ACountDistinct \/ g_agg g = ACount) /\ gaussian (g_mech g) = asks_gaussian mu m
  | GroupByQuantile _ k me qu lo hi o => g_keys g = k /\ g_outs g = [o] /\ g_agg g = AQuantile me qu lo hi /\ g_mech g = default_mechanism mu
  | GroupByBounded kd _ k me lo hi o m _ => g_keys g = k /\ g_outs g = [o] /\ g_agg g = ABounded kd me lo hi /\ gaussian (g_mech g) = asks_gaussian mu m
  | GetBounds _ k me lo hi => g_keys g = k /\ g_outs g = [lo; hi] /\ g_agg g = ABounds me /\ g_mech g = default_mechanism mu
  | _ => False
  end.
Lemma compile_plan b q meas : built auto q -> cmp b q = Ok meas -> aggregation q ->
  exists total g, meas = MGroupBy total g /\ planned q g.
Proof.
  intros B H A. apply compile_inv in H as (s & q' & adj & S & RW & M).
  destruct (rewrite_ok auto (w_cond_ok W) mu cat MADE _ _ _ B S RW) as (B' & _ & RR & _ & RM).
  assert (A' : aggregation q') by (destruct RR; try contradiction A; exact I).
  destruct (measure_plan _ _ _ _ M A') as (g & -> & P). exists adj, g. split; [reflexivity|].
  inversion RM as [? RN _]; subst. destruct RR; try contradiction A; cbn [plan_like planned right_mechanism] in *; auto.
  - destruct P as (P1 & P2 & P3 & ->). destruct RN as (x & [= <-] & RN). rewrite (right_gaussian _ _ _ _ RN). auto.
  - destruct P as (P1 & P2 & P3 & ->). destruct RN as (x & [= <-] & RN). rewrite (right_gaussian _ _ _ _ RN). auto.
  - destruct P as (P1 & P2 & P3 & ->). destruct RN as (x & s' & d & [= <-] & _ & _ & RN). rewrite (right_gaussian _ _ _ _ RN). auto.
Qed.

Lemma default_gaussian : gaussian (default_mechanism mu) = true <-> mu = RhoZCDP.
Proof. destruct mu; cbn; split; congruence. Qed.
Lemma mech_asked m x : mech_of m = Ok x ->
  asks_gaussian mu x = true <-> match m with
    | Mech MGaussian => True | Mech MDefault => mu = RhoZCDP | Mech MLaplace => False
    | MechName s => upper s = "GAUSSIAN" \/ (upper s = "DEFAULT" /\ mu = RhoZCDP) end.
Proof.
  destruct m as [s|[]]; cbn [mech_of].
  - destruct (String.eqb_spec (upper s) "DEFAULT") as [E|N]; [intros [= <-]; rewrite E|].
    { destruct mu; cbn; split; intros X; try discriminate; auto; destruct X as [X|(_ & X)]; discriminate. }
    destruct (String.eqb_spec (upper s) "LAPLACE") as [E|N2]; [intros [= <-]; rewrite E|].
    { destruct mu; cbn; split; intros X; try discriminate; destruct X as [X|(X & _)]; discriminate. }
    destruct (String.eqb_spec (upper s) "GAUSSIAN") as [E|N3]; [intros [= <-]; rewrite E|discriminate].
    destruct mu; cbn; split; auto.
  - intros [= <-]. destruct mu; cbn; split; congruence.
  - intros [= <-]. destruct mu; cbn; split; try tauto; discriminate.
  - intros [= <-]. destruct mu; cbn; tauto.
Qed.
Lemma check_bounds_numbers lo hi b : check_bounds lo hi = Ok b -> same_number lo (fst b) /\ same_number hi (snd b).
Proof.
  unfold check_bounds, same_number. destruct lo, hi; intros H; apply bind_ok in H as (? & _ & H); injection H as <-; cbn [fst snd to_float]; auto.
Qed.
Lemma quantile_ok x g c q lo hi n e : quantile_expr show x g c q lo hi n = Ok e ->
  exists lo' hi', e = GroupByQuantile (gr_expr g) (gr_keys g) c (to_float q) lo' hi' (if_none n (c ++ "_quantile(" ++ show q ++ ")"))
    /\ same_number lo lo' /\ same_number hi hi'.
Proof.
  unfold quantile_expr. cbn [post_init]. intros H. apply bind_ok in H as (? & _ & H). apply bind_ok in H as (? & _ & H).
  apply bind_ok in H as (b & B & H). injection H as <-. exists (fst b), (snd b). split; [reflexivity|].
  apply check_bounds_numbers in B as (B1 & B2). unfold same_number in *. cbn [to_float] in *. auto.
Qed.
Lemma gaussian_iff (x y : bool) (P : Prop) : x = y -> (y = true <-> P) -> (x = true <-> P).
Proof. intros -> H. exact H. Qed.

(** What a call asks for is what is computed. *)
Lemma aggregate_measured x g a q b meas : aggregate show x g a = Ok q -> built auto (q_expr q) -> cmp b (q_expr q) = Ok meas ->
  exists total p, meas = MGroupBy total p /\ g_keys p = gr_keys g /\ g_outs p = answer_columns show a /\ computes a (g_agg p)
    /\ (gaussian (g_mech p) = true <-> gaussian_asked mu a).
Proof.
  intros A B H. destruct a; cbn [aggregate] in A.
  - apply bind_ok in A as (m' & M & A). apply bind_ok in A as (e & E & A). injection A as <-. cbn [q_expr] in *.
    cbn [post_init] in E. apply bind_ok in E as (? & _ & E). injection E as <-.
    destruct (compile_plan _ _ _ B H I) as (total & p & -> & P1 & P2 & P3 & P4). exists total, p.
    split; [reflexivity|]. split; [exact P1|]. split; [exact P2|]. split; [exact P3|]. exact (gaussian_iff _ _ _ P4 (mech_asked _ _ M)).
  - apply bind_ok in A as (m' & M & A). apply bind_ok in A as (e & E & A). injection A as <-. cbn [q_expr] in *.
    cbn [post_init] in E. apply bind_ok in E as (? & _ & E). injection E as <-.
    destruct (compile_plan _ _ _ B H I) as (total & p & -> & P1 & P2 & P3 & P4). exists total, p.
    split; [reflexivity|]. split; [exact P1|]. split; [|split; [exact P3|exact (gaussian_iff _ _ _ P4 (mech_asked _ _ M))]].
    rewrite P2. unfold if_not. destruct cols as [|s|[|c l]], name as [[|]|]; reflexivity.
  - apply bind_ok in A as (e & E & A). injection A as <-. cbn [q_expr] in *. apply quantile_ok in E as (lo & hi & -> & L & Hh).
    destruct (compile_plan _ _ _ B H I) as (total & p & -> & P1 & P2 & P3 & P4). exists total, p.
    split; [reflexivity|]. split; [exact P1|]. split; [exact P2|]. split; [exists lo, hi; auto|]. rewrite P4. apply default_gaussian.
  - apply bind_ok in A as (e & E & A). injection A as <-. cbn [q_expr] in *. apply quantile_ok in E as (lo & hi & -> & L & Hh).
    destruct (compile_plan _ _ _ B H I) as (total & p & -> & P1 & P2 & P3 & P4). exists total, p.
    split; [reflexivity|]. split; [exact P1|]. split; [rewrite P2; destruct name as [[|]|]; reflexivity|].
    split; [exists lo, hi; auto|]. rewrite P4. apply default_gaussian.
  - apply bind_ok in A as (e & E & A). injection A as <-. cbn [q_expr] in *. apply quantile_ok in E as (lo & hi & -> & L & Hh).
    destruct (compile_plan _ _ _ B H I) as (total & p & -> & P1 & P2 & P3 & P4). exists total, p.
    split; [reflexivity|]. split; [exact P1|]. split; [rewrite P2; destruct name as [[|]|]; reflexivity|].
    split; [exists lo, hi; auto|]. rewrite P4. apply default_gaussian.
  - apply bind_ok in A as (e & E & A). injection A as <-. cbn [q_expr] in *. apply quantile_ok in E as (lo & hi & -> & L & Hh).
    destruct (compile_plan _ _ _ B H I) as (total & p & -> & P1 & P2 & P3 & P4). exists total, p.
    split; [reflexivity|]. split; [exact P1|]. split; [rewrite P2; destruct name as [[|]|]; reflexivity|].
    split; [exists lo, hi; auto|]. rewrite P4. apply default_gaussian.
  - apply bind_ok in A as (m' & M & A). apply bind_ok in A as (e & E & A). injection A as <-. cbn [q_expr] in *.
    cbn [post_init] in E. apply bind_ok in E as (? & _ & E). apply bind_ok in E as (bb & BB & E). injection E as <-.
    apply check_bounds_numbers in BB as (B1 & B2).
    destruct (compile_plan _ _ _ B H I) as (total & p & -> & P1 & P2 & P3 & P4). exists total, p.
    split; [reflexivity|]. split; [exact P1|]. split; [rewrite P2; destruct kd; reflexivity|].
    split; [exists (fst bb), (snd bb); auto|exact (gaussian_iff _ _ _ P4 (mech_asked _ _ M))].
  - apply bind_ok in A as (e & E & A). injection A as <-. cbn [q_expr] in *.
    cbn [post_init] in E. apply bind_ok in E as (? & _ & E). injection E as <-.
    destruct (compile_plan _ _ _ B H I) as (total & p & -> & P1 & P2 & P3 & P4). exists total, p.
    split; [reflexivity|]. split; [exact P1|]. split; [exact P2|]. split; [exact P3|]. rewrite P4. apply default_gaussian.
Qed.
End Measured.

(** ** Histograms *)
Section Histogram.
Variable R : rounding.
Variable W : world.
Variable K : core.
Variable auto : bool.
Variable so : list string -> list string.
Hypothesis SO : forall l, Permutation (so l) l.
Variable mu : measure.
Variable cat : catalog.
Variable data : dict vtab.
Hypothesis HOLD : constraints_hold cat data.
Hypothesis MADE : catalog_made cat.

Lemma bin_expr_ok x e column s n e' : bin_expr x e column s (Some n) = Ok e' ->
  exists new, e' = MapQ e (binning_fn column s n) new true /\ sc_cols new = [(n, bn_desc s)].
Proof.
  unfold bin_expr, map_expr, new_columns_schema. cbn [if_none]. intros H. apply bind_ok in H as (new & N & H).
  apply Schema_init_ok in N as (_ & _ & _ & _ & ->). cbn [post_init] in H. repeat (apply bind_ok in H as (? & _ & H)).
  injection H as <-. eexists. split; [reflexivity|]. reflexivity.
Qed.
Lemma binned_row column s n new r : sc_cols new = [(n, bn_desc s)] ->
  getv n (map_row (binning_fn column s n) new true r) = bn_call s (getv column r).
Proof.
  intros E. unfold map_row, new_cells. rewrite E. cbn [dkeys map fst select_row]. unfold binning_fn.
  rewrite getv_merge by (cbn; repeat constructor; intros []). cbn [dmem dget map fst snd]. unfold dmem. cbn [dget fst].
  rewrite String.eqb_refl. unfold getv. cbn [dget]. rewrite !String.eqb_refl. reflexivity.
Qed.

Lemma compile_histogram x e column s n e' c r b meas t cs :
  bin_expr x e column s (Some n) = Ok e' -> built auto e' ->
  (forall v, cell_ok (nullable (bn_desc s)) (bn_call s v) = true) ->
  holds_for W cat data (asks_gaussian mu MDefault) e ->
  build_transformation W (asks_gaussian mu MDefault) cat data e = Ok (t, cs) ->
  dkeys c = [n] ->
  compile R W K auto so mu cat data b (GroupByCount e' (KSet c r) "count" MDefault None) = Ok meas ->
  exists total g, plan_of meas = Some (total, g) /\ g_keys g = KSet c r /\ g_outs g = ["count"]
    /\ forall v, counted g [(n, v)] = length (filter (fun row => value_eqb (bn_call s (getv column row)) v) (v_rows t)).
Proof.
  intros E B D (I & P & F & T) BT C CM. destruct (bin_expr_ok _ _ _ _ _ _ E) as (new & -> & NC).
  assert (HF : holds_for W cat data (asks_gaussian mu MDefault) (MapQ e (binning_fn column s n) new true)).
  { split; [exact I|]. split; [|split; [exact F|exact T]]. cbn [promises]. split; [exact P|].
    rewrite NC. split; [cbn; repeat constructor; intros []|]. intros t0 cs0 row _ _ k d. rewrite NC. cbn [dget fst snd].
    destruct (String.eqb_spec k n) as [->|]; [|discriminate]. intros [= <-]. unfold binning_fn, getv. cbn [dget]. rewrite String.eqb_refl. apply D. }
  assert (B2 : built auto (GroupByCount (MapQ e (binning_fn column s n) new true) (KSet c r) "count" MDefault None)).
  { cbn [built]. split; [|exact B]. cbn [post_init]. reflexivity. }
  destruct (compile_count R W K auto so SO mu cat data HOLD MADE _ _ _ _ _ _ _ B2 HF CM) as (t' & cs' & total & g & BT' & PL & GK & GO & CT).
  exists total, g. split; [exact PL|]. split; [exact GK|]. split; [exact GO|]. intros v. rewrite CT.
  apply build_transformation_ok in BT as (s1 & _ & V & _). apply build_transformation_ok in BT' as (s2 & _ & V' & _).
  cbn [visit] in V'. rewrite V in V'. cbn [bind] in V'. unfold visit_map in V'. apply bind_ok in V' as (? & _ & V').
  apply bind_ok in V' as (cs2 & _ & V'). injection V' as <- _. cbn [v_rows]. unfold rows_with_key. rewrite filter_map, map_length.
  f_equal. apply filter_ext. intros row. cbn [keys_columns]. rewrite C. cbn [forallb]. rewrite (binned_row _ _ _ _ _ NC), andb_true_r.
  unfold getv at 1. cbn [dget]. rewrite String.eqb_refl.
  destruct (value_eqb v (bn_call s (getv column row))) eqn:Q, (value_eqb (bn_call s (getv column row)) v) eqn:Q2; auto;
    [apply value_eqb_eq in Q; subst|apply value_eqb_eq in Q2; subst]; rewrite (proj2 (value_eqb_eq _ _) eq_refl) in *; discriminate.
Qed.
End Histogram.
