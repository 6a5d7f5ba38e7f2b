(** Which aggregations can be compiled. *)
From Coq Require Import String Bool Arith ZArith QArith Qcanon Lqa Lia Permutation List.
From Verif Require Import Prelude Budget BudgetProofs Value Rows Constraints ConstraintsSpec ConstraintsProofs ConstraintsStab
  Schema SchemaProofs Query Rewrite RewriteSpec RewriteProofs Transform TransformSpec TransformConform TransformVisit TransformAgree TransformIds
  QueryProofs QueryAccept PropagateProofs TransformTotal SessionTables SessionViews Session SessionSpec SessionMoney Measure MeasureProofs.
Import ListNotations.
Local Open Scope string_scope.
Local Open Scope nat_scope.

(** *** Specification *)

(** The aggregation of a query: suppressing small counts is done afterwards. *)
Definition inner (q : query) : query := match q with SuppressAggregates c _ _ => c | _ => q end.
(** The table that is aggregated. *)
Definition table_of (a : query) : option query :=
  match a with
  | GetGroups c _ | GetBounds c _ _ _ _ | GroupByCount c _ _ _ _ | GroupByCountDistinct c _ _ _ _ _
  | GroupByQuantile c _ _ _ _ _ _ | GroupByBounded _ c _ _ _ _ _ _ _ => Some c
  | _ => None
  end.
Definition keys_of (a : query) : option gkeys :=
  match a with
  | GetBounds _ k _ _ _ | GroupByCount _ k _ _ _ | GroupByCountDistinct _ k _ _ _ _
  | GroupByQuantile _ k _ _ _ _ _ | GroupByBounded _ _ k _ _ _ _ _ _ => Some k
  | _ => None
  end.
(** The noise is Gaussian: under zCDP, unless Laplace noise is asked for; get_bounds never
    uses it. *)
Definition gaussian_wanted (mu : measure) (a : query) : bool :=
  match mu, a with
  | RhoZCDP, GroupByCount _ _ _ m _ | RhoZCDP, GroupByCountDistinct _ _ _ _ m _ | RhoZCDP, GroupByBounded _ _ _ _ _ _ _ m _ =>
      match m with MLaplace => false | _ => true end
  | RhoZCDP, GetBounds _ _ _ _ _ => false
  | RhoZCDP, _ => true
  | _, _ => false
  end.
(** Keys are found with a positive epsilon and a positive delta. *)
Definition can_search (b : budget) : Prop :=
  exists e d, b = Approx e d /\ (infinite b \/ (~ xle e (XFin 0) /\ ~ xle d (XFin 0))).

Section Spec.
Variables (W : world) (mu : measure) (cat : catalog) (data : dict vtab).
Notation sch := (schema_of (w_cond_ok W) cat).

(** The constraints known about the rows of a table query. *)
Definition known (l2 : bool) (c : query) (cs : list constraint) : Prop :=
  exists t, build_transformation W l2 cat data c = Ok (t, cs).
(** Infinite values of the column are moved to the bounds before aggregating. *)
Definition clamps (a : query) (m : string) : Prop :=
  exists c lo hi s d, measure_of a = Some (c, m) /\ bounds_of a = Some (lo, hi) /\ sch c = Ok s
    /\ dget m (sc_cols s) = Some d /\ may_be_infinite d.
(** A truncation that the known constraints allow: rows per ID, or groups per ID with rows
    per group.  Bounds on the rows with each value of a column are void once that column is
    clamped. *)
Definition allowed (a : query) (cs : list constraint) (tr : trunc) : Prop :=
  incl (trunc_constraints tr) cs /\ forall g x y, tr = TGroups g x y -> ~ clamps a g.
Definition grouping_of (a : query) : list string := match keys_of a with Some k => keys_columns k | None => [] end.
Definition cheapest (a : query) (cs : list constraint) (o : option trunc) : Prop :=
  match o with
  | None => forall tr, ~ allowed a cs tr
  | Some tr => allowed a cs tr
      /\ ((forall x y, In x cs -> In y cs -> same_subject x y = true -> x = y) ->
          forall tr', allowed a cs tr' ->
            stability_squared mu (grouping_of a) tr <= stability_squared mu (grouping_of a) tr')
  end.
(** What is counted are the IDs of the table (per group of at most one column with a known
    bound on the groups of an ID). *)
Definition counts_ids (s : schema) (k : gkeys) (cols : list string) (cs : list constraint) : Prop :=
  exists i, sc_id s = Some i
    /\ (match cols with [] => forall x, has_column s x -> x = i | _ => forall x, In x cols -> x = i end)
    /\ (keys_columns k = [] \/ exists g n, keys_columns k = [g] /\ In (MaxGroupsPerID g n) cs).
Definition groups_fault (b : budget) (s : schema) (cols : list string) (e : exn) : Prop :=
  (e = ValueError /\ forall x d, b <> Approx x d)
  \/ (e = RuntimeError /\ exists i, sc_id s = Some i /\ (In i cols \/ (cols = [] /\ forall x, has_column s x -> x = i))).
Definition distinct_fault (s : schema) (k : gkeys) (cols : list string) (cs : list constraint) (pick : option trunc) (e : exn) : Prop :=
  (counts_ids s k cols cs /\ e = ValueError /\ exists i, sc_id s = Some i /\ keys_columns k = [i])
  \/ (~ counts_ids s k cols cs /\ cols <> []
      /\ match k with
         | KCols _ => e = AttributeError
         | KSet kc _ => e = ValueError
             /\ ((exists x, In x cols /\ ~ has_column s x)
                 \/ (sc_id s <> None /\ exists g x y, pick = Some (TGroups g x y) /\ ~ In g cols /\ ~ In g (dkeys kc)))
         end).

(** Why the aggregation [a] cannot be compiled with the budget [b], and what is raised.
    [pick] is the truncation of the table, if one is needed. *)
Inductive obstacle (b : budget) (a : query) (pick : option trunc) : exn -> Prop :=
(** Gaussian noise without zCDP *)
| ONoise : asked_mechanism a = Some MGaussian -> mu <> RhoZCDP -> obstacle b a pick ValueError
(** infinite values with infinite bounds *)
| OBounds c m s d lo hi : measure_of a = Some (c, m) -> bounds_of a = Some (lo, hi) -> sch c = Ok s ->
    dget m (sc_cols s) = Some d -> may_be_infinite d -> ~ (finite_number lo /\ finite_number hi) ->
    obstacle b a pick ValueError
(** the table cannot be computed (C71) *)
| OTable c : table_of a = Some c -> ~ computable (w_cond_ok W) cat c -> obstacle b a pick ValueError
(** keys to be found with a budget that is not for it *)
| OSearch cols : keys_of a = Some (KCols cols) -> ~ can_search b -> obstacle b a pick ValueError
(** a table with IDs and no bound on the rows per ID *)
| OTruncation c s cs : table_of a = Some c -> sch c = Ok s -> sc_id s <> None ->
    known (gaussian_wanted mu a) c cs -> pick = None ->
    match a with GroupByCountDistinct _ k cols _ _ _ => ~ counts_ids s k cols cs | _ => True end ->
    obstacle b a pick RuntimeError
(** get_groups *)
| OGroups c cols s e : a = GetGroups c cols -> sch c = Ok s -> groups_fault b s cols e -> obstacle b a pick e
(** count_distinct *)
| ODistinct c k cols out m co s cs e : a = GroupByCountDistinct c k cols out m co -> sch c = Ok s ->
    known (gaussian_wanted mu a) c cs -> distinct_fault s k cols cs pick e -> obstacle b a pick e.
End Spec.

(** *** Rewriting raises ValueErrors only *)
Section Rewriting.
Variables (auto : bool) (cond_ok : string -> list sfield -> bool) (mu : measure) (cat : catalog).
Hypothesis CAT : catalog_made cat.
Notation sch := (schema_of cond_ok cat).
Notation handle := (handle_special_values auto cond_ok cat).
Notation noise := (select_noise auto cond_ok mu cat).
Notation df := (depth_first auto).

Lemma pass_error func :
  (forall q s e, post_init auto q = Ok q -> sch q = Ok s -> func q = Err e -> e = ValueError) ->
  (forall q q' s, built auto q -> sch q = Ok s -> df func q = Ok q' -> sch q' = sch q /\ is_groupby_count q' = is_groupby_count q) ->
  forall q s e, built auto q -> sch q = Ok s -> df func q = Err e -> e = ValueError.
Proof.
  intros HF HS. induction q as [q IH] using query_below_ind. intros s e B S H.
  pose proof (proj1 (built_unfold auto q) B) as [P BC]. rewrite <- below_children, Forall_forall in BC.
  pose proof (sch_below cond_ok cat q s S) as SB. rewrite (depth_first_step auto func q B) in H.
  destruct (mapM (df func) (below q)) as [l|e'] eqn:E.
  - assert (F : Forall2 (fun c c' => sch c' = sch c /\ is_groupby_count c' = is_groupby_count c) (below q) l).
    { apply mapM_ok_Forall2 in E. revert E. apply Forall2_weaken. intros c c' Hc E. destruct (SB c Hc) as (sc & Sc). exact (HS c c' sc (BC c Hc) Sc E). }
    assert (F1 : Forall2 (fun c c' => sch c' = sch c) (below q) l) by (revert F; apply Forall2_weaken; tauto).
    assert (C : count_below q l).
    { pose proof (count_below_self auto q P) as C. destruct q; try exact Logic.I. cbn [below] in F. inversion F as [|? ? ? ? [_ X] F']; subst. inversion F'; subst.
      cbn [count_below below forallb] in C |- *. rewrite X. exact C. }
    cbn [bind] in H. replace (match q with SuppressAggregates _ _ _ => negb (forallb is_groupby_count l) | _ => false end) with false in H
      by (destruct q; try reflexivity; cbn [count_below] in C; now rewrite C).
    cbn [raise_if bind] in H. pose proof (with_below_post auto q l _ P F C) as PW. rewrite PW in H. cbn [bind] in H.
    apply (HF (with_below q l) s e PW); [|exact H]. now rewrite (sch_with_below cond_ok cat q l F1).
  - cbn [bind] in H. injection H as <-. clear - E IH BC SB.
    assert (X : exists c, In c (below q) /\ df func c = Err e').
    { revert E. generalize (below q). induction l as [|c l IHl]; cbn [mapM]; [discriminate|].
      destruct (df func c) as [c'|x] eqn:E1; cbn [bind].
      - destruct (mapM (df func) l) as [l'|x] eqn:E2; cbn [bind]; [discriminate|]. intros [= ->].
        destruct (IHl eq_refl) as (c0 & H0 & E0). exists c0. split; [now right|exact E0].
      - intros [= ->]. exists c. split; [now left|exact E1]. }
    destruct X as (c & Hc & E1). destruct (SB c Hc) as (sc & Sc). exact (IH c Hc sc e' (BC c Hc) Sc E1).
Qed.
Lemma handle_error q s e : post_init auto q = Ok q -> sch q = Ok s -> handle q = Err e -> e = ValueError.
Proof.
  intros P S. unfold handle_special_values. destruct (Rewrite.measured q) as [[[c m] b]|] eqn:M; [|discriminate].
  destruct (measured_schema cond_ok cat q c m b s M S) as (k & outs & sc & Sc & G & _).
  destruct (groupby_measure _ _ _ _ _ G) as (_ & _ & _ & d & D & _).
  rewrite Sc. cbn [bind]. unfold lookup_col. rewrite D. cbn [bind].
  set (drop := cd_null d || is_decimal d && cd_nan d).
  assert (X : exists q1, (if drop then let* c1 := post_init auto (DropNullAndNan c [m]) in post_init auto (with_child q c1) else Ok q) = Ok q1
              /\ Rewrite.measured q1 = Some (if drop then DropNullAndNan c [m] else c, m, b) /\ post_init auto q1 = Ok q1).
  { destruct drop.
    - cbn [post_init bind]. exists (with_child q (DropNullAndNan c [m])). pose proof (with_child_post auto q c (DropNullAndNan c [m]) m b M P) as Y.
      split; [exact Y|]. split; [|exact Y]. destruct q; try discriminate M; injection M as _ <- <-; reflexivity.
    - exists q. auto. }
  destruct X as (q1 & -> & M1 & P1). cbn [bind].
  destruct (is_decimal d && cd_inf d); [|discriminate].
  destruct b as [[lo hi]|]; cbn [post_init].
  - match goal with |- context[raise_if ?t ValueError] => destruct t end; cbn [raise_if bind]; [now intros [= <-]|].
    intros H. rewrite (with_child_post auto q1 _ _ m _ M1 P1) in H. discriminate H.
  - cbn [bind]. intros H. rewrite (with_child_post auto q1 _ _ m _ M1 P1) in H. discriminate H.
Qed.
Lemma noise_error q s e : post_init auto q = Ok q -> sch q = Ok s -> noise q = Err e -> e = ValueError.
Proof.
  intros P S. destruct q; cbn [select_noise]; try discriminate.
  - cbn [post_init] in P |- *. inv_ok P. unfold count_noise. rewrite E. destruct m, mu; cbn; congruence.
  - cbn [post_init] in P |- *. inv_ok P. unfold count_noise. rewrite E. destruct m, mu; cbn; congruence.
  - cbn [post_init] in P |- *. inv_ok P. inv_ok P. rewrite E, E0. cbn [schema_of] in S. inv_ok S.
    destruct (groupby_measure _ _ _ _ _ S) as (_ & _ & _ & d & D & T). rewrite E1. unfold lookup_col. cbn [bind]. rewrite D. cbn [bind].
    unfold other_noise. destruct m, mu; cbn; congruence.
Qed.
Lemma rewrite_error q s e : built auto q -> sch q = Ok s -> rewrite auto cond_ok mu cat q = Err e -> e = ValueError.
Proof.
  intros B S. unfold rewrite. destruct (df handle q) as [q1|e1] eqn:E1; cbn [bind].
  - destruct (first_pass_ok auto cond_ok cat CAT q q1 B E1 s S) as (B1 & S1 & R1 & _). intros H.
    apply (pass_error noise) with (q := q1) (s := s); try assumption.
    + intros q0 s0 e0. apply noise_error.
    + intros q0 q' s0 B0 S0 D0. destruct (second_pass_ok auto cond_ok mu cat q0 q' B0 D0 s0 S0) as (X & _).
      split; [exact (sch_stripped _ _ _ _ X)|]. rewrite <- (strip_count q0), <- (strip_count q'). now rewrite X.
  - intros [= <-]. apply (pass_error handle) with (q := q) (s := s); try assumption.
    + intros q0 s0 e0. apply handle_error.
    + intros q0 q' s0 B0 S0 D0. destruct (first_pass_ok auto cond_ok cat CAT q0 q' B0 D0 s0 S0) as (_ & X & R & _).
      split; [congruence|]. exact (rewritten_count _ _ _ _ R).
Qed.

Lemma table_unchanged c c' : is_table c -> rewritten cond_ok cat c c' -> c' = c.
Proof.
  intros T R. induction R; cbn [is_table] in T; try contradiction; try reflexivity.
  all: try (rewrite (IHR T); reflexivity).
  destruct T as [T1 T2]. now rewrite (IHR1 T1), (IHR2 T2).
Qed.
Lemma table_everywhere (Q : query -> Prop) c : (forall x, is_table x -> Q x) -> is_table c -> everywhere Q c.
Proof.
  intros H. induction c as [c IH] using query_below_ind. intros T. constructor; [now apply H|]. intros x Hx. apply IH; [exact Hx|].
  destruct c; cbn [below] in Hx; cbn [is_table] in T; try contradiction; repeat (destruct Hx as [<-|Hx]; [tauto|]); destruct Hx.
Qed.
End Rewriting.

(** *** The truncation *)
Definition unique (cs : list constraint) : Prop := forall x y, In x cs -> In y cs -> same_subject x y = true -> x = y.
Lemma choose_raw so mu gr cs (SO : forall l, Permutation (so l) l) :
  match choose_trunc so mu gr cs with
  | Some tr => usable cs tr /\ (unique cs -> forall tr', usable cs tr' -> stability_squared mu gr tr <= stability_squared mu gr tr')
  | None => forall tr, ~ usable cs tr
  end.
Proof.
  unfold choose_trunc.
  pose proof (isort_perm (trunc_le mu gr) (truncatable so cs)) as P.
  assert (S : sorted (trunc_le mu gr) (isort (trunc_le mu gr) (truncatable so cs))).
  { apply isort_sorted_gen.
    - intros x y. unfold trunc_le. rewrite !Nat.leb_le. lia.
    - intros x y z. unfold trunc_le. rewrite !Nat.leb_le. lia. }
  destruct (isort (trunc_le mu gr) (truncatable so cs)) as [|tr l].
  - intros tr H. apply Permutation_nil in P.
    assert (X : exists tr', In tr' (truncatable so cs)).
    { unfold truncatable. destruct tr as [m|g a b].
      - pose proof (find_rows_spec cs) as F. assert (I : In (MaxRowsPerID m) cs) by (apply H; simpl; auto).
        destruct (find_rows cs) as [m'|]; [|destruct (F m I)]. exists (TRows m'). apply in_app_iff. right. now left.
      - assert (I1 : In (MaxGroupsPerID g a) cs) by (apply H; simpl; auto).
        assert (I2 : In (MaxRowsPerGroupPerID g b) cs) by (apply H; simpl; auto).
        destruct (groups_dict_mem _ _ _ I1) as (a' & E1). destruct (rpg_dict_mem _ _ _ I2) as (b' & E2).
        exists (TGroups g a' b'). apply in_app_iff. left. apply in_flat_map. exists g. rewrite E1, E2. split; [|now left].
        apply (Permutation_in _ (Permutation_sym (SO _))). apply filter_In. split.
        + apply dmem_In. unfold dmem. rewrite E1. reflexivity.
        + apply smem_In, dmem_In. unfold dmem. rewrite E2. reflexivity. }
    destruct X as (tr' & X). rewrite P in X. destruct X.
  - split.
    + intros c Hc. revert c Hc. apply (truncatable_usable so SO). apply (Permutation_in _ P). now left.
    + intros U tr' H. assert (I : In tr' (tr :: l)) by (apply (Permutation_in _ (Permutation_sym P)), usable_truncatable; assumption).
      inversion S as [|? ? M _]; subst. destruct I as [<-|I]; [lia|]. specialize (M tr' I). unfold trunc_le in M. apply Nat.leb_le in M. lia.
Qed.

(** Lists of constraints that differ in superfluous ones. *)
Definition sim (x y : list constraint) : Prop := incl y x /\ forall c, In c x -> exists m, In (with_max c m) y.
Lemma with_max_bound c : with_max c (bound c) = c.
Proof. destruct c; reflexivity. Qed.
Lemma with_max_twice c m n : with_max (with_max c m) n = with_max c n.
Proof. destruct c; reflexivity. Qed.
Lemma with_max_subject c m : same_subject c (with_max c m) = true.
Proof. destruct c; cbn; try reflexivity; apply String.eqb_refl. Qed.
Lemma sim_refl x : sim x x.
Proof. split; [apply incl_refl|]. intros c H. exists (bound c). now rewrite with_max_bound. Qed.
Lemma sim_simplify x : sim x (simplify x).
Proof. split; [apply simplify_incl|]. intros c H. destruct (simplify_covers x c H) as (m & M & _). eauto. Qed.
Lemma sim_trans x y z : sim x y -> sim y z -> sim x z.
Proof.
  intros [A1 A2] [B1 B2]. split; [intros c H; apply A1, B1, H|]. intros c H. destruct (A2 c H) as (m & M). destruct (B2 _ M) as (n & N).
  rewrite with_max_twice in N. eauto.
Qed.
Lemma sim_replace cols x y : sim x y -> sim (propagate_replace cols x) (propagate_replace cols y).
Proof.
  intros [A1 A2]. unfold propagate_replace. split.
  - intros c H. apply filter_In in H as [H F]. apply filter_In. split; [apply A1, H|exact F].
  - intros c H. apply filter_In in H as [H F]. destruct (A2 c H) as (m & M). exists m. apply filter_In. split; [exact M|]. destruct c; exact F.
Qed.
Lemma sim_usable x y tr : sim x y -> usable x tr -> exists tr', usable y tr'.
Proof.
  intros [_ A] H. unfold usable in *. destruct tr as [m|g a b].
  - destruct (A (MaxRowsPerID m)) as (n & N); [apply H; now left|]. exists (TRows n). intros c [<-|[]]. exact N.
  - destruct (A (MaxGroupsPerID g a)) as (n & N); [apply H; now left|]. destruct (A (MaxRowsPerGroupPerID g b)) as (n' & N'); [apply H; right; now left|].
    exists (TGroups g n n'). intros c [<-|[<-|[]]]; [exact N|exact N'].
Qed.
Lemma sim_unique x y : sim x y -> unique x -> incl x y.
Proof.
  intros [A B] U c H. destruct (B c H) as (m & M). assert (E : c = with_max c m) by (apply U; [exact H|apply A, M|apply with_max_subject]). now rewrite E.
Qed.
Lemma choose_sim so mu gr x y (SO : forall l, Permutation (so l) l) : sim x y ->
  match choose_trunc so mu gr y with
  | Some tr => usable x tr /\ (unique x -> forall tr', usable x tr' -> stability_squared mu gr tr <= stability_squared mu gr tr')
  | None => forall tr, ~ usable x tr
  end.
Proof.
  intros SM. pose proof (choose_raw so mu gr y SO) as C. destruct (choose_trunc so mu gr y) as [tr|].
  - destruct C as [U C]. split; [intros c H; apply (proj1 SM), U, H|]. intros Ux tr' U'. apply C.
    + intros a b Ha Hb. apply Ux; apply (proj1 SM); assumption.
    + intros c H. apply (sim_unique x y SM Ux), U', H.
  - intros tr U. destruct (sim_usable x y tr SM U) as (tr' & U'). exact (C tr' U').
Qed.

(** *** Budgets *)
Section Budgets.
Variables (R : rounding) (W : world) (cat : catalog).
Notation sch := (schema_of (w_cond_ok W) cat).
Lemma mk_approx_ok x y : xle (XFin 0) x -> xle (XFin 0) y -> xle y (XFin 1) -> mk_approx R (AExact x) (AExact y) = Ok (Approx x y).
Proof.
  intros A B C. unfold mk_approx. cbn [arg_isnan bind raise_if arg_lt_int arg_gt_int to_exact_number].
  change (z2q 0) with 0%Q. change (z2q 1) with 1%Q. rewrite (proj2 (xltb_false _ _) A), (proj2 (xltb_false _ _) B), (proj2 (xltb_false _ _) C). reflexivity.
Qed.
Lemma isnan_small z : z = 0%Z \/ z = 1%Z -> isnan R (Budget.PInt z) = Ok false.
Proof.
  intros H. unfold isnan. cbn [Budget.to_float]. unfold int_to_float. pose proof (rnd_zero R) as Z. pose proof (rnd_one R) as O.
  destruct H as [-> | ->]; [change (z2q 0) with 0%Q; destruct (rnd R 0)|change (z2q 1) with 1%Q; destruct (rnd R 1)]; cbn in *; tauto || reflexivity.
Qed.
Lemma mk_approx_zero x : xle (XFin 0) x -> mk_approx R (AExact x) zero = Ok (Approx x (XFin 0)).
Proof.
  intros A. unfold mk_approx, zero. cbn [arg_isnan bind raise_if arg_lt_int arg_gt_int to_exact_number].
  rewrite (isnan_small 0 (or_introl eq_refl)). cbn [bind raise_if].
  change (z2q 0) with 0%Q. rewrite (proj2 (xltb_false _ _) A). reflexivity.
Qed.
Lemma xhalf_pos x : xle (XFin 0) x -> xle (XFin 0) (xhalf x).
Proof. destruct x as [q| |]; cbn; auto. intros H. lra. Qed.
Lemma infinite_iff b : Budget.is_infinite b = true <-> infinite b.
Proof.
  destruct b; cbn [Budget.is_infinite infinite]; rewrite ?orb_true_iff, ?xeqb_iff.
  all: try (destruct eps; cbn; intuition (congruence || discriminate)).
  all: destruct rho; cbn; intuition (congruence || discriminate).
Qed.
Lemma split_ok e d : xle (XFin 0) e -> xle (XFin 0) d -> xle d (XFin 1) -> exists x y, split_budget R (Approx e d) = Ok (x, y).
Proof.
  intros A B C. unfold split_budget. destruct (Budget.is_infinite (Approx e d)).
  - unfold mk_approx, zero. cbn [arg_isnan]. rewrite (isnan_small 0 (or_introl eq_refl)), (isnan_small 1 (or_intror eq_refl)).
    unfold isnan. cbn. eauto.
  - rewrite (mk_approx_ok _ _ (xhalf_pos e A) B C), (mk_approx_zero _ (xhalf_pos e A)). cbn [bind]. eauto.
Qed.
Lemma zero_ok b : exists z, zero_budget R b = Ok z.
Proof.
  destruct b; cbn [zero_budget]; unfold mk_pure, mk_approx, mk_zcdp, zero; cbn [arg_isnan]; rewrite (isnan_small 0 (or_introl eq_refl)); cbn; eauto.
Qed.
Lemma self_match b : mismatch b b = false.
Proof.
  unfold mismatch. destruct b as [e|e d|r].
  - apply negb_false_iff, budget_eqb_iff. unfold budget_eq. destruct e; cbn; auto; apply Qle_refl || lra.
  - rewrite (proj2 (xltb_false e e)), (proj2 (xltb_false d d)); [reflexivity| |]; [destruct d|destruct e]; cbn; auto; apply Qle_refl.
  - apply negb_false_iff, budget_eqb_iff. unfold budget_eq. destruct r; cbn; auto; lra.
Qed.
Lemma budgets_verdict b q k m s : valid b -> sch q = Ok s -> (m = Some MGaussian -> forall e d, b <> Approx e d) ->
  ((forall cols, k = KCols cols -> can_search b) /\ exists adj kb qb, budgets R W cat b q k m = Ok (adj, kb, qb))
  \/ ((exists cols, k = KCols cols) /\ ~ can_search b /\ budgets R W cat b q k m = Err ValueError).
Proof.
  intros V S G. unfold budgets. destruct k as [kc rows|cols].
  - left. split; [discriminate|]. destruct (zero_ok b) as (z & Z). rewrite Z, S.
    assert (A : exists adj, adjust R b (KSet kc rows) m = Ok adj).
    { unfold adjust. destruct b as [e|e d|r]; eauto. cbn [valid] in V. destruct V as (V1 & V2 & V3). rewrite (mk_approx_zero e V1).
      destruct m as [[| |]|]; eauto. destruct (G eq_refl e d). reflexivity. }
    destruct A as (adj & ->). cbn [bind]. eauto.
  - assert (SB : can_search b \/ ~ can_search b).
    { unfold can_search. destruct b as [e|e d|r]; [right; intros (x & y & X & _); discriminate X| |right; intros (x & y & X & _); discriminate X].
      destruct (Budget.is_infinite (Approx e d)) eqn:I; [left; exists e, d; split; [reflexivity|left; now apply infinite_iff]|].
      destruct (xleb e (XFin 0)) eqn:E1.
      - right. intros (x & y & [= <- <-] & [X|[X _]]); [apply infinite_iff in X; congruence|]. now apply xleb_iff in E1.
      - destruct (xleb d (XFin 0)) eqn:E2.
        + right. intros (x & y & [= <- <-] & [X|[_ X]]); [apply infinite_iff in X; congruence|]. now apply xleb_iff in E2.
        + left. exists e, d. split; [reflexivity|]. right. rewrite <- !xleb_iff, E1, E2. split; discriminate. }
    destruct SB as [SB|SB].
    + left. split; [auto|]. destruct SB as (e & d & -> & H). destruct V as (V1 & V2 & V3).
      assert (A : exists adj, adjust R (Approx e d) (KCols cols) m = Ok adj /\ exists p, split_budget R adj = Ok p).
      { unfold adjust. rewrite (mk_approx_zero e V1).
        assert (X : exists adj, (if Budget.is_infinite (Approx e d) then Ok (Approx e (XFin 0)) else
                       let* _ := raise_if (xleb e (XFin 0)) ValueError in let* _ := raise_if (xleb d (XFin 0)) ValueError in Ok (Approx e d)) = Ok adj
                     /\ exists p, split_budget R adj = Ok p).
        { destruct (Budget.is_infinite (Approx e d)) eqn:I.
          - eexists. split; [reflexivity|]. destruct (split_ok e (XFin 0) V1) as (x & y & ->); cbn; eauto; lra.
          - destruct H as [H|[H1 H2]]; [apply infinite_iff in H; congruence|]. rewrite <- xleb_iff in H1, H2. apply not_true_is_false in H1, H2. rewrite H1, H2.
            cbn [raise_if bind]. eexists. split; [reflexivity|]. destruct (split_ok e d V1 V2 V3) as (x & y & ->). eauto. }
        destruct m as [[| |]|]; try (destruct (Budget.is_infinite (Approx e d)); exact X). destruct (G eq_refl e d). reflexivity. }
      destruct A as (adj & -> & p & P). rewrite S. cbn [bind]. rewrite P. cbn [bind]. eauto.
    + right. split; [eauto|]. split; [exact SB|]. rewrite S. unfold adjust. destruct b as [e|e d|r]; try reflexivity.
      assert (X : (if Budget.is_infinite (Approx e d) then mk_approx R (AExact e) zero else
                       let* _ := raise_if (xleb e (XFin 0)) ValueError in let* _ := raise_if (xleb d (XFin 0)) ValueError in Ok (Approx e d)) = Err ValueError).
      { destruct (Budget.is_infinite (Approx e d)) eqn:I; [destruct SB; exists e, d; split; [reflexivity|left; now apply infinite_iff]|].
        destruct (xleb e (XFin 0)) eqn:E1; [reflexivity|]. destruct (xleb d (XFin 0)) eqn:E2; [reflexivity|].
        destruct SB. exists e, d. split; [reflexivity|]. right. rewrite <- !xleb_iff, E1, E2. split; discriminate. }
      destruct m as [[| |]|]; try (destruct (Budget.is_infinite (Approx e d)); rewrite X; reflexivity). destruct (G eq_refl e d). reflexivity.
Qed.
End Budgets.

(** *** The aggregations *)
Definition measure_for (b : budget) : measure := match b with Pure _ => PureDP | Approx _ _ => ApproxDP | Zcdp _ => RhoZCDP end.
(** tmlt.core refuses to build a measurement, or built one with another privacy loss. *)
Definition core_refuses (K : core) (e : exn) : Prop :=
  (exists g, k_builds K g = Err e) \/ (exists t x, k_groups_builds K t x = Err e)
  \/ (e = InternalError /\ exists t x, mismatch (k_groups_loss K t x) x = true).

Section Main.
Variables (R : rounding) (W : world) (K : core) (auto : bool) (so : list string -> list string).
Variables (cat : catalog) (data : dict vtab) (b : budget).
Hypothesis SO : forall l, Permutation (so l) l.
Hypothesis SK : stocked cat data.
Hypothesis VB : valid b.
Notation mu := (measure_for b).
Notation sch := (schema_of (w_cond_ok W) cat).
Notation cmp := (computable (w_cond_ok W) cat).
Notation bt l2 := (build_transformation W l2 cat data).
Notation obs := (obstacle W mu cat data b).

Lemma child_verdict l2 c s : inputs_ok l2 cat data -> is_table c -> built auto c -> promises W l2 cat data c -> regular W cat c -> sch c = Ok s ->
  (cmp c /\ exists t cs, visit W l2 cat data c = Ok (t, cs) /\ bt l2 c = Ok (t, cs) /\ agrees l2 s t) \/ (~ cmp c /\ bt l2 c = Err ValueError).
Proof.
  intros IN T B P RG S. destruct (visit_verdict W l2 cat data IN SK auto c T B P RG s S) as [(C & (t & cs) & V)|(C & V)].
  - left. split; [exact C|]. exists t, cs. split; [exact V|]. split; [exact (regular_accepted W l2 cat data IN auto c s t cs B P RG S V)|].
    exact (schema_agrees W l2 cat data IN auto c B P RG s t cs S V).
  - right. split; [exact C|]. unfold build_transformation. rewrite S. cbn [bind]. now rewrite V.
Qed.

(** The table after special values of the measure have been dealt with. *)
Lemma clean_verdict l2 m bd c c' s d s' : inputs_ok l2 cat data -> is_table c -> built auto c -> promises W l2 cat data c -> regular W cat c ->
  sch c = Ok s -> dget m (sc_cols s) = Some d -> cleaned (w_cond_ok W) cat m bd c c' -> built auto c' -> sch c' = Ok s' ->
  (cmp c /\ exists t cs t' cs' x, bt l2 c = Ok (t, cs) /\ bt l2 c' = Ok (t', cs') /\ agrees l2 s' t' /\ v_place t' = v_place t /\ sim x cs'
     /\ (may_be_infinite d /\ bd <> None /\ x = propagate_replace [m] cs \/ ~ (may_be_infinite d /\ bd <> None) /\ x = cs))
  \/ (~ cmp c /\ bt l2 c' = Err ValueError).
Proof.
  intros IN T B P RG S D CL B' S'. destruct CL as (s0 & d0 & c1 & S0 & D0 & C1 & C2).
  rewrite S in S0. injection S0 as <-. rewrite D in D0. injection D0 as <-.
  assert (T1 : is_table c1) by (destruct C1 as [[_ ->]|[_ ->]]; exact T).
  assert (P1 : promises W l2 cat data c1) by (destruct C1 as [[_ ->]|[_ ->]]; exact P).
  assert (R1 : regular W cat c1) by (destruct C1 as [[_ ->]|[_ ->]]; exact RG).
  assert (Y1 : cmp c1 <-> cmp c) by (destruct C1 as [[_ ->]|[_ ->]]; reflexivity).
  assert (T' : is_table c') by (destruct C2 as [[_ ->]|[_ ->]]; [destruct bd as [[lo hi]|]|]; exact T1).
  assert (P' : promises W l2 cat data c').
  { destruct C2 as [[_ ->]|[_ ->]]; [destruct bd as [[lo hi]|]|]; try exact P1. split; [exact P1|]. cbn. constructor; [intros []|constructor]. }
  assert (R' : regular W cat c') by (destruct C2 as [[_ ->]|[_ ->]]; [destruct bd as [[lo hi]|]|]; try exact R1; (split; [exact R1|discriminate])).
  assert (Y' : cmp c' <-> cmp c) by (rewrite <- Y1; destruct C2 as [[_ ->]|[_ ->]]; [destruct bd as [[lo hi]|]|]; reflexivity).
  destruct (child_verdict l2 c' s' IN T' B' P' R' S') as [(CM & t' & cs' & V' & BT' & AG')|(CM & BT')]; [|right; split; [now rewrite <- Y'|exact BT']].
  left. split; [now apply Y'|].
  destruct (child_verdict l2 c s IN T B P RG S) as [(_ & t & cs & V & BT & AG)|(CM' & _)]; [|apply Y' in CM; contradiction].
  assert (V1 : exists t1 cs1, visit W l2 cat data c1 = Ok (t1, cs1) /\ v_place t1 = v_place t /\ sim cs cs1).
  { destruct C1 as [[_ ->]|[_ ->]]; [|exists t, cs; split; [exact V|]; split; [reflexivity|apply sim_refl]].
    assert (VC : exists t1 cs1, visit W l2 cat data (DropNullAndNan c [m]) = Ok (t1, cs1)).
    { destruct C2 as [[_ ->]|[_ ->]]; [destruct bd as [[lo hi]|]; cbn [without_infinities] in V'|]; [| |eauto]; cbn [visit] in V' |- *; apply bind_ok in V' as ((t1 & cs1) & V1 & _); eauto. }
    destruct VC as (t1 & cs1 & V1). exists t1, cs1. split; [exact V1|]. cbn [visit] in V1. rewrite V in V1. cbn [bind] in V1. unfold visit_drop_null in V1.
    repeat (apply bind_ok in V1 as (? & _ & V1)). injection V1 as <- <-. split; [reflexivity|apply sim_simplify]. }
  destruct V1 as (t1 & cs1 & V1 & PL1 & SM1).
  exists t, cs, t', cs'. destruct C2 as [[I ->]|[I ->]].
  - destruct bd as [[lo hi]|]; cbn [without_infinities visit] in V'; rewrite V1 in V'; cbn [bind] in V'.
    + exists (propagate_replace [m] cs). split; [exact BT|]. split; [exact BT'|]. split; [exact AG'|]. unfold visit_replace_inf in V'.
      repeat (apply bind_ok in V' as (? & _ & V')). injection V' as <- <-. cbn [v_place]. split; [exact PL1|]. split.
      * eapply sim_trans; [|apply sim_simplify]. apply sim_replace, SM1.
      * left. split; [exact I|]. split; [discriminate|reflexivity].
    + exists cs. split; [exact BT|]. split; [exact BT'|]. split; [exact AG'|]. unfold visit_drop_inf in V'.
      repeat (apply bind_ok in V' as (? & _ & V')). injection V' as <- <-. cbn [v_place]. split; [exact PL1|]. split.
      * eapply sim_trans; [exact SM1|apply sim_simplify].
      * right. split; [intros [_ X]; now destruct X|reflexivity].
  - rewrite V1 in V'. injection V' as <- <-. exists cs. split; [exact BT|]. split; [exact BT'|]. split; [exact AG'|]. split; [exact PL1|]. split; [exact SM1|].
    right. split; [tauto|reflexivity].
Qed.

Lemma cheapest_from a cs x cs' : sim x cs' -> (forall tr, usable x tr <-> allowed W cat a cs tr) -> incl x cs ->
  cheapest W mu cat a cs (choose_trunc so mu (grouping_of a) cs').
Proof.
  intros SM U I. pose proof (choose_sim so mu (grouping_of a) x cs' SO SM) as C. unfold cheapest.
  destruct (choose_trunc so mu (grouping_of a) cs') as [tr|].
  - destruct C as [C1 C2]. split; [now apply U|]. intros UN tr' H'. apply C2; [|now apply U].
    intros p q Hp Hq. apply UN; apply I; assumption.
  - intros tr H. apply (C tr). now apply U.
Qed.

Lemma truncated_verdict l2 gr s t cs : agrees l2 s t ->
  (sc_id s = None /\ truncated W so mu gr (t, cs) = Ok t)
  \/ (sc_id s <> None /\ choose_trunc so mu gr cs = None /\ truncated W so mu gr (t, cs) = Err RuntimeError)
  \/ (sc_id s <> None /\ exists tr y, choose_trunc so mu gr cs = Some tr /\ truncated W so mu gr (t, cs) = Ok y /\ v_dom y = v_dom t
        /\ match tr with TRows _ => v_place y = PSym | TGroups g _ _ => exists f, v_place y = PGrouped g f end).
Proof.
  intros AG. pose proof (ag_metric _ _ _ AG) as M. unfold truncated, truncate_table. cbn [fst snd t_place]. unfold metric_for in M.
  destruct (sc_group s) as [g|], (sc_id s) as [i|]; try contradiction; rewrite M.
  - left. split; [reflexivity|]. destruct t; cbn in *; now subst.
  - right. destruct (choose_trunc so mu gr cs) as [tr|]; [right|left; split; [discriminate|]; split; reflexivity].
    split; [discriminate|]. destruct tr as [n|g x y]; cbn [trunc_constraints enforce_all enforce bind t_place]; cbn [bind t_place].
    + eexists _, _. split; [reflexivity|]. split; [reflexivity|]. split; reflexivity.
    + rewrite String.eqb_refl. cbn [bind t_place]. eexists _, _. split; [reflexivity|]. split; [reflexivity|]. split; [reflexivity|]. cbn. eauto.
  - left. split; [reflexivity|]. destruct t; cbn in *; now subst.
Qed.

Lemma finish_verdict adj kb qb k c a outs t :
  (exists m, finish K (adj, kb, qb) k c a outs t = Ok (m, adj) /\ mismatch (privacy_loss K m) adj = false)
  \/ (exists e, finish K (adj, kb, qb) k c a outs t = Err e /\ core_refuses K e).
Proof.
  unfold finish. match goal with |- context[k_builds K ?g] => destruct (k_builds K g) as [[]|e] eqn:E end; cbn [bind privacy_loss].
  - rewrite self_match. cbn [raise_if bind]. left. eexists. split; [reflexivity|]. apply self_match.
  - right. exists e. split; [reflexivity|]. left. eauto.
Qed.

Lemma right_gaussian m P x : right_noise mu m P x ->
  gaussian x = match mu with RhoZCDP => match m with MLaplace => false | _ => true end | _ => false end.
Proof.
  intros (_ & H & H'). destruct (gaussian x) eqn:E.
  - assert (GN : gaussian_noise x) by (destruct x; try discriminate E; unfold gaussian_noise; auto). rewrite (H' GN). apply H in GN as [->|[-> _]]; reflexivity.
  - assert (GN : ~ gaussian_noise x) by (destruct x; try discriminate E; intros [X|X]; discriminate X). destruct mu eqn:M; try reflexivity. destruct m; try reflexivity; elim GN; apply H; auto.
Qed.

Lemma clear_path a pick c s cs : table_of a = Some c -> sch c = Ok s -> noise_available mu a -> clampable (w_cond_ok W) cat a -> cmp c ->
  (forall cols, keys_of a = Some (KCols cols) -> can_search b) -> known W cat data (gaussian_wanted mu a) c cs ->
  (sc_id s <> None -> pick = None -> match a with GroupByCountDistinct _ k cols _ _ _ => counts_ids s k cols cs | _ => False end) ->
  (forall cols e, a = GetGroups c cols -> ~ groups_fault b s cols e) ->
  (forall k cols out m co e, a = GroupByCountDistinct c k cols out m co -> ~ distinct_fault s k cols cs pick e) ->
  forall e, ~ obs a pick e.
Proof.
  intros TO S NA CA CM SE (t & KN) TR GF DF e O. destruct O as [A N|c0 m s0 d lo hi MO BO S0 D I F|c0 T0 N|cols KO N|c0 s0 cs0 T0 S0 ID (t0 & KN0) PN X|c0 cols s0 e E S0 G|c0 k cols out m co s0 cs0 e E S0 (t0 & KN0) F].
  - apply N, NA, A.
  - apply F. exact (CA c0 m s0 d lo hi MO BO S0 D I).
  - rewrite TO in T0. injection T0 as <-. contradiction.
  - apply N. eauto.
  - rewrite TO in T0. injection T0 as <-. rewrite S in S0. injection S0 as <-. rewrite KN in KN0. injection KN0 as <- <-.
    specialize (TR ID PN). destruct a; try contradiction.
  - subst a. cbn in TO. injection TO as ->. rewrite S in S0. injection S0 as <-. exact (GF cols e eq_refl G).
  - subst a. cbn in TO. injection TO as ->. rewrite S in S0. injection S0 as <-. rewrite KN in KN0. injection KN0 as <- <-.
    exact (DF k cols out m co e eq_refl F).
Qed.

Definition settled (a : query) (pick : option trunc) (r : res (measurement * budget)) : Prop :=
  match r with
  | Ok (m, adj) => mismatch (privacy_loss K m) adj = false /\ forall e, ~ obs a pick e
  | Err e => obs a pick e \/ core_refuses K e
  end.
(** The table of the aggregation [a], as it is handed over. *)
Definition table_ready (a c c' : query) (s' : schema) : Prop :=
  (cmp c /\ exists t cs t' cs' x, bt (gaussian_wanted mu a) c = Ok (t, cs) /\ bt (gaussian_wanted mu a) c' = Ok (t', cs')
     /\ agrees (gaussian_wanted mu a) s' t' /\ sim x cs' /\ (forall tr, usable x tr <-> allowed W cat a cs tr) /\ incl x cs)
  \/ (~ cmp c /\ bt (gaussian_wanted mu a) c' = Err ValueError /\ bt (gaussian_wanted mu a) c = Err ValueError).

Lemma simple_verdict a c c' k m q' sq s s' cm ag outs f : table_of a = Some c -> keys_of a = Some k ->
  (match a with GetGroups _ _ | GroupByCountDistinct _ _ _ _ _ _ => False | _ => True end) ->
  sch c = Ok s -> sch q' = Ok sq -> sc_id s' = sc_id s -> noise_available mu a -> clampable (w_cond_ok W) cat a ->
  (m = Some MGaussian -> forall e d, b <> Approx e d) -> table_ready a c c' s' ->
  exists pick, (forall cs, known W cat data (gaussian_wanted mu a) c cs -> cheapest W mu cat a cs pick)
    /\ settled a pick (let* bs := budgets R W cat b q' k m in let* x := bt (gaussian_wanted mu a) c' in
                       let* t := truncated W so mu (keys_columns k) x in finish K bs k cm ag outs (f t)).
Proof.
  intros TO KO NG S SQ SI NA CA G TR.
  assert (GR : grouping_of a = keys_columns k) by (unfold grouping_of; now rewrite KO).
  destruct TR as [(CM & t & cs & t' & cs' & x & BT & BT' & AG & SM & US & IN)|(CM & BT' & BT)].
  2:{ exists None. split; [intros cs (t & KN); congruence|].
      destruct (budgets_verdict R W cat b q' k m sq VB SQ G) as [(SE & adj & kb & qb & ->)|(EX & SE & ->)]; cbn [bind].
        + rewrite BT'. cbn [bind settled]. left. now apply OTable with (c := c).
        + left. destruct EX as (cols & ->). now apply OSearch with (cols := cols). }
  exists (choose_trunc so mu (keys_columns k) cs'). split.
  - intros cs0 (t0 & KN). rewrite BT in KN. injection KN as <- <-.
    rewrite <- GR. exact (cheapest_from a cs x cs' SM US IN).
  - destruct (budgets_verdict R W cat b q' k m sq VB SQ G) as [(SE & adj & kb & qb & ->)|(EX & SE & ->)]; cbn [bind].
    2:{ left. destruct EX as (cols & ->). now apply OSearch with (cols := cols). }
    rewrite BT'. cbn [bind].
    destruct (truncated_verdict _ (keys_columns k) s' t' cs' AG) as [(ID & ->)|[(ID & CH & ->)|(ID & tr & y & CH & -> & _)]]; cbn [bind].
    + destruct (finish_verdict adj kb qb k cm ag outs (f t')) as [(mm & -> & MM)|(e & -> & CR)]; [|right; exact CR]. cbn [settled]. split; [exact MM|].
      apply (clear_path a _ c s cs TO S NA CA CM); [intros cols X; rewrite KO in X; injection X as ->; eauto|exists t; exact BT|congruence| |]; intros; subst a; contradiction.
    + left. apply OTruncation with (c := c) (s := s) (cs := cs); [exact TO|exact S|congruence|exists t; exact BT|exact CH|]. destruct a; try exact Logic.I. contradiction.
    + destruct (finish_verdict adj kb qb k cm ag outs (f y)) as [(mm & -> & MM)|(e & -> & CR)]; [|right; exact CR]. cbn [settled]. split; [exact MM|].
      apply (clear_path a _ c s cs TO S NA CA CM); [intros cols X; rewrite KO in X; injection X as ->; eauto|exists t; exact BT|congruence| |]; intros; subst a; contradiction.
Qed.

Lemma ready_plain a c s : inputs_ok (gaussian_wanted mu a) cat data -> measure_of a = None -> is_table c -> built auto c ->
  promises W (gaussian_wanted mu a) cat data c -> regular W cat c -> sch c = Ok s -> table_ready a c c s.
Proof.
  intros IN MO T B P RG S. destruct (child_verdict _ c s IN T B P RG S) as [(CM & t & cs & _ & BT & AG)|(CM & BT)]; [left|right; auto].
  split; [exact CM|]. exists t, cs, t, cs, cs. do 3 (split; [assumption|]). split; [apply sim_refl|]. split; [|apply incl_refl].
  intros tr. unfold usable, allowed. split; [|tauto]. intros H. split; [exact H|]. intros g x y _ (c0 & lo & hi & s0 & d & X & _). congruence.
Qed.
Lemma ready_measured a c m c' s s' d : inputs_ok (gaussian_wanted mu a) cat data -> measure_of a = Some (c, m) -> is_table c -> built auto c ->
  promises W (gaussian_wanted mu a) cat data c -> regular W cat c -> sch c = Ok s -> dget m (sc_cols s) = Some d ->
  cleaned (w_cond_ok W) cat m (bounds_of a) c c' -> built auto c' -> sch c' = Ok s' -> table_ready a c c' s'.
Proof.
  intros IN MO T B P RG S D CL B' S'.
  destruct (clean_verdict _ m (bounds_of a) c c' s d s' IN T B P RG S D CL B' S') as [(CM & t & cs & t' & cs' & x & BT & BT' & AG & _ & SM & X)|(CM & BT')].
  2:{ right. split; [exact CM|]. split; [exact BT'|]. destruct (child_verdict _ c s IN T B P RG S) as [(CM' & _)|(_ & BT)]; [contradiction|exact BT]. }
  left. split; [exact CM|]. exists t, cs, t', cs', x. do 4 (split; [assumption|]).
  assert (CLM : forall g, clamps W cat a g <-> g = m /\ may_be_infinite d /\ bounds_of a <> None).
  { intros g. split.
    - intros (c0 & lo & hi & s0 & d0 & M0 & B0 & S0 & D0 & I0). rewrite MO in M0. injection M0 as <- <-. rewrite S in S0. injection S0 as <-.
      rewrite D in D0. injection D0 as <-. split; [reflexivity|]. split; [exact I0|congruence].
    - intros (-> & I0 & B0). destruct (bounds_of a) as [[lo hi]|] eqn:E; [|congruence]. exists c, lo, hi, s, d. auto. }
  destruct X as [(I & BD & ->)|(N & ->)].
  - split.
    + intros tr. unfold usable, allowed. split.
      * intros H. split; [intros k Hk; specialize (H k Hk); unfold propagate_replace in H; now apply filter_In in H as [H _]|].
        intros g a0 b0 -> CL0. apply CLM in CL0 as (-> & _). specialize (H (MaxRowsPerGroupPerID m b0)). cbn [trunc_constraints In] in H.
        specialize (H (or_intror (or_introl eq_refl))). apply filter_In in H as [_ H]. cbn in H. now rewrite String.eqb_refl in H.
      * intros (H & NC) k Hk. apply filter_In. split; [apply H, Hk|]. destruct tr as [n|g a0 b0]; cbn [trunc_constraints In] in Hk.
        -- destruct Hk as [<-|[]]. reflexivity.
        -- destruct Hk as [<-|[<-|[]]]; [reflexivity|]. apply negb_true_iff, smem_false. intros [X|[]]. subst g. apply (NC m a0 b0 eq_refl). apply CLM. auto.
    + intros k Hk. now apply filter_In in Hk as [Hk _].
  - split; [|apply incl_refl]. intros tr. unfold usable, allowed. split; [|tauto]. intros H. split; [exact H|]. intros g a0 b0 _ CL0. apply CLM in CL0. tauto.
Qed.

(** Selecting columns of a table. *)
Lemma select_verdict cols t :
  ((forall c, In c cols -> In c (dkeys (v_dom t))) /\ (forall g, metric_column (v_place t) = Some g -> In g cols) /\ exists y, visit_select cols (t, []) = Ok y)
  \/ (((exists c, In c cols /\ ~ In c (dkeys (v_dom t))) \/ exists g, metric_column (v_place t) = Some g /\ ~ In g cols) /\ visit_select cols (t, []) = Err ValueError).
Proof.
  unfold visit_select.
  assert (M : (exists d, mapM (fun c => match dget c (v_dom t) with Some k => Ok (c, k) | None => Err ValueError end) cols = Ok d)
                /\ (forall c, In c cols -> In c (dkeys (v_dom t)))
              \/ mapM (fun c => match dget c (v_dom t) with Some k => Ok (c, k) | None => Err ValueError end) cols = Err ValueError
                /\ exists c, In c cols /\ ~ In c (dkeys (v_dom t))).
  { induction cols as [|c cols IH]; cbn [mapM]; [left; split; [eauto|intros c []]|].
    destruct (dget c (v_dom t)) as [k|] eqn:E; cbn [bind].
    - destruct IH as [((d & ->) & H)|(-> & c0 & H0 & H1)]; cbn [bind].
      + left. split; [eauto|]. intros x [<-|Hx]; [apply dmem_In; unfold dmem; now rewrite E|auto].
      + right. split; [reflexivity|]. exists c0. split; [now right|exact H1].
    - right. split; [reflexivity|]. exists c. split; [now left|]. intros X. apply dmem_In in X. unfold dmem in X. now rewrite E in X. }
  destruct M as [((d & ->) & H)|(-> & c & H)]; cbn [bind]; [|right; split; [left; eauto|reflexivity]].
  destruct (metric_column (v_place t)) as [g|]; cbn [negb].
  - destruct (smem g cols) eqn:E; cbn [negb raise_if bind].
    + left. split; [exact H|]. split; [intros x [= <-]; now apply smem_In|eauto].
    + right. split; [|reflexivity]. right. exists g. split; [reflexivity|]. now apply smem_false.
  - cbn [raise_if bind]. left. split; [exact H|]. split; [discriminate|eauto].
Qed.

Lemma pick_exists a c c' s' : table_ready a c c' s' ->
  exists pick, (forall cs, known W cat data (gaussian_wanted mu a) c cs -> cheapest W mu cat a cs pick)
    /\ forall t' cs', bt (gaussian_wanted mu a) c' = Ok (t', cs') -> pick = choose_trunc so mu (grouping_of a) cs'.
Proof.
  intros [(CM & t & cs & t' & cs' & x & BT & BT' & AG & SM & US & IN)|(CM & BT' & BT)].
  - exists (choose_trunc so mu (grouping_of a) cs'). split.
    + intros cs0 (t0 & KN). rewrite BT in KN. injection KN as <- <-. exact (cheapest_from a cs x cs' SM US IN).
    + intros t0 cs0 E. rewrite BT' in E. injection E as <- <-. reflexivity.
  - exists None. split; [intros cs (t & KN); congruence|]. intros t' cs' E. congruence.
Qed.

Definition groups_columns (s : schema) (cols : list string) : list string :=
  match cols with [] => filter (fun c => negb (is_col (sc_id s) c)) (dkeys (sc_cols s)) | _ => cols end.
Lemma groups_fault_iff s cols e : is_approx b = true ->
  groups_fault b s cols e <-> e = RuntimeError /\ match sc_id s with Some i => (length (groups_columns s cols) =? 0) || smem i (groups_columns s cols) | None => false end = true.
Proof.
  intros AP. unfold groups_fault, groups_columns. split.
  - intros [(_ & N)|(-> & i & ID & H)]; [destruct b; try discriminate AP; destruct (N eps delta); reflexivity|]. split; [reflexivity|]. rewrite ID.
    apply orb_true_iff. destruct H as [H|(-> & H)].
    + right. apply smem_In. destruct cols; [destruct H|exact H].
    + left. apply Nat.eqb_eq. destruct (filter _ _) as [|y l] eqn:FE; [reflexivity|]. exfalso.
      assert (Y : In y (y :: l)) by (now left). rewrite <- FE in Y. apply filter_In in Y as [Y1 Y2]. cbn [is_col] in Y2. rewrite (H y) in Y2; [now rewrite String.eqb_refl in Y2|exact Y1].
  - intros (-> & H). right. split; [reflexivity|]. destruct (sc_id s) as [i|] eqn:ID; [|discriminate H]. exists i. split; [reflexivity|].
    apply orb_true_iff in H as [H|H].
    + right. apply Nat.eqb_eq in H. destruct cols as [|c0 cols]; [|discriminate H]. split; [reflexivity|].
      intros y Y. destruct (String.eqb_spec y i) as [->|NE]; [reflexivity|]. exfalso.
      assert (Z : In y (filter (fun c1 => negb (is_col (Some i) c1)) (dkeys (sc_cols s)))).
      { apply filter_In. split; [exact Y|]. cbn [is_col]. apply String.eqb_neq in NE. now rewrite NE. }
      destruct (filter _ _); [destruct Z|discriminate H].
    + left. apply smem_In in H. destruct cols as [|c0 cols]; [|exact H]. apply filter_In in H as [_ H]. cbn [is_col] in H. now rewrite String.eqb_refl in H.
Qed.
Lemma groups_columns_exist s cols sq : get_groups_schema cols s = Ok sq -> forall c, In c (groups_columns s cols) -> has_column s c.
Proof.
  unfold get_groups_schema, groups_columns. destruct cols as [|c0 cols]; intros H c I.
  - now apply filter_In in I as [I _].
  - apply bind_ok in H as ([] & H & _). apply raise_ok in H. unfold missing in H. apply dmem_In.
    destruct (dmem c (sc_cols s)) eqn:E; [reflexivity|]. exfalso. apply not_true_iff_false in H. apply H, existsb_exists. exists c. split; [exact I|]. now rewrite E.
Qed.

Lemma groups_verdict a c cols s sq : a = GetGroups c cols -> sch c = Ok s -> sch a = Ok sq -> table_ready a c c s ->
  exists pick, (forall cs, known W cat data (gaussian_wanted mu a) c cs -> cheapest W mu cat a cs pick)
    /\ settled a pick (visit_groups W K so mu cat data b c cols).
Proof.
  intros EA S SQ TR. destruct (pick_exists a c c s TR) as (pick & PK & PE). exists pick. split; [exact PK|].
  assert (TO : table_of a = Some c) by now rewrite EA.
  assert (NA : noise_available mu a) by (subst a; intros X; discriminate X).
  assert (CA : clampable (w_cond_ok W) cat a) by (subst a; intros ? ? ? ? ? ? X; discriminate X).
  assert (GE : get_groups_schema cols s = Ok sq) by (subst a; cbn [schema_of] in SQ; rewrite S in SQ; exact SQ).
  unfold visit_groups, child_table. cbn [gaussian]. rewrite S.
  destruct (is_approx b) eqn:AP; cbn [negb raise_if bind];
    [|left; apply OGroups with (c := c) (cols := cols) (s := s); [exact EA|exact S|left; split; [reflexivity|intros e d ->; discriminate AP]]].
  assert (GW : gaussian_wanted mu a = false) by (subst a; destruct b; try discriminate AP; reflexivity).
  fold (groups_columns s cols). pose proof (fun e => groups_fault_iff s cols e AP) as GF.
  destruct (match sc_id s with Some i => (length (groups_columns s cols) =? 0) || smem i (groups_columns s cols) | None => false end) eqn:F; cbn [raise_if bind].
  { left. apply OGroups with (c := c) (cols := cols) (s := s); [exact EA|exact S|]. apply GF. auto. }
  unfold table_ready in TR. rewrite GW in TR.
  destruct TR as [(CM & t & cs & t' & cs' & x & BT & BT' & AG & SM & US & IN)|(CM & _ & BT)]; rewrite BT; cbn [bind]; [|left; now apply OTable with (c := c)].
  rewrite BT in BT'. injection BT' as <- <-.
  assert (KN : known W cat data (gaussian_wanted mu a) c cs) by (rewrite GW; exists t; exact BT).
  assert (GR : grouping_of a = []) by now subst a. rewrite GW, GR in PE. specialize (PE t cs BT).
  assert (CL : (sc_id s = None \/ pick <> None) -> forall e, ~ obs a pick e).
  { intros PN. apply (clear_path a pick c s cs TO S NA CA CM); [intros k X; subst a; discriminate X|exact KN|subst a; tauto| |].
    - intros cols0 e X G. subst a. injection X as <-. apply GF in G as [_ G]. discriminate G.
    - intros k0 c1 o m co e X. subst a. discriminate X. }
  assert (FIN : forall y, v_dom y = v_dom t -> (sc_id s = None \/ pick <> None) ->
    settled a pick (let* y0 := visit_select (groups_columns s cols) (unwrap y, []) in let* _ := k_groups_builds K (fst y0) b in
       let m := MGroups (fst y0) (groups_columns s cols) b in let* _ := raise_if (mismatch (privacy_loss K m) b) InternalError in Ok (m, b))).
  { intros y DY PN. destruct (select_verdict (groups_columns s cols) (unwrap y)) as [(_ & _ & z & ->)|([(c0 & H0 & H1)|(g & X & _)] & _)]; [| |discriminate X].
    - cbn [bind]. destruct (k_groups_builds K (fst z) b) as [[]|e] eqn:KB; cbn [bind]; [|right; right; left; eauto].
      cbn [privacy_loss]. destruct (mismatch (k_groups_loss K (fst z) b) b) eqn:MM; cbn [raise_if bind]; [right; right; right; eauto|].
      cbn [settled privacy_loss]. split; [exact MM|]. now apply CL.
    - exfalso. apply H1. cbn [unwrap v_dom]. rewrite DY. apply (agrees_has false s t c0); [exact AG|]. exact (groups_columns_exist s cols sq GE c0 H0). }
  destruct (truncated_verdict false [] s t cs AG) as [(ID & ->)|[(ID & CH & ->)|(ID & tr & y & CH & -> & DY & _)]]; cbn [bind].
  - apply FIN; auto.
  - left. apply OTruncation with (c := c) (s := s) (cs := cs); [exact TO|exact S|exact ID|exact KN|now rewrite PE, CH|subst a; exact Logic.I].
  - apply FIN; [exact DY|]. right. rewrite PE, CH. discriminate.
Qed.

(** Distinct rows. *)
Lemma counts_only_iff cols s i : sc_id s = Some i -> has_column s i ->
  counts_only cols s i = true <-> match cols with [] => forall x, has_column s x -> x = i | _ => forall x, In x cols -> x = i end.
Proof.
  intros ID HI. unfold counts_only, has_column in *. destruct cols as [|c0 cols]; rewrite andb_true_iff, forallb_forall, smem_In; split.
  - intros (_ & H) x I. symmetry. apply String.eqb_eq, H, I.
  - intros H. split; [exact HI|]. intros x I. apply String.eqb_eq. symmetry. now apply H.
  - intros (_ & H) x I. symmetry. apply String.eqb_eq, H, I.
  - intros H. split; [left; now apply H; left|]. intros x I. apply String.eqb_eq. symmetry. now apply H.
Qed.
Lemma constrained_iff c k cols s cs : (forall i, sc_id s = Some i -> has_column s i) ->
  (counts_ids s k cols cs /\ ((keys_columns k = [] /\ constrained_child c k cols s cs = Some (EnforceConstraint c (MaxRowsPerID 1)))
      \/ exists g n, keys_columns k = [g] /\ In (MaxGroupsPerID g n) cs /\ constrained_child c k cols s cs = Some (EnforceConstraint c (MaxRowsPerGroupPerID g 1))))
  \/ (~ counts_ids s k cols cs /\ constrained_child c k cols s cs = None).
Proof.
  intros HI. unfold constrained_child, counts_ids. destruct (sc_id s) as [i|] eqn:ID; [|right; split; [intros (j & X & _); discriminate X|reflexivity]].
  pose proof (counts_only_iff cols s i ID (HI i eq_refl)) as CO. destruct (counts_only cols s i) eqn:E.
  2:{ right. split; [|reflexivity]. intros (j & X & Y & _). injection X as <-. apply CO in Y. discriminate Y. }
  assert (Y := proj1 CO eq_refl). destruct (keys_columns k) as [|g [|g2 l]] eqn:KC.
  - left. split; [exists i; auto|]. left. auto.
  - destruct (existsb _ cs) eqn:EX.
    + apply existsb_exists in EX as (k0 & I & X). destruct k0 as [|g' n|]; try discriminate X. apply String.eqb_eq in X as ->.
      left. split; [exists i; split; [reflexivity|]; split; [exact Y|]; right; exists g, n; auto|]. right. exists g, n. auto.
    + right. split; [|reflexivity]. intros (j & _ & _ & [X|(g' & n & X & I)]); [discriminate X|]. injection X as <-.
      apply not_true_iff_false in EX. apply EX, existsb_exists. exists (MaxGroupsPerID g n). split; [exact I|apply String.eqb_refl].
  - right. split; [|reflexivity]. intros (j & _ & _ & [X|(g' & n & X & I)]); discriminate X.
Qed.

Lemma distinct_verdict a c k cols out m co x s sq : a = GroupByCountDistinct c k cols out m co -> sch c = Ok s -> sch a = Ok sq -> post_init auto a = Ok a ->
  is_table c -> built auto c -> promises W (gaussian_wanted mu a) cat data c -> regular W cat c -> inputs_ok (gaussian_wanted mu a) cat data ->
  catalog_made cat -> gaussian x = gaussian_wanted mu a -> noise_available mu a -> (m = MGaussian -> forall e d, b <> Approx e d) ->
  exists pick, (forall cs, known W cat data (gaussian_wanted mu a) c cs -> cheapest W mu cat a cs pick)
    /\ settled a pick (visit_count_distinct R W K auto so mu cat data b c k cols out m (Some x)).
Proof.
  intros EA S SQ PA T B P RG IN CAT GX NA NG.
  assert (TR : table_ready a c c s) by (apply ready_plain; try assumption; now subst a).
  destruct (pick_exists a c c s TR) as (pick & PK & PE). exists pick. split; [exact PK|].
  assert (TO : table_of a = Some c) by now rewrite EA.
  assert (KO : keys_of a = Some k) by now rewrite EA.
  assert (GR : grouping_of a = keys_columns k) by now subst a. rewrite GR in PE.
  assert (CA : clampable (w_cond_ok W) cat a) by (subst a; intros ? ? ? ? ? ? X; discriminate X).
  assert (GS : groupby_schema k None (fun _ => [(out, INTEGER)]) s = Ok sq) by (subst a; cbn [schema_of] in SQ; rewrite S in SQ; exact SQ).
  assert (CK : check_keys auto k = Ok tt).
  { subst a. cbn [post_init] in PA. apply bind_ok in PA as ([] & H & _). exact H. }
  assert (G : Some m = Some MGaussian -> forall e d, b <> Approx e d) by (intros X; injection X as X; auto).
  assert (SQ' : sch (GroupByCountDistinct c k cols out m (Some x)) = Ok sq) by (cbn [schema_of]; rewrite S; exact GS).
  unfold visit_count_distinct.
  destruct (budgets_verdict R W cat b _ k (Some m) sq VB SQ' G) as [(SE & adj & kb & qb & BE)|(EX & SE & BE)]; rewrite BE; cbn [bind];
    [|left; destruct EX as (l & ->); now apply OSearch with (cols := l)].
  cbn [core_mechanism bind]. unfold child_table. rewrite GX.
  destruct TR as [(CM & t & cs & t' & cs' & y & BT & BT' & AG & _)|(CM & _ & BT)]; rewrite BT; cbn [bind snd]; [|left; now apply OTable with (c := c)].
  rewrite BT in BT'. injection BT' as <- <-. rewrite S. cbn [bind].
  assert (KN : known W cat data (gaussian_wanted mu a) c cs) by (exists t; exact BT).
  specialize (PE t cs BT).
  assert (SK' : forall l, keys_of a = Some (KCols l) -> can_search b) by (intros l X; rewrite KO in X; injection X as ->; eauto).
  assert (NOG : forall cols0 e, a = GetGroups c cols0 -> ~ groups_fault b s cols0 e) by (intros ? ? X; subst a; discriminate X).
  assert (MS : made s) by exact (sch_made _ _ CAT c s S).
  assert (HI : forall i, sc_id s = Some i -> has_column s i) by (intros i ID; apply (proj2 (made_facts s MS)); now right).
  destruct (constrained_iff c k cols s cs HI) as [(CI & CC)|(CI & ->)].
  - (* at most one row per ID (in each group) *)
    assert (PP : post_init auto (GroupByCount c k out m (Some x)) = Ok (GroupByCount c k out m (Some x))) by (cbn [post_init]; now rewrite CK).
    assert (exists kk, constrained_child c k cols s cs = Some (EnforceConstraint c kk)
       /\ ((enforce_schema kk s = Ok s /\ forall i, sc_id s = Some i -> keys_columns k <> [i]) \/ (enforce_schema kk s = Err ValueError /\ exists i, sc_id s = Some i /\ keys_columns k = [i]))
       /\ exists tr, usable (cs ++ [kk])%list tr) as (kk & -> & ES & (tr & U)).
    { destruct CI as (i & ID & _ & _). destruct CC as [(KC & ->)|(g & n & KC & I & ->)]; eexists; (split; [reflexivity|]).
      - split; [left; split; [unfold enforce_schema; now rewrite ID|intros; congruence]|]. exists (TRows 1). intros z [<-|[]]. apply in_app_iff. right. now left.
      - split.
        + unfold enforce_schema. rewrite ID. assert (HG : dmem g (sc_cols s) = true).
          { apply dmem_In. unfold groupby_schema in GS. apply bind_ok in GS as ([] & V & _). unfold validate_groupby in V. apply bind_ok in V as ([] & V & _).
            destruct k as [kc fr|l]; cbn [keys_columns] in KC.
            - apply bind_ok in V as (l & V & _). destruct kc as [|[g0 d0] [|? ?]]; cbn [dkeys map fst] in KC; try discriminate KC. injection KC as ->.
              cbn [mapM] in V. apply bind_ok in V as (u & V & _). apply bind_ok in V as (d & V & _). cbn [fst] in V. unfold lookup_col in V.
              destruct (dget g (sc_cols s)) eqn:D; [|discriminate V]. apply dget_In in D. unfold dkeys. apply in_map_iff. exists (g, c0). auto.
            - subst l. apply raise_ok in V. cbn [missing existsb] in V. rewrite orb_false_r in V. apply negb_false_iff in V. now apply dmem_In. }
          rewrite HG. cbn [negb raise_if bind]. destruct (String.eqb_spec g i) as [->|NE]; cbn [raise_if bind]; [right; split; [reflexivity|exists i; auto]|left; split; [reflexivity|intros j J X; congruence]].
        + exists (TGroups g n 1). intros z [<-|[<-|[]]]; apply in_app_iff; [left; exact I|right; now left]. }
    cbn [post_init]. rewrite CK. cbn [bind]. unfold visit_count.
    destruct ES as [(ES & NK)|(ES & i & ID & KI)].
    2:{ assert (SE' : sch (GroupByCount (EnforceConstraint c kk) k out m (Some x)) = Err ValueError) by (cbn [schema_of]; rewrite S; cbn [bind]; now rewrite ES).
        assert (BX : budgets R W cat b (GroupByCount (EnforceConstraint c kk) k out m (Some x)) k (Some m) = Err ValueError).
        { unfold budgets in BE |- *. rewrite SE'. destruct (adjust R b k (Some m)); [reflexivity|discriminate BE]. }
        rewrite BX. cbn [bind]. left. apply ODistinct with (c := c) (k := k) (cols := cols) (out := out) (m := m) (co := co) (s := s) (cs := cs); [exact EA|exact S|exact KN|].
        left. split; [exact CI|]. split; [reflexivity|]. exists i. auto. }
    assert (S1 : sch (EnforceConstraint c kk) = Ok s) by (cbn [schema_of]; rewrite S; exact ES).
    assert (SQ1 : sch (GroupByCount (EnforceConstraint c kk) k out m (Some x)) = Ok sq) by (change (sch (GroupByCount (EnforceConstraint c kk) k out m (Some x))) with (let* s0 := sch (EnforceConstraint c kk) in groupby_schema k None (fun _ => [(out, INTEGER)]) s0); rewrite S1; exact GS).
    destruct (budgets_verdict R W cat b _ k (Some m) sq VB SQ1 G) as [(_ & adj1 & kb1 & qb1 & BE1)|(EX & SE1 & _)]; [|destruct EX as (l & ->); elim SE1; now apply (SE l)].
    rewrite BE1. cbn [core_mechanism bind]. unfold child_table. rewrite GX.
    assert (B1 : built auto (EnforceConstraint c kk)) by (apply built_unfold; split; [reflexivity|]; constructor; [exact B|constructor]).
    destruct (child_verdict _ (EnforceConstraint c kk) s IN T B1 P RG S1) as [(_ & t1 & cs1 & V1 & BT1 & AG1)|(X & _)]; [|elim X; exact CM].
    rewrite BT1. cbn [bind].
    assert (CS1 : cs1 = simplify (cs ++ [kk])%list).
    { apply build_transformation_ok in BT as (s0 & _ & V & _). cbn [visit] in V1. rewrite V in V1. cbn [bind] in V1. unfold visit_enforce in V1. apply bind_ok in V1 as (z & _ & E). now injection E as _ <-. }
    destruct (truncated_verdict _ (keys_columns k) s t1 cs1 AG1) as [(ID & _)|[(ID & CH & _)|(ID & tr1 & y1 & CH & -> & _)]]; cbn [bind].
    { destruct CI as (i & X & _). congruence. }
    { exfalso. pose proof (choose_sim so mu (keys_columns k) _ _ SO (sim_simplify (cs ++ [kk])%list)) as CS. rewrite <- CS1, CH in CS. exact (CS tr U). }
    destruct (finish_verdict adj1 kb1 qb1 k x ACount [out] y1) as [(mm & -> & MM)|(e & -> & CR)]; [|right; exact CR]. cbn [settled]. split; [exact MM|].
    apply (clear_path a pick c s cs TO S NA CA CM SK' KN); [subst a; intros _ _; exact CI|exact NOG|].
    intros k0 cols0 out0 m0 co0 e X. rewrite EA in X. injection X as <- <- <- <- <-. intros [(_ & _ & i & ID' & KI)|(X & _)]; [|contradiction].
    exact (NK i ID' KI).
  - (* truncated first *)
    unfold groupby_schema in GS. apply bind_ok in GS as ([] & V & _). unfold validate_groupby in V. apply bind_ok in V as ([] & V & V2). apply bind_ok in V2 as ([] & V2 & _).
    apply raise_ok in V2.
    assert (KH : forall g, In g (keys_columns k) -> has_column s g).
    { destruct k as [kc fr|kl]; cbn [keys_columns].
      - apply bind_ok in V as (l & V & _). intros g I. unfold dkeys in I. apply in_map_iff in I as ((g0 & d0) & <- & I). cbn [fst].
        destruct (proj1 (mapM_accepted _ _) (ex_intro _ _ V) _ I) as (u & U). cbn [fst] in U. apply bind_ok in U as (d & U & _). unfold lookup_col in U.
        apply has_column_iff. destruct (dget g0 (sc_cols s)) eqn:D; [eauto|discriminate U].
      - apply raise_ok in V. exact (proj1 (missing_false _ _) V). }
    assert (GI : forall g, sc_group s = Some g -> In g (keys_columns k)).
    { intros g X. rewrite X in V2. cbn [is_some opt_in andb] in V2. apply negb_false_iff in V2. now apply smem_In. }
    assert (CL : (sc_id s = None \/ pick <> None) -> (forall e, ~ distinct_fault s k cols cs pick e) -> forall e, ~ obs a pick e).
    { intros PN DF. apply (clear_path a pick c s cs TO S NA CA CM SK' KN); [intros X Y; destruct PN; contradiction|exact NOG|].
      intros k0 cols0 out0 m0 co0 e X. rewrite EA in X. injection X as <- <- <- <- <-. apply DF. }
    assert (OD : forall e, distinct_fault s k cols cs pick e -> obs a pick e).
    { intros e DF. apply ODistinct with (c := c) (k := k) (cols := cols) (out := out) (m := m) (co := co) (s := s) (cs := cs); assumption. }
    assert (FIN : forall y0, v_dom y0 = v_dom t -> (sc_id s = None \/ pick <> None) ->
      (forall g, metric_column (v_place y0) = Some g -> In g (keys_columns k) \/ (sc_id s <> None /\ exists u v, pick = Some (TGroups g u v))) ->
      (forall g u v, sc_id s <> None -> pick = Some (TGroups g u v) -> metric_column (v_place y0) = Some g) ->
      settled a pick (let* t1 := counted_columns cols k y0 in finish K (adj, kb, qb) k x ACountDistinct [out] t1)).
    { intros y0 DY PN M1 M2.
      assert (DONE : (forall e, ~ distinct_fault s k cols cs pick e) -> forall t1, settled a pick (finish K (adj, kb, qb) k x ACountDistinct [out] t1)).
      { intros DF t1. destruct (finish_verdict adj kb qb k x ACountDistinct [out] t1) as [(mm & -> & MM)|(e & -> & CR)]; [|right; exact CR].
        split; [exact MM|]. now apply CL. }
      unfold counted_columns. destruct cols as [|c0 cols]; cbn [bind].
      { apply DONE. intros e [(X & _)|(_ & X & _)]; [contradiction|now apply X]. }
      destruct k as [kc fr|kl]; cbn [bind keys_columns] in *.
      2:{ left. apply OD. right. split; [exact CI|]. split; [discriminate|reflexivity]. }
      destruct (select_verdict (nodup string_dec ((c0 :: cols) ++ dkeys kc)%list) y0) as [(H1 & H2 & z & ->)|(H & ->)]; cbn [bind].
      - apply DONE. intros e [(X & _)|(_ & _ & _ & [(x0 & I & NI)|(ID & g & u & v & PI & N1 & N2)])]; [contradiction| |].
        + apply NI. apply (agrees_has _ s t x0 AG). rewrite <- DY. apply H1, nodup_In, in_app_iff. now left.
        + specialize (H2 g (M2 g u v ID PI)). apply nodup_In, in_app_iff in H2 as [?|?]; contradiction.
      - left. apply OD. right. split; [exact CI|]. split; [discriminate|]. split; [reflexivity|]. destruct H as [(x0 & I & NI)|(g & MG & NI)].
        + left. apply nodup_In, in_app_iff in I as [I|I]; [exists x0; split; [exact I|]|exfalso].
          * intros X. apply NI. rewrite DY. now apply (agrees_has _ s t x0 AG).
          * apply NI. rewrite DY. apply (agrees_has _ s t x0 AG). now apply KH.
        + right. destruct (M1 g MG) as [I|(ID & u & v & PI)]; [exfalso; apply NI, nodup_In, in_app_iff; now right|].
          split; [exact ID|]. exists g, u, v. split; [exact PI|]. split; intros I; apply NI, nodup_In, in_app_iff; auto. }
    destruct (truncated_verdict _ (keys_columns k) s t cs AG) as [(ID & ->)|[(ID & CH & ->)|(ID & tr & y0 & CH & -> & DY & PL)]]; cbn [bind].
    + apply FIN; [reflexivity|now left| |intros g u v X; contradiction].
      intros g MG. left. apply GI. destruct (metric_col _ s _ (ag_metric _ _ _ AG)) as [X _]. rewrite X, ID in MG. now destruct (sc_group s).
    + left. apply OTruncation with (c := c) (s := s) (cs := cs); [exact TO|exact S|exact ID|exact KN|now rewrite PE|subst a; exact CI].
    + rewrite CH in PE. apply FIN; [exact DY|right; congruence| |].
      * intros g MG. destruct tr as [n|g0 u v]; [rewrite PL in MG; discriminate MG|]. destruct PL as (f & PL). rewrite PL in MG. injection MG as <-.
        right. split; [exact ID|]. exists u, v. exact PE.
      * intros g u v _ PI. rewrite PE in PI. injection PI as ->. destruct PL as (f & ->). reflexivity.
Qed.

Lemma not_approx a m : noise_available mu a -> asked_mechanism a = Some m -> Some m = Some MGaussian -> forall e d, b <> Approx e d.
Proof. intros NA AM E. injection E as ->. specialize (NA AM). intros e d ->. discriminate NA. Qed.

Lemma ready_from a c m bd k outs c2 s sq : Rewrite.measured a = Some (c, m, bd) -> bounds_of a = bd -> sch a = Ok sq -> sch c = Ok s ->
  groupby_schema k (Some m) outs s = Ok sq ->
  is_table c -> built auto c -> promises W (gaussian_wanted mu a) cat data c -> regular W cat c -> inputs_ok (gaussian_wanted mu a) cat data -> catalog_made cat ->
  cleaned (w_cond_ok W) cat m bd c c2 -> built auto c2 -> exists s2, sch c2 = Ok s2 /\ sc_id s2 = sc_id s /\ table_ready a c c2 s2.
Proof.
  intros ME BD SQ S GS T B P RG IN CAT CL B2. subst bd.
  destruct (groupby_measure _ _ _ _ _ GS) as (_ & NG & NI & d & D & _).
  destruct (cleaned_schema (w_cond_ok W) cat CAT m _ c c2 s d CL S NG NI D) as (s2 & g & S2 & (_ & _ & TI & _) & _).
  exists s2. split; [exact S2|]. split; [exact TI|].
  apply (ready_measured a c m c2 s s2 d); auto. rewrite (measured_of a), ME. reflexivity.
Qed.

Lemma agg_verdict a a' c s sq : table_of a = Some c -> sch c = Ok s -> sch a = Ok sq -> built auto a ->
  is_table c -> promises W (gaussian_wanted mu a) cat data c -> regular W cat c -> inputs_ok (gaussian_wanted mu a) cat data -> catalog_made cat ->
  rewritten (w_cond_ok W) cat a a' -> built auto a' -> sch a' = Ok sq -> right_mechanism (w_cond_ok W) mu cat a' ->
  clampable (w_cond_ok W) cat a -> noise_available mu a ->
  exists pick, (forall cs, known W cat data (gaussian_wanted mu a) c cs -> cheapest W mu cat a cs pick)
    /\ settled a pick (measure_query R W K auto so mu cat data b a').
Proof.
  intros TO S SQ B T P RG IN CAT RW B' SQ' RM CA NA.
  assert (BC : built auto c).
  { apply built_unfold in B as [_ B]. destruct a; try discriminate TO; injection TO as ->; cbn [children] in B; now inversion B. }
  destruct RW as [| c0 c1 l RC| | | | | | | | | | | | | | | c0 c1 k o m co co' RC| c0 c1 k l o m co co' RC| c0 c1 c2 k m lo hi RC CL| c0 c1 c2 k m qu lo hi o RC CL| kd c0 c1 c2 k m lo hi o me co co' RC CL]; try discriminate TO;
    cbn [table_of] in TO; injection TO as ->; pose proof (table_unchanged _ _ c c1 T RC); subst c1; cbn [measure_query].
  - apply (groups_verdict (GetGroups c l) c l s sq eq_refl S SQ). apply ready_plain; auto.
  - destruct RM as (x & -> & RN). unfold visit_count, child_table. cbn [core_mechanism bind].
    replace (gaussian x) with (gaussian_wanted mu (GroupByCount c k o m co)) by (symmetry; rewrite (right_gaussian m _ x RN); reflexivity).
    apply (simple_verdict (GroupByCount c k o m co) c c k (Some m) (GroupByCount c k o m (Some x)) sq s s x ACount [o] (fun t => t)); auto.
    + exact (not_approx _ m NA eq_refl).
    + apply ready_plain; auto.
  - destruct RM as (x & -> & RN).
    apply (distinct_verdict (GroupByCountDistinct c k l o m co) c k l o m co x s sq); auto.
    + now apply built_unfold in B as [B _].
    + rewrite (right_gaussian m _ x RN). reflexivity.
    + intros X. apply (not_approx _ m NA eq_refl). now rewrite X.
  - destruct (measured_schema (w_cond_ok W) cat (GetBounds c k m lo hi) c m None sq eq_refl SQ) as (k0 & outs & s0 & S0 & GS & _). rewrite S in S0. injection S0 as <-.
    destruct (ready_from (GetBounds c k m lo hi) c m None k0 outs c2 s sq) as (s2 & S2 & ID & TR); auto.
    { apply built_unfold in B' as [_ B']. now inversion B'. }
    unfold visit_bounds, child_table. replace (gaussian CGeometric) with (gaussian_wanted mu (GetBounds c k m lo hi)) by (destruct b; reflexivity).
    apply (simple_verdict (GetBounds c k m lo hi) c c2 k None (GetBounds c2 k m lo hi) sq s s2 (default_mechanism mu) (ABounds m) [lo; hi] unwrap); auto. discriminate.
  - destruct (measured_schema (w_cond_ok W) cat (GroupByQuantile c k m qu lo hi o) c m (Some (lo, hi)) sq eq_refl SQ) as (k0 & outs & s0 & S0 & GS & _). rewrite S in S0. injection S0 as <-.
    destruct (ready_from (GroupByQuantile c k m qu lo hi o) c m (Some (lo, hi)) k0 outs c2 s sq) as (s2 & S2 & ID & TR); auto.
    { apply built_unfold in B' as [_ B']. now inversion B'. }
    unfold visit_quantile, child_table.
    replace (gaussian (default_mechanism mu)) with (gaussian_wanted mu (GroupByQuantile c k m qu lo hi o)) by (destruct b; reflexivity).
    apply (simple_verdict (GroupByQuantile c k m qu lo hi o) c c2 k None (GroupByQuantile c2 k m qu lo hi o) sq s s2 (default_mechanism mu) (AQuantile m qu lo hi) [o] (fun t => t)); auto. discriminate.
  - destruct RM as (x & sx & dx & -> & _ & _ & RN).
    destruct (measured_schema (w_cond_ok W) cat (GroupByBounded kd c k m lo hi o me co) c m (Some (lo, hi)) sq eq_refl SQ) as (k0 & outs & s0 & S0 & GS & _). rewrite S in S0. injection S0 as <-.
    destruct (ready_from (GroupByBounded kd c k m lo hi o me co) c m (Some (lo, hi)) k0 outs c2 s sq) as (s2 & S2 & ID & TR); auto.
    { apply built_unfold in B' as [_ B']. now inversion B'. }
    unfold visit_bounded, child_table. cbn [core_mechanism bind].
    replace (gaussian x) with (gaussian_wanted mu (GroupByBounded kd c k m lo hi o me co)) by (symmetry; rewrite (right_gaussian me _ x RN); reflexivity).
    apply (simple_verdict (GroupByBounded kd c k m lo hi o me co) c c2 k (Some me) (GroupByBounded kd c2 k m lo hi o me (Some x)) sq s s2 x (ABounded kd m lo hi) [o] (fun t => t)); auto.
    exact (not_approx _ me NA eq_refl).
Qed.

(** Decisions. *)
Lemma infinite_dec d : may_be_infinite d \/ ~ may_be_infinite d.
Proof. unfold may_be_infinite. destruct (cd_inf d); destruct (cd_type d); try (left; split; reflexivity); right; intros [X Y]; discriminate. Qed.
Lemma finite_dec x : finite_number x \/ ~ finite_number x.
Proof. destruct (finite_f (to_float x)) eqn:E; [left|right]; rewrite <- (finite_to_float x); [exact E|congruence]. Qed.
Lemma clamps_dec a m : clamps W cat a m \/ ~ clamps W cat a m.
Proof.
  destruct (measure_of a) as [[c m']|] eqn:M; [|right; intros (c & lo & hi & s & d & X & _); congruence].
  destruct (String.string_dec m' m) as [->|NE]; [|right; intros (c0 & lo & hi & s & d & X & _); congruence].
  destruct (bounds_of a) as [[lo hi]|] eqn:BO; [|right; intros (c0 & lo & hi & s & d & _ & X & _); congruence].
  destruct (sch c) as [s|] eqn:S; [|right; intros (c0 & lo0 & hi0 & s & d & X & _ & Y & _); rewrite M in X; injection X as <-; congruence].
  destruct (dget m (sc_cols s)) as [d|] eqn:D; [|right; intros (c0 & lo0 & hi0 & s0 & d & X & _ & Y & Z & _); rewrite M in X; injection X as <-; rewrite S in Y; injection Y as <-; congruence].
  destruct (infinite_dec d) as [I|I]; [left; exists c, lo, hi, s, d; auto|].
  right. intros (c0 & lo0 & hi0 & s0 & d0 & X & _ & Y & Z & I'). rewrite M in X; injection X as <-; rewrite S in Y; injection Y as <-. rewrite D in Z. injection Z as <-. contradiction.
Qed.
Lemma clampable_dec a : clampable (w_cond_ok W) cat a
  \/ exists c m s d lo hi, measure_of a = Some (c, m) /\ bounds_of a = Some (lo, hi) /\ sch c = Ok s /\ dget m (sc_cols s) = Some d
       /\ may_be_infinite d /\ ~ (finite_number lo /\ finite_number hi).
Proof.
  destruct (measure_of a) as [[c m]|] eqn:M; [|left; intros c m s d lo hi X; congruence].
  destruct (clamps_dec a m) as [(c0 & lo & hi & s & d & X & BO & S & D & I)|N].
  - rewrite M in X. injection X as <-. destruct (finite_dec lo) as [F1|F1]; [destruct (finite_dec hi) as [F2|F2]|].
    + left. intros c0 m0 s0 d0 lo0 hi0 _ BO'. rewrite BO in BO'. injection BO' as <- <-. auto.
    + right. exists c, m, s, d, lo, hi. tauto.
    + right. exists c, m, s, d, lo, hi. tauto.
  - left. intros c0 m0 s0 d0 lo0 hi0 X BO S D I. elim N. rewrite M in X. injection X as <- <-. exists c, lo0, hi0, s0, d0. auto.
Qed.
Lemma available_dec a : noise_available mu a \/ (asked_mechanism a = Some MGaussian /\ mu <> RhoZCDP).
Proof.
  unfold noise_available. destruct (asked_mechanism a) as [[]|]; try (left; discriminate). destruct b; [right; split; [reflexivity|discriminate]|right; split; [reflexivity|discriminate]|left; reflexivity].
Qed.
Lemma some_cheapest a l2 c : exists pick, forall cs, known W cat data l2 c cs -> cheapest W mu cat a cs pick.
Proof.
  destruct (bt l2 c) as [[t cs]|e] eqn:BT; [|exists None; intros cs (t & X); congruence].
  assert (exists x, (forall tr, usable x tr <-> allowed W cat a cs tr) /\ incl x cs) as (x & US & IN).
  { destruct (measure_of a) as [[c0 m]|] eqn:M.
    2:{ exists cs. split; [|apply incl_refl]. intros tr. unfold usable, allowed. split; [|tauto]. intros H. split; [exact H|]. intros g x y _ (c1 & lo & hi & s & d & X & _). congruence. }
    destruct (clamps_dec a m) as [C|C].
    - exists (propagate_replace [m] cs). split.
      + intros tr. unfold usable, allowed. split.
        * intros H. split; [intros k Hk; specialize (H k Hk); unfold propagate_replace in H; now apply filter_In in H as [H _]|].
          intros g a0 b0 -> (c1 & lo & hi & s & d & X & _). rewrite M in X. injection X as _ <-. specialize (H (MaxRowsPerGroupPerID m b0)). cbn [trunc_constraints In] in H.
          specialize (H (or_intror (or_introl eq_refl))). apply filter_In in H as [_ H]. cbn in H. now rewrite String.eqb_refl in H.
        * intros (H & NC) k Hk. apply filter_In. split; [apply H, Hk|]. destruct tr as [n|g a0 b0]; cbn [trunc_constraints In] in Hk.
          -- destruct Hk as [<-|[]]. reflexivity.
          -- destruct Hk as [<-|[<-|[]]]; [reflexivity|]. apply negb_true_iff, smem_false. intros [X|[]]. subst g. now apply (NC m a0 b0 eq_refl).
      + intros k Hk. now apply filter_In in Hk as [Hk _].
    - exists cs. split; [|apply incl_refl]. intros tr. unfold usable, allowed. split; [|tauto]. intros H. split; [exact H|].
      intros g x y _ CL. destruct CL as (c1 & lo & hi & s & d & X & Y). rewrite M in X. injection X as <- <-. apply C. exists c0, lo, hi, s, d. rewrite M. auto. }
  exists (choose_trunc so mu (grouping_of a) x). intros cs0 (t0 & X). rewrite BT in X. injection X as <- <-. exact (cheapest_from a cs x x (sim_refl x) US IN).
Qed.

Lemma table_child_rules c : is_table c -> everywhere (clampable (w_cond_ok W) cat) c /\ everywhere (noise_available mu) c.
Proof.
  intros T. split; (apply (table_everywhere (fun _ _ => true)); [|exact T]); intros x X.
  - destruct x; try contradiction; unfold clampable; cbn [measure_of]; intros; discriminate.
  - destruct x; try contradiction; unfold noise_available; cbn [asked_mechanism]; intros; discriminate.
Qed.

(** The whole of it. *)
Theorem compile_verdict q c sq : built auto q -> sch q = Ok sq -> table_of (inner q) = Some c -> is_table c ->
  promises W (gaussian_wanted mu (inner q)) cat data c -> regular W cat c -> inputs_ok (gaussian_wanted mu (inner q)) cat data -> catalog_made cat ->
  exists pick, (forall cs, known W cat data (gaussian_wanted mu (inner q)) c cs -> cheapest W mu cat (inner q) cs pick)
    /\ match compile R W K auto so mu cat data b q with
       | Ok _ => forall e, ~ obs (inner q) pick e
       | Err e => obs (inner q) pick e \/ core_refuses K e
       end.
Proof.
  intros B SQ TO T P RG IN CAT. set (a := inner q) in *.
  assert (BA : built auto a /\ sch a = Ok sq).
  { unfold a. destruct q; cbn [inner]; try (split; assumption). cbn [schema_of] in SQ. split; [|exact SQ]. apply built_unfold in B as [_ B]. now inversion B. }
  destruct BA as [BA SA].
  assert (SC : exists s, sch c = Ok s).
  { apply (sch_below (w_cond_ok W) cat a sq SA). destruct a; try discriminate TO; injection TO as ->; cbn [below]; now left. }
  destruct SC as (s & S).
  destruct (table_child_rules c T) as [TC1 TC2].
  assert (EW : forall Q : query -> Prop, everywhere Q c -> (forall x col th, Q (SuppressAggregates x col th)) -> everywhere Q q <-> Q a).
  { intros Q QC QS. assert (EA : everywhere Q a <-> Q a).
    { split; [intros E; now inversion E|]. intros E. constructor; [exact E|]. intros x I. destruct a; try discriminate TO; injection TO as ->; cbn [below] in I; destruct I as [<-|[]]; exact QC. }
    unfold a in *. destruct q; cbn [inner] in *; try exact EA. rewrite <- EA. split; [intros E; inversion E as [? _ H]; subst; apply H; now left|].
    intros E. constructor; [apply QS|]. intros x [<-|[]]. exact E. }
  assert (E1 : everywhere (clampable (w_cond_ok W) cat) q <-> clampable (w_cond_ok W) cat a) by (apply EW; [exact TC1|intros x col th ? ? ? ? ? ? X; discriminate X]).
  assert (E2 : everywhere (noise_available mu) q <-> noise_available mu a) by (apply EW; [exact TC2|intros x col th X; discriminate X]).
  pose proof (rewrite_total auto (w_cond_ok W) mu cat CAT q sq B SQ) as RT. rewrite E1, E2 in RT.
  unfold compile. rewrite SQ. cbn [bind].
  destruct (clampable_dec a) as [CA|(c0 & m & s0 & d & lo & hi & M & BO & S0 & D & I & NF)].
  2:{ destruct (some_cheapest a (gaussian_wanted mu a) c) as (pick & PK). exists pick. split; [exact PK|].
      destruct (rewrite auto (w_cond_ok W) mu cat q) as [q'|e] eqn:RW; cbn [bind].
      - exfalso. apply NF. destruct RT as [_ RT]. destruct (RT (ex_intro _ _ eq_refl)) as [CA _]. exact (CA c0 m s0 d lo hi M BO S0 D I).
      - rewrite (rewrite_error auto _ _ _ CAT q sq e B SQ RW). left. now apply OBounds with (c := c0) (m := m) (s := s0) (d := d) (lo := lo) (hi := hi). }
  destruct (available_dec a) as [NA|(AM & NM)].
  2:{ destruct (some_cheapest a (gaussian_wanted mu a) c) as (pick & PK). exists pick. split; [exact PK|].
      destruct (rewrite auto (w_cond_ok W) mu cat q) as [q'|e] eqn:RW; cbn [bind].
      - exfalso. apply NM. destruct RT as [_ RT]. destruct (RT (ex_intro _ _ eq_refl)) as [_ NA]. now apply NA.
      - rewrite (rewrite_error auto _ _ _ CAT q sq e B SQ RW). left. now apply ONoise. }
  destruct (proj1 RT (conj CA NA)) as (q' & RW). rewrite RW. cbn [bind].
  destruct (rewrite_ok auto (w_cond_ok W) mu cat CAT q q' sq B SQ RW) as (B' & SQ' & RR & _ & RM).
  assert (exists a', rewritten (w_cond_ok W) cat a a' /\ built auto a' /\ sch a' = Ok sq /\ right_mechanism (w_cond_ok W) mu cat a'
    /\ (q' = a' \/ exists col th, q' = SuppressAggregates a' col th)) as (a' & RA & BA' & SA' & RMA & SH).
  { assert (RMQ : right_mechanism (w_cond_ok W) mu cat q') by now inversion RM.
    unfold a. destruct q; cbn [inner] in *; try (exists q'; repeat split; auto; fail).
    inversion RR; subst. apply built_unfold in B' as [_ B']. cbn [schema_of] in SQ'. inversion RM as [? _ RM']; subst. specialize (RM' c' (or_introl eq_refl)).
    exists c'. split; [assumption|]. split; [now inversion B'|]. split; [exact SQ'|]. split; [now inversion RM'|]. right. eauto. }
  destruct (agg_verdict a a' c s sq TO S SA BA T P RG IN CAT RA BA' SA' RMA CA NA) as (pick & PK & ST). exists pick. split; [exact PK|].
  assert (ME : match measure_query R W K auto so mu cat data b a' with
               | Ok (m, adj) => exists m', measure_query R W K auto so mu cat data b q' = Ok (m', adj) /\ privacy_loss K m' = privacy_loss K m
               | Err e => measure_query R W K auto so mu cat data b q' = Err e end).
  { destruct SH as [->|(col & th & ->)]; [destruct (measure_query _ _ _ _ _ _ _ _ _ a') as [[m adj]|e]; eauto|].
    cbn [measure_query schema_of]. rewrite SA'. cbn [bind]. destruct (measure_query _ _ _ _ _ _ _ _ _ a') as [[m adj]|e]; cbn [bind]; [|reflexivity]. eexists. split; [reflexivity|]. reflexivity. }
  destruct (measure_query R W K auto so mu cat data b a') as [[m adj]|e].
  - destruct ME as (m' & -> & PL). cbn [bind fst snd]. destruct ST as [MM OB]. rewrite PL, MM. cbn [raise_if bind]. exact OB.
  - rewrite ME. cbn [bind]. exact ST.
Qed.
End Main.
