(** Aggregations of one table, written in two ways. *)
From Coq Require Import String Bool Arith ZArith QArith Qcanon Lia Permutation List.
From Verif Require Import Prelude Budget Value Rows Constraints ConstraintsProofs Schema Query Transform TransformSpec
  QueryLike Rewrite RewriteSpec RewriteProofs Measure MeasureLike QueryLaws.
Import ListNotations.
Local Open Scope string_scope.
Local Open Scope nat_scope.

(** ** Specification *)

(** The same aggregation, with the same arguments, of tables that are related by [T]. *)
Inductive same_question (T : query -> query -> Prop) : query -> query -> Prop :=
| sq_groups c c' l : T c c' -> same_question T (GetGroups c l) (GetGroups c' l)
| sq_bounds c c' k m a b : T c c' -> same_question T (GetBounds c k m a b) (GetBounds c' k m a b)
| sq_count c c' k o m co : T c c' -> same_question T (GroupByCount c k o m co) (GroupByCount c' k o m co)
| sq_distinct c c' k l o m co : T c c' -> same_question T (GroupByCountDistinct c k l o m co) (GroupByCountDistinct c' k l o m co)
| sq_quantile c c' k m u a b o : T c c' -> same_question T (GroupByQuantile c k m u a b o) (GroupByQuantile c' k m u a b o)
| sq_bounded kd c c' k m a b o me co : T c c' -> same_question T (GroupByBounded kd c k m a b o me co) (GroupByBounded kd c' k m a b o me co)
| sq_suppress q q' l t : same_question T q q' -> same_question T (SuppressAggregates q l t) (SuppressAggregates q' l t).

(** ** Proofs *)

Section Proofs.
Variables (R : rounding) (W : world) (K : core) (auto : bool) (so : list string -> list string) (mu : measure)
  (cat : catalog) (data : dict vtab).
Hypothesis (KB : core_sees_bags K).
Notation sch := (schema_of (w_cond_ok W) cat).
Notation handle := (handle_special_values auto (w_cond_ok W) cat).
Notation noise := (select_noise auto (w_cond_ok W) mu cat).
Notation df := (depth_first auto).

(** Built tables that are alike. *)
Definition table_query (q : query) : Prop := built auto q /\ everywhere (fun n => measured n = None /\ noise n = Ok n) q.
Definition tabs (c c' : query) : Prop := table_query c /\ table_query c' /\ forall l2, alike W l2 cat data c c'.
Notation asks := (same_question tabs).

Lemma visited_table l2 q : forall x, visit W l2 cat data q = Ok x -> everywhere (fun n => measured n = None /\ noise n = Ok n) q.
Proof.
  induction q; intros x V; cbn [visit] in V; try discriminate V; try (apply bind_ok in V as (y & Y & V)); apply everywhere_iff; (split; [split; reflexivity|]); cbn [below];
    intros z Z; repeat (destruct Z as [<-|Z]); try (destruct Z); eauto.
  apply bind_ok in V as (y' & Y' & V). eauto.
Qed.
Lemma df_table f c : table_query c -> everywhere (fun n => f n = Ok n) c -> df f c = Ok c.
Proof. intros (B & _) E. now apply depth_first_id. Qed.
Lemma everywhere_weaken (P Q : query -> Prop) q : (forall n, P n -> Q n) -> everywhere P q -> everywhere Q q.
Proof. intros H E. induction E as [q A B C]. constructor; auto. Qed.
Lemma df_handle c : table_query c -> df handle c = Ok c.
Proof. intros T. apply df_table; [exact T|]. destruct T as (_ & E). revert E. apply everywhere_weaken. intros n (M & _). unfold handle_special_values. now rewrite M. Qed.
Lemma df_noise c : table_query c -> df noise c = Ok c.
Proof. intros T. apply df_table; [exact T|]. destruct T as (_ & E). revert E. apply everywhere_weaken. now intros n (_ & M). Qed.

(** Operations that rewriting adds. *)
Lemma added (op : query -> query) f g c c' : (forall c, below (op c) = [c]) -> (forall c, measured (op c) = None /\ noise (op c) = Ok (op c)) ->
  (forall c, built auto c -> built auto (op c)) -> (forall c, sch (op c) = let* s := sch c in g s) ->
  (forall l2 cat' data' c, cat_public cat' = cat_public cat -> visit W l2 cat' data' (op c) = let* x := visit W l2 cat' data' c in f l2 x) ->
  tabs c c' -> tabs (op c) (op c').
Proof.
  intros B M BU S V ((B1 & E1) & (B2 & E2) & A). split; [|split].
  - split; [auto|]. apply everywhere_iff. split; [apply M|]. rewrite B. intros z [<-|[]]. exact E1.
  - split; [auto|]. apply everywhere_iff. split; [apply M|]. rewrite B. intros z [<-|[]]. exact E2.
  - intros l2. destruct (A l2) as (A1 & A2). split; [now rewrite !S, A1|].
    rewrite !(V l2 cat data) by reflexivity. apply (op_like W l2 cat op (f l2)); [|exact A2]. intros. now apply V.
Qed.
Lemma drop_null_tabs c c' l : tabs c c' -> tabs (DropNullAndNan c l) (DropNullAndNan c' l).
Proof. apply (added (fun c => DropNullAndNan c l) (fun _ => visit_drop_null l) (drop_null_schema l)); try reflexivity; [split; reflexivity|]. intros x Bx. split; [reflexivity|exact Bx]. Qed.
Lemma drop_inf_tabs c c' l : tabs c c' -> tabs (DropInfinity c l) (DropInfinity c' l).
Proof. apply (added (fun c => DropInfinity c l) (fun _ => visit_drop_inf l) (drop_inf_schema l)); try reflexivity; [split; reflexivity|]. intros x Bx. split; [reflexivity|exact Bx]. Qed.
Lemma enforce_tabs c c' k : tabs c c' -> tabs (EnforceConstraint c k) (EnforceConstraint c' k).
Proof. apply (added (fun c => EnforceConstraint c k) (fun _ => visit_enforce W k) (enforce_schema k)); try reflexivity; [split; reflexivity|]. intros x Bx. split; [reflexivity|exact Bx]. Qed.
Lemma replace_inf_tabs c c' rw x : post_init auto (ReplaceInfinity x rw) = Ok (ReplaceInfinity x rw) -> tabs c c' -> tabs (ReplaceInfinity c rw) (ReplaceInfinity c' rw).
Proof.
  intros P. apply (added (fun c => ReplaceInfinity c rw) (fun _ => visit_replace_inf rw) (replace_inf_schema rw)); try reflexivity; [split; reflexivity|].
  intros y By. split; [|exact By]. cbn [post_init] in *. apply bind_ok in P as (u & E & _). now rewrite E.
Qed.

(** Rewriting, side by side. *)
Lemma tabs_schema c c' : tabs c c' -> sch c = sch c'.
Proof. intros (_ & _ & A). apply (A false). Qed.
Lemma asks_schema q q' : asks q q' -> sch q = sch q'.
Proof. induction 1 as [? ? ? T|? ? ? ? ? ? T|? ? ? ? ? ? T|? ? ? ? ? ? ? T|? ? ? ? ? ? ? ? T|? ? ? ? ? ? ? ? ? ? T|? ? ? ? _ IH]; cbn [schema_of]; try (now rewrite (tabs_schema _ _ T)). exact IH. Qed.
Lemma asks_count q q' : asks q q' -> is_groupby_count q = is_groupby_count q'.
Proof. now induction 1. Qed.
Lemma init_side q q' : asks q q' -> both asks (post_init auto q) (post_init auto q').
Proof.
  intros A. destruct A; cbn [post_init].
  - cbn. now constructor.
  - apply both_same. intros _. now constructor.
  - apply both_same. intros _. now constructor.
  - apply both_same. intros _. now constructor.
  - apply both_same. intros _. apply both_same. intros _. apply both_same. intros p. now constructor.
  - apply both_same. intros _. apply both_same. intros p. now constructor.
  - rewrite (asks_count _ _ A). apply both_same. intros _. now constructor.
Qed.
Lemma noise_side q q' : asks q q' -> both asks (noise q) (noise q').
Proof.
  intros A. destruct A; cbn [select_noise]; try (cbn; now constructor).
  - apply both_same. intros x. apply init_side. now constructor.
  - apply both_same. intros x. apply init_side. now constructor.
  - apply both_same. intros _. rewrite <- (tabs_schema _ _ H). apply both_same. intros s. apply both_same. intros d. apply both_same. intros x. apply init_side. now constructor.
Qed.
(** An aggregation with a measure column, over another child. *)
Lemma with_child_side q q' c c' : asks q q' -> tabs c c' -> asks (with_child q c) (with_child q' c').
Proof. intros A T. destruct A; cbn [with_child]; try (now constructor). Qed.
Lemma handle_side q q' : asks q q' -> both asks (handle q) (handle q').
Proof.
  intros A. unfold handle_special_values.
  assert (G : forall c c' m bo, tabs c c' -> both asks
    (let* s := sch c in let* d := lookup_col (sc_cols s) m in
     let* q1 := if cd_null d || (is_decimal d && cd_nan d) then let* c1 := post_init auto (DropNullAndNan c [m]) in post_init auto (with_child q c1) else Ok q in
     if is_decimal d && cd_inf d then
       let* c2 := post_init auto (match bo with None => DropInfinity (if cd_null d || (is_decimal d && cd_nan d) then DropNullAndNan c [m] else c) [m]
                                  | Some (lo, hi) => ReplaceInfinity (if cd_null d || (is_decimal d && cd_nan d) then DropNullAndNan c [m] else c) [(m, (to_float lo, to_float hi))] end) in
       post_init auto (with_child q1 c2) else Ok q1)
    (let* s := sch c' in let* d := lookup_col (sc_cols s) m in
     let* q1 := if cd_null d || (is_decimal d && cd_nan d) then let* c1 := post_init auto (DropNullAndNan c' [m]) in post_init auto (with_child q' c1) else Ok q' in
     if is_decimal d && cd_inf d then
       let* c2 := post_init auto (match bo with None => DropInfinity (if cd_null d || (is_decimal d && cd_nan d) then DropNullAndNan c' [m] else c') [m]
                                  | Some (lo, hi) => ReplaceInfinity (if cd_null d || (is_decimal d && cd_nan d) then DropNullAndNan c' [m] else c') [(m, (to_float lo, to_float hi))] end) in
       post_init auto (with_child q1 c2) else Ok q1)).
  { intros c c' m bo T. rewrite <- (tabs_schema _ _ T). apply both_same. intros s. apply both_same. intros d.
    eapply (both_bind asks).
    - destruct (cd_null d || _); [|exact A]. cbn [post_init bind]. apply init_side, with_child_side; [exact A|]. now apply drop_null_tabs.
    - intros q1 q1' A1. destruct (is_decimal d && cd_inf d); [|exact A1].
      set (c1 := if cd_null d || (is_decimal d && cd_nan d) then DropNullAndNan c [m] else c).
      set (c1' := if cd_null d || (is_decimal d && cd_nan d) then DropNullAndNan c' [m] else c').
      assert (T1 : tabs c1 c1') by (unfold c1, c1'; destruct (cd_null d || _); [now apply drop_null_tabs|exact T]).
      destruct bo as [[lo hi]|].
      + destruct (post_init auto (ReplaceInfinity c1 _)) as [z|e] eqn:P.
        * assert (z = ReplaceInfinity c1 [(m, (to_float lo, to_float hi))]) as -> by (cbn [post_init] in P; apply bind_ok in P as (u & _ & P); congruence).
          assert (P' : post_init auto (ReplaceInfinity c1' [(m, (to_float lo, to_float hi))]) = Ok (ReplaceInfinity c1' [(m, (to_float lo, to_float hi))])).
          { cbn [post_init] in *. apply bind_ok in P as (u & E & _). now rewrite E. }
          rewrite P'. cbn [bind]. apply init_side, with_child_side; [exact A1|]. eapply replace_inf_tabs; eassumption.
        * assert (P' : post_init auto (ReplaceInfinity c1' [(m, (to_float lo, to_float hi))]) = Err e).
          { cbn [post_init] in *. destruct (raise_if _ _); [discriminate|exact P]. }
          rewrite P'. cbn. reflexivity.
      + cbn [post_init bind]. apply init_side, with_child_side; [exact A1|]. now apply drop_inf_tabs. }
  destruct A; cbn [measured]; try (exact (G _ _ _ None H)); try (exact (G _ _ _ (Some (_, _)) H)); clear G; cbn [both]; constructor; assumption.
Qed.
Lemma df_side f q q' : (forall q q', asks q q' -> both asks (f q) (f q')) -> (forall c, table_query c -> df f c = Ok c) -> asks q q' -> both asks (df f q) (df f q').
Proof.
  intros F D A. induction A as [c c' l T|c c' k m a b T|c c' k o m co T|c c' k l o m co T|c c' k m u a b o T|kd c c' k m a b o me co T|q q' l t A IH]; cbn [depth_first].
  1-6: rewrite (D c), (D c') by (apply T); cbn [bind]; unfold remade; eapply (both_bind asks); [apply init_side; now constructor|exact F].
  eapply (both_bind asks); [exact IH|]. intros x y XY. rewrite (asks_count _ _ XY). apply both_same. intros _. unfold remade. eapply (both_bind asks); [apply init_side; now constructor|exact F].
Qed.
Lemma rewrite_side q q' : asks q q' -> both asks (rewrite auto (w_cond_ok W) mu cat q) (rewrite auto (w_cond_ok W) mu cat q').
Proof.
  intros A. unfold rewrite. eapply (both_bind asks).
  - apply df_side; [exact handle_side|exact df_handle|exact A].
  - intros x y XY. apply df_side; [exact noise_side|exact df_noise|exact XY].
Qed.

(** Measuring, side by side. *)
Lemma child_side c q q' : tabs q q' -> both pair_like (child_table W cat data c q) (child_table W cat data c q').
Proof.
  intros T. apply outcome_both. unfold child_table, build_transformation. rewrite <- (tabs_schema _ _ T). apply oc_bind. intros s.
  apply oc_bind2; [apply T|].
  intros t t' cs TL. cbn [fst]. assert (validate (gaussian c) s t = validate (gaussian c) s t') as ->.
  { unfold validate. destruct TL as (-> & _ & -> & _). reflexivity. }
  apply oc_bind. intros _. split; [exact TL|reflexivity].
Qed.
Lemma budgets_side b q q' k m : asks q q' -> budgets R W cat b q k m = budgets R W cat b q' k m.
Proof. intros A. unfold budgets. now rewrite (asks_schema _ _ A). Qed.
Lemma count_side b c c' k o m co : tabs c c' -> both made (visit_count R W K so mu cat data b c k o m co) (visit_count R W K so mu cat data b c' k o m co).
Proof.
  intros T. unfold visit_count. rewrite (budgets_side b _ (GroupByCount c' k o m co)) by (now constructor). apply both_same. intros bs. apply both_same. intros cm. eapply both_bind; [now apply child_side|].
  intros x y P. eapply both_bind; [apply truncated_like, P|]. intros t t' TL. now apply finish_like.
Qed.
Theorem measure_side q q' : asks q q' -> forall b, both made (measure_query R W K auto so mu cat data b q) (measure_query R W K auto so mu cat data b q').
Proof.
  induction 1 as [c c' l T|c c' k m a b T|c c' k o m co T|c c' k l o m co T|c c' k m u a b o T|kd c c' k m a b o me co T|q q' l t A IH]; intros bu; cbn [measure_query].
  - unfold visit_groups. apply both_same. intros _. rewrite <- (tabs_schema _ _ T). apply both_same. intros s. apply both_same. intros _.
    eapply both_bind; [now apply child_side|]. intros x y P. eapply both_bind; [apply truncated_like, P|]. intros t t' TL.
    eapply both_bind; [apply select_like, unwrap_like, TL|]. intros u v [U _].
    rewrite (cb_groups K KB _ _ bu U). apply both_same. intros _. cbn [privacy_loss]. rewrite (cb_loss K KB _ _ bu U).
    apply both_same. intros _. split; [|reflexivity]. split; [exact U|]. split; reflexivity.
  - unfold visit_bounds. rewrite (budgets_side bu _ (GetBounds c' k m a b)) by (now constructor). apply both_same. intros bs. eapply both_bind; [now apply child_side|]. intros x y P.
    eapply both_bind; [apply truncated_like, P|]. intros t t' TL. apply finish_like, unwrap_like, TL. exact KB.
  - now apply count_side.
  - unfold visit_count_distinct. rewrite (budgets_side bu _ (GroupByCountDistinct c' k l o m co)) by (now constructor). apply both_same. intros bs. apply both_same. intros cm. eapply both_bind; [now apply child_side|].
    intros x y P. rewrite <- (tabs_schema _ _ T). apply both_same. intros s. rewrite <- (proj2 P).
    assert (C : (exists k0, constrained_child c k l s (snd x) = Some (EnforceConstraint c k0) /\ constrained_child c' k l s (snd x) = Some (EnforceConstraint c' k0))
                \/ (constrained_child c k l s (snd x) = None /\ constrained_child c' k l s (snd x) = None)).
    { unfold constrained_child. destruct (sc_id s); [|auto]. destruct (counts_only _ _ _); [|auto]. destruct (keys_columns k) as [|g [|g' gs]]; [eauto| |auto]. destruct (existsb _ _); eauto. }
    destruct C as [(k0 & -> & ->)|(-> & ->)].
    + eapply (both_bind asks); [apply init_side; constructor; now apply enforce_tabs|]. intros _ _ _. apply count_side. now apply enforce_tabs.
    + eapply both_bind; [apply truncated_like, P|]. intros t t' TL. eapply both_bind; [apply counted_columns_like, TL|].
      intros u v U. now apply finish_like.
  - unfold visit_quantile. rewrite (budgets_side bu _ (GroupByQuantile c' k m u a b o)) by (now constructor). apply both_same. intros bs. eapply both_bind; [now apply child_side|]. intros x y P.
    eapply both_bind; [apply truncated_like, P|]. intros t t' TL. now apply finish_like.
  - unfold visit_bounded. rewrite (budgets_side bu _ (GroupByBounded kd c' k m a b o me co)) by (now constructor). apply both_same. intros bs. apply both_same. intros cm. eapply both_bind; [now apply child_side|]. intros x y P.
    eapply both_bind; [apply truncated_like, P|]. intros t t' TL. now apply finish_like.
  - cbn [schema_of]. rewrite (asks_schema _ _ A). apply both_same. intros _. eapply both_bind; [apply IH|]. intros x y [M E]. split; [|exact E]. cbn [fst].
    split; [exact M|]. split; reflexivity.
Qed.
Theorem compile_side b q q' : asks q q' ->
  both measurement_like (compile R W K auto so mu cat data b q) (compile R W K auto so mu cat data b q').
Proof.
  intros A. unfold compile. rewrite (asks_schema _ _ A). apply both_same. intros _. eapply (both_bind asks); [now apply rewrite_side|]. intros x y XY.
  eapply both_bind; [now apply measure_side|].
  intros [m c] [m' c'] [M E]. cbn [fst snd] in *. subst c'. rewrite (loss_like K KB m m' M). apply both_same. intros _. exact M.
Qed.

(** Tables that are the same by the laws. *)
Lemma same_tabs c c' : built auto c -> built auto c' -> (forall l2, same W l2 cat data c c') -> computed W false cat data c -> tabs c c'.
Proof.
  intros B B' S (s & x & SC & V).
  assert (A : forall l2, alike W l2 cat data c c') by (intros l2; apply alike_part; [apply S|apply law_alike]).
  split; [|split]; [| |exact A].
  - split; [exact B|]. exact (visited_table _ _ _ V).
  - split; [exact B'|]. destruct (A false) as (_ & O). rewrite V in O. destruct (visit W false cat data c') as [x'|] eqn:V'; [|destruct x; destruct O]. exact (visited_table _ _ _ V').
Qed.
End Proofs.
