(** Aggregations over a view, and over the view's definition. *)
From Coq Require Import String Bool Arith ZArith QArith Qcanon Lia Permutation List.
From Verif Require Import Prelude Budget Value Rows Constraints Schema SchemaProofs Query Transform TransformSpec
  Rewrite RewriteSpec RewriteProofs QuerySame Session Measure MeasureTotal.
Import ListNotations.
Local Open Scope string_scope.
Local Open Scope nat_scope.

(** ** Specification *)

(** Both succeed, with related results, or both raise. *)
Definition oks {A B} (R : A -> B -> Prop) (x : res A) (y : res B) : Prop :=
  match x, y with Ok a, Ok b => R a b | Err _, Err _ => True | _, _ => False end.

(** ** Proofs *)

Lemma oks_bind {A B C D} (R : A -> B -> Prop) (S : C -> D -> Prop) x y f g : oks R x y -> (forall a b, R a b -> oks S (f a) (g b)) ->
  oks S (bind x f) (bind y g).
Proof. destruct x as [a|e], y as [b|e']; cbn [oks bind]; intros H F; try contradiction; [apply F, H|exact H]. Qed.
Lemma oks_same {A B C} (S : B -> C -> Prop) (x : res A) f g : (forall a, oks S (f a) (g a)) -> oks S (bind x f) (bind x g).
Proof. intros H. destruct x as [a|e]; cbn [bind oks]; [apply H|exact Logic.I]. Qed.
Lemma oks_refl {A} (x : res A) : oks eq x x.
Proof. destruct x; cbn; auto. Qed.
Lemma oks_iff {A} (x y : res A) : (forall z, x = Ok z <-> y = Ok z) -> oks eq x y.
Proof.
  intros H. destruct x as [a|e], y as [b|e']; cbn [oks].
  - pose proof (proj1 (H a) eq_refl) as E. congruence.
  - destruct (H a) as [H1 _]. discriminate (H1 eq_refl).
  - destruct (H b) as [_ H1]. discriminate (H1 eq_refl).
  - exact Logic.I.
Qed.

(** *** Tables without grouping columns do not depend on the kind of noise. *)
Section NoGrouping.
Variables (W : world) (cat : catalog) (data : dict vtab).
Definition ungrouped (p : place) : Prop := match p with PKeys _ | PSym => True | _ => False end.
Lemma enforce_place c t y : enforce (w_row_order W) (w_key_order W) c false false t = Ok y -> ungrouped (t_place y) -> ungrouped (t_place t).
Proof.
  destruct t as [p r]. destruct c as [m|g m|g m]; destruct p; cbn [enforce t_place t_rows]; intros H U;
    try discriminate H; try (injection H as <-; exact U); try (destruct (String.eqb _ _); [|discriminate H]; injection H as <-; exact U).
Qed.
Ltac peel_all V := repeat (let u := fresh "u" in let E := fresh "E" in apply bind_ok in V as (u & E & V)).
Ltac last V U := peel_all V; injection V as <- _; cbn [v_place] in U.
Lemma visit_ungrouped l2 l2' q : forall t cs, visit W l2 cat data q = Ok (t, cs) -> ungrouped (v_place t) -> visit W l2' cat data q = Ok (t, cs).
Proof.
  induction q; intros t cs V U; cbn [visit] in *; try discriminate V; try exact V;
    try (apply bind_ok in V as ((t0, cs0) & V0 & V)).
  all: try (rewrite (IHq t0 cs0 V0); [exact V|]; clear IHq V0; unfold visit_filter, visit_select, visit_map, visit_join_public, visit_replace_null, visit_replace_inf, visit_drop_null, visit_drop_inf in V;
    try (last V U; exact U)).
  - unfold visit_rename in V. last V U. destruct (v_place t0); cbn in *; exact U.
  - unfold visit_flat_map in V. assert (P : ungrouped (v_place t0)).
    { apply bind_ok in V as (y & Y & V). apply bind_ok in V as (cs' & _ & V). injection V as <- _. cbn [v_place] in U.
      destruct (Transform.in_collection (v_place t0)) eqn:IC.
      - peel_all Y. injection Y as <-. exact U.
      - destruct max_rows; [|discriminate]. destruct (sc_group new); [destruct (v_place t0); try discriminate; exact Logic.I|]. injection Y as <-. exact U. }
    rewrite (IHq t0 cs0 V0 P). cbn [bind]. unfold visit_flat_map. rewrite <- V. f_equal.
    apply bind_ok in V as (y & Y & V). apply bind_ok in V as (cs' & _ & V). injection V as <- _. cbn [v_place] in U.
    destruct (Transform.in_collection (v_place t0)); [reflexivity|]. destruct max_rows; [|reflexivity]. destruct (sc_group new); [|reflexivity].
    destruct (v_place t0); try discriminate. injection Y as <-. destruct U.
  - unfold visit_flat_map_by_id in V. destruct (v_place t0); try discriminate. exact Logic.I.
  - apply bind_ok in V as ((t1, cs1) & V1 & V). 
    assert (P : ungrouped (v_place t0) /\ ungrouped (v_place t1)).
    { unfold visit_join_private in V. apply bind_ok in V as (y & Y & V). apply bind_ok in V as (z & Z & V). destruct (v_place t0), (v_place t1); try discriminate; split; exact Logic.I. }
    rewrite (IHq1 _ _ V0), (IHq2 _ _ V1) by (apply P). exact V.
  - unfold visit_enforce in V. apply bind_ok in V as (y & Y & V). injection V as <- _. exact (enforce_place _ _ _ Y U).
Qed.
Lemma build_ungrouped l2 l2' q s z : schema_of (w_cond_ok W) cat q = Ok s -> sc_group s = None ->
  build_transformation W l2 cat data q = Ok z -> build_transformation W l2' cat data q = Ok z.
Proof.
  unfold build_transformation. intros -> G H. cbn [bind] in *. apply bind_ok in H as ((t, cs) & V & H). apply bind_ok in H as ([] & VA & H). injection H as <-.
  assert (EX : forall l, expected_place l s = Ok (match sc_id s with Some i => PKeys i | None => PSym end)) by (intros l; unfold expected_place; rewrite G; destruct (sc_id s); reflexivity).
  assert (U : ungrouped (v_place t)).
  { cbn [fst] in VA. unfold validate in VA. rewrite EX in VA. cbn [bind] in VA. apply bind_ok in VA as ([] & _ & VA).
    destruct (negb (place_eqb (v_place t) _)) eqn:P in VA; [discriminate|]. apply negb_false_iff in P. destruct (v_place t), (sc_id s); try discriminate P; exact Logic.I. }
  rewrite (visit_ungrouped l2 l2' q t cs V U). cbn [bind fst] in *. assert (validate l2' s t = validate l2 s t) as -> by (unfold validate; rewrite !EX; reflexivity).
  rewrite VA. reflexivity.
Qed.
End NoGrouping.

(** *** Aggregations, with the view and with its definition. *)
Ltac again P := cbn [post_init] in *; repeat (let u := fresh "u" in let E := fresh "E" in apply bind_ok in P as (u & E & P); rewrite E; cbn [bind]); first [reflexivity|injection P as ->; reflexivity|let X := fresh in let Y := fresh in injection P as X Y; rewrite X, Y; reflexivity].
Section Proofs.
Variables (R : rounding) (W : world) (K : core) (auto : bool) (so : list string -> list string) (mu : measure)
  (cat cat' : catalog) (data data' : dict vtab) (rho : bool) (v : string) (d : query).
Notation sub := (subst v d).
Notation sch := (schema_of (w_cond_ok W) cat).
Notation sch' := (schema_of (w_cond_ok W) cat').
Notation bt := (fun l2 => build_transformation W l2 cat data).
Notation bt' := (fun l2 => build_transformation W l2 cat' data').
Hypothesis SCH : forall q, dicts q -> oks same_schema (sch' q) (sch (sub q)).
Hypothesis BUILD : forall q z, dicts q -> bt' rho q = Ok z <-> bt rho (sub q) = Ok z.
Hypothesis DD : dicts d.
Hypothesis DB : built auto d.
Hypothesis DT : is_table d.
Notation handle := (handle_special_values auto (w_cond_ok W) cat).
Notation handle' := (handle_special_values auto (w_cond_ok W) cat').
Notation noise := (select_noise auto (w_cond_ok W) mu cat).
Notation noise' := (select_noise auto (w_cond_ok W) mu cat').
Notation df := (depth_first auto).

(** A table query, and the noise that is wanted for it. *)
Definition tab (c : query) : Prop := dicts c /\ built auto c /\ is_table c.
Definition free (l2 : bool) (c : query) : Prop := l2 = rho \/ forall s, sch' c = Ok s -> sc_group s = None.
Lemma sub_built q : built auto q -> is_table q -> built auto (sub q).
Proof.
  induction q; cbn [built is_table subst replace]; try tauto.
  all: try (intros (P & B) T; split; [again P|apply IHq; assumption]).
  - intros (P & _) _. destruct (String.eqb _ v); [exact DB|]. split; [exact P|exact Logic.I].
  - intros (P & B1 & B2) (T1 & T2). split; [again P|]. split; [apply IHq1; assumption|apply IHq2; assumption].
Qed.
Lemma sub_table q : is_table q -> is_table (sub q).
Proof.
  induction q; cbn [is_table subst replace]; try tauto; try (intros T; apply IHq; exact T).
  intros _. destruct (String.eqb _ v); [exact DT|exact Logic.I].
Qed.
Lemma build_at l2 c : dicts c -> free l2 c -> oks eq (bt' l2 c) (bt l2 (sub c)).
Proof.
  intros D F. apply oks_iff. intros z. destruct F as [F|F]; [subst l2; apply BUILD, D|].
  pose proof (SCH c D) as S. destruct (sch' c) as [s|e] eqn:E, (sch (sub c)) as [s1|e1] eqn:E1.
  - destruct S as [_ _ _ SG _ _]. specialize (F s eq_refl). split; intros H.
    + apply (build_ungrouped W cat data rho l2 _ s1 z E1); [congruence|]. apply BUILD; [exact D|]. exact (build_ungrouped W cat' data' l2 rho _ s z E F H).
    + apply (build_ungrouped W cat' data' rho l2 _ s z E F). apply BUILD; [exact D|]. apply (build_ungrouped W cat data l2 rho _ s1 z E1); [congruence|exact H].
  - destruct S. - destruct S.
  - unfold build_transformation. rewrite E, E1. cbn [bind]. split; discriminate.
Qed.

(** What is asked. *)
Inductive asks : query -> Prop :=
| as_groups c l : l <> [] -> tab c -> free (gaussian_wanted mu (GetGroups c l)) c -> asks (GetGroups c l)
| as_bounds c k m a b : tab c -> free (gaussian_wanted mu (GetBounds c k m a b)) c -> asks (GetBounds c k m a b)
| as_count c k o m co : tab c -> free (gaussian_wanted mu (GroupByCount c k o m co)) c -> asks (GroupByCount c k o m co)
| as_distinct c k l o m co : tab c -> free (gaussian_wanted mu (GroupByCountDistinct c k l o m co)) c -> asks (GroupByCountDistinct c k l o m co)
| as_quantile c k m u a b o : tab c -> free (gaussian_wanted mu (GroupByQuantile c k m u a b o)) c -> asks (GroupByQuantile c k m u a b o)
| as_bounded kd c k m a b o me co : tab c -> free (gaussian_wanted mu (GroupByBounded kd c k m a b o me co)) c -> asks (GroupByBounded kd c k m a b o me co)
| as_suppress q l t : asks q -> asks (SuppressAggregates q l t).
Definition side (q q' : query) : Prop := asks q /\ q' = sub q.

Lemma asks_dicts q : asks q -> dicts q.
Proof. induction 1; cbn [dicts]; try assumption; match goal with T : tab _ |- _ => apply T end. Qed.
Lemma asks_count q : is_groupby_count (sub q) = true -> asks q -> is_groupby_count q = true.
Proof. intros H A. destruct A; try exact H. Qed.
Lemma count_sub q : asks q -> is_groupby_count (sub q) = is_groupby_count q.
Proof. now destruct 1. Qed.
Lemma init_side q : asks q -> oks side (post_init auto q) (post_init auto (sub q)).
Proof.
  intros A. pose proof A as A0. destruct A0; cbn [post_init subst replace].
  - now split.
  - apply oks_same. intros _. now split.
  - apply oks_same. intros _. now split.
  - apply oks_same. intros _. now split.
  - apply oks_same. intros _. apply oks_same. intros _. apply oks_same. intros p. split; [|reflexivity]. constructor; [assumption|]. now destruct mu.
  - apply oks_same. intros _. apply oks_same. intros p. split; [|reflexivity]. constructor; [assumption|]. now destruct mu.
  - fold (sub q). rewrite (count_sub _ A0). apply oks_same. intros _. now split.
Qed.
Lemma lookup_side s s1 m : same_schema s s1 ->
  oks (fun a b => cd_type a = cd_type b /\ cd_null a = cd_null b /\ is_decimal a = is_decimal b /\ (is_decimal a = true -> cd_nan a = cd_nan b /\ cd_inf a = cd_inf b))
    (lookup_col (sc_cols s) m) (lookup_col (sc_cols s1) m).
Proof.
  intros SS. unfold lookup_col. destruct (dget m (sc_cols s)) as [a|] eqn:E.
  - destruct (ss_get _ _ SS _ _ E) as (b & -> & C). cbn [oks]. unfold to_core in C. unfold is_decimal. destruct a as [ta na aa ia], b as [tb nb ab ib]; cbn [cd_type cd_null cd_nan cd_inf] in *.
    destruct ta, tb; try discriminate C; injection C; intros; subst; (split; [reflexivity|]); (split; [reflexivity|]); (split; [reflexivity|]); intros X; first [discriminate X|split; reflexivity].
  - destruct (dget m (sc_cols s1)) as [b|] eqn:E1; [|exact Logic.I]. destruct (ss_get _ _ (same_schema_sym _ _ SS) _ _ E1) as (x & X & _). congruence.
Qed.
Lemma noise_side q : asks q -> oks side (noise' q) (noise (sub q)).
Proof.
  intros A. pose proof A as A0. destruct A0; cbn [select_noise subst replace]; try (now split).
  - apply oks_same. intros x. apply (init_side (GroupByCount c k o m (Some x))). constructor; [assumption|]. now destruct mu.
  - apply oks_same. intros x. apply (init_side (GroupByCountDistinct c k l o m (Some x))). constructor; [assumption|]. now destruct mu.
  - apply oks_same. intros _. eapply oks_bind; [apply SCH; apply H|]. intros s s1 SS. eapply oks_bind; [apply (lookup_side _ _ _ SS)|]. intros x y (T & _). rewrite T.
    apply oks_same. intros z. apply (init_side (GroupByBounded kd c k m a b o me (Some z))). constructor; [assumption|]. now destruct mu.
Qed.

(** Operations that rewriting adds. *)
Lemma rebuild_group f s t : rebuild f s = Ok t -> sc_group t = sc_group s.
Proof. unfold rebuild. intros H. apply mk_schema_ok in H as (_ & _ & _ & ->). reflexivity. Qed.
Lemma free_op l2 c op g : (sch' (op c) = let* s := sch' c in g s) -> (forall s t, g s = Ok t -> sc_group t = sc_group s) -> free l2 c -> free l2 (op c).
Proof.
  intros S G [F|F]; [now left|]. right. intros t H. rewrite S in H. apply bind_ok in H as (s & E & H). rewrite (G _ _ H). now apply F.
Qed.
Lemma drop_null_free l2 c l : free l2 c -> free l2 (DropNullAndNan c l).
Proof. apply (free_op l2 c (fun c => DropNullAndNan c l) (drop_null_schema l)); [reflexivity|]. intros s t H. unfold drop_null_schema in H. do 3 (apply bind_ok in H as (? & _ & H)). exact (rebuild_group _ _ _ H). Qed.
Lemma drop_inf_free l2 c l : free l2 c -> free l2 (DropInfinity c l).
Proof. apply (free_op l2 c (fun c => DropInfinity c l) (drop_inf_schema l)); [reflexivity|]. intros s t H. unfold drop_inf_schema in H. do 3 (apply bind_ok in H as (? & _ & H)). exact (rebuild_group _ _ _ H). Qed.
Lemma replace_inf_free l2 c l : free l2 c -> free l2 (ReplaceInfinity c l).
Proof. apply (free_op l2 c (fun c => ReplaceInfinity c l) (replace_inf_schema l)); [reflexivity|]. intros s t H. unfold replace_inf_schema in H. do 3 (apply bind_ok in H as (? & _ & H)). exact (rebuild_group _ _ _ H). Qed.
Lemma enforce_free l2 c k : free l2 c -> free l2 (EnforceConstraint c k).
Proof.
  apply (free_op l2 c (fun c => EnforceConstraint c k) (enforce_schema k)); [reflexivity|]. intros s t H. unfold enforce_schema in H. destruct (sc_id s); [|discriminate].
  destruct k; try (do 2 (apply bind_ok in H as (? & _ & H))); injection H as <-; reflexivity.
Qed.
Definition fit (l2 : bool) (c : query) : Prop := tab c /\ free l2 c.
Lemma drop_null_fit l2 c l : fit l2 c -> fit l2 (DropNullAndNan c l).
Proof. intros ((D & B & T) & F). split; [|now apply drop_null_free]. split; [exact D|]. split; [split; [reflexivity|exact B]|exact T]. Qed.
Lemma drop_inf_fit l2 c l : fit l2 c -> fit l2 (DropInfinity c l).
Proof. intros ((D & B & T) & F). split; [|now apply drop_inf_free]. split; [exact D|]. split; [split; [reflexivity|exact B]|exact T]. Qed.
Lemma enforce_fit l2 c k : fit l2 c -> fit l2 (EnforceConstraint c k).
Proof. intros ((D & B & T) & F). split; [|now apply enforce_free]. split; [exact D|]. split; [split; [reflexivity|exact B]|exact T]. Qed.
Lemma replace_inf_fit l2 c rw x : post_init auto (ReplaceInfinity x rw) = Ok (ReplaceInfinity x rw) -> fit l2 c -> fit l2 (ReplaceInfinity c rw).
Proof.
  intros P ((D & B & T) & F). split; [|now apply replace_inf_free]. split; [exact D|]. split; [|exact T]. split; [|exact B].
  cbn [post_init] in *. apply bind_ok in P as (u & E & _). now rewrite E.
Qed.
Lemma with_child_side q c m bo c1 : measured q = Some (c, m, bo) -> asks q -> fit (gaussian_wanted mu q) c1 -> asks (with_child q c1) /\ sub (with_child q c1) = with_child (sub q) (sub c1)
  /\ gaussian_wanted mu (with_child q c1) = gaussian_wanted mu q /\ exists bo', measured (with_child q c1) = Some (c1, m, bo').
Proof.
  intros M A (T & F). destruct A; try discriminate M; cbn [with_child]; injection M as <- <- <-.
  all: split; [constructor; [exact T|]; destruct mu; exact F|split; [reflexivity|split; [now destruct mu|cbn [measured]; eauto]]].
Qed.
Lemma handle_side q : asks q -> oks side (handle' q) (handle (sub q)).
Proof.
  intros A. unfold handle_special_values. destruct (measured q) as [((c, m), bo)|] eqn:M.
  2:{ destruct A; try discriminate M; cbn [subst replace measured oks]; split; try reflexivity; constructor; assumption. }
  assert (MS : measured (sub q) = Some (sub c, m, bo)) by (destruct A; try discriminate M; injection M as <- <- <-; reflexivity). rewrite MS.
  assert (FI : fit (gaussian_wanted mu q) c) by (destruct A; try discriminate M; injection M as <- <- <-; split; assumption).
  eapply oks_bind; [apply SCH, FI|]. intros s s1 SS. eapply oks_bind; [apply (lookup_side _ _ _ SS)|]. intros x y (TY & NU & DE & NI).
  assert (N : (is_decimal x && cd_nan x) = (is_decimal y && cd_nan y)) by (rewrite <- DE; destruct (is_decimal x); [apply NI; reflexivity|reflexivity]).
  assert (I : (is_decimal x && cd_inf x) = (is_decimal y && cd_inf y)) by (rewrite <- DE; destruct (is_decimal x); [apply NI; reflexivity|reflexivity]).
  rewrite <- N, <- I, <- NU. clear N I NU TY DE NI SS s s1 y.
  set (c1 := if cd_null x || (is_decimal x && cd_nan x) then DropNullAndNan c [m] else c).
  assert (F1 : fit (gaussian_wanted mu q) c1) by (unfold c1; destruct (cd_null x || _); [now apply drop_null_fit|exact FI]).
  assert (E1 : (if cd_null x || (is_decimal x && cd_nan x) then DropNullAndNan (sub c) [m] else sub c) = sub c1) by (unfold c1; destruct (cd_null x || _); reflexivity). rewrite E1.
  eapply (oks_bind (fun a b => side a b /\ gaussian_wanted mu a = gaussian_wanted mu q /\ exists c0 bo', measured a = Some (c0, m, bo'))).
  { destruct (cd_null x || _).
    - cbn [post_init bind]. destruct (with_child_side q c m bo (DropNullAndNan c [m]) M A (drop_null_fit _ _ _ FI)) as (A1 & E2 & G & bo' & M').
      change (DropNullAndNan (sub c) [m]) with (sub (DropNullAndNan c [m])). rewrite <- E2. pose proof (init_side _ A1) as IS. revert IS M' G. 
      destruct A; try discriminate M; injection M as <- <- <-; cbn [with_child post_init subst replace measured]; intros IS M' G;
      destruct (check_keys auto k); cbn [bind] in *; try exact Logic.I;
      try (destruct (raise_if _ _); cbn [bind] in *; [|exact Logic.I]); try (destruct (check_bounds _ _); cbn [bind] in *; [|exact Logic.I]); (split; [exact IS|]; split; [now destruct mu|eexists _, _; reflexivity]).
    - cbn [oks]. split; [now split|]. split; [reflexivity|eauto]. }
  intros q1 q1' ((A1 & ->) & G1 & c0 & bo' & M1). destruct (is_decimal x && cd_inf x); [|now split].
  set (c2 := match bo with None => DropInfinity c1 [m] | Some (lo, hi) => ReplaceInfinity c1 [(m, (to_float lo, to_float hi))] end).
  assert (E2 : match bo with None => DropInfinity (sub c1) [m] | Some (lo, hi) => ReplaceInfinity (sub c1) [(m, (to_float lo, to_float hi))] end = sub c2)
    by (unfold c2; destruct bo as [(lo, hi)|]; reflexivity). rewrite E2.
  assert (P : (post_init auto c2 = Ok c2 /\ post_init auto (sub c2) = Ok (sub c2) /\ fit (gaussian_wanted mu q) c2) \/ (exists e, post_init auto c2 = Err e /\ post_init auto (sub c2) = Err e)).
  { unfold c2. destruct bo as [(lo, hi)|]; cbn [subst replace]; fold (sub c1).
    - destruct (raise_if (existsb (fun p => negb (finite_f (fst (snd p)) && finite_f (snd (snd p)))) [(m, (to_float lo, to_float hi))]) ValueError) as [u|e] eqn:RI.
      + left. assert (Z : forall z, post_init auto (ReplaceInfinity z [(m, (to_float lo, to_float hi))]) = Ok (ReplaceInfinity z [(m, (to_float lo, to_float hi))])) by (intros z; cbn [post_init]; now rewrite RI).
        rewrite !Z. split; [reflexivity|]. split; [reflexivity|]. exact (replace_inf_fit _ c1 _ _ (Z c1) F1).
      + right. exists e. cbn [post_init]. rewrite RI. split; reflexivity.
    - left. split; [reflexivity|]. split; [reflexivity|]. now apply drop_inf_fit. }
  destruct P as [(-> & -> & F2)|(e & -> & ->)]; [|exact Logic.I]. cbn [bind].
  destruct (with_child_side q1 c0 m bo' c2 M1 A1) as (A2 & E3 & _); [rewrite G1; exact F2|]. rewrite <- E3. now apply init_side.
Qed.
Lemma df_handle cat0 c : built auto c -> is_table c -> df (handle_special_values auto (w_cond_ok W) cat0) c = Ok c.
Proof.
  intros B T. apply depth_first_id; [exact B|]. apply (table_everywhere (fun _ _ => true)); [|exact T]. intros x Tx. unfold handle_special_values. destruct x; first [exact (False_ind _ Tx)|reflexivity].
Qed.
Lemma df_noise cat0 c : built auto c -> is_table c -> df (select_noise auto (w_cond_ok W) mu cat0) c = Ok c.
Proof. intros B T. apply depth_first_id; [exact B|]. apply (table_everywhere (fun _ _ => true)); [|exact T]. intros x Tx. destruct x; first [exact (False_ind _ Tx)|reflexivity]. Qed.
Lemma df_side f f' q : (forall q, asks q -> oks side (f' q) (f (sub q))) -> (forall c, built auto c -> is_table c -> df f c = Ok c) -> (forall c, built auto c -> is_table c -> df f' c = Ok c) ->
  asks q -> oks side (df f' q) (df f (sub q)).
Proof.
  intros F D D' A.
  assert (G : forall q, asks q -> oks side (remade auto f' q) (remade auto f (sub q))).
  { intros q0 A0. unfold remade. eapply oks_bind; [exact (init_side q0 A0)|]. intros a b (A1 & ->). now apply F. }
  assert (T : forall c, tab c -> df f' c = Ok c /\ df f (sub c) = Ok (sub c)).
  { intros c (_ & B & T). split; [now apply D'|]. apply D; [now apply sub_built|now apply sub_table]. }
  induction A as [c l L TC FR|c k m a b TC FR|c k o m co TC FR|c k l o m co TC FR|c k m u a b o TC FR|kd c k m a b o me co TC FR|q l t A IH]; cbn [depth_first subst replace].
  1-6: fold (sub c); destruct (T c TC) as (-> & ->); cbn [bind].
  - apply (G (GetGroups c l)). now constructor.
  - apply (G (GetBounds c k m a b)). now constructor.
  - apply (G (GroupByCount c k o m co)). now constructor.
  - apply (G (GroupByCountDistinct c k l o m co)). now constructor.
  - apply (G (GroupByQuantile c k m u a b o)). now constructor.
  - apply (G (GroupByBounded kd c k m a b o me co)). now constructor.
  - fold (sub q). eapply oks_bind; [exact IH|]. intros x y (AX & ->). rewrite (count_sub _ AX). apply oks_same. intros _. apply (G (SuppressAggregates x l t)). now constructor.
Qed.
Lemma rewrite_side q : asks q -> oks side (rewrite auto (w_cond_ok W) mu cat' q) (rewrite auto (w_cond_ok W) mu cat (sub q)).
Proof.
  intros A. unfold rewrite. eapply oks_bind.
  - apply df_side; [exact handle_side|exact (df_handle cat)|exact (df_handle cat')|exact A].
  - intros x y (AX & ->). apply df_side; [exact noise_side|exact (df_noise cat)|exact (df_noise cat')|exact AX].
Qed.

(** After rewriting, the mechanism is the one that was wanted. *)
Fixpoint fixed (q : query) : Prop :=
  match q with
  | GroupByCount _ _ _ _ co | GroupByCountDistinct _ _ _ _ _ co | GroupByBounded _ _ _ _ _ _ _ _ co => forall c, co = Some c -> gaussian c = gaussian_wanted mu q
  | SuppressAggregates c _ _ => fixed c
  | _ => True
  end.
Lemma count_noise_wanted m c x k o co : count_noise mu m = Ok x -> gaussian x = gaussian_wanted mu (GroupByCount c k o m co).
Proof. unfold count_noise. destruct m, mu; intros H; try discriminate H; injection H as <-; reflexivity. Qed.
Lemma other_noise_wanted m t x kd c k me a b o co : other_noise mu m t = Ok x -> gaussian x = gaussian_wanted mu (GroupByBounded kd c k me a b o m co).
Proof.
  unfold other_noise. intros H. apply bind_ok in H as (y & Y & H). injection H as <-. destruct m, mu; try discriminate Y; injection Y as <-; destruct (ctype_eqb t INTEGER); reflexivity.
Qed.
Lemma init_fixed q q' : fixed q -> post_init auto q = Ok q' -> fixed q'.
Proof.
  destruct q; cbn [post_init]; intros F H; repeat (apply bind_ok in H as (? & _ & H)); injection H as <-; try exact F; try exact Logic.I.
Qed.
Lemma noise_fixed q q' : asks q -> (forall c l t, q = SuppressAggregates c l t -> fixed c) -> noise' q = Ok q' -> fixed q'.
Proof.
  intros A S. destruct A; cbn [select_noise]; intros N; try (injection N as <-; exact Logic.I).
  - apply bind_ok in N as (x & X & N). refine (init_fixed _ _ _ N). cbn [fixed]. intros y Y. injection Y as <-. exact (count_noise_wanted _ _ _ _ _ _ X).
  - apply bind_ok in N as (x & X & N). refine (init_fixed _ _ _ N). cbn [fixed]. intros y Y. injection Y as <-. exact (count_noise_wanted m c x k o None X).
  - apply bind_ok in N as (? & _ & N). apply bind_ok in N as (? & _ & N). apply bind_ok in N as (? & _ & N). apply bind_ok in N as (xm & X & N).
    refine (init_fixed _ _ _ N). cbn [fixed]. intros y Y. injection Y as <-. exact (other_noise_wanted _ _ _ _ _ _ _ _ _ _ _ X).
  - injection N as <-. cbn [fixed]. exact (S _ _ _ eq_refl).
Qed.
Lemma init_asks q q' : asks q -> post_init auto q = Ok q' -> asks q'.
Proof. intros A H. pose proof (init_side q A) as S. rewrite H in S. destruct (post_init auto (sub q)); [|destruct S]. apply S. Qed.
Lemma df_fixed q : asks q -> forall q', df noise' q = Ok q' -> fixed q'.
Proof.
  assert (G : forall q q', asks q -> (forall c l t, q = SuppressAggregates c l t -> fixed c) -> remade auto noise' q = Ok q' -> fixed q').
  { intros q0 q' A S H. unfold remade in H. apply bind_ok in H as (q1 & I & H). apply (noise_fixed q1 q'); [exact (init_asks _ _ A I)| |exact H].
    intros c l t ->. destruct q0; cbn [post_init] in I; repeat (apply bind_ok in I as (? & _ & I)); injection I; intros; subst; try discriminate. eapply S. reflexivity. }
  induction 1 as [c l L TC FR|c k m a b TC FR|c k o m co TC FR|c k l o m co TC FR|c k m u a b o TC FR|kd c k m a b o me co TC FR|q l t A IH]; intros q' H; cbn [depth_first] in H.
  1-6: rewrite (df_noise cat' c) in H by (apply TC); cbn [bind] in H; refine (G _ _ _ _ H); [now constructor|intros; discriminate].
  apply bind_ok in H as (x & X & H). apply bind_ok in H as (? & _ & H). refine (G _ _ _ _ H).
  - pose proof (df_side _ _ q noise_side (df_noise cat) (df_noise cat') A) as S. rewrite X in S. destruct (df noise (sub q)); [|destruct S]. constructor. apply S.
  - intros c0 l0 t0 E. injection E as <- <- <-. exact (IH x X).
Qed.
Lemma rewrite_fixed q q' : asks q -> rewrite auto (w_cond_ok W) mu cat' q = Ok q' -> fixed q'.
Proof.
  intros A H. unfold rewrite in H. apply bind_ok in H as (q1 & H1 & H). refine (df_fixed q1 _ q' H).
  pose proof (df_side _ _ q handle_side (df_handle cat) (df_handle cat') A) as S. rewrite H1 in S. destruct (df handle (sub q)); [|destruct S]. apply S.
Qed.

(** Measuring, side by side. *)
Lemma child_side c q : dicts q -> free (gaussian c) q -> oks eq (child_table W cat' data' c q) (child_table W cat data c (sub q)).
Proof. intros D F. unfold child_table. now apply build_at. Qed.
Lemma schema_side q : asks q -> oks same_schema (sch' q) (sch (sub q)).
Proof. intros A. apply SCH, asks_dicts, A. Qed.
Lemma budgets_side b q k m : dicts q -> oks eq (budgets R W cat' b q k m) (budgets R W cat b (sub q) k m).
Proof. intros D. unfold budgets. apply oks_same. intros adj. eapply oks_bind; [apply SCH, D|]. intros _ _ _. apply oks_refl. Qed.
Ltac both_sides := let a := fresh "a" in eapply oks_bind; [apply oks_refl|intros a ? <-].
Lemma count_side b c k o m co : fit (gaussian_wanted mu (GroupByCount c k o m co)) c -> fixed (GroupByCount c k o m co) ->
  oks eq (visit_count R W K so mu cat' data' b c k o m co) (visit_count R W K so mu cat data b (sub c) k o m co).
Proof.
  intros (T & F) FX. unfold visit_count. eapply oks_bind; [apply (budgets_side b (GroupByCount c k o m co)); apply T|]. intros bs ? <-.
  destruct co as [cm|]; [|exact Logic.I]. cbn [core_mechanism bind]. eapply oks_bind; [apply child_side; [apply T|rewrite (FX cm eq_refl); exact F]|]. intros x ? <-. apply oks_refl.
Qed.
Lemma counts_same columns s s1 i : same_schema s s1 -> counts_only columns s i = counts_only columns s1 i.
Proof.
  intros SS. unfold counts_only. destruct columns as [|x l]; [|reflexivity].
  apply eq_true_iff_eq. rewrite !andb_true_iff, !smem_In, !forallb_forall. split; intros (A & B); (split; [apply (ss_keys _ _ SS); exact A|]; intros y Y; apply B; apply (ss_keys _ _ SS); exact Y).
Qed.
Theorem measure_side q : asks q -> forall b, (is_approx b = true -> mu <> RhoZCDP) -> fixed q -> 
  oks eq (measure_query R W K auto so mu cat' data' b q) (measure_query R W K auto so mu cat data b (sub q)).
Proof.
  induction 1 as [c l L TC FR|c k m a b TC FR|c k o m co TC FR|c k l o m co TC FR|c k m u a b o TC FR|kd c k m a b o me co TC FR|q l t A IH]; intros bu NR FX; cbn [measure_query subst replace]; try fold (sub c).
  - unfold visit_groups. destruct (is_approx bu) eqn:AP; [|exact Logic.I]. cbn [negb raise_if bind]. specialize (NR eq_refl).
    eapply oks_bind; [apply SCH, TC|]. intros s s1 SS. rewrite <- (ss_id _ _ SS). destruct l as [|l0 l]; [contradiction|]. apply oks_same. intros _.
    eapply oks_bind; [apply child_side; [apply TC|]; destruct mu; [exact FR|exact FR|congruence]|]. intros x ? <-. apply oks_refl.
  - unfold visit_bounds. eapply oks_bind; [apply (budgets_side bu (GetBounds c k m a b)); apply TC|]. intros bs ? <-.
    eapply oks_bind; [apply child_side; [apply TC|destruct mu; exact FR]|]. intros x ? <-. apply oks_refl.
  - apply count_side; [split; assumption|exact FX].
  - unfold visit_count_distinct. eapply oks_bind; [apply (budgets_side bu (GroupByCountDistinct c k l o m co)); apply TC|]. intros bs ? <-.
    destruct co as [cm|]; [|exact Logic.I]. cbn [core_mechanism bind]. eapply oks_bind; [apply child_side; [apply TC|rewrite (FX cm eq_refl); exact FR]|]. intros x ? <-.
    eapply oks_bind; [apply SCH, TC|]. intros s s1 SS.
    assert (C : (exists k0, constrained_child c k l s (snd x) = Some (EnforceConstraint c k0) /\ constrained_child (sub c) k l s1 (snd x) = Some (sub (EnforceConstraint c k0)))
                \/ (constrained_child c k l s (snd x) = None /\ constrained_child (sub c) k l s1 (snd x) = None)).
    { unfold constrained_child. rewrite <- (ss_id _ _ SS). destruct (sc_id s) as [i|]; [|auto]. rewrite <- (counts_same l _ _ i SS).
      destruct (counts_only l s i); [|auto]. destruct (keys_columns k) as [|g [|g' gs]]; [left; eexists; split; reflexivity| |auto]. destruct (existsb _ _); [left; eexists; split; reflexivity|auto]. }
    destruct C as [(k0 & -> & ->)|(-> & ->)]; [|apply oks_refl].
    assert (FE : fit (gaussian_wanted mu (GroupByCount (EnforceConstraint c k0) k o m (Some cm))) (EnforceConstraint c k0)) by (apply enforce_fit; split; [exact TC|destruct mu; exact FR]).
    eapply oks_bind; [apply (init_side (GroupByCount (EnforceConstraint c k0) k o m (Some cm))); constructor; apply FE|]. intros _ _ _.
    apply count_side; [exact FE|]. cbn [fixed] in *. intros y Y. rewrite (FX y Y). now destruct mu.
  - unfold visit_quantile. eapply oks_bind; [apply (budgets_side bu (GroupByQuantile c k m u a b o)); apply TC|]. intros bs ? <-.
    eapply oks_bind; [apply child_side; [apply TC|destruct mu; exact FR]|]. intros x ? <-. apply oks_refl.
  - unfold visit_bounded. eapply oks_bind; [apply (budgets_side bu (GroupByBounded kd c k m a b o me co)); apply TC|]. intros bs ? <-.
    destruct co as [cm|]; [|exact Logic.I]. cbn [core_mechanism bind]. eapply oks_bind; [apply child_side; [apply TC|rewrite (FX cm eq_refl); exact FR]|]. intros x ? <-. apply oks_refl.
  - fold (sub q). eapply oks_bind; [apply (schema_side (SuppressAggregates q l t)); now constructor|]. intros _ _ _.
    eapply oks_bind; [apply IH; [exact NR|exact FX]|]. intros x ? <-. apply oks_refl.
Qed.
Theorem compile_side b q : (is_approx b = true -> mu <> RhoZCDP) -> asks q ->
  oks eq (compile R W K auto so mu cat' data' b q) (compile R W K auto so mu cat data b (sub q)).
Proof.
  intros NR A. unfold compile. eapply oks_bind; [now apply schema_side|]. intros _ _ _.
  pose proof (rewrite_side q A) as RS. pose proof (fun q' => rewrite_fixed q q' A) as RF.
  destruct (rewrite auto (w_cond_ok W) mu cat' q) as [q1|], (rewrite auto (w_cond_ok W) mu cat (sub q)) as [q2|]; [destruct RS as (A1 & ->)|destruct RS|destruct RS|exact Logic.I].
  cbn [bind]. eapply oks_bind; [apply measure_side; [exact A1|exact NR|apply RF; reflexivity]|]. intros x ? <-. apply oks_refl.
Qed.
End Proofs.
