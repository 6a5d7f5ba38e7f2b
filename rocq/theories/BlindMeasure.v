(** Compiling a query does not look at the rows of private tables. *)
From Coq Require Import String Bool Arith ZArith QArith Qcanon Lia Permutation List.
From Verif Require Import Prelude Budget Value Rows Constraints Schema SchemaProofs Query Rewrite Transform Tables Accountant Session Measure
  BlindSpec Blind.
Import ListNotations.
Local Open Scope string_scope.
Local Open Scope nat_scope.

Definition hide_plan (g : plan) : plan :=
  {| g_table := hide (g_table g); g_keys := g_keys g; g_keys_budget := g_keys_budget g; g_agg := g_agg g; g_mech := g_mech g;
     g_budget := g_budget g; g_outs := g_outs g |}.
Fixpoint hide_measurement (m : measurement) : measurement :=
  match m with
  | MGroupBy total g => MGroupBy total (hide_plan g)
  | MGroups t cols b => MGroups (hide t) cols b
  | MSuppress m col th => MSuppress (hide_measurement m) col th
  end.
(** tmlt.core's constructors get domains and metrics, never data. *)
Record blind_core (K : core) : Prop := {
  bc_builds : forall g, k_builds K (hide_plan g) = k_builds K g;
  bc_groups_builds : forall t b, k_groups_builds K (hide t) b = k_groups_builds K t b;
  bc_groups_loss : forall t b, k_groups_loss K (hide t) b = k_groups_loss K t b
}.

Section Compile.
Variable R : rounding.
Variable W : world.
Variable K : core.
Hypothesis BK : blind_core K.
Variable auto : bool.
Variable so : list string -> list string.
Variable mu : measure.
Variable cat : catalog.
Variable data : dict vtab.
Notation hdata := (hide_all data).
Notation h := (fun x : measurement * budget => (hide_measurement (fst x), snd x)).

Lemma enforce_all_hide RO KO grouping : forall cs y, enforce_all RO KO mu grouping cs {| t_place := t_place y; t_rows := [] |}
  = rmap (fun y => {| t_place := t_place y; t_rows := [] |}) (enforce_all RO KO mu grouping cs y).
Proof.
  induction cs as [|c cs IH]; intros y; [reflexivity|]. cbn [enforce_all].
  pose proof (enforce_hide RO KO c true (use_l2 mu grouping c) {| v_dom := []; v_coll := None; v_place := t_place y; v_rows := t_rows y |}) as EH.
  cbn [v_place v_rows] in EH. rewrite EH, bind_rmap, rmap_bind. destruct y as (pl, rows). cbn [t_place t_rows]. apply bind_ext. intros z. apply IH.
Qed.
Lemma truncated_hide grouping x : truncated W so mu grouping (hide2 x) = rmap hide (truncated W so mu grouping x).
Proof.
  destruct x as (t, cs). unfold truncated, hide2. cbn [fst snd hide v_place v_rows v_dom v_coll].
  unfold truncate_table. cbn [t_place]. destruct (v_place t) as [i| | |]; try reflexivity.
  destruct (choose_trunc so mu grouping cs) as [tr|]; [|reflexivity].
  pose proof (enforce_all_hide (w_row_order W) (w_key_order W) grouping (trunc_constraints tr) {| t_place := PKeys i; t_rows := v_rows t |}) as EA.
  cbn [t_place] in EA. rewrite EA, bind_rmap, rmap_bind. apply bind_ext. reflexivity.
Qed.
Lemma child_hide c q : child_table W cat hdata c q = rmap hide2 (child_table W cat data c q).
Proof. apply build_hide. Qed.
Lemma finish_hide bs k c a outs t : finish K bs k c a outs (hide t) = rmap h (finish K bs k c a outs t).
Proof.
  destruct bs as ((adj, kb), qb). unfold finish. rewrite rmap_bind.
  set (g := {| g_table := t; g_keys := k; g_keys_budget := kb; g_agg := a; g_mech := c; g_budget := qb; g_outs := outs |}).
  change ({| g_table := hide t; g_keys := k; g_keys_budget := kb; g_agg := a; g_mech := c; g_budget := qb; g_outs := outs |}) with (hide_plan g).
  rewrite (bc_builds K BK). apply bind_ext. intros _. rewrite rmap_bind. apply bind_ext. reflexivity.
Qed.
Ltac st := rewrite rmap_bind; apply bind_ext; intros ?.
Lemma count_hide b child k out m co : visit_count R W K so mu cat hdata b child k out m co = rmap h (visit_count R W K so mu cat data b child k out m co).
Proof.
  unfold visit_count. st. st. rewrite child_hide, bind_rmap. st. rewrite truncated_hide, bind_rmap. st. apply finish_hide.
Qed.
Lemma select_hide cols t cs : visit_select cols (hide t, cs) = rmap hide2 (visit_select cols (t, cs)).
Proof. unfold visit_select. cbn [hide v_dom v_place v_rows v_coll]. st. st. reflexivity. Qed.
Lemma counted_hide columns k t : counted_columns columns k (hide t) = rmap hide (counted_columns columns k t).
Proof.
  unfold counted_columns. destruct columns; [reflexivity|]. destruct k; [|reflexivity]. rewrite select_hide, bind_rmap. st. reflexivity.
Qed.
Lemma measure_hide b : forall q, measure_query R W K auto so mu cat hdata b q = rmap h (measure_query R W K auto so mu cat data b q).
Proof.
  induction q; cbn [measure_query]; try reflexivity.
  - unfold visit_groups. st. st. st. rewrite child_hide, bind_rmap. st. rewrite truncated_hide, bind_rmap. st.
    change (unwrap (hide a3)) with (hide (unwrap a3)). rewrite select_hide, bind_rmap. st. change (fst (hide2 a4)) with (hide (fst a4)). rewrite (bc_groups_builds K BK). st. cbn [privacy_loss].
    rewrite (bc_groups_loss K BK). st. reflexivity.
  - unfold visit_bounds. st. rewrite child_hide, bind_rmap. st. rewrite truncated_hide, bind_rmap. st. apply (finish_hide _ _ _ _ _ (unwrap _)).
  - apply count_hide.
  - unfold visit_count_distinct. st. st. rewrite child_hide, bind_rmap. st. st. change (snd (hide2 a1)) with (snd a1).
    destruct (constrained_child q keys columns a2 (snd a1)) as [child'|].
    + st. apply count_hide.
    + rewrite truncated_hide, bind_rmap. st. rewrite counted_hide, bind_rmap. st. apply finish_hide.
  - unfold visit_quantile. st. rewrite child_hide, bind_rmap. st. rewrite truncated_hide, bind_rmap. st. apply finish_hide.
  - unfold visit_bounded. st. st. rewrite child_hide, bind_rmap. st. rewrite truncated_hide, bind_rmap. st. apply finish_hide.
  - st. rewrite IHq, bind_rmap. st. reflexivity.
Qed.
Lemma privacy_loss_hide m : privacy_loss K (hide_measurement m) = privacy_loss K m.
Proof. induction m; cbn; [reflexivity|apply (bc_groups_loss K BK)|exact IHm]. Qed.
Lemma compile_hide' b q : compile R W K auto so mu cat hdata b q = rmap hide_measurement (compile R W K auto so mu cat data b q).
Proof.
  unfold compile. st. st. rewrite measure_hide, bind_rmap. st. cbn [fst snd]. rewrite privacy_loss_hide. st. reflexivity.
Qed.
End Compile.
