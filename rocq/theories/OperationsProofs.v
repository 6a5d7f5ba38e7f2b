(** What the visitor does to rows is what OperationsSpec.v says. *)
From Coq Require Import String Bool Arith ZArith QArith Qcanon Lia Permutation List.
From Verif Require Import Prelude Value Rows Constraints ConstraintsSpec ConstraintsProofs Schema SchemaProofs
  Query Transform TransformSpec TransformConform TransformVisit TransformIds TransformAgree PropagateProofs OperationsSpec.
Import ListNotations.
Local Open Scope string_scope.
Local Open Scope nat_scope.

Lemma Forall2_map_r {A B} (P : A -> B -> Prop) (f : A -> B) l : (forall x, In x l -> P x (f x)) -> Forall2 P l (map f l).
Proof.
  induction l as [|x l IH]; intros H; cbn [map]; constructor; [apply H; left; reflexivity|].
  apply IH. intros y I. apply H. right. exact I.
Qed.
Lemma filter_both {A} (p q : A -> bool) l : filter p (filter q l) = filter (fun x => q x && p x) l.
Proof.
  induction l as [|x l IH]; cbn [filter]; [reflexivity|]. destruct (q x); cbn [filter andb]; [|exact IH].
  destruct (p x); rewrite IH; reflexivity.
Qed.
Lemma filter_in_ext {A} (p q : A -> bool) l : (forall x, In x l -> (p x = true <-> q x = true)) -> filter p l = filter q l.
Proof.
  intros H. apply filter_ext_in. intros x I. specialize (H x I). destruct (p x), (q x); intuition congruence.
Qed.
Lemma getv_cellwise (g : string -> value -> value) c (r : rec) : In c (dkeys r) ->
  getv c (map (fun p => (fst p, g (fst p) (snd p))) r) = g c (getv c r).
Proof.
  intros I. apply in_dkeys in I as (v & E). rewrite (getv_dget c r v E). apply getv_dget.
  induction r as [|[k w] r IH]; [discriminate|]. cbn [map fst snd dget] in *.
  destruct (String.eqb c k) eqn:K; [|apply IH, E]. apply String.eqb_eq in K. subst k. injection E as <-. reflexivity.
Qed.
Lemma dkeys_cellwise (g : string -> value -> value) (r : rec) : dkeys (map (fun p => (fst p, g (fst p) (snd p))) r) = dkeys r.
Proof. unfold dkeys. rewrite map_map. reflexivity. Qed.

(** ** A table and its schema *)
Record fitting (l2 : bool) (s : schema) (t : vtab) : Prop := {
  ft_nodup : NoDup (dkeys (v_dom t));
  ft_cols : NoDup (dkeys (sc_cols s));
  ft_conf : conforms (sc_cols s) (v_rows t);
  ft_dom : in_domain (v_dom t) (v_rows t);
  ft_metric : metric_for l2 s (v_place t);
  ft_same : same_entries (v_dom t) (analytics_to_core s)
}.

Section Ops.
Variables (W : world) (l2 : bool) (cat : catalog).
Variables (s : schema) (t : vtab) (cs : list constraint).
Hypothesis FT : fitting l2 s t.

Lemma dom_get c : dget c (v_dom t) = option_map to_core (dget c (sc_cols s)).
Proof. rewrite (ft_same _ _ _ FT c), analytics_to_core_cols. apply dget_core_cols. Qed.
Lemma dom_column c : In c (dkeys (v_dom t)) <-> column s c.
Proof. unfold column. rewrite !in_dkeys, dom_get. destruct (dget c (sc_cols s)); cbn; split; intros (v & E); try discriminate; eauto. Qed.
Lemma row_column r c : In r (v_rows t) -> (In c (dkeys r) <-> column s c).
Proof. intros I. apply (ft_conf _ _ _ FT r I). Qed.
Lemma row_cell r c d : In r (v_rows t) -> dget c (sc_cols s) = Some d -> cell_ok d (getv c r) = true.
Proof. intros I. apply (ft_conf _ _ _ FT r I). Qed.
Lemma metric_key c : metric_column (v_place t) = Some c <-> key_column s c.
Proof.
  unfold key_column. pose proof (ft_metric _ _ _ FT) as M. unfold metric_for in M.
  destruct (sc_group s) as [g|], (sc_id s) as [i|]; try contradiction; rewrite M; cbn [metric_column]; intuition congruence.
Qed.
Lemma is_col_key c : is_col (metric_column (v_place t)) c = true <-> key_column s c.
Proof.
  rewrite <- metric_key. unfold is_col. destruct (metric_column (v_place t)) as [k|]; [|split; discriminate].
  rewrite String.eqb_eq. split; [intros ->; reflexivity|congruence].
Qed.
Definition an : dict coldesc := map (fun p => (fst p, view (snd p))) (v_dom t).
Lemma an_get c : dget c an = option_map (fun d => view (to_core d)) (dget c (sc_cols s)).
Proof. unfold an. rewrite (dget_map_val view), dom_get. destruct (dget c (sc_cols s)); reflexivity. Qed.
Lemma an_nodup : NoDup (dkeys an).
Proof. unfold an. rewrite dkeys_map_val. apply (ft_nodup _ _ _ FT). Qed.

(** What cells a column can have, by the descriptor that the visitor sees. *)
Lemma null_view d : cell_ok d VNull = true -> cd_null (view (to_core d)) = true.
Proof. destruct d as [[] n x i]; cbn; intros H; exact H. Qed.
Lemma nan_view d : cell_ok d (VFloat FNan) = true -> cd_type d = DECIMAL /\ cd_nan (view (to_core d)) = true.
Proof. destruct d as [[] n x i]; cbn; intros H; try discriminate; auto. Qed.
Lemma inf_view d v : infinite_cell v -> cell_ok d v = true -> cd_type d = DECIMAL /\ cd_inf (view (to_core d)) = true.
Proof. intros [-> | ->]; destruct d as [[] n x i]; cbn; intros H; try discriminate; auto. Qed.
Lemma type_view d : cd_type (view (to_core d)) = cd_type d.
Proof. destruct d as [[] n x i]; reflexivity. Qed.
Lemma decimal_view d : is_decimal (view (to_core d)) = true <-> cd_type d = DECIMAL.
Proof. destruct d as [[] n x i]; cbn; split; intros; congruence. Qed.
Lemma is_null_eq v : is_null v = true <-> v = VNull.
Proof. destruct v; cbn; split; intros; congruence. Qed.
Lemma is_nan_eq v : is_nan v = true <-> v = VFloat FNan.
Proof. destruct v as [| |[]| | |]; cbn; split; intros; congruence. Qed.
Lemma is_inf_eq v : is_inf v = true <-> infinite_cell v.
Proof. unfold infinite_cell. destruct v as [| |[]| | |]; cbn; intuition congruence. Qed.

(** *** Rows kept, cells moved *)
Lemma filter_spec cond t' cs' : visit_filter W cond (t, cs) = Ok (t', cs') -> filtered (w_cond_holds W cond) (v_rows t) (v_rows t').
Proof. unfold visit_filter. intros H. injection H as <- <-. reflexivity. Qed.

Lemma select_spec cols t' cs' : visit_select cols (t, cs) = Ok (t', cs') -> selected cols (v_rows t) (v_rows t').
Proof.
  unfold visit_select. intros H. apply bind_ok in H as (d & E & H). apply bind_ok in H as (u & _ & H). injection H as <- <-.
  cbn [v_rows]. apply Forall2_map_r. intros r I. split; [apply dkeys_select|]. intros c Ic.
  split; [|apply getv_select, Ic]. apply (row_column r c I), dom_column.
  pose proof (proj1 (mapM_ok_Forall2 _ _ _) E) as F. clear -F Ic.
  induction F as [|x y l l' H F IH]; [contradiction|]. destruct Ic as [-> |Ic]; [|apply IH, Ic].
  destruct (dget c (v_dom t)) as [k|] eqn:G; [|discriminate]. apply in_dkeys. eauto.
Qed.

Lemma rename_spec m t' cs' : NoDup (map (new_name m) (dkeys (sc_cols s))) -> visit_rename m (t, cs) = Ok (t', cs') ->
  columns_renamed m (v_rows t) (v_rows t').
Proof.
  unfold visit_rename. intros N H. apply bind_ok in H as (u & _ & H). injection H as <- <-. cbn [v_rows].
  apply Forall2_map_r. intros r I. unfold rename_row. split; [apply (dkeys_rekey (renamed m))|].
  intros c Ic. pose proof Ic as Ic'. apply in_dkeys in Ic as (v & G). rewrite (getv_dget c r v G). apply getv_dget.
  change (new_name m c) with (renamed m c). rewrite (dget_rekey (renamed m)); [exact G| |exact Ic'].
  apply (Permutation_NoDup (l := map (renamed m) (dkeys (sc_cols s)))); [|exact N]. apply Permutation_map, same_keys_perm.
  - apply (ft_cols _ _ _ FT).
  - apply (ft_conf _ _ _ FT r I).
  - intros x. symmetry. apply (row_column r x I).
Qed.

(** *** Special values *)
Lemma kept_spec bad (badb : value -> bool) looked cols keep : (forall v, badb v = true <-> bad v) ->
  (forall r c, In r (v_rows t) -> bad (getv c r) -> (In c cols <-> looked c)) ->
  (forall r, In r (v_rows t) -> (keep r = true <-> forall c, looked c -> ~ bad (getv c r))) ->
  drop_rows badb cols (v_rows t) = filter keep (v_rows t).
Proof.
  intros B L K. unfold drop_rows. apply filter_in_ext. intros r I. rewrite (K r I), negb_true_iff. split.
  - intros E c Lc Bc. apply (proj2 (L r c I Bc)) in Lc. apply B in Bc.
    apply not_true_iff_false in E. apply E, existsb_exists. eauto.
  - intros A. apply not_true_iff_false. intros E. apply existsb_exists in E as (c & Ic & Bc). apply B in Bc.
    apply (A c); [apply (L r c I Bc), Ic|exact Bc].
Qed.

Lemma drop_null_spec cols t' cs' : visit_drop_null cols (t, cs) = Ok (t', cs') ->
  kept missing_cell (looked_for_missing s cols) (v_rows t) (v_rows t').
Proof.
  unfold visit_drop_null. rewrite core_to_analytics_view. cbn [bind]. fold an. intros H.
  apply bind_ok in H as (u & _ & H). apply bind_ok in H as (u' & K & H). apply bind_ok in H as (u'' & M & H).
  injection H as <- <-. cbn [v_rows].
  set (columns := match cols with [] => _ | _ => _ end) in *.
  set (nans := filter _ columns). set (nulls := filter _ columns).
  assert (CL : forall c, In c columns -> column s c).
  { intros c Ic. destruct (missing columns an) eqn:Mi; [discriminate|].
    unfold missing in Mi. rewrite <- not_true_iff_false, existsb_exists in Mi.
    destruct (dmem c an) eqn:G; [|exfalso; apply Mi; exists c; rewrite G; auto].
    apply dmem_In in G. unfold an in G. rewrite dkeys_map_val in G. apply dom_column, G. }
  assert (LK : forall r c, In r (v_rows t) -> missing_cell (getv c r) -> column s c -> (In c columns <-> looked_for_missing s cols c)).
  { intros r c I Bc Co. unfold columns, looked_for_missing. destruct cols as [|c0 l]; [|tauto].
    unfold column in Co. apply in_dkeys in Co as (d & Gd). pose proof (row_cell r c d I Gd) as OK.
    rewrite in_dkeys. split.
    - intros (k & E). apply (dget_filter_keys _ _ _ _ an_nodup) in E as (E & F). cbn [fst snd] in F.
      apply andb_true_iff in F as (_ & F). apply negb_true_iff in F. split; [apply in_dkeys; eauto|].
      intros KC. apply is_col_key in KC. congruence.
    - intros (_ & NK). exists (view (to_core d)). apply In_dget.
      + apply NoDup_filter_keys, an_nodup.
      + apply filter_In. split; [apply dget_In; rewrite an_get, Gd; reflexivity|]. cbn [fst snd]. apply andb_true_iff. split.
        * destruct Bc as [Bc|Bc]; rewrite Bc in OK; [rewrite (null_view _ OK)|rewrite (proj2 (nan_view _ OK)), orb_true_r]; reflexivity.
        * apply negb_true_iff, not_true_iff_false. rewrite is_col_key. exact NK. }
  intros keep HK.
  assert (D : drop_rows is_nan nans (drop_rows is_null nulls (v_rows t))
            = drop_rows (fun v => is_null v || is_nan v) columns (v_rows t)).
  { unfold drop_rows. rewrite filter_both. apply filter_in_ext. intros r I.
    rewrite andb_true_iff, !negb_true_iff, <- !not_true_iff_false, !existsb_exists. split.
    - intros (A & B) (c & Ic & E). pose proof (CL c Ic) as Co. unfold column in Co. apply in_dkeys in Co as (d & Gd).
      pose proof (row_cell r c d I Gd) as OK. apply orb_true_iff in E as [E|E].
      + apply A. exists c. split; [|exact E]. apply filter_In. split; [exact Ic|]. rewrite an_get, Gd. cbn [option_map].
        apply is_null_eq in E. rewrite E in OK. apply null_view, OK.
      + apply B. exists c. split; [|exact E]. apply filter_In. split; [exact Ic|]. rewrite an_get, Gd. cbn [option_map].
        apply is_nan_eq in E. rewrite E in OK. apply nan_view, OK.
    - intros A. split; intros (c & Ic & E); apply filter_In in Ic as (Ic & _); apply A; exists c; (split; [exact Ic|]); rewrite E; rewrite ?orb_true_r; reflexivity. }
  rewrite D. apply (kept_spec missing_cell _ (fun c => column s c /\ looked_for_missing s cols c)).
  - intros v. rewrite orb_true_iff, is_null_eq, is_nan_eq. reflexivity.
  - intros r c I B. split; [intros Ic; split; [apply CL, Ic|apply (LK r c I B (CL c Ic)), Ic]|].
    intros (Co & L). apply (LK r c I B Co), L.
  - intros r I. rewrite (HK r I). split; [intros A c (_ & L); apply A, L|]. intros A c L. apply A. split; [|exact L].
    unfold looked_for_missing in L. destruct cols as [|c0 l]; [apply L|]. apply CL. exact L.
Qed.

Lemma drop_inf_spec cols t' cs' : visit_drop_inf cols (t, cs) = Ok (t', cs') ->
  kept infinite_cell (looked_for_infinite s cols) (v_rows t) (v_rows t').
Proof.
  unfold visit_drop_inf. rewrite core_to_analytics_view. cbn [bind]. fold an. intros H.
  apply bind_ok in H as (u & _ & H). apply bind_ok in H as (columns & C & H). injection H as <- <-. cbn [v_rows].
  intros keep HK. unfold looked_for_infinite in HK. destruct cols as [|c0 l].
  - injection C as <-. apply (kept_spec infinite_cell _ (column s) _ _ is_inf_eq); [|exact HK].
    intros r c I B. rewrite in_dkeys. split.
    + intros (k & E). apply (dget_filter_keys _ _ _ _ an_nodup) in E as (E & _). rewrite an_get in E.
      unfold column. apply in_dkeys. destruct (dget c (sc_cols s)) as [d|]; [eauto|discriminate].
    + intros Co. unfold column in Co. apply in_dkeys in Co as (d & Gd). pose proof (row_cell r c d I Gd) as OK.
      destruct (inf_view d _ B OK) as (T & Iv). exists (view (to_core d)). apply In_dget; [apply NoDup_filter_keys, an_nodup|].
      apply filter_In. split; [apply dget_In; rewrite an_get, Gd; reflexivity|]. cbn [snd]. rewrite Iv, (proj2 (decimal_view d) T). reflexivity.
  - apply bind_ok in C as (x & _ & C). injection C as <-.
    apply (kept_spec infinite_cell _ (fun c => In c (c0 :: l)) _ _ is_inf_eq); [tauto|exact HK].
Qed.

Lemma replace_null_spec rw t' cs' : NoDup (dkeys rw) -> visit_replace_null rw (t, cs) = Ok (t', cs') ->
  cells_replaced s (replaces_missing s rw) (v_rows t) (v_rows t').
Proof.
  intros Nrw. unfold visit_replace_null. rewrite core_to_analytics_view. intros H.
  apply bind_ok in H as (u & KE & H). cbn [bind] in H. fold an in H. apply bind_ok in H as (m & Em & H). injection H as <- <-. cbn [v_rows].
  set (nans := filter _ m). set (nulls := filter _ m). apply Forall2_map_r. intros r I.
  rewrite replace_nans_cells, replace_nulls_cells. split; [rewrite !dkeys_cellwise; reflexivity|]. intros c Co.
  assert (Ir : In c (dkeys r)) by (apply (row_column r c I), Co).
  rewrite getv_cellwise by (rewrite dkeys_cellwise; exact Ir). rewrite getv_cellwise by exact Ir.
  unfold column in Co. apply in_dkeys in Co as (d & Gd). pose proof (row_cell r c d I Gd) as OK.
  set (old := getv c r) in *.
  (* the replacement for c *)
  assert (Nm : NoDup (dkeys m) /\
    (rw = [] -> forall v, dget c m = Some v -> v = default_for (cd_type d) /\ ~ key_column s c)
    /\ (rw = [] -> missing_cell old -> ~ key_column s c -> dget c m = Some (default_for (cd_type d)))
    /\ (rw <> [] -> match dget c rw with None => dget c m = None | Some v => exists w, dget c m = Some w /\ as_cell d v w end)).
  { unfold get_replace_with in Em. destruct rw as [|p rw].
    - apply bind_ok in Em as (sx & _ & Em). injection Em as <-.
      assert (Nf : NoDup (dkeys (filter (fun p => negb (is_col (metric_column (v_place t)) (fst p)) && (cd_null (snd p) || cd_nan (snd p))) an)))
        by (apply NoDup_filter_keys, an_nodup).
      split; [rewrite (dkeys_map_val (fun q => default_value (cd_type q))); exact Nf|]. split; [|split].
      + intros _ v. rewrite (dget_map_val (fun q => default_value (cd_type q))). destruct (dget c (filter _ an)) as [k|] eqn:E; [|discriminate].
        intros Ev. injection Ev as <-. apply (dget_filter_keys _ _ _ _ an_nodup) in E as (E & F). rewrite an_get, Gd in E. injection E as <-.
        rewrite type_view. split; [destruct (cd_type d); reflexivity|]. intros KC. apply is_col_key in KC. cbn [fst] in F. rewrite KC in F. discriminate.
      + intros _ Mi NK. rewrite (dget_map_val (fun q => default_value (cd_type q))).
        assert (E : dget c (filter (fun p => negb (is_col (metric_column (v_place t)) (fst p)) && (cd_null (snd p) || cd_nan (snd p))) an) = Some (view (to_core d))).
        { apply In_dget; [exact Nf|]. apply filter_In. split; [apply dget_In; rewrite an_get, Gd; reflexivity|]. cbn [fst snd].
          apply andb_true_iff. split; [apply negb_true_iff, not_true_iff_false; rewrite is_col_key; exact NK|].
          destruct Mi as [Mi|Mi]; rewrite Mi in OK; [rewrite (null_view _ OK)|rewrite (proj2 (nan_view _ OK)), orb_true_r]; reflexivity. }
        rewrite E. cbn [option_map]. rewrite type_view. destruct (cd_type d); reflexivity.
      + congruence.
    - apply bind_ok in Em as (sx & _ & Em). pose proof (proj1 (mapM_ok_Forall2 _ _ _) Em) as F. clear Em.
      assert (S : dkeys m = dkeys (p :: rw) /\ match dget c (p :: rw) with None => dget c m = None | Some v => exists w, dget c m = Some w /\ as_cell d v w end).
      { revert F. clear - Gd FT. generalize (p :: rw) as l0. generalize m as m0. intros m0 l0 F.
        induction F as [|[a x] [b y] l l' E F (IK & IH)]; [split; reflexivity|]. cbn [fst snd] in E.
        destruct (dget a an) as [k|] eqn:Ga; [|discriminate].
        assert (Eb : b = a) by (destruct (is_decimal k); [apply bind_ok in E as (v & _ & E)|]; injection E; congruence). subst b.
        split; [unfold dkeys in *; cbn [map fst]; congruence|]. cbn [dget]. destruct (String.eqb c a) eqn:Ec; [|exact IH].
        apply String.eqb_eq in Ec. subst a. exists y. split; [reflexivity|]. rewrite an_get, Gd in Ga. injection Ga as <-.
        unfold as_cell. destruct (is_decimal (view (to_core d))) eqn:Dd.
        + apply decimal_view in Dd. rewrite Dd. apply bind_ok in E as (v & Ev & E). injection E as ->. unfold float_value in Ev.
          destruct x; try discriminate; injection Ev as <-; reflexivity.
        + injection E as ->. assert (T : cd_type d <> DECIMAL) by (rewrite <- decimal_view; congruence).
          destruct y; try reflexivity. destruct (cd_type d); congruence. }
      destruct S as (SK & S). split; [rewrite SK; exact Nrw|]. split; [congruence|]. split; [congruence|]. intros _. exact S. }
  destruct Nm as (Nm & D1 & D2 & D3).
  assert (Gn : forall v, dget c nulls = Some v -> dget c m = Some v).
  { intros v E. apply (dget_filter_keys _ _ _ _ Nm) in E. apply E. }
  assert (Ga : forall v, dget c nans = Some v -> dget c m = Some v).
  { intros v E. apply (dget_filter_keys _ _ _ _ Nm) in E. apply E. }
  assert (Gn' : old = VNull -> dget c nulls = dget c m).
  { intros Eo. destruct (dget c m) as [v|] eqn:E.
    - apply In_dget; [apply NoDup_filter_keys, Nm|]. apply filter_In. split; [apply dget_In, E|]. cbn [fst]. rewrite an_get, Gd. cbn [option_map].
      rewrite Eo in OK. apply null_view, OK.
    - destruct (dget c nulls) as [v|]; [|reflexivity]. specialize (Gn v eq_refl). congruence. }
  assert (Ga' : old = VFloat FNan -> dget c nans = dget c m).
  { intros Eo. destruct (dget c m) as [v|] eqn:E.
    - apply In_dget; [apply NoDup_filter_keys, Nm|]. apply filter_In. split; [apply dget_In, E|]. cbn [fst]. rewrite an_get, Gd. cbn [option_map].
      rewrite Eo in OK. destruct (nan_view _ OK) as (T & X). rewrite X, (proj2 (decimal_view d) T). reflexivity.
    - destruct (dget c nans) as [v|]; [|reflexivity]. specialize (Ga v eq_refl). congruence. }
  assert (NEW : (~ missing_cell old -> nan_cell nans c (null_cell nulls c old) = old)
              /\ (missing_cell old -> nan_cell nans c (null_cell nulls c old) = match dget c m with Some v => v | None => old end)).
  { split.
    - intros NM. unfold missing_cell in NM. destruct old as [| |[]| | |]; try (exfalso; apply NM; auto; fail); reflexivity.
    - intros [Eo|Eo]; rewrite Eo; cbn [null_cell].
      + unfold null_cell. rewrite (Gn' Eo). destruct (dget c m) as [v|] eqn:E; [|unfold nan_cell; reflexivity].
        unfold nan_cell. destruct v as [| |[]| | |]; try reflexivity. destruct (dget c nans) as [w|]; [|reflexivity]. specialize (Ga w eq_refl). congruence.
      + unfold null_cell. unfold nan_cell. rewrite (Ga' Eo). destruct (dget c m); reflexivity. }
  destruct NEW as (NW1 & NW2). split; [exact NW1|]. intros Mi. rewrite (NW2 Mi). destruct rw as [|p rw'].
  - split.
    + intros KC. destruct (dget c m) as [v|] eqn:E; [|reflexivity]. exfalso. exact (proj2 (D1 eq_refl v eq_refl) KC).
    + intros NK. exists d. split; [exact Gd|]. rewrite (D2 eq_refl Mi NK). reflexivity.
  - specialize (D3 ltac:(discriminate)). destruct (dget c (p :: rw')) as [v|].
    + destruct D3 as (w & -> & A). exists d. split; [exact Gd|exact A].
    + rewrite D3. reflexivity.
Qed.

Lemma replace_inf_spec rw t' cs' : visit_replace_inf rw (t, cs) = Ok (t', cs') ->
  cells_replaced s (replaces_infinite rw) (v_rows t) (v_rows t').
Proof.
  unfold visit_replace_inf. rewrite core_to_analytics_view. cbn [bind]. fold an. intros H.
  apply bind_ok in H as (u & _ & H). apply bind_ok in H as (u' & _ & H). injection H as <- <-. cbn [v_rows].
  set (m := match rw with [] => _ | _ => _ end). apply Forall2_map_r. intros r I. rewrite replace_infs_cells.
  split; [apply dkeys_cellwise|]. intros c Co. rewrite getv_cellwise by (apply (row_column r c I), Co).
  unfold column in Co. apply in_dkeys in Co as (d & Gd). pose proof (row_cell r c d I Gd) as OK. split.
  - intros NI. unfold infinite_cell in NI. unfold inf_cell. destruct (getv c r) as [| |[]| | |]; try reflexivity; exfalso; auto.
  - intros In. destruct rw as [|p rw'].
    + assert (E : dget c m = Some (z_to_f 0, z_to_f 0)).
      { unfold m. destruct (inf_view d _ In OK) as (T & _).
        rewrite (dget_map_val (fun _ => (z_to_f 0, z_to_f 0))).
        assert (E : dget c (filter (fun p => is_decimal (snd p)) an) = Some (view (to_core d))).
        { apply In_dget; [apply NoDup_filter_keys, an_nodup|]. apply filter_In. split; [apply dget_In; rewrite an_get, Gd; reflexivity|].
          apply decimal_view, T. }
        rewrite E. reflexivity. }
      unfold inf_cell. rewrite E. destruct In as [-> | ->]; reflexivity.
    + unfold m, inf_cell. destruct (dget c (p :: rw')) as [[lo hi]|].
      * split; intros ->; reflexivity.
      * destruct In as [-> | ->]; reflexivity.
Qed.
(** *** Functions *)
Lemma row_made (new : schema) augment r o : NoDup (dkeys (sc_cols new)) ->
  (augment = true -> forall c, In c (dkeys r) -> ~ In c (dkeys (sc_cols new))) ->
  extends augment (dkeys (sc_cols new)) r o (if augment then merge r (new_cells new o) else new_cells new o).
Proof.
  intros N D. assert (K : dkeys (new_cells new o) = dkeys (sc_cols new)) by apply dkeys_select.
  assert (G : forall c, In c (dkeys (sc_cols new)) -> getv c (new_cells new o) = getv c o) by (intros c I; apply getv_select, I).
  destruct augment; (split; [|split]).
  - intros c. rewrite in_dkeys_merge by (rewrite K; exact N). rewrite K. tauto.
  - intros c I. rewrite getv_merge by (rewrite K; exact N).
    assert (M : dmem c (new_cells new o) = true) by (apply dmem_In; rewrite K; exact I). rewrite M. apply G, I.
  - intros _ c I. rewrite getv_merge by (rewrite K; exact N).
    destruct (dmem c (new_cells new o)) eqn:M; [|reflexivity]. apply dmem_In in M. rewrite K in M. exfalso. exact (D eq_refl c I M).
  - intros c. rewrite K. intuition discriminate.
  - exact G.
  - discriminate.
Qed.

(** New columns may not have the name of an existing one. *)
Definition fresh (augment : bool) (new : schema) : Prop :=
  augment = true -> forall c, column s c -> ~ In c (dkeys (sc_cols new)).
Lemma fresh_row augment new r : fresh augment new -> In r (v_rows t) ->
  augment = true -> forall c, In c (dkeys r) -> ~ In c (dkeys (sc_cols new)).
Proof. intros F I A c Ic. apply F; [exact A|apply (row_column r c I), Ic]. Qed.

Lemma map_spec f new augment t' cs' : NoDup (dkeys (sc_cols new)) -> fresh augment new ->
  visit_map f new augment (t, cs) = Ok (t', cs') -> mapped f augment (dkeys (sc_cols new)) (v_rows t) (v_rows t').
Proof.
  unfold visit_map. intros N F H. apply bind_ok in H as (u & _ & H). apply bind_ok in H as (u' & _ & H). injection H as <- <-. cbn [v_rows].
  apply Forall2_map_r. intros r I. apply row_made; [exact N|]. apply fresh_row; assumption.
Qed.

Lemma id_collection i : v_place t = PKeys i <-> sc_id s = Some i /\ in_collection (v_place t) = true.
Proof.
  pose proof (ft_metric _ _ _ FT) as M. unfold metric_for in M.
  destruct (sc_group s) as [g|], (sc_id s) as [j|]; try contradiction; rewrite M; cbn; intuition congruence.
Qed.
Lemma no_id_collection : sc_id s = None <-> in_collection (v_place t) = false.
Proof.
  pose proof (ft_metric _ _ _ FT) as M. unfold metric_for in M.
  destruct (sc_group s) as [g|], (sc_id s) as [j|]; try contradiction; rewrite M; cbn; intuition congruence.
Qed.

Lemma flat_map_spec f new augment mr t' cs' : NoDup (dkeys (sc_cols new)) -> fresh augment new ->
  visit_flat_map l2 f new augment mr (t, cs) = Ok (t', cs') ->
  flat_mapped f augment (dkeys (sc_cols new)) (match sc_id s with Some _ => None | None => option_map Z.to_nat mr end) (v_rows t) (v_rows t')
  /\ (sc_id s = None -> mr <> None).
Proof.
  unfold visit_flat_map. intros N F H. apply bind_ok in H as (y & E & H). apply bind_ok in H as (u & _ & H). injection H as <- <-. cbn [v_rows].
  assert (L : snd y = match sc_id s with Some _ => None | None => option_map Z.to_nat mr end /\ (sc_id s = None -> mr <> None)).
  { destruct (in_collection (v_place t)) eqn:C.
    - apply bind_ok in E as (? & _ & E). apply bind_ok in E as (? & _ & E). injection E as <-. cbn [snd].
      destruct (sc_id s) eqn:S; [split; [reflexivity|discriminate]|]. apply no_id_collection in S. congruence.
    - apply no_id_collection in C. rewrite C. destruct mr as [z|]; [|discriminate]. split; [|discriminate].
      destruct (sc_group new); [destruct (v_place t); try discriminate E|]; injection E as <-; reflexivity. }
  destruct L as (L & L'). split; [|exact L']. rewrite <- L.
  exists (map (flat_map_row f new augment (snd y)) (v_rows t)). split; [apply flat_map_concat_map|].
  apply Forall2_map_r. intros r I. unfold flat_map_row. apply Forall2_map_r. intros o _.
  apply row_made; [exact N|]. apply fresh_row; assumption.
Qed.

Lemma by_id_spec f new t' cs' : visit_flat_map_by_id W f new (t, cs) = Ok (t', cs') ->
  exists i, sc_id s = Some i /\ flat_mapped_by_id i f (dkeys (sc_cols new)) (v_rows t) (v_rows t').
Proof.
  unfold visit_flat_map_by_id. intros H. destruct (v_place t) as [i| | |] eqn:P; try discriminate.
  destruct (dget i (v_dom t)) as [d|]; [|discriminate]. apply bind_ok in H as (u & Fr & H). injection H as <- <-. cbn [v_rows].
  assert (Ni : ~ In i (dkeys (sc_cols new))).
  { intros M. apply dmem_In in M. rewrite M in Fr. discriminate. }
  exists i. split; [apply id_collection, P|]. intros v. unfold rows_of, flat_map_by_id_rows.
  set (mk := fun (i0 : value) (o : rec) => ((i, i0) :: new_cells new o) : rec).
  assert (G : forall w ids, NoDup ids ->
    filter (has_value i v) (flat_map (fun i0 => map (mk i0) (w i0)) ids) = if in_dec value_eq_dec v ids then map (mk v) (w v) else []).
  { intros w ids. induction ids as [|x ids IH]; intros ND; [reflexivity|]. apply NoDup_cons_iff in ND as (Nx & ND).
    specialize (IH ND). cbn [flat_map]. rewrite filter_app. rewrite IH. assert (Hv : forall o, getv i (mk x o) = x).
    { intros o. apply getv_dget. unfold mk. cbn [dget]. rewrite String.eqb_refl. reflexivity. }
    destruct (value_eq_dec x v) as [-> |NE].
    - assert (A : filter (has_value i v) (map (mk v) (w v)) = map (mk v) (w v)).
      { apply filter_true. intros r Ir. apply in_map_iff in Ir as (o & <- & _). apply has_value_true, Hv. }
      rewrite A. destruct (in_dec value_eq_dec v ids); [contradiction|]. destruct (in_dec value_eq_dec v (v :: ids)) as [_|B]; [apply app_nil_r|].
      exfalso. apply B. left. reflexivity.
    - assert (A : filter (has_value i v) (map (mk x) (w x)) = []).
      { induction (w x) as [|o l IHl]; [reflexivity|]. cbn [map filter]. assert (X : has_value i v (mk x o) = false) by (apply has_value_false; rewrite Hv; exact NE).
        rewrite X. exact IHl. }
      rewrite A. cbn [app]. destruct (in_dec value_eq_dec v ids), (in_dec value_eq_dec v (x :: ids)) as [B|B]; try reflexivity.
      + exfalso. apply B. right. assumption.
      + destruct B as [B|B]; contradiction. }
  exists (isort (ole (w_row_order W)) (filter (has_value i v) (v_rows t))). split; [apply isort_perm|].
  pose proof (G (fun i0 => f (isort (ole (w_row_order W)) (filter (has_value i i0) (v_rows t)))) _ (NoDup_nodup value_eq_dec (map (getv i) (v_rows t)))) as Q.
  match type of Q with _ = ?R => match goal with |- Forall2 _ _ ?X => assert (EQ : X = R) by exact Q; rewrite EQ; clear EQ end end. clear Q G. subst mk.
  assert (OUT : forall l, Forall2 (fun o r' => dkeys r' = i :: dkeys (sc_cols new) /\ getv i r' = v /\ forall c, In c (dkeys (sc_cols new)) -> getv c r' = getv c o)
                                  l (map (fun o => (i, v) :: new_cells new o) l)).
  { intros l. apply Forall2_map_r. intros o _. split; [unfold dkeys; cbn [map fst]; f_equal; apply dkeys_select|]. split.
    - apply getv_dget. cbn [dget]. rewrite String.eqb_refl. reflexivity.
    - intros c Ic. rewrite <- (getv_select (dkeys (sc_cols new)) o c Ic). unfold getv, new_cells. cbn [dget].
      destruct (String.eqb c i) eqn:E; [|reflexivity]. apply String.eqb_eq in E. subst c. contradiction. }
  destruct (in_dec value_eq_dec v (nodup value_eq_dec (map (getv i) (v_rows t)))) as [A|A].
  - apply nodup_In, in_map_iff in A as (r & E & I).
    destruct (isort (ole (w_row_order W)) (filter (has_value i v) (v_rows t))) as [|x l] eqn:Is; [|apply OUT].
    exfalso. assert (X : In r []); [|contradiction]. rewrite <- Is. apply (Permutation_in _ (Permutation_sym (isort_perm _ _))).
    apply filter_In. split; [exact I|]. apply has_value_true, E.
  - assert (E : filter (has_value i v) (v_rows t) = []).
    { destruct (filter (has_value i v) (v_rows t)) as [|r l] eqn:E; [reflexivity|]. exfalso. apply A. apply nodup_In, in_map_iff. exists r.
      assert (I : In r (filter (has_value i v) (v_rows t))) by (rewrite E; left; reflexivity). apply filter_In in I as (I & B).
      split; [apply has_value_true, B|exact I]. }
    rewrite E. constructor.
Qed.

(** *** Constraints *)
Lemma enforce_spec k t' cs' : visit_enforce W k (t, cs) = Ok (t', cs') ->
  exists i, sc_id s = Some i /\ enforced i k (v_rows t) (v_rows t').
Proof.
  unfold visit_enforce. intros H. apply bind_ok in H as (y & E & H). injection H as <- <-. cbn [v_rows].
  apply enforce_ok in E as (i & R & P). cbn [t_rows t_place] in R, P. rewrite R.
  assert (S : sc_id s = Some i).
  { destruct P as [P|(g & b & P)]; [apply id_collection in P; apply P|]. pose proof (ft_metric _ _ _ FT) as M. unfold metric_for in M.
    rewrite P in M. destruct (sc_group s), (sc_id s); try contradiction; discriminate. }
  exists i. split; [exact S|]. split; [apply enforce_rows_sub|]. split; [apply enforce_rows_sat|]. apply enforce_rows_id.
Qed.
End Ops.

(** *** Joins *)
Lemma out_name_eq other suffix c : out_name other suffix c = suffixed_name other suffix c.
Proof.
  unfold out_name, suffixed_name. destruct (in_dec string_dec c other) as [I|N].
  - apply smem_In in I. rewrite I. reflexivity.
  - apply smem_false in N. rewrite N. reflexivity.
Qed.
Lemma out_name_ext a b suffix c : (forall x, In x a <-> In x b) -> out_name a suffix c = out_name b suffix c.
Proof. intros E. unfold out_name. destruct (in_dec string_dec c a) as [I|I], (in_dec string_dec c b) as [J|J]; try reflexivity; exfalso; apply E in I || apply E in J; auto. Qed.
Lemma glued_ext on lc lc' rc rc' x y r' : (forall c, In c lc <-> In c lc') -> (forall c, In c rc <-> In c rc') ->
  glued on lc rc x y r' -> glued on lc' rc' x y r'.
Proof.
  intros El Er (K & A & B & C). split; [|split; [exact A|split]].
  - intros n. rewrite (K n). apply or_iff_compat_l. apply ZifyClasses.or_morph.
    + split; intros (c & I & N & E); exists c; (split; [apply El, I|split; [exact N|]]); rewrite E; [|symmetry]; apply out_name_ext, Er.
    + split; intros (c & I & N & E); exists c; (split; [apply Er, I|split; [exact N|]]); rewrite E; [|symmetry]; apply out_name_ext, El.
  - intros c I N. rewrite <- (B c (proj2 (El c) I) N). f_equal. symmetry. apply out_name_ext, Er.
  - intros c I N. rewrite <- (C c (proj2 (Er c) I) N). f_equal. symmetry. apply out_name_ext, El.
Qed.
Lemma join_row_glued on lc rc x y : NoDup (dkeys (join_row on lc rc x y)) -> glued on lc rc x y (join_row on lc rc x y).
Proof.
  intros ND.
  assert (O : forall cols c, In c (others on cols) <-> In c cols /\ ~ In c on).
  { intros cols c. unfold others. rewrite filter_In, negb_true_iff, smem_false. reflexivity. }
  split; [|split; [|split]].
  - intros n. unfold join_row, dkeys. rewrite !map_app, !in_app_iff, !map_map. cbn [fst]. rewrite map_id.
    apply or_iff_compat_l. apply ZifyClasses.or_morph; rewrite in_map_iff; split.
    + intros (c & <- & I). apply O in I as (I & N). exists c. rewrite out_name_eq. auto.
    + intros (c & I & N & ->). exists c. rewrite out_name_eq. split; [reflexivity|apply O; auto].
    + intros (c & <- & I). apply O in I as (I & N). exists c. rewrite out_name_eq. auto.
    + intros (c & I & N & ->). exists c. rewrite out_name_eq. split; [reflexivity|apply O; auto].
  - intros c I. apply getv_join_on, I.
  - intros c I N. rewrite out_name_eq. apply getv_join_col_left; assumption.
  - intros c I N. rewrite out_name_eq. apply getv_dget. apply In_dget; [exact ND|]. unfold join_row. apply in_or_app. right. apply in_or_app. right.
    apply in_map_iff. exists c. split; [reflexivity|]. apply O. auto.
Qed.

Lemma filter_prod {A B} (p : A * B -> bool) l r :
  filter p (list_prod l r) = flat_map (fun x => map (fun y => (x, y)) (filter (fun y => p (x, y)) r)) l.
Proof.
  induction l as [|x l IH]; [reflexivity|]. cbn [list_prod flat_map]. rewrite filter_app, IH. f_equal. clear IH.
  induction r as [|y r IHr]; [reflexivity|]. cbn [map filter]. destruct (p (x, y)); cbn [map]; rewrite IHr; reflexivity.
Qed.
Lemma Forall2_flat_map {A B C} (P : B -> C -> Prop) (f : A -> list B) (g : A -> list C) l :
  (forall x, In x l -> Forall2 P (f x) (g x)) -> Forall2 P (flat_map f l) (flat_map g l).
Proof.
  induction l as [|x l IH]; intros H; [constructor|]. cbn [flat_map]. apply Forall2_app; [apply H; left; reflexivity|].
  apply IH. intros y I. apply H. right. exact I.
Qed.

Section Joins.
Variables (on : list string) (left : bool) (dl dr out : dict coredesc).
Hypothesis JD : join_dom_spec on left dl dr out.
Variables (lc rc : list string).
Hypothesis (El : forall c, In c (dkeys dl) <-> In c lc) (Er : forall c, In c (dkeys dr) <-> In c rc).

Lemma glued_row x y : glued on lc rc x y (join_row on (dkeys dl) (dkeys dr) x y).
Proof.
  apply (glued_ext on (dkeys dl) lc (dkeys dr) rc); [exact El|exact Er|]. apply join_row_glued.
  rewrite (join_row_keys _ _ _ _ _ x y JD). destruct JD; assumption.
Qed.
Lemma matches_p p x r : (forall x y, p (x, y) = true <-> same_key on x y) ->
  filter (fun y : rec => p (x, y)) r = filter (matches on x) r.
Proof. intros P. apply filter_in_ext. intros y _. rewrite P, matches_spec. reflexivity. Qed.
Lemma inner_spec l r : inner_joined on lc rc l r (inner_join on (dkeys dl) (dkeys dr) l r).
Proof.
  intros p P. rewrite filter_prod. unfold inner_join. apply Forall2_flat_map. intros x _. rewrite (matches_p p x r P).
  induction (filter (matches on x) r) as [|y l' IH]; cbn [map]; constructor; [apply glued_row|exact IH].
Qed.
Lemma left_spec l r : left_joined on lc rc l r (left_join on (dkeys dl) (dkeys dr) l r).
Proof.
  set (lonely := fun x => match filter (matches on x) r with [] => true | _ => false end).
  exists (inner_join on (dkeys dl) (dkeys dr) l r), (map (fun x => join_row on (dkeys dl) (dkeys dr) x None) (filter lonely l)).
  split; [|split; [apply inner_spec|]].
  - unfold left_join, inner_join. induction l as [|x l IH]; [reflexivity|]. cbn [flat_map filter]. unfold lonely at 1.
    destruct (filter (matches on x) r) as [|y ys].
    + cbn [map app]. apply Permutation_cons_app, IH.
    + rewrite <- app_assoc. apply Permutation_app_head, IH.
  - intros p P. assert (E : filter p l = filter lonely l).
    { apply filter_in_ext. intros x _. rewrite (P x). unfold lonely. split.
      - intros N. destruct (filter (matches on x) r) as [|y ys] eqn:F; [reflexivity|]. exfalso.
        assert (I : In y (filter (matches on x) r)) by (rewrite F; left; reflexivity). apply filter_In in I as (I & M).
        apply (N y I). exact (proj1 (matches_spec on x y) M).
      - intros N y I M. destruct (filter (matches on x) r) as [|z zs] eqn:F; [|discriminate].
        assert (X : In y (filter (matches on x) r)) by (apply filter_In; split; [exact I|exact (proj2 (matches_spec on x y) M)]). rewrite F in X. contradiction. }
    rewrite E. apply Forall2_map_r. intros x _. apply glued_row.
Qed.
End Joins.

Lemma keep_first_count {K} (eqd : forall a b : K, {a = b} + {a <> b}) (key : rec -> K) m k t : forall seen,
  length (filter (keyb eqd key k) (keep_first eqd key m seen t)) = min (m - count_occ eqd seen k) (length (filter (keyb eqd key k) t)).
Proof.
  induction t as [|r t IH]; intros seen; cbn [keep_first filter]; [cbn [length]; lia|]. specialize (IH (key r :: seen)). cbn [count_occ] in IH.
  assert (B : keyb eqd key k r = if eqd (key r) k then true else false) by reflexivity.
  destruct (eqd (key r) k) as [E|E]; rewrite B.
  - subst k. destruct (Nat.ltb_spec (count_occ eqd seen (key r)) m) as [L|L].
    + cbn [filter]. rewrite B. cbn [length]. rewrite IH. lia.
    + rewrite IH. cbn [length]. lia.
  - destruct (count_occ eqd seen (key r) <? m); [cbn [filter]; rewrite B|]; exact IH.
Qed.
Lemma no_rows (t : table) : filter (fun _ => false) t = [].
Proof. induction t; [reflexivity|assumption]. Qed.
Lemma truncate_spec O st on rows : truncated st on rows (truncate_side O st on rows).
Proof.
  split.
  - destruct st as [m|]; cbn [truncate_side]; [|apply sub_table_filter].
    eapply sub_table_trans; [apply keep_first_sub|apply sub_table_isort].
  - intros p key P. assert (EP : forall t, filter p t = filter (keyb (list_eq_dec value_eq_dec) (join_key on) key) t).
    { intros t. apply filter_in_ext. intros r _. rewrite P. unfold keyb, join_key. destruct (list_eq_dec value_eq_dec _ key); split; congruence. }
    destruct st as [m|]; cbn [truncate_side number_kept].
    + rewrite !EP, keep_first_count. cbn [count_occ]. rewrite Nat.sub_0_r. f_equal.
      apply Permutation_length. apply Permutation_filter, isort_perm.
    + assert (C : forall r, p r = true -> filter (matches on r) rows = filter p rows).
      { intros r Hr. apply filter_in_ext. intros y _. apply P in Hr. rewrite P, matches_spec, <- Hr. split.
        - intros E. symmetry. apply map_ext_in. exact E.
        - intros E c I. symmetry. revert E I. clear. induction on as [|a on IH]; cbn [map]; [contradiction|]. intros E [-> |I]; injection E; auto. }
      rewrite filter_both.
      assert (E : filter (fun x => (length (filter (matches on x) rows) <=? 1) && p x) rows = filter (fun x => (length (filter p rows) <=? 1) && p x) rows).
      { apply filter_ext. intros x. destruct (p x) eqn:Px; [rewrite (C x Px); reflexivity|rewrite !andb_false_r; reflexivity]. }
      rewrite E. destruct (Nat.leb_spec (length (filter p rows)) 1) as [L|L]; cbn [andb].
      * change (fun x : rec => p x) with p. destruct (Nat.eqb_spec (length (filter p rows)) 1) as [L1|L1]; lia.
      * rewrite no_rows. cbn [length]. destruct (Nat.eqb_spec (length (filter p rows)) 1); [lia|reflexivity].
Qed.

Lemma joined_on_spec on (l r : dict coredesc) (lc rc : list string) : NoDup (dkeys l) ->
  (forall c, In c (dkeys l) <-> In c lc) -> (forall c, In c (dkeys r) <-> In c rc) -> joined_on on lc rc (join_columns on l r).
Proof.
  intros N El Er. unfold joined_on, join_columns. destruct on as [c|]; [reflexivity|]. unfold common_columns. split.
  - apply List.NoDup_filter, N.
  - intros c. rewrite filter_In, dmem_In, El, Er. reflexivity.
Qed.

Lemma join_private_spec W l2 sl sr tl tr cl cr a b on t' cs' : fitting l2 sl tl -> fitting l2 sr tr ->
  visit_join_private W a b on (tl, cl) (tr, cr) = Ok (t', cs') -> private_joined on a b sl sr (v_rows tl) (v_rows tr) (v_rows t').
Proof.
  intros Fl Fr H. unfold visit_join_private in H. apply bind_ok in H as (u & _ & H).
  set (cols := join_columns on (v_dom tl) (v_dom tr)) in *. apply bind_ok in H as ([[p L] R] & Z & H). apply bind_ok in H as (d & J & H).
  injection H as <- <-. cbn [v_rows]. apply join_domain_spec in J. exists cols, L, R.
  assert (El : forall c, In c (dkeys (v_dom tl)) <-> In c (dkeys (sc_cols sl))) by (intros c; apply (dom_column l2 sl tl Fl)).
  assert (Er : forall c, In c (dkeys (v_dom tr)) <-> In c (dkeys (sc_cols sr))) by (intros c; apply (dom_column l2 sr tr Fr)).
  split; [apply joined_on_spec; [apply (ft_nodup _ _ _ Fl)|exact El|exact Er]|].
  split; [apply (inner_spec _ _ _ _ _ J _ _ El Er)|].
  pose proof (no_id_collection l2 sl tl Fl) as NC.
  destruct (v_place tl) as [i| | |], (v_place tr) as [j| | |]; try discriminate Z.
  - apply bind_ok in Z as (? & _ & Z). apply bind_ok in Z as (? & _ & Z). injection Z as <- <- <-.
    split; [auto|]. intros E. apply NC in E. discriminate.
  - destruct a as [a|], b as [b|]; try discriminate Z. injection Z as <- <- <-.
    split; [intros E; exfalso; apply E, NC; reflexivity|]. intros _. exists a, b. split; [reflexivity|]. split; [reflexivity|].
    split; apply truncate_spec.
Qed.

Lemma dict_of_keys_in {V} (l : list (string * V)) c : In c (dkeys (dict_of l)) <-> In c (map fst l).
Proof.
  unfold dict_of. assert (G : forall d, In c (dkeys (fold_left (fun d p => dset (fst p) (snd p) d) l d)) <-> In c (dkeys d) \/ In c (map fst l)).
  { induction l as [|p l IH]; intros d; cbn [fold_left map]; [cbn; tauto|]. rewrite IH. rewrite !in_dkeys. split.
    - intros [(v & E)|I]; [|right; right; exact I]. destruct (string_dec c (fst p)) as [->|N]; [right; left; reflexivity|].
      rewrite dget_dset_other in E by congruence. left. eauto.
    - intros [(v & E)|[<-|I]]; [|left; exists (snd p); apply dget_dset_same|right; exact I]. left.
      destruct (string_dec c (fst p)) as [->|N]; [exists (snd p); apply dget_dset_same|]. rewrite dget_dset_other by congruence. eauto. }
  rewrite G. cbn. tauto.
Qed.
Lemma spark_columns_names fs pd c : spark_schema_to_analytics_columns fs = Ok pd -> In c (dkeys pd) <-> In c (map sf_name fs).
Proof.
  unfold spark_schema_to_analytics_columns. intros H. apply bind_ok in H as (l & E & H). injection H as <-. rewrite dict_of_keys_in.
  apply mapM_ok_Forall2 in E. assert (K : map fst l = map sf_name fs); [|rewrite K; reflexivity].
  induction E as [|f p fs l H E IH]; [reflexivity|]. cbn [map]. rewrite IH. apply bind_ok in H as (ty & _ & H). injection H as <-. reflexivity.
Qed.
Lemma join_public_spec l2 cat s t cs p on how t' cs' : fitting l2 s t ->
  visit_join_public cat p on how (t, cs) = Ok (t', cs') ->
  exists f, public_frame cat p = Ok f /\ public_joined on how s (map sf_name (sd_fields f)) (v_rows t) (frame_rows f) (v_rows t').
Proof.
  intros F H. unfold visit_join_public in H. apply bind_ok in H as (f & Ef & H). exists f. split; [exact Ef|].
  apply bind_ok in H as (pd & Ep & H). apply bind_ok in H as (ps & Es & H). apply mk_schema_ok in Es as (_ & _ & _ & ->).
  set (dom := analytics_to_core _) in *. set (cols := join_columns on (v_dom t) dom) in *.
  apply bind_ok in H as (d & J & H). apply bind_ok in H as (u & _ & H). injection H as <- <-. cbn [v_rows]. apply join_domain_spec in J.
  assert (El : forall c, In c (dkeys (v_dom t)) <-> In c (dkeys (sc_cols s))) by (intros c; apply (dom_column l2 s t F)).
  assert (Er : forall c, In c (dkeys dom) <-> In c (map sf_name (sd_fields f))).
  { intros c. unfold dom. rewrite analytics_to_core_cols, dkeys_core_cols. cbn [sc_cols]. apply spark_columns_names, Ep. }
  exists cols. split; [apply joined_on_spec; [apply (ft_nodup _ _ _ F)|exact El|exact Er]|].
  pose proof (no_id_collection l2 s t F) as NC.
  assert (C : negb (in_collection (v_place t)) = negb (is_some (sc_id s))).
  { destruct (sc_id s); destruct (in_collection (v_place t)); cbn; try reflexivity; exfalso; [assert (X : Some s0 = None) by (apply NC; reflexivity)|assert (X : true = false) by (apply NC; reflexivity)]; discriminate. }
  rewrite C, (andb_comm _ (String.eqb how "left")) in J |- *.
  destruct (String.eqb how "left" && negb (is_some (sc_id s))).
  - apply (left_spec _ _ _ _ _ J _ _ El Er).
  - apply (inner_spec _ _ _ _ _ J _ _ El Er).
Qed.
