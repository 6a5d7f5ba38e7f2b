(** What the inserted steps do to the rows. *)
From Coq Require Import String Bool Arith ZArith QArith Qcanon Lia Permutation List.
From Verif Require Import Prelude Value Rows Constraints ConstraintsSpec ConstraintsProofs Schema SchemaProofs
  Query Transform TransformSpec TransformConform TransformVisit TransformAgree TransformIds QueryProofs
  Rewrite RewriteSpec RewriteProofs.
Import ListNotations.
Local Open Scope string_scope.
Local Open Scope nat_scope.

(** *** Rows *)
Definition keep_present (m : string) (r : rec) : list rec :=
  if is_null (getv m r) || is_nan (getv m r) then [] else [r].
Lemma getv_In m r v : NoDup (dkeys r) -> In (m, v) r -> getv m r = v.
Proof. intros N H. unfold getv. now rewrite (In_dget m v r N H). Qed.
Lemma replace_infs_one m lo hi r : NoDup (dkeys r) ->
  replace_infs [(m, (lo, hi))] r = match getv m r with
    | VFloat FPInf => set_cell m (VFloat hi) r | VFloat FNInf => set_cell m (VFloat lo) r | _ => r end.
Proof.
  intros N. unfold replace_infs.
  assert (H : forall p, In p r -> (match snd p, dget (fst p) [(m, (lo, hi))] with
                | VFloat FNInf, Some b => (fst p, VFloat (fst b))
                | VFloat FPInf, Some b => (fst p, VFloat (snd b))
                | _, _ => p end) = if String.eqb (fst p) m then
                   (fst p, match getv m r with VFloat FPInf => VFloat hi | VFloat FNInf => VFloat lo | v => v end) else p).
  { intros [c v] Hp. cbn [fst snd dget]. destruct (String.eqb_spec c m) as [->|E].
    - rewrite (getv_In m r v N Hp). destruct v as [|z|f|s|z|z]; try reflexivity. destruct f; reflexivity.
    - destruct v as [|z|f|s|z|z]; try reflexivity. destruct f; reflexivity. }
  rewrite (map_ext_in _ _ r H). clear H. unfold set_cell.
  assert (X : map (fun p : string * value => if String.eqb (fst p) m then (fst p, getv m r) else p) r = r).
  { transitivity (map (fun x => x) r); [|apply map_id]. apply map_ext_in. intros [c v] Hp. cbn [fst]. destruct (String.eqb_spec c m) as [->|]; [|reflexivity].
    now rewrite (getv_In m r v N Hp). }
  destruct (getv m r) as [|z|f|s|z|z]; try exact X. destruct f; first [exact X|reflexivity].
Qed.
Lemma drop_rows_one p m t : drop_rows p [m] t = flat_map (fun r => if p (getv m r) then [] else [r]) t.
Proof.
  unfold drop_rows. induction t as [|r t IH]; [reflexivity|]. cbn [filter flat_map existsb]. rewrite orb_false_r.
  destruct (p (getv m r)); cbn [negb app]; [exact IH|]. f_equal. exact IH.
Qed.
Lemma flat_map_flat_map {A B C} (f : A -> list B) (g : B -> list C) l :
  flat_map g (flat_map f l) = flat_map (fun x => flat_map g (f x)) l.
Proof. induction l as [|a l IH]; [reflexivity|]. cbn [flat_map]. rewrite flat_map_app. now rewrite IH. Qed.
Lemma flat_map_ext_in {A B} (f g : A -> list B) l : (forall x, In x l -> f x = g x) -> flat_map f l = flat_map g l.
Proof.
  induction l as [|a l IH]; intros H; [reflexivity|]. cbn [flat_map]. rewrite (H a) by now left. rewrite IH; [reflexivity|].
  intros x Hx. apply H. now right.
Qed.
Lemma flat_map_one {A} (l : list A) : flat_map (fun x => [x]) l = l.
Proof. induction l as [|a l IH]; [reflexivity|]. cbn [flat_map app]. now rewrite IH. Qed.
Lemma map_flat_map {A B} (f : A -> B) l : map f l = flat_map (fun x => [f x]) l.
Proof. induction l as [|a l IH]; [reflexivity|]. cbn [map flat_map app]. now rewrite IH. Qed.

Definition after_infinities (m : string) (b : option (pynum * pynum)) (r : rec) : list rec :=
  match b with
  | None => if is_inf (getv m r) then [] else [r]
  | Some (lo, hi) => [replace_infs [(m, (to_float lo, to_float hi))] r]
  end.
Lemma clean_row_steps m b r : NoDup (dkeys r) -> flat_map (after_infinities m b) (keep_present m r) = clean_row m b r.
Proof.
  intros N. unfold keep_present, clean_row, after_infinities.
  destruct (getv m r) as [|z|f|s|z|z] eqn:E; try destruct f; cbn [is_null is_nan orb flat_map]; rewrite ?E; cbn [is_inf];
    destruct b as [[lo hi]|]; try rewrite replace_infs_one by exact N; rewrite ?E; reflexivity.
Qed.
Lemma keep_present_id m r : ~ is_missing (getv m r) -> keep_present m r = [r].
Proof.
  intros N. unfold keep_present. destruct (getv m r) as [|z|f|s|z|z] eqn:E; try reflexivity.
  - exfalso. apply N. now left.
  - destruct f; try reflexivity. exfalso. apply N. now right.
Qed.
Lemma after_infinities_id m b r : NoDup (dkeys r) -> ~ is_infinite (getv m r) -> after_infinities m b r = [r].
Proof.
  intros ND N. unfold after_infinities. destruct b as [[lo hi]|]; [rewrite replace_infs_one by exact ND|];
    (destruct (getv m r) as [|z|f|s|z|z] eqn:E; try reflexivity; destruct f; try reflexivity; exfalso; apply N; unfold is_infinite; tauto).
Qed.

(** *** The inserted steps *)
Section Steps.
Variables (W : world) (l2 : bool) (cat : catalog) (data : dict vtab).
Notation vis := (visit W l2 cat data).

Lemma mk_plain an : ~ In "" (dkeys an) -> exists s, mk_schema an None None None = Ok s.
Proof. intros N. eexists. apply mk_schema_ok. repeat split; try discriminate. exact N. Qed.
Lemma dkeys_view (d : dict coredesc) : dkeys (map (fun p => (fst p, view (snd p))) d) = dkeys d.
Proof. unfold dkeys. rewrite map_map. reflexivity. Qed.
Lemma dget_view (d : dict coredesc) c : dget c (map (fun p => (fst p, view (snd p))) d) = option_map view (dget c d).
Proof.
  induction d as [|[k v] d IH]; [reflexivity|]. cbn [map dget fst snd]. destruct (String.eqb c k); [reflexivity|exact IH].
Qed.

Lemma drop_null_step m t cs k : dget m (v_dom t) = Some k -> ~ In "" (dkeys (v_dom t)) -> metric_column (v_place t) <> Some m ->
  in_domain (v_dom t) (v_rows t) ->
  exists t1 k1, visit_drop_null [m] (t, cs) = Ok (t1, simplify cs)
    /\ v_rows t1 = flat_map (keep_present m) (v_rows t) /\ v_place t1 = v_place t
    /\ dkeys (v_dom t1) = dkeys (v_dom t)
    /\ dget m (v_dom t1) = Some k1 /\ cd_type (view k1) = cd_type (view k).
Proof.
  intros D E M I. unfold visit_drop_null. rewrite core_to_analytics_view. cbn [bind].
  destruct (mk_plain (map (fun p => (fst p, view (snd p))) (v_dom t))) as (sx & ->); [now rewrite dkeys_view|]. cbn [bind].
  rewrite opt_in_one by exact M. cbn [raise_if bind missing existsb]. unfold dmem. rewrite dget_view, D. cbn [option_map negb orb raise_if bind].
  cbn [filter]. rewrite dget_view, D. cbn [option_map].
  eexists. exists ((if cd_nan (view k) then core_not_nan else fun x => x) ((if cd_null (view k) then core_not_null else fun x => x) k)).
  split; [reflexivity|]. cbn [v_rows v_place v_dom].
  assert (R : forall r, In r (v_rows t) -> (cd_null (view k) = false -> is_null (getv m r) = false) /\ (cd_nan (view k) = false -> is_nan (getv m r) = false)).
  { intros r Hr. destruct (row_entries _ r m k (I r Hr) D) as [C _].
    destruct k; cbn [view cd_null cd_nan]; split; intros F; subst; destruct (getv m r) as [|z|f|s|z|z]; try reflexivity; try discriminate C;
      destruct f; try reflexivity; discriminate C. }
  split; [|split; [reflexivity|split]].
  - assert (X : forall (b : bool) p tb, (forall r, In r tb -> b = false -> p (getv m r) = false) ->
       drop_rows p (if b then [m] else []) tb = flat_map (fun r => if p (getv m r) then [] else [r]) tb).
    { intros b p tb H. destruct b; [apply drop_rows_one|]. unfold drop_rows. cbn [existsb negb].
      transitivity tb.
      - clear. induction tb as [|a tb IH]; [reflexivity|]. cbn [filter]. now rewrite IH.
      - rewrite <- (flat_map_one tb) at 1. apply flat_map_ext_in. intros r Hr. now rewrite (H r Hr). }
    rewrite (X (cd_null (view k)) is_null) by (intros r Hr; apply R; exact Hr).
    rewrite (X (cd_nan (view k)) is_nan).
    + rewrite flat_map_flat_map. apply flat_map_ext_in. intros r Hr. unfold keep_present.
      destruct (is_null (getv m r)); cbn [flat_map app orb]; [reflexivity|]. apply app_nil_r.
    + intros r Hr. apply in_flat_map in Hr as (r' & Hr' & Hr). destruct (is_null (getv m r')); [destruct Hr|]. destruct Hr as [<-|[]]. now apply R.
  - now rewrite !at_columns_dkeys.
  - rewrite !at_columns_dget, D. cbn [option_map]. split.
    + f_equal. destruct (cd_null (view k)), (cd_nan (view k)); rewrite ?smem_one, ?String.eqb_refl; reflexivity.
    + destruct k; cbn [view cd_null cd_nan];
        repeat match goal with |- context [if ?b then _ else _] => destruct b end; reflexivity.
Qed.

Lemma inf_step m b c t cs k : vis c = Ok (t, cs) -> dget m (v_dom t) = Some k -> cd_type (view k) = DECIMAL -> ~ In "" (dkeys (v_dom t)) ->
  exists t1 cs1, vis (without_infinities m b c) = Ok (t1, cs1)
    /\ v_rows t1 = flat_map (after_infinities m b) (v_rows t) /\ v_place t1 = v_place t.
Proof.
  intros V D T E. destruct (mk_plain (map (fun p => (fst p, view (snd p))) (v_dom t))) as (sx & MK); [now rewrite dkeys_view|].
  assert (TD : is_decimal (view k) = true) by (unfold is_decimal; rewrite T; reflexivity).
  destruct b as [[lo hi]|]; cbn [without_infinities visit]; rewrite V; cbn [bind].
  - unfold visit_replace_inf. rewrite core_to_analytics_view. cbn [bind]. rewrite MK. cbn [bind dkeys map fst existsb].
    rewrite dget_view, D. cbn [option_map]. rewrite TD. cbn [negb orb raise_if bind]. do 2 eexists. split; [reflexivity|].
    cbn [v_rows v_place]. split; [|reflexivity]. apply map_flat_map.
  - unfold visit_drop_inf. rewrite core_to_analytics_view. cbn [bind]. rewrite MK. cbn [bind mapM]. unfold lookup_col.
    rewrite dget_view, D. cbn [option_map bind]. rewrite TD. cbn [negb raise_if bind]. do 2 eexists. split; [reflexivity|].
    cbn [v_rows v_place]. split; [|reflexivity]. unfold after_infinities. apply drop_rows_one.
Qed.

Lemma cleaned_rows m b c c' s t cs : cleaned (w_cond_ok W) cat m b c c' ->
  schema_of (w_cond_ok W) cat c = Ok s -> vis c = Ok (t, cs) -> made s ->
  same_entries (v_dom t) (analytics_to_core s) -> in_domain (v_dom t) (v_rows t) ->
  metric_column (v_place t) <> Some m ->
  exists t' cs', vis c' = Ok (t', cs') /\ v_rows t' = flat_map (clean_row m b) (v_rows t) /\ v_place t' = v_place t.
Proof.
  intros (s0 & d & c1 & S0 & D & H1 & H2) S V MD SE I MM. assert (s0 = s) as -> by congruence. clear S0.
  assert (K : dget m (v_dom t) = Some (to_core d)).
  { rewrite SE. unfold analytics_to_core. clear - D. induction (sc_cols s) as [|[c x] l IH]; [discriminate D|].
    cbn [map dget fst snd] in *. destruct (String.eqb m c); [congruence|]. exact (IH D). }
  assert (NE : ~ In "" (dkeys (v_dom t))).
  { pose proof (proj1 (mk_schema_ok _ _ _ _ _) MD) as (X & _). intros Y. apply X. apply dmem_In. apply dmem_In in Y.
    unfold dmem in *. rewrite SE in Y. unfold analytics_to_core in Y. clear - Y. induction (sc_cols s) as [|[c x] l IH]; [discriminate Y|].
    cbn [map dget fst snd] in *. destruct (String.eqb "" c); [reflexivity|]. exact (IH Y). }
  assert (CELL : forall r, In r (v_rows t) -> NoDup (dkeys r) /\ cell_ok d (getv m r) = true).
  { intros r Hr. pose proof (I r Hr) as (N & _). destruct (row_entries _ r m _ (I r Hr) K) as [C _]. rewrite cell_core in C. auto. }
  assert (V1 : exists t1 cs1 k1, vis c1 = Ok (t1, cs1) /\ v_rows t1 = flat_map (keep_present m) (v_rows t)
       /\ v_place t1 = v_place t /\ dkeys (v_dom t1) = dkeys (v_dom t) /\ dget m (v_dom t1) = Some k1 /\ cd_type (view k1) = cd_type d).
  { assert (TY : cd_type (view (to_core d)) = cd_type d) by (destruct d as [[] n x i]; reflexivity).
    destruct H1 as [[P ->]|[P ->]].
    - destruct (drop_null_step m t cs (to_core d) K NE MM I) as (t1 & k1 & E1 & E2 & E3 & E4 & E5 & E6).
      exists t1, (simplify cs), k1. cbn [visit]. rewrite V. cbn [bind]. rewrite TY in E6. auto 10.
    - exists t, cs, (to_core d). repeat split; try assumption.
      rewrite <- (flat_map_one (v_rows t)) at 1. apply flat_map_ext_in. intros r Hr. symmetry. apply keep_present_id.
      destruct (CELL r Hr) as [_ C]. intros [Y|Y]; rewrite Y in C; apply P; unfold cell_ok in C.
      + left. exact C.
      + right. destruct (cd_type d); try discriminate C. split; [reflexivity|exact C]. }
  destruct V1 as (t1 & cs1 & k1 & V1 & R1 & P1 & K1 & D1 & T1).
  assert (RW : forall r, In r (v_rows t) -> flat_map (after_infinities m b) (keep_present m r) = clean_row m b r).
  { intros r Hr. apply clean_row_steps. now apply CELL. }
  destruct H2 as [[P ->]|[P ->]].
  - destruct (inf_step m b c1 t1 cs1 k1 V1 D1) as (t2 & cs2 & V2 & R2 & P2).
    + rewrite T1. apply P.
    + rewrite K1. exact NE.
    + exists t2, cs2. split; [exact V2|]. split; [|congruence]. rewrite R2, R1, flat_map_flat_map. now apply flat_map_ext_in.
  - exists t1, cs1. split; [exact V1|]. split; [|exact P1]. rewrite R1. apply flat_map_ext_in. intros r Hr. rewrite <- (RW r Hr).
    unfold keep_present. destruct (is_null (getv m r) || is_nan (getv m r)); [reflexivity|]. cbn [flat_map]. rewrite app_nil_r. symmetry.
    destruct (CELL r Hr) as [N C]. apply after_infinities_id; [exact N|]. intros Y. apply P. unfold may_be_infinite.
    destruct Y as [Y|Y]; rewrite Y in C; unfold cell_ok in C; destruct (cd_type d); try discriminate C; auto.
Qed.
End Steps.

(** Afterwards no special values are left. *)
Lemma clean_row_clean m b r r' : NoDup (dkeys r) -> (forall lo hi, b = Some (lo, hi) -> finite_number lo /\ finite_number hi) \/ ~ is_infinite (getv m r) ->
  In r' (clean_row m b r) -> In m (dkeys r) -> ~ is_missing (getv m r') /\ ~ is_infinite (getv m r')
    /\ dkeys r' = dkeys r /\ forall c, c <> m -> getv c r' = getv c r.
Proof.
  intros N F H I.
  assert (SC : forall v, getv m (set_cell m v r) = v /\ dkeys (set_cell m v r) = dkeys r /\ forall c, c <> m -> getv c (set_cell m v r) = getv c r).
  { intros v. split; [|split].
    - clear - I. unfold getv, set_cell. induction r as [|[k x] r IH]; [destruct I|]. cbn [map dget fst].
      destruct (String.eqb_spec k m) as [->|E]; cbn [dget].
      + now rewrite String.eqb_refl.
      + cbn [dget fst]. destruct (String.eqb_spec m k) as [->|_]; [contradiction|]. apply IH. destruct I as [I|I]; [contradiction|exact I].
    - unfold set_cell, dkeys. rewrite map_map. apply map_ext. intros [k x]. cbn [fst]. destruct (String.eqb k m); reflexivity.
    - intros c E. unfold getv, set_cell. clear - E. induction r as [|[k x] r IH]; [reflexivity|]. cbn [map dget fst].
      destruct (String.eqb_spec k m) as [->|X]; cbn [dget].
      + destruct (String.eqb_spec c m) as [->|_]; [contradiction|]. exact IH.
      + destruct (String.eqb c k); [reflexivity|exact IH]. }
  assert (FT : forall x, finite_number x -> ~ is_missing (VFloat (to_float x)) /\ ~ is_infinite (VFloat (to_float x))).
  { intros x X. destruct x as [z|f]; cbn [to_float]; [unfold z_to_f|destruct X as (v & ->)];
      (split; intros [Y|Y]; discriminate Y). }
  unfold clean_row in H.
  destruct (getv m r) as [|z|f|s|z|z] eqn:E; try destruct f; try (destruct b as [[lo hi]|]); try destruct H as [<-|[]]; try destruct H;
    rewrite ?E; try (repeat split; try reflexivity; intros [Y|Y]; discriminate Y).
  all: destruct F as [F|F]; [|exfalso; apply F; unfold is_infinite; tauto].
  all: destruct (F lo hi eq_refl) as [F1 F2].
  - destruct (SC (VFloat (to_float hi))) as (A & B & C). rewrite A. destruct (FT hi F2). auto.
  - destruct (SC (VFloat (to_float lo))) as (A & B & C). rewrite A. destruct (FT lo F1). auto.
Qed.

(** *** The whole rewriting *)
Lemma may_be_infinite_dec d : may_be_infinite d \/ ~ may_be_infinite d.
Proof. destruct (is_decimal d && cd_inf d) eqn:E; [left; now apply infinite_spec|right; intros X; apply infinite_spec in X; congruence]. Qed.
Lemma rewritten_table cond_ok cat q q' : rewritten cond_ok cat q q' -> is_table q -> q' = q.
Proof.
  induction 1; cbn [is_table]; intros T; try contradiction; try reflexivity; try (now rewrite (IHrewritten T)).
  destruct T as [T1 T2]. now rewrite (IHrewritten1 T1), (IHrewritten2 T2).
Qed.
Lemma rewritten_measure cond_ok cat q q' c m : rewritten cond_ok cat q q' -> measure_of q = Some (c, m) ->
  exists c1 c', rewritten cond_ok cat c c1 /\ cleaned cond_ok cat m (bounds_of q) c1 c' /\ measure_of q' = Some (c', m)
    /\ bounds_of q' = bounds_of q.
Proof. intros H M. destruct H; try discriminate M; injection M as <- <-; cbn [measure_of bounds_of]; eauto 8. Qed.

Lemma rewrite_rows auto mu W l2 cat data q q' s c m t cs :
  inputs_ok l2 cat data -> catalog_made cat -> built auto q -> promises W l2 cat data q ->
  schema_of (w_cond_ok W) cat q = Ok s -> measure_of q = Some (c, m) -> is_table c ->
  build_transformation W l2 cat data c = Ok (t, cs) ->
  rewrite auto (w_cond_ok W) mu cat q = Ok q' ->
  exists c' t' cs', measure_of q' = Some (c', m) /\ bounds_of q' = bounds_of q
    /\ visit W l2 cat data c' = Ok (t', cs')
    /\ v_rows t' = flat_map (clean_row m (bounds_of q)) (v_rows t)
    /\ v_place t' = v_place t
    /\ forall r r', In r (v_rows t) -> In r' (clean_row m (bounds_of q) r) ->
         ~ is_missing (getv m r') /\ ~ is_infinite (getv m r') /\ dkeys r' = dkeys r
         /\ forall k, k <> m -> getv k r' = getv k r.
Proof.
  intros IN CAT B PR S M T V R.
  destruct (rewrite_ok auto (w_cond_ok W) mu cat CAT q q' s B S R) as (B' & S' & RW & C & _).
  destruct (rewritten_measure _ _ _ _ _ _ RW M) as (c1 & c' & R1 & CL & M' & BD).
  pose proof (rewritten_table _ _ _ _ R1 T) as ->.
  destruct (proj1 (build_transformation_ok W l2 cat data c t cs) V) as (sc & Sc & Vc & _).
  assert (Bc : built auto c) by (destruct q; try discriminate M; injection M as <- _; apply B).
  assert (Pc : promises W l2 cat data c) by (destruct q; try discriminate M; injection M as <- _; exact PR).
  destruct (built_conforms W l2 cat data IN auto c sc t cs Bc Pc Sc V) as (ND & CF & MF & SE).
  assert (MS : measured q = Some (c, m, bounds_of q)).
  { destruct q; try discriminate M; injection M as <- <-; reflexivity. }
  destruct (measured_schema (w_cond_ok W) cat q c m _ s MS S) as (k & outs & sc' & Sc' & G & _).
  assert (sc' = sc) as -> by congruence.
  destruct (groupby_measure _ _ _ _ _ G) as (_ & NG & NI & d & D & _).
  assert (DOM : in_domain (v_dom t) (v_rows t)) by exact (conforms_in_domain sc _ _ SE CF).
  assert (MC : metric_column (v_place t) <> Some m).
  { unfold metric_for in MF. destruct (sc_group sc) as [g|], (sc_id sc) as [i|]; try contradiction; rewrite MF; cbn [metric_column]; congruence. }
  destruct (cleaned_rows W l2 cat data m (bounds_of q) c c' sc t cs CL Sc Vc (sch_made _ _ CAT c sc Sc) SE DOM MC)
    as (t' & cs' & V' & RT & PT).
  exists c', t', cs'. repeat (split; [assumption|]).
  intros r r' Hr Hr'. destruct (CF r Hr) as (N & KS & CO).
  apply (clean_row_clean m (bounds_of q) r r' N); [|exact Hr'|].
  - destruct (may_be_infinite_dec d) as [I|I].
    + left. intros lo hi E.
      assert (CB : everywhere (clampable (w_cond_ok W) cat) q).
      { apply (rewrite_total auto (w_cond_ok W) mu cat CAT q s B S). eauto. }
      apply everywhere_iff in CB as [CB _]. exact (CB c m sc d lo hi M E Sc D I).
    + right. intros Y. apply I. specialize (CO m d D). unfold may_be_infinite.
      destruct Y as [Y|Y]; rewrite Y in CO; unfold cell_ok in CO; destruct (cd_type d); try discriminate CO; auto.
  - apply KS. apply in_dkeys. eauto.
Qed.

Lemma rewritten_sources cond_ok cat q q' : rewritten cond_ok cat q q' -> sources q' = sources q.
Proof.
  assert (C : forall m b c c', cleaned cond_ok cat m b c c' -> sources c' = sources c).
  { intros m b c c' (s & d & c1 & _ & _ & H1 & H2).
    assert (E : sources c1 = sources c) by (destruct H1 as [[_ ->]|[_ ->]]; reflexivity).
    rewrite <- E. destruct H2 as [[_ ->]|[_ ->]]; [|reflexivity]. destruct b as [[lo hi]|]; reflexivity. }
  induction 1; cbn [sources]; try assumption; try reflexivity; try congruence;
    rewrite (C _ _ _ _ H0); assumption.
Qed.
Lemma built_build auto q : built auto q -> build auto q = Ok q.
Proof.
  induction q; intros B; destruct B as [P B]; cbn [build]; try exact P;
    try (rewrite (IHq B); exact P).
  destruct B as [B1 B2]. rewrite (IHq1 B1), (IHq2 B2). exact P.
Qed.
Lemma rewrite_tables auto cond_ok mu cat q : built auto q -> is_table q -> rewrite auto cond_ok mu cat q = Ok q.
Proof.
  intros B T. unfold rewrite.
  assert (H : forall func, (forall x, measure_of x = None -> asked_mechanism x = None -> func x = Ok x) -> everywhere (fun n => func n = Ok n) q).
  { intros func F. clear B. induction q as [q IH] using query_below_ind. apply everywhere_iff. split.
    - apply F; destruct q; try contradiction; reflexivity.
    - intros c Hc. apply IH; [exact Hc|]. destruct q; cbn [below] in Hc; try contradiction; cbn [is_table] in T;
        repeat (destruct Hc as [<-|Hc]; [try exact T; apply T|]); destruct Hc. }
  assert (HS : forall x, measure_of x = None -> asked_mechanism x = None -> handle_special_values auto cond_ok cat x = Ok x).
  { intros x M _. unfold handle_special_values. rewrite measured_of in M. destruct (measured x) as [[[? ?] ?]|]; [discriminate M|reflexivity]. }
  rewrite (depth_first_id auto _ q B (H _ HS)). cbn [bind]. apply (depth_first_id auto _ q B). apply H. intros x M A. destruct x; try discriminate A; reflexivity.
Qed.
