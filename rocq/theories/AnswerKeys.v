(** The keys for which a grouped aggregation answers. *)
From Coq Require Import String Bool Arith ZArith QArith Qcanon Lia Permutation List.
From Verif Require KeySet KeySetSem KeySetApi KeySetTotalApi KeySetSchema KeySetSchemaApi KeySetRefused Props_KeySet Props_KeySetSchema.
From Verif Require Import Prelude Budget Value Rows Constraints ConstraintsSpec ConstraintsProofs
  Schema SchemaProofs Query Rewrite RewriteSpec RewriteProofs Transform TransformSpec TransformVisit
  QueryProofs QueryAccept QueryEq Session Measure MeasureProofs MeasureCount MeasureRows AnswerSchema.
Import ListNotations.
Local Open Scope string_scope.
Local Open Scope nat_scope.

(** ** Specification *)

(** The cells of a table in the columns [cols]: one list for each row. *)
Definition cells_in (cols : list string) (t : table) : list (list value) := map (fun r => map (fun c => getv c r) cols) t.

(** ** Rows of a measurement *)

Section Run.
Variable R : rounding.
Variable W : world.
Variable K : core.
Variable auto : bool.
Variable so : list string -> list string.
Variable mu : measure.
Variable cat : catalog.
Variable data : dict vtab.
Hypothesis MADE : catalog_made cat.
Notation cmp := (compile R W K auto so mu cat data).

Lemma plan_keys b q c k m : built auto q -> grouped_by q = Some (c, k) -> cmp b q = Ok m ->
  exists adj g, m = MGroupBy adj g /\ g_keys g = k /\ g_outs g = output_names q.
Proof.
  intros B G C. apply compile_inv in C as (s & q' & adj & S & RW & M).
  destruct (rewrite_ok auto (w_cond_ok W) mu cat MADE _ _ _ B S RW) as (B' & S1 & RR & _ & RM).
  destruct (rewritten_grouped W cat q q' c k RR G) as (c' & G' & ON & TB).
  assert (RM' : right_mechanism (w_cond_ok W) mu cat q') by (inversion RM; assumption).
  destruct (plan_made R W K auto so mu cat data b q' c' k m adj M G' RM') as (g & t0 & cs & -> & GK & GO & _).
  exists adj, g. rewrite GO, ON. auto.
Qed.
(** One row for each key of the KeySet: its cells, then the answer. *)
Lemma keyed_rows b q c cols rows m t : built auto q -> grouped_by q = Some (c, KSet cols rows) -> cmp b q = Ok m ->
  run_measurement R K m = Ok t ->
  exists g, g_keys g = KSet cols rows /\ g_outs g = output_names q
    /\ t = map (fun key => (key ++ combine (g_outs g) (k_answer K g key (group (dkeys cols) key (v_rows (g_table g)))))%list)
             (match dkeys cols with [] => [[]] | _ => rows end).
Proof.
  intros B G C RUN. destruct (plan_keys b q c _ m B G C) as (adj & g & -> & GK & GO). exists g. split; [exact GK|]. split; [exact GO|].
  cbn [run_measurement] in RUN. unfold run_plan in RUN. apply bind_ok in RUN as (keys & FK & RUN).
  apply bind_ok in RUN as (? & _ & RUN). apply bind_ok in RUN as (? & _ & RUN). injection RUN as <-.
  unfold find_keys in FK. rewrite GK in *. apply bind_ok in FK as (? & _ & FK). injection FK as <-. reflexivity.
Qed.
(** Suppressing small answers only drops rows. *)
Lemma suppressed_rows b q m : cmp b q = Ok m -> forall t, run_measurement R K m = Ok t ->
  exists m' t' keep, cmp b (unsuppressed q) = Ok m' /\ run_measurement R K m' = Ok t' /\ t = filter keep t'.
Proof.
  revert m. induction q; intros me C t RUN;
    try (exists me, t, (fun _ => true); cbn [unsuppressed]; split; [exact C|]; split; [exact RUN|]; clear; induction t as [|r t IH]; cbn [filter]; congruence).
  apply compile_suppress in C as (m' & C & ->). cbn [run_measurement] in RUN. apply bind_ok in RUN as (t' & RUN & E). injection E as <-.
  destruct (IHq m' C t' RUN) as (m2 & t2 & keep & C2 & R2 & ->). exists m2, t2, (fun r => keep r && at_least threshold (getv column r)).
  cbn [unsuppressed]. split; [exact C2|]. split; [exact R2|]. clear. induction t2 as [|r t IH]; [reflexivity|]. cbn [filter].
  destruct (keep r); cbn [andb filter]; [destruct (at_least _ _); congruence|exact IH].
Qed.
Lemma unsuppressed_built q : built auto q -> built auto (unsuppressed q).
Proof. induction q; cbn [unsuppressed]; intros B; try exact B. apply IHq. eapply built_child; [exact B|left; reflexivity]. Qed.
End Run.

(** ** The keys of a KeySet *)

Section Keys.
Variable KW : KeySet.world.
Variable D : KeySetSem.oracle.

Lemma getv_combine : forall (cs : list string) (r : list value), NoDup cs -> length r = length cs ->
  map (fun c => getv c (combine cs r)) cs = r.
Proof.
  induction cs as [|c cs IH]; intros [|v r] N L; try discriminate L; [reflexivity|]. inversion N as [|? ? NI ND]; subst.
  injection L as L. cbn [map combine]. unfold getv at 1. cbn [dget fst]. rewrite String.eqb_refl. f_equal.
  transitivity (map (fun x => getv x (combine cs r)) cs); [|exact (IH r ND L)]. apply map_ext_in. intros x I. unfold getv. cbn [dget fst].
  destruct (String.eqb_spec x c) as [->|]; [contradiction|reflexivity].
Qed.
Lemma dkeys_combine_eq : forall (cs : list string) (r : list value), length r = length cs -> dkeys (combine cs r) = cs.
Proof. induction cs as [|c cs IH]; intros [|v r] L; try discriminate L; [reflexivity|]. injection L as L. cbn [combine]. unfold dkeys in *. cbn [map fst]. f_equal. apply IH, L. Qed.
Lemma getv_app_in c (r r' : rec) : In c (dkeys r) -> getv c (r ++ r')%list = getv c r.
Proof.
  intros I. unfold getv. induction r as [|(x & v) r IH]; [destruct I|]. cbn [app dget fst]. destruct (String.eqb_spec c x) as [->|N]; [reflexivity|].
  apply IH. destruct I as [E|I]; [cbn in E; congruence|exact I].
Qed.

(** The KeySet as the query holds it. *)
Lemma query_keys e ks k : KeySetApi.usable KW D e -> KeySetApi.concrete e = true -> KeySetApi.eval KW e = Ok ks ->
  erase_keys KW (XSet ks) = Ok k ->
  exists s rows, k = KSet s rows /\ dkeys s = KeySetApi.kcols e /\ NoDup (KeySetApi.kcols e)
    /\ (forall r, In r rows -> dkeys r = KeySetApi.kcols e)
    /\ (KeySetApi.kcols e <> [] ->
        NoDup (cells_in (KeySetApi.kcols e) rows)
        /\ (forall key, In (map key (KeySetApi.kcols e)) (cells_in (KeySetApi.kcols e) rows) <-> KeySetApi.kden KW D e key)).
Proof.
  intros U C E X. destruct (Props_KeySet.C08_plan_means_relational_algebra KW e ks D U E) as (KC & _).
  destruct (Props_KeySetSchema.C63_schema_is_documented KW e ks C (KeySetSchemaApi.usable_frames KW D e U) E) as (s & S & SK & SN & _).
  rewrite SK in SN. cbn [erase_keys] in X. rewrite KC in X. destruct (KeySetApi.kcols e) as [|c0 cl] eqn:EC.
  - injection X as <-. exists [], []. split; [reflexivity|]. split; [reflexivity|]. split; [constructor|]. split; [intros r []|congruence].
  - rewrite <- EC in *. assert (NE : KeySetApi.kcols e <> []) by congruence.
    apply bind_ok in X as (s' & S' & X). rewrite S in S'. injection S' as <-. apply bind_ok in X as (f & F & X). injection X as <-.
    destruct (Props_KeySet.C08_keyset_means_relational_algebra KW D e ks U E C NE) as (f' & F' & FC & FL & FN & FK).
    rewrite F in F'. injection F' as <-.
    assert (CE : cells_in (KeySetApi.kcols e) (map (combine (fcols f)) (frows f)) = frows f).
    { unfold cells_in. rewrite map_map. transitivity (map (fun r => r) (frows f)); [|apply map_id]. apply map_ext_in. intros r I. rewrite FC. apply getv_combine; [exact SN|apply FL, I]. }
    exists s, (map (combine (fcols f)) (frows f)). split; [reflexivity|]. split; [exact SK|]. split; [exact SN|]. split.
    + intros r I. apply in_map_iff in I as (r0 & <- & I). rewrite FC. apply dkeys_combine_eq, FL, I.
    + intros _. rewrite CE. split; [exact FN|exact FK].
Qed.

(** Keys are whole numbers, strings or dates. *)
Lemma required_types e : KeySetRefused.required KW e -> forall c t, KeySetSchema.typed e c t -> KeySetTotalApi.key_type t.
Proof.
  assert (U : forall vs t t' v, KeySetTotalApi.key_type t -> KeySetTotalApi.uniform vs t -> In v vs -> KeySet.value_type v = Some t' -> KeySetTotalApi.key_type t').
  { intros vs t t' v KT (_ & A) I T. destruct (A v I) as [->|B]; [discriminate T|]. congruence. }
  induction e; cbn [KeySetRefused.required KeySetSchema.typed]; intros RQ c0 ty T.
  - destruct RQ as (_ & _ & _ & _ & RQ), T as (i & N & r & I & T).
    destruct (RQ i) as (t & KT & UN); [apply nth_error_Some; congruence|].
    refine (U _ t ty _ KT UN _ T). apply in_map_iff. eauto.
  - destruct RQ as (_ & _ & RQ), T as (vs & I & v & J & T). destruct (RQ _ _ I) as (t & KT & UN). exact (U _ t ty v KT UN J T).
  - destruct RQ as (_ & _ & _ & RQ), T as (x & I & <-). exact (RQ _ _ I).
  - destruct T.
  - destruct RQ as (RA & RB & _), T as [(_ & T)|(_ & T)]; [exact (IHe1 RA _ _ T)|exact (IHe2 RB _ _ T)].
  - destruct RQ as (RA & RB & _), T as [(_ & T)|(_ & T)]; [exact (IHe1 RA _ _ T)|exact (IHe2 RB _ _ T)].
  - destruct RQ as (RA & RB & _), T as [T|T]; [exact (IHe1 RA _ _ T)|exact (IHe2 RB _ _ T)].
  - destruct RQ as (RA & RB & _). exact (IHe1 RA _ _ T).
  - destruct RQ as (RA & _). exact (IHe RA _ _ T).
  - destruct RQ as (RA & _). exact (IHe RA _ _ T).
Qed.

(** The KeySet conforms to its schema. *)
Lemma keys_declared e ks k : KeySetApi.usable KW D e -> KeySetApi.concrete e = true -> KeySetSchemaApi.frames_fit KW e ->
  KeySetApi.eval KW e = Ok ks -> erase_keys KW (XSet ks) = Ok k -> keys_as_declared k.
Proof.
  intros U C FF E X. pose proof (KeySetSchemaApi.usable_frames KW D e U) as FO.
  destruct (query_keys e ks k U C E X) as (s & rows & -> & SK & SN & RK & _). cbn [keys_as_declared]. rewrite SK. split; [exact SN|].
  destruct (Props_KeySet.C08_plan_means_relational_algebra KW e ks D U E) as (KC & _).
  destruct (Props_KeySetSchema.C63_schema_is_documented KW e ks C FO E) as (s' & S & _ & _ & SD).
  cbn [erase_keys] in X. rewrite KC in X. destruct (KeySetApi.kcols e) as [|c0 cl] eqn:EC; [injection X as <- <-; intros r []|].
  rewrite <- EC in *. assert (NE : KeySetApi.kcols e <> []) by congruence.
  rewrite S in X. cbn [bind] in X. apply bind_ok in X as (f & F & X). injection X as -> <-.
  destruct (Props_KeySetSchema.C63_keys_fit_schema KW D e ks f s U C FF NE E F S) as (FC & FIT).
  intros r I. pose proof (RK r I) as KR. unfold row_conforms. rewrite KR, SK. split; [exact SN|]. split; [intros n; reflexivity|].
  intros n d G. apply in_map_iff in I as (v & <- & I). specialize (FIT v I). rewrite FC.
  assert (TY : forall c d, In (c, d) s -> KeySetTotalApi.key_type (cd_type d)).
  { intros c d' J. apply (required_types e (KeySetRefused.eval_required KW e C FO ks E) c). apply (SD c d' J). reflexivity. }
  clear - G FIT TY. unfold getv. revert G. induction FIT as [|(x & dx) w l l' P Q IH]; [discriminate|]. cbn [map combine dget fst].
  destruct (String.eqb_spec n x) as [->|N].
  - intros [= <-]. cbn [snd] in P. destruct P as [(-> & P)|P]; [exact P|]. destruct (TY x dx (or_introl eq_refl)) as [T|[T|T]]; rewrite T in P;
      destruct w; try discriminate P; cbn [cell_ok]; rewrite T; reflexivity.
  - apply IH. intros c d' J. apply (TY c d'). right. exact J.
Qed.
End Keys.
