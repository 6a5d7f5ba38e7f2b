(** Property C80: views and public tables are made, and deleted, exactly when they can be. *)
From Coq Require Import String Bool Arith ZArith QArith Qcanon Lia Permutation List.
From Verif Require Import Prelude Budget BudgetScale Value Rows Constraints Schema SchemaProofs Query QuerySame Rewrite Transform TransformSpec TransformConform TransformVisit QueryProofs Tables TablesProofs
  Accountant AccountantProofs Session SessionSpec SessionMoney SessionSteps SessionTables SessionInv SessionUse SessionViews SessionNames SessionWell SessionViewTotal SessionSound
  Neighboring NeighboringProofs Builder BuilderProofs BuilderTree BuilderBuild BuilderCalls BuilderSpec BuilderNeighbours BlindSpec Measure Footprint Props_Query Props_Session Props_Measure Props_Sound Props_Footprint Shown.
From Verif Require Props_BuilderCalls.
Import ListNotations.
Local Open Scope string_scope.
Local Open Scope nat_scope.

(** ** What a call may meet *)

(** The session [s] of [st] has a private table named [n]; some table, private or public, has
    that name. *)
Definition is_private (s : sess) (n : string) : Prop := exists t, table_named (s_tree s) n = Ok t.
Definition taken (st : state) (s : sess) (n : string) : Prop := is_private s n \/ In n (public_sources (st_public st)).
(** A frame with a column without a name, a column whose type is not supported, or a number
    column whose name another column has too. *)
Definition unfit (f : sframe) : Prop :=
  In "" (map sf_name (sd_fields f))
  \/ (exists c n, In c (sd_fields f) /\ sf_type c = OtherT n)
  \/ (exists c, In c (sd_fields f) /\ (sf_type c = IntegerT \/ sf_type c = FloatT)
        /\ 1 < count_occ string_dec (map sf_name (sd_fields f)) (sf_name c)).
(** The query [q] cannot be turned into a table of the session: computing it raises [e]. *)
Definition no_table (E : env) (st : state) (s : sess) (q : query) (e : exn) : Prop :=
  exists cat data, catalog_of (s_tree s) (st_public st) (s_cons s) = Ok cat /\ data_of (s_tree s) = Ok data
    /\ build_transformation (e_world E) (is_rho (s_left s)) cat data q = Err e.
(** The table [n] is the last thing in its collection: no other private table protects the same
    ID space, or, for tables without IDs, there is no other table and no ID space. *)
Definition last_of_its_kind (s : sess) (n : string) : Prop :=
  exists t, table_named (s_tree s) n = Ok t
    /\ (forall m u, table_named (s_tree s) m = Ok u -> v_coll u = v_coll t -> m = n)
    /\ (v_coll t = None -> id_spaces (s_tree s) = []).

(** What makes the calls raise. *)
Inductive public_refusal (E : env) (st : state) (s : sess) (n : string) (f : sframe) : Prop :=
| PName : e_identifier E n = false -> public_refusal E st s n f
| PTaken : taken st s n -> public_refusal E st s n f
| PFrame : unfit f -> public_refusal E st s n f.
Inductive view_refusal (E : env) (st : state) (p : path) (s : sess) (q : query) (v : string) : exn -> Prop :=
| VName : e_identifier E v = false -> view_refusal E st p s q v ValueError
| VEnded : e_identifier E v = true -> state_at (st_root st) p RETIRED -> view_refusal E st p s q v RuntimeError
| VTaken : e_identifier E v = true -> ~ state_at (st_root st) p RETIRED -> taken st s v -> view_refusal E st p s q v ValueError
| VQuery e : e_identifier E v = true -> ~ state_at (st_root st) p RETIRED -> ~ taken st s v -> no_table E st s q e -> view_refusal E st p s q v e.
Inductive delete_refusal (E : env) (st : state) (p : path) (s : sess) (n : string) : exn -> Prop :=
| DEnded : state_at (st_root st) p RETIRED -> delete_refusal E st p s n RuntimeError
| DUnknown : ~ state_at (st_root st) p RETIRED -> ~ is_private s n -> delete_refusal E st p s n KeyError
| DLast : ~ state_at (st_root st) p RETIRED -> last_of_its_kind s n -> e_empty_ok E = false -> delete_refusal E st p s n ValueError.

(** ** Lemmas *)

Lemma private_iff s n : layout (s_tree s) -> is_private s n <-> exists t, dget n (named (s_tree s)) = Some t.
Proof.
  intros L. unfold is_private. rewrite (table_named_spec _ n L). destruct (dget n (named (s_tree s))) as [t|]; split; intros (u & H); eauto; discriminate.
Qed.
Lemma taken_iff st s n names : layout (s_tree s) -> private_sources (s_tree s) = Ok names -> (smem n names || dmem n (st_public st) = true <-> taken st s n).
Proof.
  intros L PS. unfold taken. rewrite orb_true_iff, dmem_In, (private_iff s n L), <- in_dkeys, (mem_names _ names n L PS). reflexivity.
Qed.
Lemma named_iff x n t : layout x -> table_named x n = Ok t <-> dget n (named x) = Some t.
Proof. intros L. rewrite (table_named_spec _ n L). destruct (dget n (named x)); split; intros H; try discriminate; injection H as ->; reflexivity. Qed.
Lemma retired_dec st p : state_at (st_root st) p RETIRED \/ ~ state_at (st_root st) p RETIRED.
Proof.
  destruct (find p (st_root st)) as [c|] eqn:F.
  - destruct (a_state c) eqn:A; try (left; exists c; split; [exact F|exact A]); right; intros (c' & F' & A'); rewrite F in F'; injection F' as <-; congruence.
  - right. intros (c & F' & _). congruence.
Qed.
Lemma not_retired st p s : session st p s -> ~ state_at (st_root st) p RETIRED -> exists t, activate p (st_root st) = (t, Ok tt).
Proof.
  intros (c & F & _) N. unfold activate. rewrite F. cbn [option_map]. destruct (a_state c) eqn:A; eauto. exfalso. apply N. exists c. auto.
Qed.

(** ** Public tables *)

(** add_public_dataframe works, in every session, even one that was stopped, if the name is an
    identifier that no table of the session has and the frame is fit; it raises a ValueError
    otherwise.  Then the table is listed last, and nothing else changes. *)
Theorem C80_public_tables : forall E st p s n f, any_state E st -> session st p s ->
  (public_refusal E st s n f -> step E st (AddPublic p n f) = (st, Err ValueError))
  /\ (~ public_refusal E st s n f -> exists st' f', step E st (AddPublic p n f) = (st', Ok tt)
       /\ st_public st' = (st_public st ++ [(n, f')])%list /\ st_root st' = st_root st
       /\ map sf_name (sd_fields f') = map sf_name (sd_fields f) /\ sd_rows f' = sd_rows f).
Proof.
  intros E st p s n f A S. destruct (any_state_facts E st A) as (TA & _ & _). pose proof (tk_layout s (TA p s S)) as L. destruct (sources_exist _ L) as (names & PS).
  pose proof (Props_BuilderCalls.coerce_decided f) as CD. pose proof (taken_iff st s n names L PS) as TI. rewrite orb_comm in TI.
  cbn [step]. unfold add_public_dataframe. rewrite (proj2 (session_at_iff st p s) S). cbn [attempt]. rewrite PS.
  destruct (e_identifier E n) eqn:ID; cbn [negb raise_if attempt].
  2: { split; [reflexivity|]. intros N. exfalso. apply N, PName, ID. }
  destruct (dmem n (st_public st) || smem n names) eqn:T; cbn [raise_if attempt].
  { split; [reflexivity|]. intros N. exfalso. apply N, PTaken, TI. reflexivity. }
  destruct (coerce_spark_schema_or_fail f) as [f'|e] eqn:C; cbn [attempt Props_BuilderCalls.decided] in *.
  - split.
    + intros [X|X|X]; [congruence|apply TI in X; congruence|]. exfalso. apply (CD ValueError). split; [reflexivity|exact X].
    + intros _. destruct (coerce_columns f f' C) as (CN & CR). eexists; exists f'. split; [reflexivity|]. split; [reflexivity|]. split; [reflexivity|]. split; [exact CN|exact CR].
  - destruct CD as (-> & B). split; [reflexivity|]. intros N. exfalso. apply N, PFrame, B.
Qed.
Print Assumptions C80_public_tables.

(** ** Views *)

(** create_view works exactly for an identifier that no table of the session has, a session
    that has not ended and a query that can be computed; each refusal has its own exception, in
    this order, and computing raises the exception that create_view raises. *)
Theorem C80_views_created : forall E st p s q v cache,
  (forall x q, layout x -> exists x1, add_temps (e_temps E x q) x = Ok x1) -> any_state E st -> session st p s ->
  ((exists st', step E st (CreateView p q v cache) = (st', Ok tt))
     <-> e_identifier E v = true /\ ~ state_at (st_root st) p RETIRED /\ ~ taken st s v /\ exists z, stands_for E st s q z)
  /\ (forall e, (exists st', step E st (CreateView p q v cache) = (st', Err e)) <-> view_refusal E st p s q v e).
Proof.
  intros E st p s q v cache TM A S. destruct (any_state_facts E st A) as (TA & FA & RA). pose proof (tk_layout s (TA p s S)) as L. destruct (sources_exist _ L) as (names & PS).
  destruct (catalogs_exist st s (TA p s S) (FA p s S) RA) as (cat & data & CA & DA).
  assert (SF : forall z, stands_for E st s q z <-> build_transformation (e_world E) (is_rho (s_left s)) cat data q = Ok z).
  { intros z. split; [|intros H; exists cat, data; auto]. intros (cat' & data' & CA' & DA' & H). rewrite CA in CA'. rewrite DA in DA'. injection CA' as <-. injection DA' as <-. exact H. }
  assert (NT : forall e, no_table E st s q e <-> build_transformation (e_world E) (is_rho (s_left s)) cat data q = Err e).
  { intros e. split; [|intros H; exists cat, data; auto]. intros (cat' & data' & CA' & DA' & H). rewrite CA in CA'. rewrite DA in DA'. injection CA' as <-. injection DA' as <-. exact H. }
  pose proof (taken_iff st s v names L PS) as TI.
  cbn [step]. unfold create_view. rewrite (proj2 (session_at_iff st p s) S). cbn [attempt].
  destruct (e_identifier E v) eqn:ID; cbn [negb raise_if attempt fails].
  2: { split; [split; [intros (? & [=])|intros ([=] & _)]|]. intros e. split; [intros (? & [= <- <-]); apply VName, ID|]. intros H. inversion H; subst; try congruence. eexists; reflexivity. }
  destruct (retired_dec st p) as [R|R].
  { unfold activated. rewrite (activate_retired p _ R). split; [split; [intros (? & [=])|intros (_ & X & _); contradiction]|].
    intros e. split; [intros (? & [= <- <-]); apply VEnded; assumption|]. intros H. inversion H; subst; try congruence; try contradiction. eexists; reflexivity. }
  destruct (not_retired st p s S R) as (t & AC). unfold activated. rewrite AC, PS. cbn [attempt set_root st_public]. destruct (smem v names || dmem v (st_public st)) eqn:T; cbn [raise_if attempt fails].
  { pose proof (proj1 TI eq_refl) as TK. split; [split; [intros (? & [=])|intros (_ & _ & X & _); contradiction]|].
    intros e. split; [intros (? & [= <- <-]); apply VTaken; assumption|]. intros H. inversion H; subst; try congruence; try contradiction. eexists; reflexivity. }
  assert (TK : ~ taken st s v) by (intros X; apply TI in X; discriminate). rewrite CA, DA. cbn [attempt].
  destruct (build_transformation (e_world E) (is_rho (s_left s)) cat data q) as [y|e0] eqn:BT; cbn [attempt fails].
  - destruct (TM (s_tree s) q L) as (x1 & AT). rewrite AT. cbn [attempt]. destruct (add_temps_layout _ _ _ L AT) as (L1 & P1).
    assert (NN : ~ In v (dkeys (named (s_tree s)))). { intros I. apply TK. left. apply (private_iff s v L). apply in_dkeys, I. }
    destruct (store_exists q v cache (s_tree s) x1 cat data y (e_world E) (is_rho (s_left s)) L NN DA BT L1 P1) as (z & z' & x4 & AR & RN & RN2).
    rewrite AR. cbn [attempt]. rewrite RN. cbn [attempt]. rewrite RN2. cbn [attempt]. split.
    + split; [|eauto]. intros _. split; [reflexivity|]. split; [exact R|]. split; [exact TK|]. exists y. apply SF, eq_refl.
    + intros e. split; [intros (? & [=])|]. intros H. inversion H; subst; try congruence; try contradiction. match goal with X : no_table _ _ _ _ _ |- _ => apply NT in X; discriminate end.
  - split.
    + split; [intros (? & [=])|]. intros (_ & _ & _ & z & Z). apply SF in Z. discriminate.
    + intros e. split; [intros (? & [= <- <-]); apply VQuery; try assumption; apply NT; reflexivity|]. intros H. inversion H; subst; try congruence; try contradiction.
      match goal with X : no_table _ _ _ _ _ |- _ => apply NT in X; injection X as -> end. eexists; reflexivity.
Qed.
Print Assumptions C80_views_created.

(** delete_view works exactly for the names of private tables, in a session that has not ended,
    unless tmlt.core refuses empty dictionaries and the table is the last one of its collection. *)
Theorem C80_views_deleted : forall E st p s n, any_state E st -> session st p s ->
  ((exists st', step E st (DeleteView p n) = (st', Ok tt))
     <-> ~ state_at (st_root st) p RETIRED /\ is_private s n /\ (last_of_its_kind s n -> e_empty_ok E = true))
  /\ (forall e, (exists st', step E st (DeleteView p n) = (st', Err e)) <-> delete_refusal E st p s n e).
Proof.
  intros E st p s n A S. destruct (any_state_facts E st A) as (TA & FA & RA). pose proof (tk_layout s (TA p s S)) as L.
  cbn [step]. unfold delete_view. rewrite (proj2 (session_at_iff st p s) S). cbn [attempt].
  destruct (retired_dec st p) as [R|R].
  { unfold activated. rewrite (activate_retired p _ R). split; [split; [intros (? & [=])|intros (X & _); contradiction]|].
    intros e. split; [intros (? & [= <- <-]); apply DEnded; assumption|]. intros H. inversion H; subst; try congruence; try contradiction. eexists; reflexivity. }
  destruct (not_retired st p s S R) as (t0 & AC). unfold activated. rewrite AC, (find_reference_named _ n L).
  destruct (dget n (named (s_tree s))) as [t|] eqn:G; cbn [option_map fails].
  2: { assert (NP : ~ is_private s n) by (intros X; apply (private_iff s n L) in X as (u & X); congruence).
       split; [split; [intros (? & [=])|intros (_ & X & _); contradiction]|]. intros e. split; [intros (? & [= <- <-]); apply DUnknown; assumption|].
       intros H. inversion H as [| |? (u & U & _)]; subst; try contradiction; [eexists; reflexivity|]. exfalso. apply NP. exists u. exact U. }
  assert (IP : is_private s n) by (apply (private_iff s n L); eauto). pose proof (dget_In _ _ _ G) as I. rewrite (layout_domain _ n t L I). cbn [attempt raise_if].
  assert (PL : v_coll t <> None -> has_key (TLeaf t) = true).
  { assert (PT : placed t). { destruct (data_of_spec _ L) as (d & DA & DG). eapply (data_placed _ d L DA n). rewrite DG. exact G. } unfold placed in PT. intros NC. cbn. destruct (v_place t); try reflexivity; contradiction. }
  destruct (rename_exists (v_coll t) (NamedTable n) t (s_tree s) (fresh (s_tree s)) L (layout_get _ n t L I)) as (x1 & RX); [|apply unused_fresh|exact PL|].
  { unfold has_collection. destruct (v_coll t) eqn:C; [|exact Logic.I]. exists n, t. auto. }
  destruct (rename_layout _ _ _ _ _ _ L (layout_get _ n t L I) RX (fresh_addable _ _ _ _)) as (L1 & P1 & _). cbn in P1.
  assert (S1 : id_spaces x1 = id_spaces (s_tree s)) by (eapply spaces_rename; [exact RX|unfold fresh; discriminate]).
  change (collection_ref (v_coll t) ++ [NamedTable n])%list with (table_ref n t) in RX. rewrite RX. cbn [attempt].
  assert (I1 : In (n, t) (named x1)) by (eapply Permutation_in; [symmetry; exact P1|exact I]).
  assert (CL : crowded n t x1 <-> ~ last_of_its_kind s n).
  { assert (CR : crowded n t x1 <-> crowded n t (s_tree s)).
    { assert (N1 : forall m, dget m (named x1) = dget m (named (s_tree s))) by (intros m; apply perm_dget; [apply layout_nodup, L1|exact P1]).
      split; apply crowded_same; auto; intros c; rewrite S1; reflexivity. }
    rewrite CR. split.
    - intros [(m & u & NE & GU & C)|(C & NI)] (t' & T' & H1 & H2); apply (named_iff _ _ _ L) in T'; rewrite G in T'; injection T' as <-.
      + apply NE, (H1 m u); [apply (named_iff _ _ _ L), GU|exact C].
      + apply NI, H2, C.
    - intros N. destruct (crowded_dec n t (s_tree s) (layout_nodup _ L)) as [C|C]; [exact C|]. exfalso. apply N. exists t. split; [apply (named_iff _ _ _ L), G|]. split.
      + intros m u U C'. destruct (string_dec m n) as [->|NE]; [reflexivity|]. exfalso. apply C. left. exists m, u. split; [exact NE|]. split; [apply (named_iff _ _ _ L), U|exact C'].
      + intros C'. destruct (id_spaces (s_tree s)) as [|c l] eqn:IS; [reflexivity|]. exfalso. apply C. right. split; [exact C'|]. rewrite IS. discriminate. }
  destruct (delete_cases (e_empty_ok E) (e_shuffle E) x1 n t (e_shuffle_ok E) L1 I1) as (Y & N).
  assert (DE : (e_empty_ok E = true \/ crowded n t x1 /\ e_empty_ok E = false) \/ (~ crowded n t x1 /\ e_empty_ok E = false)).
  { destruct (e_empty_ok E); [auto|]. destruct (crowded_dec n t x1 (layout_nodup _ L1)); auto. }
  destruct DE as [DE|DE].
  - destruct (Y DE) as (x2 & D2 & _). rewrite D2. cbn [attempt]. split.
    + split; [|eauto]. intros _. split; [exact R|]. split; [exact IP|]. intros LK. destruct DE as [DE|(CR & _)]; [exact DE|]. exfalso. apply (proj1 CL CR), LK.
    + intros e. split; [intros (? & [=])|]. intros H. inversion H as [| |? LK EO]; subst; try contradiction. exfalso. destruct DE as [DE|(CR & _)]; [congruence|]. apply (proj1 CL CR), LK.
  - rewrite (N DE). cbn [attempt fails]. destruct DE as (NC & EO).
    assert (LK : last_of_its_kind s n).
    { exists t. split; [apply (named_iff _ _ _ L), G|]. assert (C : ~ crowded n t (s_tree s)).
      { intros C. apply NC. assert (N1 : forall m, dget m (named (s_tree s)) = dget m (named x1)) by (intros m; symmetry; apply perm_dget; [apply layout_nodup, L1|exact P1]).
        eapply crowded_same; [exact N1| |exact C]. intros c. rewrite S1. reflexivity. }
      split.
      - intros m u U C'. destruct (string_dec m n) as [->|NE]; [reflexivity|]. exfalso. apply C. left. exists m, u. split; [exact NE|]. split; [apply (named_iff _ _ _ L), U|exact C'].
      - intros C'. destruct (id_spaces (s_tree s)) as [|c l] eqn:IS; [reflexivity|]. exfalso. apply C. right. split; [exact C'|]. rewrite IS. discriminate. }
    split.
    + split; [intros (? & [=])|]. intros (_ & _ & X). specialize (X LK). congruence.
    + intros e. split; [intros (? & [= <- <-]); apply DLast; assumption|]. intros H. inversion H; subst; try contradiction. eexists; reflexivity.
Qed.
Print Assumptions C80_views_deleted.

(** ** Ending sessions *)

(** stop works in the active session and in one that has ended already, which stays as it is;
    a session that waits, for its parts or for an earlier part, is stopped too or refused with a
    RuntimeError, as tmlt.core sees fit, and a refusal changes nothing. *)
Theorem C80_stopping : forall E st p s, any_state E st -> session st p s ->
  (state_at (st_root st) p ACTIVE -> exists st', step E st (Stop p) = (st', Ok tt) /\ state_at (st_root st') p RETIRED)
  /\ (state_at (st_root st) p RETIRED -> step E st (Stop p) = (st, Ok tt))
  /\ (forall a, state_at (st_root st) p a -> a <> ACTIVE -> a <> RETIRED ->
       if e_retires_waiting E then exists st', step E st (Stop p) = (st', Ok tt) /\ state_at (st_root st') p RETIRED else step E st (Stop p) = (st, Err RuntimeError)).
Proof.
  intros E st p s A S. pose proof (any_state_ok E st A) as O. assert (R : forall st', step E st (Stop p) = (st', Ok tt) -> state_at (st_root st') p RETIRED) by (intros st'; apply stop_retires, O).
  split; [|split].
  - intros SA. destruct (active_stops E st p SA) as (st' & H). exists st'. split; [exact H|apply R, H].
  - intros SA. cbn [step]. unfold stop, retire. rewrite (proj1 (state_at_iff _ _ _) SA), set_root_id. reflexivity.
  - intros a SA N1 N2. cbn [step] in *. unfold stop, retire in *. rewrite (proj1 (state_at_iff _ _ _) SA) in *.
    destruct a; try contradiction; (destruct (e_retires_waiting E); [eexists; split; [reflexivity|apply R; reflexivity]|rewrite set_root_id; reflexivity]).
Qed.
Print Assumptions C80_stopping.

(** ** Views only? *)

(** delete_view is documented to delete views.  It deletes the private tables that the session
    was built from as well, after which a view of another table can have the name. *)
Definition stays : sframe := {| sd_fields := sd_fields trips; sd_rows := firstn 2 (sd_rows trips) |}.
Definition stay_calls : list bcall := WithPrivate "stays" stays (AddRowsWithID "id" "people") :: trips_calls'.
Definition stay_state : state := match build_by E1 stay_calls with Ok o => o_state o | Err _ => st0 (Pure (XFin 0)) end.
Lemma stay_any l : Forall proper l -> any_state E1 (run E1 stay_state l).
Proof.
  intros P. assert (B : exists o, build_by E1 stay_calls = Ok o) by (eexists; vm_compute; reflexivity). destruct B as (o & B).
  exists stay_calls, o, l. split; [cbn; intuition discriminate|]. split; [exact B|]. split; [exact P|]. unfold stay_state. rewrite B. reflexivity.
Qed.
Definition rows_of (st : state) (n : string) : res nat := let* t := table_named (s_tree (a_data (st_root st))) n in Ok (length (v_rows t)).

Theorem C80_only_views_are_deleted_refuted : exists E calls o n f c st1 st2,
  build_by E calls = Ok o /\ In (WithPrivate n f c) calls /\ rows_of (o_state o) n = Ok (length (sd_rows f))
  /\ step E (o_state o) (DeleteView [] n) = (st1, Ok tt) /\ rows_of st1 n = Err KeyError
  /\ step E st1 (CreateView [] (PrivateSource "trips") n false) = (st2, Ok tt)
  /\ exists k, rows_of st2 n = Ok k /\ k <> length (sd_rows f).
Proof.
  exists E1, stay_calls. assert (B : exists o, build_by E1 stay_calls = Ok o) by (eexists; vm_compute; reflexivity). destruct B as (o & B).
  exists o, "stays", stays, (AddRowsWithID "id" "people"), (run E1 (o_state o) [DeleteView [] "stays"]), (run E1 (o_state o) [DeleteView [] "stays"; CreateView [] (PrivateSource "trips") "stays" false]).
  split; [exact B|]. assert (Q : o_state o = stay_state) by (unfold stay_state; rewrite B; reflexivity). rewrite Q. clear Q B o. split; [left; reflexivity|]. split; [vm_compute; reflexivity|].
  assert (Z : forall st o, snd (step E1 st o) = Ok tt -> step E1 st o = (run E1 st [o], Ok tt)) by (intros st o H; cbn [run]; destruct (step E1 st o) as (st', r); cbn in *; congruence).
  split; [apply Z; vm_compute; reflexivity|]. split; [vm_compute; reflexivity|]. split; [apply (Z (run E1 stay_state [DeleteView [] "stays"])); vm_compute; reflexivity|].
  eexists. split; [vm_compute; reflexivity|discriminate].
Qed.
Print Assumptions C80_only_views_are_deleted_refuted.

(** ** A case *)

(** Calls that meet every refusal, between calls that work. *)
Definition chores : list op :=
  [AddPublic [] "codes" codes; AddPublic [] "trips" codes; AddPublic [] "" codes; AddPublic [] "other" {| sd_fields := [fl "a" (OtherT 0) true]; sd_rows := [] |}; AddPublic [] "other" codes;
   CreateView [] few "" false; CreateView [] few "stays" false; CreateView [] few "other" true; CreateView [] (PrivateSource "none") "new" false; CreateView [] few "new" true;
   DeleteView [] "codes"; DeleteView [] "trips"; DeleteView [] "stays"; DeleteView [] "new"; DeleteView [] "log";
   Stop []; DeleteView [] "log"; CreateView [] few "more" false; AddPublic [] "late" codes; Stop []].
Example C80_case :
  (forall x q, layout x -> exists x1, add_temps (e_temps E1 x q) x = Ok x1) /\ any_state E1 (run E1 stay_state chores)
  /\ answers E1 stay_state chores =
    [Err ValueError; Err ValueError; Err ValueError; Err ValueError; Ok tt;
     Err ValueError; Err ValueError; Err ValueError; Err ValueError; Ok tt;
     Err KeyError; Ok tt; Ok tt; Err ValueError; Ok tt;
     Ok tt; Err RuntimeError; Err RuntimeError; Ok tt; Ok tt].
Proof.
  split; [intros x q _; exists x; reflexivity|]. split; [apply stay_any; repeat constructor; discriminate|]. vm_compute. reflexivity.
Qed.
