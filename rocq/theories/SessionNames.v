(** Views, names and parts over all histories. *)
From Coq Require Import String Bool Arith ZArith QArith Lia Permutation List.
From Verif Require Import Prelude Budget BudgetProofs Value Rows Constraints Schema SchemaProofs Query Transform TransformSpec
  TransformConform TransformVisit TransformAgree QueryProofs QuerySame Tables TablesProofs
  Accountant AccountantProofs Session SessionSpec SessionMoney SessionSteps SessionTables SessionInv SessionUse SessionViews SessionWell.
Import ListNotations.
Local Open Scope string_scope.
Local Open Scope nat_scope.

Section Names.
Variable E : env.
Notation W := (e_world E).

(** ** Specification *)

(** In the session [s], the query [q] stands for the table and constraints [z]. *)
Definition stands_for (st : state) (s : sess) (q : query) (z : vtab * list constraint) : Prop :=
  exists cat data, catalog_of (s_tree s) (st_public st) (s_cons s) = Ok cat /\ data_of (s_tree s) = Ok data
    /\ build_transformation W (is_rho (s_left s)) cat data q = Ok z.
(** In the session [s], the query [q] is accepted and has the schema [sc]. *)
Definition has_schema (st : state) (s : sess) (q : query) (sc : schema) : Prop :=
  exists cat, catalog_of (s_tree s) (st_public st) (s_cons s) = Ok cat /\ schema_of (w_cond_ok W) cat q = Ok sc.

(** No name is both a private and a public table. *)
Definition disjoint_names (st : state) : Prop :=
  forall p s n, session st p s -> In n (dkeys (named (s_tree s))) -> ~ In n (public_sources (st_public st)).
(** The names of new parts are not names of public tables, and new public tables are not
    named like private tables of other sessions. *)
Definition careful (st : state) (o : op) : Prop :=
  match o with
  | Partition _ _ _ _ sp => forall n, In n (dkeys sp) -> ~ In n (public_sources (st_public st))
  | AddPublic p name _ => forall p' s, p' <> p -> session st p' s -> ~ In name (dkeys (named (s_tree s)))
  | _ => True
  end.
Fixpoint careful_calls (st : state) (l : list op) : Prop :=
  match l with [] => True | o :: l => careful st o /\ careful_calls (fst (step E st o)) l end.

(** ** Sessions after a change *)
Definition path_eq_dec (p q : path) : {p = q} + {p <> q} := list_eq_dec (fun a b : nat * nat => ltac:(decide equality; apply Nat.eq_dec)) p q.
Lemma session_set st st1 p s s' : session_at st p = Ok s -> ready st st1 p ->
  session (set_root st1 (change p (set_data s') (st_root st1))) p s'
  /\ (forall q x, session (set_root st1 (change p (set_data s') (st_root st1))) q x -> (q = p /\ x = s') \/ (q <> p /\ session st q x))
  /\ (forall q x, q <> p -> session st q x -> session (set_root st1 (change p (set_data s') (st_root st1))) q x).
Proof.
  intros S RD. destruct (ready_session _ _ _ _ S RD) as (c0 & F0 & D0 & A0). split; [|split].
  - unfold session, data_at. cbn [st_root set_root]. rewrite find_change, F0. eexists. split; reflexivity.
  - intros q x X. apply (data_change_set _ _ _ _ F0) in X as [X|(N & X)]; [left; exact X|right]. split; [exact N|]. eapply quiet_session; [apply RD|exact X].
  - intros q x N X. unfold session. cbn [st_root set_root]. apply data_set_other; [exact N|]. eapply keeps_data; [eapply ready_keeps, RD|exact X].
Qed.
Lemma session_unique st p s s' : session st p s -> session st p s' -> s = s'.
Proof. intros (c & F & <-) (c' & F' & <-). congruence. Qed.

(** ** Views *)
Lemma view_step st p d v cache st' s : ok (st_root st) -> all_sessions tables_ok st -> session st p s ->
  step E st (CreateView p d v cache) = (st', Ok tt) ->
  exists cat data y s', catalog_of (s_tree s) (st_public st) (s_cons s) = Ok cat /\ data_of (s_tree s) = Ok data
    /\ build_transformation W (is_rho (s_left s)) cat data d = Ok y
    /\ session st' p s' /\ st_public st' = st_public st
    /\ layout (s_tree s') /\ Permutation (named (s_tree s')) ((v, fst y) :: named (s_tree s)) /\ s_cons s' = dset v (snd y) (s_cons s)
    /\ s_left s' = s_left s /\ s_initial s' = s_initial s /\ s_log s' = s_log s
    /\ dget v (named (s_tree s)) = None /\ dmem v (st_public st) = false
    /\ (forall q x, q <> p -> (session st' q x <-> session st q x)).
Proof.
  intros O TA S H. apply step_effect in H; [|exact O]. inversion H as [| |? ? ? ? ? ? ? ? K| |p' q' n c s0 names cat data y x1 z z' x4 st1 S0 I PS M D CA DA BT AT AR RN RN2 RD| |]; subst.
  { destruct K as [K|K]; discriminate. }
  apply session_at_iff in S0. rewrite (session_unique _ _ _ _ S0 S) in *. clear S0 s0. pose proof (TA p s S) as TK. apply session_at_iff in S.
  destruct (view_tables E d v cache (s_tree s) x1 cat data y z z' x4 names (tk_layout s TK) PS M DA _ BT AT AR RN RN2) as (L4 & P4).
  destruct (session_set st st1 p s (with_tables s x4 (dset v (snd y) (s_cons s))) S RD) as (A & B & C).
  exists cat, data, y, (with_tables s x4 (dset v (snd y) (s_cons s))). split; [exact CA|]. split; [exact DA|]. split; [exact BT|]. split; [exact A|].
  split; [apply RD|]. split; [exact L4|]. split; [exact P4|]. do 4 (split; [reflexivity|]). split.
  - destruct (dget v (named (s_tree s))) eqn:G; [|reflexivity]. exfalso.
    assert (T : smem v names = true) by (apply (mem_names _ _ _ (tk_layout s TK) PS); apply in_dkeys; eauto). congruence.
  - split; [exact D|]. intros q x N. split; intros X; [apply B in X as [(X & _)|(_ & X)]; [contradiction|exact X]|apply C; assumption].
Qed.
Lemma catalog_after st p d v cache st' s s' cat data y : ok (st_root st) -> all_sessions tables_ok st -> fine s -> dicts d -> session st p s ->
  step E st (CreateView p d v cache) = (st', Ok tt) -> session st' p s' ->
  catalog_of (s_tree s) (st_public st) (s_cons s) = Ok cat -> data_of (s_tree s) = Ok data ->
  build_transformation W (is_rho (s_left s)) cat data d = Ok y ->
  exists cat' data', catalog_of (s_tree s') (st_public st') (s_cons s') = Ok cat' /\ data_of (s_tree s') = Ok data'.
Proof.
  intros O TA F D S H S' CA DA BT. destruct (view_step _ _ _ _ _ _ _ O TA S H) as (cat1 & data1 & y1 & s1 & CA1 & DA1 & BT1 & S1 & PB & L4 & P4 & CN & SL & _ & _ & FR & _).
  rewrite (session_unique _ _ _ _ S' S1) in *. rewrite CA in CA1. injection CA1 as <-. rewrite DA in DA1. injection DA1 as <-. rewrite BT in BT1. injection BT1 as <-.
  pose proof (TA p s S) as TK. pose proof (catalog_of_for _ _ _ _ (tk_layout s TK) CA) as CF.
  destruct (data_of_spec _ L4) as (data' & DA' & _). destruct (catalog_exists (s_tree s1) (st_public st) (s_cons s1) (cat_public cat) L4) as (cat' & CA').
  - intros n t G. rewrite (perm_dget _ _ n (layout_nodup _ L4) P4) in G. cbn in G. rewrite CN. destruct (String.eqb n v) eqn:EQ.
    + injection G as <-. apply String.eqb_eq in EQ. subst n. destruct (view_fine E s (st_public st) cat data d y TK F D CA DA BT) as (_ & sc & TS). exists sc, (snd y). rewrite dget_dset_same. auto.
    + destruct (cf_private _ _ _ _ CF n t G) as (sc & cs & TS & GC & _). exists sc, cs. apply String.eqb_neq in EQ. rewrite dget_dset_other by congruence. auto.
  - apply CF.
  - exists cat', data'. rewrite PB. split; assumption.
Qed.
Lemma view_stands st p d v cache st' s s' q z : by_name (w_cond_ok W) -> ok (st_root st) -> all_sessions tables_ok st -> fine s -> dicts d -> dicts q -> session st p s ->
  step E st (CreateView p d v cache) = (st', Ok tt) -> session st' p s' ->
  stands_for st' s' q z <-> stands_for st s (subst v d q) z.
Proof.
  intros BN O TA F D DQ S H S'. destruct (view_step _ _ _ _ _ _ _ O TA S H) as (cat & data & y & s1 & CA & DA & BT & S1 & PB & L4 & P4 & CN & SL & _ & _ & FR & DM & _).
  rewrite (session_unique _ _ _ _ S' S1) in *. clear S'. destruct (catalog_after _ _ _ _ _ _ _ _ _ _ _ O TA F D S H S1 CA DA BT) as (cat' & data' & CA' & DA'). rewrite PB in CA'.
  pose proof (view_build E s s1 (st_public st) v d y cat cat' data data' BN F (tk_layout s (TA p s S)) L4 CA DA CA' DA' D DM FR BT P4 CN q z DQ) as VB.
  unfold stands_for. rewrite PB, SL. split; intros (c & da & A & B & C).
  - rewrite CA' in A. injection A as <-. rewrite DA' in B. injection B as <-. exists cat, data. split; [exact CA|]. split; [exact DA|]. apply VB, C.
  - rewrite CA in A. injection A as <-. rewrite DA in B. injection B as <-. exists cat', data'. split; [exact CA'|]. split; [exact DA'|]. apply VB, C.
Qed.
Lemma view_has_schema st p d v cache st' s s' q : by_name (w_cond_ok W) -> ok (st_root st) -> all_sessions tables_ok st -> fine s -> dicts d -> dicts q -> session st p s ->
  step E st (CreateView p d v cache) = (st', Ok tt) -> session st' p s' ->
  (forall sc, has_schema st' s' q sc -> exists sc', has_schema st s (subst v d q) sc' /\ same_schema sc sc')
  /\ (forall sc', has_schema st s (subst v d q) sc' -> exists sc, has_schema st' s' q sc /\ same_schema sc sc').
Proof.
  intros BN O TA F D DQ S H S'. destruct (view_step _ _ _ _ _ _ _ O TA S H) as (cat & data & y & s1 & CA & DA & BT & S1 & PB & L4 & P4 & CN & SL & _ & _ & FR & DM & _).
  rewrite (session_unique _ _ _ _ S' S1) in *. clear S'. destruct (catalog_after _ _ _ _ _ _ _ _ _ _ _ O TA F D S H S1 CA DA BT) as (cat' & data' & CA' & DA'). rewrite PB in CA'.
  destruct (view_schema_of E s s1 (st_public st) v d y cat cat' data BN F (tk_layout s (TA p s S)) L4 CA DA CA' D DM FR BT P4 CN q DQ) as (A & B).
  unfold has_schema. rewrite PB. split.
  - intros sc (c & C1 & C2). rewrite CA' in C1. injection C1 as <-. destruct (A sc C2) as (sc' & X & Y). exists sc'. split; [|exact Y]. exists cat. split; assumption.
  - intros sc (c & C1 & C2). rewrite CA in C1. injection C1 as <-. destruct (B sc C2) as (sc' & X & Y). exists sc'. split; [|exact Y]. exists cat'. split; assumption.
Qed.
Lemma delete_step st p v st' s : ok (st_root st) -> all_sessions tables_ok st -> session st p s -> step E st (DeleteView p v) = (st', Ok tt) ->
  exists t s', dget v (named (s_tree s)) = Some t /\ session st' p s' /\ st_public st' = st_public st
    /\ layout (s_tree s') /\ Permutation (named (s_tree s)) ((v, t) :: named (s_tree s')) /\ s_cons s' = ddel v (s_cons s)
    /\ s_left s' = s_left s /\ s_initial s' = s_initial s /\ s_log s' = s_log s
    /\ (forall q x, q <> p -> (session st' q x <-> session st q x)).
Proof.
  intros O TA S H. apply step_effect in H; [|exact O]. inversion H as [| |? ? ? ? ? ? ? ? K| | |p' n s0 r cols x1 x2 st1 S0 F L RN DT RD|]; subst.
  { destruct K as [K|K]; discriminate. }
  apply session_at_iff in S0. rewrite (session_unique _ _ _ _ S0 S) in *. clear S0 s0. pose proof (TA p s S) as TK. apply session_at_iff in S.
  destruct (delete_tables E v _ _ _ _ (tk_layout s TK) F RN DT) as (t & _ & G & L2 & P2).
  destruct (session_set st st1 p s (with_tables s x2 (ddel v (s_cons s))) S RD) as (A & B & C).
  exists t, (with_tables s x2 (ddel v (s_cons s))). split; [exact G|]. split; [exact A|]. split; [apply RD|]. split; [exact L2|]. split; [exact P2|]. do 4 (split; [reflexivity|]).
  intros q x N. split; intros X; [apply B in X as [(X & _)|(_ & X)]; [contradiction|exact X]|apply C; assumption].
Qed.

(** What a query stands for depends on names and tables only. *)
Lemma schema_ext cat cat' q : (forall n, dget n (cat_private cat) = dget n (cat_private cat')) -> cat_public cat = cat_public cat' ->
  schema_of (w_cond_ok W) cat q = schema_of (w_cond_ok W) cat' q.
Proof.
  intros A B. induction q; cbn [schema_of]; rewrite ?IHq, ?IHq1, ?IHq2; try reflexivity.
  - unfold source_schema. rewrite A, B. reflexivity.
  - destruct (schema_of _ cat' q); [|reflexivity]. cbn. unfold join_public_schema, public_schema. rewrite B. reflexivity.
Qed.
Lemma visit_ext2 l2 cat cat' data data' q : (forall n, dget n (cat_private cat) = dget n (cat_private cat')) -> cat_public cat = cat_public cat' ->
  (forall n, dget n data = dget n data') -> visit W l2 cat data q = visit W l2 cat' data' q.
Proof.
  intros A B C. induction q; cbn [visit]; rewrite ?IHq, ?IHq1, ?IHq2; try reflexivity.
  - unfold visit_source. rewrite A, C. reflexivity.
  - destruct (visit W l2 cat' data' q) as [(t, cs)|]; [|reflexivity]. cbn. unfold public_frame. rewrite B. reflexivity.
Qed.
Lemma stands_ext st st' s s' q z : st_public st' = st_public st -> layout (s_tree s) -> layout (s_tree s') -> is_rho (s_left s') = is_rho (s_left s) ->
  (forall n, dget n (named (s_tree s')) = dget n (named (s_tree s))) ->
  (forall n, In n (dkeys (named (s_tree s))) -> dget n (s_cons s') = dget n (s_cons s)) ->
  stands_for st s q z -> stands_for st' s' q z.
Proof.
  intros PB L L' SL NM CN (cat & data & CA & DA & BT). pose proof (catalog_of_for _ _ _ _ L CA) as CF.
  destruct (catalog_exists (s_tree s') (st_public st) (s_cons s') (cat_public cat) L') as (cat' & CA').
  - intros n t G. rewrite NM in G. destruct (cf_private _ _ _ _ CF n t G) as (sc & cs & TS & GC & _). exists sc, cs. split; [exact TS|]. rewrite CN; [exact GC|]. apply in_dkeys. eauto.
  - apply CF.
  - pose proof (catalog_of_for _ _ _ _ L' CA') as CF'. destruct (data_of_spec _ L) as (da & DA1 & DG). rewrite DA in DA1. injection DA1 as <-. destruct (data_of_spec _ L') as (da' & DA' & DG').
    assert (EP : forall n, dget n (cat_private cat) = dget n (cat_private cat')).
    { intros n. pose proof (NM n) as G. destruct (dget n (named (s_tree s))) as [t|] eqn:T.
      - destruct (cf_private _ _ _ _ CF n t T) as (s1 & cs1 & A1 & B1 & ->). destruct (cf_private _ _ _ _ CF' n t G) as (s2 & cs2 & A2 & B2 & ->).
        rewrite CN in B2 by (apply in_dkeys; eauto). congruence.
      - rewrite (cf_none _ _ _ _ CF n T), (cf_none _ _ _ _ CF' n G). reflexivity. }
    assert (EU : cat_public cat = cat_public cat') by (pose proof (cf_public _ _ _ _ CF); pose proof (cf_public _ _ _ _ CF'); congruence).
    assert (ED : forall n, dget n data = dget n da') by (intros n; rewrite DG, DG', NM; reflexivity).
    exists cat', da'. rewrite PB, SL. split; [exact CA'|]. split; [exact DA'|]. unfold build_transformation in *. rewrite <- (schema_ext cat cat' q EP EU), <- (visit_ext2 _ cat cat' data da' q EP EU ED). exact BT.
Qed.

(** ** Names *)
Lemma effect_public_nodup st o st' r : NoDup (public_sources (st_public st)) -> effect E st o st' r -> NoDup (public_sources (st_public st')).
Proof.
  intros N H. destruct H as [o st' e Q|p st' r Q _|p q b s adj rest st1 o K S C SP R RD|p n f f' s names S I PS D M CS
    |p q n c s names cat data y x1 z z' x4 st1 S I PS M D CA DA BT AT AR RN RN2 RD|p n s r cols x1 x2 st1 S F L RN DT RD
    |p src b col sp s b1 adj y rest space r st1 S LP V I PB CP SP RD G]; cbn [st_public set_root].
  - destruct Q as (_ & -> & _). exact N.
  - destruct Q as (_ & -> & _). exact N.
  - destruct RD as ((_ & -> & _) & _). exact N.
  - unfold public_sources, dkeys in *. rewrite map_app. cbn. apply NoDup_snoc; [exact N|]. intros X. apply (in_dkeys n) in X as (v & G). unfold dmem in D. rewrite G in D. discriminate.
  - destruct RD as ((_ & -> & _) & _). exact N.
  - destruct RD as ((_ & -> & _) & _). exact N.
  - destruct RD as ((_ & -> & _) & _). exact N.
Qed.
Lemma run_public_nodup l : forall st, ok (st_root st) -> NoDup (public_sources (st_public st)) -> NoDup (public_sources (st_public (run E st l))).
Proof.
  induction l as [|o l IH]; intros st O N; [exact N|]. cbn. destruct (step E st o) as (st', r) eqn:H. cbn [fst]. apply step_effect in H; [|exact O].
  apply IH; [eapply effect_ok; eassumption|eapply effect_public_nodup; eassumption].
Qed.
Lemma effect_disjoint st o st' r : all_sessions tables_ok st -> disjoint_names st -> careful st o -> effect E st o st' r -> disjoint_names st'.
Proof.
  intros TA A CO H. destruct H as [o st' e Q|p st' r Q _|p q b s adj rest st1 o K S C SP R RD|p n f f' s names S I PS D M CS
    |p q n c s names cat data y x1 z z' x4 st1 S I PS M D CA DA BT AT AR RN RN2 RD|p n s r cols x1 x2 st1 S F L RN DT RD
    |p src b col sp s b1 adj y rest space r st1 S LP V I PB CP SP RD G]; intros p0 s0 n0 X IN; cbn [st_public set_root].
  - destruct Q as (PY & -> & _). eapply A; [eapply quiet_session; [exact PY|exact X]|exact IN].
  - destruct Q as (PY & -> & _). eapply A; [eapply quiet_session; [exact PY|exact X]|exact IN].
  - destruct (session_set st st1 p s (charged s rest (Measured adj)) S RD) as (_ & B & _). assert (PB : st_public st1 = st_public st) by apply RD. rewrite PB.
    apply B in X as [(-> & ->)|(_ & X)]; [apply session_at_iff in S|]; eapply A; eassumption.
  - cbn [careful] in CO. unfold public_sources, dkeys. rewrite map_app. cbn. intros J. apply in_app_or in J as [J|[J|[]]].
    + eapply A; eassumption.
    + subst n0. destruct (path_eq_dec p0 p) as [->|NE]; [|eapply CO; eassumption].
      apply session_at_iff in S. rewrite (session_unique _ _ _ _ X S) in IN. apply (mem_names _ _ n (tk_layout s (TA p s S)) PS) in IN. congruence.
  - destruct (session_set st st1 p s (with_tables s x4 (dset n (snd y) (s_cons s))) S RD) as (_ & B & _). assert (PB : st_public st1 = st_public st) by apply RD. rewrite PB.
    apply B in X as [(-> & ->)|(_ & X)]; [|eapply A; eassumption]. apply session_at_iff in S. pose proof (TA p s S) as TK.
    destruct (view_tables E q n c (s_tree s) x1 cat data y z z' x4 names (tk_layout s TK) PS M DA _ BT AT AR RN RN2) as (L4 & P4). cbn [s_tree with_tables] in IN.
    apply (perm_keys _ _ n0 P4) in IN. cbn in IN. destruct IN as [<-|IN]; [|eapply A; eassumption]. intros J. unfold dmem in D. apply in_dkeys in J as (f & J). rewrite J in D. discriminate.
  - destruct (session_set st st1 p s (with_tables s x2 (ddel n (s_cons s))) S RD) as (_ & B & _). assert (PB : st_public st1 = st_public st) by apply RD. rewrite PB.
    apply B in X as [(-> & ->)|(_ & X)]; [|eapply A; eassumption]. apply session_at_iff in S. pose proof (TA p s S) as TK.
    destruct (delete_tables E n _ _ _ _ (tk_layout s TK) F RN DT) as (t & _ & _ & L2 & P2). cbn [s_tree with_tables] in IN.
    eapply A; [exact S|]. apply (perm_keys _ _ n0 P2). right. exact IN.
  - destruct (ready_session _ _ _ _ S RD) as (c0 & F0 & D0 & A0). destruct (split_space E _ _ _ _ _ _ _ _ _ TA S CP G) as (_ & G'). assert (PU : st_public st1 = st_public st) by apply RD. rewrite PU.
    apply (data_change_split _ _ _ _ _ F0) in X as [(-> & ->)|[(i & -> & NI)|(_ & X)]].
    + apply session_at_iff in S. eapply A; [exact S|exact IN].
    + rewrite nth_error_map in NI. destruct (nth_error (combine (dkeys sp) (snd y)) i) as [(nm, part)|] eqn:NC; [|discriminate]. injection NI as <-.
      apply nth_error_In in NC. pose proof (in_combine_l _ _ _ _ NC) as NK. apply in_combine_r in NC. apply session_at_iff in S.
      destruct (partition_parts E s _ _ _ _ _ (TA p s S) CP) as (t & t1 & pl & PO' & ->). cbn [fst snd] in *. apply in_map_iff in NC as (v & <- & _).
      destruct (partition_ids E _ _ _ _ _ _ _ (TA p s S) PO') as (PL & PI). rewrite (get_id_space_spec _ _ _ _ (tk_layout s (TA p s S)) (po_table _ _ _ _ _ _ _ _ PO')) in G'. injection G' as <-.
      rewrite part_named in IN; [|cbn; destruct pl; auto; unfold placed in PL; rewrite PI in PL; exact PL]. cbn in IN. destruct IN as [<-|[]]. cbn [careful] in CO. apply CO, NK.
    + eapply A; [eapply quiet_session; [apply RD|exact X]|exact IN].
Qed.
Lemma run_disjoint l : forall st, ok (st_root st) -> all_sessions tables_ok st -> disjoint_names st -> careful_calls st l -> disjoint_names (run E st l).
Proof.
  induction l as [|o l IH]; intros st O T A C; [exact A|]. cbn in *. destruct C as (C1 & C2). destruct (step E st o) as (st', r) eqn:H. cbn [fst] in *. apply step_effect in H; [|exact O].
  apply IH; [eapply effect_ok; eassumption|eapply effect_tables; eassumption|eapply effect_disjoint; eassumption|exact C2].
Qed.
(** Clashing names are refused. *)
Lemma clash_refused st p s n : ok (st_root st) -> session st p s -> tables_ok s -> In n (dkeys (named (s_tree s))) \/ In n (public_sources (st_public st)) ->
  (forall f, exists e, step E st (AddPublic p n f) = (st, Err e)) /\ (forall q c, exists st' e, step E st (CreateView p q n c) = (st', Err e) /\ contents st' = contents st).
Proof.
  intros O S TK CL. apply session_at_iff in S. destruct (private_sources_spec _ (tk_layout s TK)) as (names & PS & _ & NM).
  assert (B : smem n names = true \/ dmem n (st_public st) = true).
  { destruct CL as [CL|CL]; [left; apply smem_In, NM, CL|right; apply dmem_In, CL]. }
  split.
  - intros f. cbn. unfold add_public_dataframe. rewrite S. cbn [attempt]. destruct (e_identifier E n); cbn [negb raise_if attempt]; [|eexists; reflexivity]. rewrite PS. cbn [attempt].
    assert (BB : dmem n (st_public st) || smem n names = true) by (destruct B as [B|B]; rewrite B; [apply orb_true_r|reflexivity]). rewrite BB. cbn. eexists. reflexivity.
  - intros q c. cbn. unfold create_view. rewrite S. cbn [attempt]. destruct (e_identifier E n); cbn [negb raise_if attempt]; [|do 2 eexists; split; reflexivity].
    unfold activated. destruct (activate p (st_root st)) as (t, [[]|e]) eqn:AC.
    + rewrite PS. cbn [attempt st_public set_root]. assert (BB : smem n names || dmem n (st_public st) = true) by (destruct B as [B|B]; rewrite B; [reflexivity|apply orb_true_r]). rewrite BB. cbn. do 2 eexists. split; [reflexivity|].
      unfold contents. cbn. f_equal. apply (activate_ok _ _ _ O AC).
    + do 2 eexists. split; [reflexivity|]. unfold contents. cbn. rewrite (activate_err _ _ _ _ AC). reflexivity.
Qed.
End Names.
