(** Property C77: an aggregation over a view is answered like the same aggregation over what
    the view was made of. *)
From Coq Require Import String Bool Arith ZArith QArith Qcanon Lia Permutation List.
From Verif Require Import Prelude Budget BudgetScale Value Rows Constraints Schema SchemaProofs Query QuerySame Rewrite RewriteSpec Transform TransformSpec TransformConform QueryProofs Tables TablesProofs
  Accountant AccountantProofs Session SessionSpec SessionMoney SessionSteps SessionTables SessionInv SessionUse SessionViews SessionWell SessionSound SessionNames
  Neighboring Builder BuilderCalls BuilderNeighbours Measure MeasureTotal MeasureRows ViewAnswers Props_Query Props_Session Props_Views Props_Measure Props_Sound Props_Footprint.
Import ListNotations.
Local Open Scope string_scope.
Local Open Scope nat_scope.

(** ** Specification *)

(** A well-formed aggregation [q] over the table [a].  Groups are asked for with the names of
    their columns (without names, the order of the answer's columns would be that of the
    table, which is not fixed). *)
Definition question (auto : bool) (q a : query) : Prop :=
  dicts q /\ built auto q /\ table_of (inner q) = Some a /\ is_table a /\ (forall c, inner q <> GetGroups c []).
(** The noise that the question asks for is of the kind that the session's budget suggests
    (Gaussian for zCDP), or the table has no grouping column. *)
Definition noise_fits (E : env) (st : state) (s : sess) (mu : measure) (q a : query) : Prop :=
  gaussian_wanted mu (inner q) = is_rho (s_left s) \/ forall sc, has_schema E st s a sc -> sc_group sc = None.

(** ** Proofs *)

Lemma asks_question (auto : bool) W cat' mu rho q a : question auto q a ->
  gaussian_wanted mu (inner q) = rho \/ (forall s, schema_of (w_cond_ok W) cat' a = Ok s -> sc_group s = None) -> asks W auto mu cat' rho q.
Proof.
  intros (D & B & T & IT & NG) F.
  assert (G : forall q0, dicts q0 -> built auto q0 -> table_of q0 = Some a -> (forall c, q0 <> GetGroups c []) ->
    (gaussian_wanted mu q0 = rho \/ (forall s, schema_of (w_cond_ok W) cat' a = Ok s -> sc_group s = None)) -> asks W auto mu cat' rho q0).
  { clear - IT. intros q0 D B T NG F. destruct q0; try discriminate T; injection T as <-; cbn [dicts] in D; destruct B as (_ & B).
    1: constructor; [intros ->; exact (NG _ eq_refl)|split; [exact D|split; [exact B|exact IT]]|exact F].
    all: constructor; [split; [exact D|split; [exact B|exact IT]]|exact F]. }
  destruct q; try (apply G; assumption). constructor. apply G; try assumption. apply B.
Qed.
Lemma question_sub auto q a v d : question auto q a -> built auto d -> dicts d -> is_table d -> question auto (subst v d q) (subst v d a).
Proof.
  intros (D & B & T & IT & NG) DB DD DT.
  assert (A : asks W0 auto PureDP {| cat_private := []; cat_public := [] |} false q) by (apply (asks_question auto W0 _ PureDP false q a); [repeat split; assumption|left; reflexivity]).
  split; [now apply dicts_subst|].
  assert (SB : forall c, built auto c -> is_table c -> built auto (subst v d c)) by (intros c X Y; now apply sub_built).
  assert (G : forall q0, built auto q0 -> table_of q0 = Some a -> built auto (subst v d q0) /\ table_of (subst v d q0) = Some (subst v d a)).
  { clear - SB IT. intros q0 B T. destruct q0; try discriminate T; injection T as <-; (split; [|reflexivity]); destruct B as (P & B); (split; [|exact (SB _ B IT)]);
      cbn [post_init subst replace] in *; again P. }
  assert (I : inner (subst v d q) = subst v d (inner q)) by (destruct q; try reflexivity; discriminate T). rewrite I.
  assert (BI : built auto (inner q)) by (destruct q; try exact B; apply B).
  destruct (G (inner q) BI T) as (B1 & T1). split; [|split; [exact T1|split; [now apply sub_table|]]].
  - destruct q; try exact B1. split; [|exact B1]. destruct B as (P & _). cbn [post_init subst replace inner] in *. fold (subst v d q).
    assert (is_groupby_count (subst v d q) = is_groupby_count q) as -> by (destruct q; try reflexivity; discriminate T). again P.
  - intros c H. destruct (inner q) eqn:IQ; try discriminate T; try discriminate H. injection H as _ ->. exact (NG _ eq_refl).
Qed.
(** What a view is made of is a table. *)
Lemma made_of_table E st p s d v cache st' : ok (st_root st) -> all_sessions tables_ok st -> session st p s ->
  step E st (CreateView p d v cache) = (st', Ok tt) -> is_table d.
Proof.
  intros O TA S H. destruct (view_step E _ _ _ _ _ _ _ O TA S H) as (cat & data & y & s1 & CA & DA & BT & _).
  unfold build_transformation in BT. apply bind_ok in BT as (sd & _ & BT). apply bind_ok in BT as (z & V & _). exact (visit_is_table _ _ _ _ _ _ V).
Qed.
Lemma view_compiles E K auto so st p d v cache st' s s' : by_name (w_cond_ok (e_world E)) -> ok (st_root st) -> all_sessions tables_ok st -> fine s -> dicts d -> built auto d -> session st p s ->
  step E st (CreateView p d v cache) = (st', Ok tt) -> session st' p s' ->
  exists cat data cat' data', catalog_of (s_tree s) (st_public st) (s_cons s) = Ok cat /\ data_of (s_tree s) = Ok data
    /\ catalog_of (s_tree s') (st_public st') (s_cons s') = Ok cat' /\ data_of (s_tree s') = Ok data'
    /\ s_left s' = s_left s
    /\ (forall q, dicts q -> oks same_schema (schema_of (w_cond_ok (e_world E)) cat' q) (schema_of (w_cond_ok (e_world E)) cat (subst v d q)))
    /\ forall c q a, question auto q a -> noise_fits E st' s' (measure_for c) q a ->
       oks eq (compile (e_round E) (e_world E) K auto so (measure_for c) cat' data' c q) (compile (e_round E) (e_world E) K auto so (measure_for c) cat data c (subst v d q)).
Proof.
  intros BN O TA F D DB S H S'. pose proof (made_of_table E st p s d v cache st' O TA S H) as DT.
  destruct (view_step E _ _ _ _ _ _ _ O TA S H) as (cat & data & y & s1 & CA & DA & BT & S1 & PB & L4 & P4 & CN & SL & _ & _ & FR & DM & _).
  rewrite (session_unique _ _ _ _ S' S1) in *. clear S'. destruct (catalog_after E _ _ _ _ _ _ _ _ _ _ _ O TA F D S H S1 CA DA BT) as (cat' & data' & CA' & DA'). pose proof CA' as CA1. rewrite PB in CA'.
  assert (SC : forall q, dicts q -> oks same_schema (schema_of (w_cond_ok (e_world E)) cat' q) (schema_of (w_cond_ok (e_world E)) cat (subst v d q))).
  { intros q DQ. destruct (view_schema_of E s s1 (st_public st) v d y cat cat' data BN F (tk_layout s (TA p s S)) L4 CA DA CA' D DM FR BT P4 CN q DQ) as (A & B).
    destruct (schema_of _ cat' q) as [sa|] eqn:EA, (schema_of _ cat (subst v d q)) as [sb|] eqn:EB; cbn [oks]; try exact I.
    - destruct (A sa eq_refl) as (z & Z & SS). injection Z as <-. exact SS.
    - destruct (A sa eq_refl) as (z & Z & SS). discriminate Z.
    - destruct (B sb eq_refl) as (z & Z & SS). discriminate Z. }
  exists cat, data, cat', data'. do 4 (split; [assumption|]). split; [exact SL|]. split; [exact SC|]. intros c q a Q NF.
  apply (compile_side (e_round E) (e_world E) K auto so (measure_for c) cat cat' data data' (is_rho (s_left s)) v d SC); try assumption.
  - intros q0 z0 DQ. exact (view_build E s s1 (st_public st) v d y cat cat' data data' BN F (tk_layout s (TA p s S)) L4 CA DA CA' DA' D DM FR BT P4 CN q0 z0 DQ).
  - destruct c; discriminate.
  - apply (asks_question auto _ _ _ _ q a Q). destruct NF as [NF|NF]; [left; rewrite NF, SL; reflexivity|right]. intros sc HS. apply NF. exists cat'. split; assumption.
Qed.

(** ** C77 *)

(** After a view [v] of [d] was created, a question has exactly the answer that the question
    with [v] replaced by [d] had before, or is refused if that was. *)
Theorem C77_view_answers_partial : forall E K auto so st p s d v cache st' s' c q a z,
  by_name (w_cond_ok (e_world E)) -> any_state E st -> session st p s -> dicts d -> built auto d ->
  step E st (CreateView p d v cache) = (st', Ok tt) -> session st' p s' ->
  question auto q a -> noise_fits E st' s' (measure_for c) q a ->
  (answer E K auto so st' p c q = Ok z <-> answer E K auto so st p c (subst v d q) = Ok z).
Proof.
  intros E K auto so st p s d v cache st' s' c q a z BN A S D DB H S' Q NF. destruct (any_state_facts E st A) as (T & F & R).
  destruct (view_compiles E K auto so st p d v cache st' s s' BN (any_state_ok E st A) T (F p s S) D DB S H S') as (cat & data & cat' & data' & CA & DA & CA' & DA' & _ & _ & C).
  specialize (C c q a Q NF). unfold answer. rewrite (proj2 (session_at_iff st p s) S), (proj2 (session_at_iff st' p s') S'). cbn [bind]. rewrite CA, CA', DA, DA'. cbn [bind].
  destruct (compile _ _ _ _ _ _ cat' _ _ _), (compile _ _ _ _ _ _ cat _ _ _); cbn [oks bind] in *; try contradiction; [subst; reflexivity|split; discriminate].
Qed.
Print Assumptions C77_view_answers_partial.
(** Asking it costs the same, or is refused in both cases. *)
Theorem C77_view_costs_partial : forall E K auto so st p s d v cache st' s' want q a c,
  by_name (w_cond_ok (e_world E)) -> compiles_with E K auto so -> any_state E st -> session st p s -> dicts d -> built auto d ->
  step E st (CreateView p d v cache) = (st', Ok tt) -> session st' p s' ->
  question auto q a -> noise_fits E st' s' (measure_for (s_left s)) q a ->
  (compile_and_get_info E s' (st_public st') q want = Ok c <-> compile_and_get_info E s (st_public st) (subst v d q) want = Ok c).
Proof.
  intros E K auto so st p s d v cache st' s' want q a c BN CW A S D DB H S' Q NF. destruct (any_state_facts E st A) as (T & F & R).
  destruct (view_compiles E K auto so st p d v cache st' s s' BN (any_state_ok E st A) T (F p s S) D DB S H S') as (cat & data & cat' & data' & CA & DA & CA' & DA' & LE & SC & C).
  specialize (SC q (proj1 Q)). unfold compile_and_get_info. rewrite LE. destruct (lift_pure _ _ _) as [b|]; cbn [bind]; [|reflexivity].
  destruct (validate_type _ _) as [[]|] eqn:VT; cbn [bind]; [|reflexivity].
  destruct (raise_if _ _); cbn [bind]; [|reflexivity]. destruct (process_budget _ _ _) as [adj|] eqn:PB; cbn [bind]; [|reflexivity]. rewrite CA, CA'. cbn [bind].
  destruct (schema_of _ cat' q), (schema_of _ cat (subst v d q)); cbn [oks bind] in *; try contradiction; [|split; discriminate].
  rewrite !CW, DA, DA'. cbn [bind]. specialize (C adj q a Q).
  assert (NF' : noise_fits E st' s' (measure_for adj) q a).
  { pose proof (process_rho E _ _ _ VT PB) as RH. destruct NF as [NF|NF]; [left|right; exact NF]. rewrite LE in *. rewrite <- NF.
    destruct adj, (s_left s); try discriminate RH; cbn [measure_for]; destruct (inner q); reflexivity. }
  specialize (C NF'). destruct (compile _ _ _ _ _ _ cat' _ _ _), (compile _ _ _ _ _ _ cat _ _ _); cbn [oks bind] in *; try contradiction; [reflexivity|split; discriminate].
Qed.
Print Assumptions C77_view_costs_partial.

(** Views on views, to any depth: with the views [l], oldest first, a question has the answer
    that it had before with the views replaced, the newest first. *)
Lemma noise_wanted_sub mu q a v d : table_of (inner q) = Some a -> gaussian_wanted mu (inner (subst v d q)) = gaussian_wanted mu (inner q).
Proof. intros T. destruct q; try (destruct mu; reflexivity); try discriminate T. cbn [inner subst replace] in *. fold (subst v d q). destruct q; try (destruct mu; reflexivity). discriminate T. Qed.
Theorem C77_views_on_views_partial : forall E K auto so p l st s st' s' c q a z,
  by_name (w_cond_ok (e_world E)) -> any_state E st -> session st p s ->
  Forall (fun v => dicts (snd (fst v)) /\ built auto (snd (fst v))) l -> make_views E st p l = Some st' -> session st' p s' ->
  question auto q a -> noise_fits E st' s' (measure_for c) q a ->
  (answer E K auto so st' p c q = Ok z <-> answer E K auto so st p c (replace_views l q) = Ok z).
Proof.
  intros E K auto so p l st s st' s' c q a z BN A S FO MV S' Q NF.
  enough (G : (answer E K auto so st' p c q = Ok z <-> answer E K auto so st p c (replace_views l q) = Ok z)
    /\ question auto (replace_views l q) (replace_views l a) /\ noise_fits E st s (measure_for c) (replace_views l q) (replace_views l a)) by apply G.
  revert st s A S MV. induction FO as [|((v, d), ca) l (D & DB) FO IH]; intros st s A S MV; cbn [make_views] in MV.
  - injection MV as <-. rewrite (session_unique _ _ _ _ S S'). split; [reflexivity|split; assumption].
  - cbn [fst snd] in D, DB. destruct (step E st (CreateView p d v ca)) as (st1, [[]|]) eqn:H; [|discriminate]. destruct (any_state_facts E st A) as (T & F & R). pose proof (any_state_ok E st A) as O.
    destruct (view_step E _ _ _ _ _ _ _ O T S H) as (_ & _ & _ & s1 & _ & _ & _ & S1 & _ & _ & _ & _ & SL & _).
    assert (A1 : any_state E st1) by (replace st1 with (run E st [CreateView p d v ca]) by (cbn [run]; rewrite H; reflexivity); apply any_state_run; [exact A|repeat constructor; exact D]).
    destruct (IH st1 s1 A1 S1 MV) as (G & Q1 & NF1). cbn [replace_views fold_right fst snd]. fold (replace_views l q) (replace_views l a).
    pose proof (made_of_table E st p s d v ca st1 O T S H) as DT. split; [|split].
    + rewrite G. exact (C77_view_answers_partial E K auto so st p s d v ca st1 s1 c _ _ z BN A S D DB H S1 Q1 NF1).
    + now apply question_sub.
    + destruct NF1 as [NF1|NF1]; [left|right].
      * rewrite (noise_wanted_sub _ _ (replace_views l a)) by (apply Q1). congruence.
      * assert (DA : dicts (replace_views l a)) by (destruct Q1 as (D1 & _ & T1 & _); destruct (replace_views l q) as [| | | | | | | | | | | | | | | | | | | |q0]; try discriminate T1; try (injection T1 as <-; exact D1); cbn [inner] in T1; destruct q0; try discriminate T1; injection T1 as <-; exact D1).
        intros sc HS. destruct (view_has_schema E st p d v ca st1 s s1 (replace_views l a) BN O T (F p s S) D DA S H S1) as (_ & B). destruct (B sc HS) as (sc1 & HS1 & SS).
        rewrite <- (ss_group _ _ SS). exact (NF1 sc1 HS1).
Qed.
Print Assumptions C77_views_on_views_partial.

(** ** Where it fails *)

(** In a session with a zCDP budget, a view with a grouping column is made for Gaussian noise.
    Laplace noise then fails with an internal error, although the same question about the
    view's definition is answered. *)
Definition plain_calls : list bcall := WithPrivate "plain" codes (AddMaxRows 1) :: trips_calls'.
Definition plain_state : state := match build_by E1 plain_calls with Ok o => o_state o | Err _ => st0 (Pure (XFin 0)) end.
Definition grouped : query :=
  FlatMap (PrivateSource "plain") (fun _ => [[("y", VInt 1)]]) {| sc_cols := [("y", dsc INTEGER false false false)]; sc_group := Some "y"; sc_id := None; sc_space := None |} true (Some 2%Z).
Definition per_y (m : mech) (q : query) : query := GroupByCount q (KSet [("y", dsc INTEGER false false false)] [[("y", VInt 1)]]) "n" m None.
Lemma by_name_E1 : by_name (w_cond_ok (e_world E1)).
Proof. exact by_name_W0. Qed.
Lemma plain_any : any_state E1 plain_state.
Proof.
  unfold plain_state. assert (B : exists o, build_by E1 plain_calls = Ok o) by (eexists; vm_compute; reflexivity). destruct B as (o & B). rewrite B.
  exists plain_calls, o, []. split; [cbn; intuition discriminate|]. split; [exact B|]. split; [constructor|reflexivity].
Qed.
Ltac one_key := repeat (constructor; [cbn; intuition discriminate|]); try constructor.
Theorem C77_grouping_views_refuted : exists E K auto so st s d v st' s' c q a z,
  by_name (w_cond_ok (e_world E)) /\ any_state E st /\ session st [] s /\ dicts d /\ built auto d
  /\ step E st (CreateView [] d v false) = (st', Ok tt) /\ session st' [] s' /\ question auto q a
  /\ answer E K auto so st [] c (subst v d q) = Ok z /\ answer E K auto so st' [] c q = Err InternalError.
Proof.
  exists E1, K0, true, idl, plain_state. eexists. exists grouped, "grouped". eexists _, _. exists (Zcdp (XFin 1)), (per_y MLaplace (PrivateSource "grouped")), (PrivateSource "grouped"). eexists.
  split; [apply by_name_E1|]. split; [apply plain_any|]. split; [eexists; split; [vm_compute; reflexivity|reflexivity]|]. split; [split; [exact I|one_key]|].
  split; [split; [reflexivity|split; [reflexivity|exact I]]|]. split; [vm_compute; reflexivity|]. split; [eexists; split; [vm_compute; reflexivity|reflexivity]|].
  split; [split; [exact I|]; split; [split; [reflexivity|split; [reflexivity|exact I]]|]; split; [reflexivity|]; split; [exact I|]; intros c H; discriminate H|].
  split; vm_compute; reflexivity.
Qed.
Print Assumptions C77_grouping_views_refuted.

(** ** Cases *)

(** A session with a zCDP budget: a view with a grouping column, and Gaussian noise; then a
    view of a view, joined with a public table, and Laplace noise. *)
Example C77_case : exists st' s',
  let q := per_y MGaussian (PrivateSource "grouped") in
  dicts grouped /\ built true grouped /\ step E1 plain_state (CreateView [] grouped "grouped" false) = (st', Ok tt) /\ session st' [] s'
  /\ question true q (PrivateSource "grouped") /\ noise_fits E1 st' s' (measure_for (Zcdp (XFin 1))) q (PrivateSource "grouped")
  /\ noise_fits E1 st' s' (measure_for (s_left s')) q (PrivateSource "grouped")
  /\ answer E1 K0 true idl st' [] (Zcdp (XFin 1)) q = Ok [[("y", VInt 1); ("n", VInt 2)]]
  /\ compile_and_get_info E1 s' (st_public st') q (Zcdp (XFin 1)) = Ok (Zcdp (XFin 1)).
Proof.
  cbv zeta. eexists _, _. split; [split; [exact I|one_key]|]. split; [split; [reflexivity|split; [reflexivity|exact I]]|]. split; [vm_compute; reflexivity|]. split; [eexists; split; [vm_compute; reflexivity|reflexivity]|].
  split; [split; [exact I|]; split; [split; [reflexivity|split; [reflexivity|exact I]]|]; split; [reflexivity|]; split; [exact I|]; intros c H; discriminate H|].
  split; [left; vm_compute; reflexivity|]. split; [left; vm_compute; reflexivity|]. split; vm_compute; reflexivity.
Qed.
Definition two_views : list (string * query * bool) := [("few", few, false); ("joined", JoinPublic (PrivateSource "few") (PubName "codes") None "inner", true)].
Definition last_count : query :=
  SuppressAggregates (GroupByCount (EnforceConstraint (PrivateSource "joined") (MaxRowsPerID 3)) (KSet [("city", dsc VARCHAR true false false)] [[("city", VStr "a")]; [("city", VStr "b")]]) "n" MLaplace None) "n" (PInt 1).
Example C77_views_case : exists st' s', let a := EnforceConstraint (PrivateSource "joined") (MaxRowsPerID 3) in
  Forall (fun v => dicts (snd (fst v)) /\ built true (snd (fst v))) two_views
  /\ make_views E1 plain_state [] two_views = Some st' /\ session st' [] s' /\ question true last_count a
  /\ noise_fits E1 st' s' (measure_for (Zcdp (XFin 1))) last_count a
  /\ gaussian_wanted (measure_for (Zcdp (XFin 1))) (inner last_count) <> is_rho (s_left s')
  /\ (exists row, answer E1 K0 true idl st' [] (Zcdp (XFin 1)) last_count = Ok [row])
  /\ replace_views two_views last_count <> last_count.
Proof.
  cbv zeta. eexists _, _. split; [|split; [vm_compute; reflexivity|split; [eexists; split; [vm_compute; reflexivity|reflexivity]|split; [|split; [|split; [|split]]]]]].
  - repeat constructor; intros; try discriminate.
  - split; [exact I|]. split; [repeat split; reflexivity|]. split; [reflexivity|]. split; [exact I|]. intros c H; discriminate H.
  - right. intros sc (cat & C & H). vm_compute in C. injection C as <-. vm_compute in H. injection H as <-. reflexivity.
  - vm_compute. discriminate.
  - eexists. vm_compute. reflexivity.
  - discriminate.
Qed.
