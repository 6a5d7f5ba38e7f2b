(** Property C71: table queries with an accepted schema can be computed. *)
From Coq Require Import String Bool Arith ZArith QArith Lia Permutation List.
From Verif Require Import Prelude Budget BudgetProofs Value Rows Constraints ConstraintsSpec ConstraintsProofs Schema SchemaProofs Query Transform TransformSpec
  TransformConform TransformVisit TransformAgree QueryProofs QuerySame PropagateProofs RewriteSpec RewriteProofs QueryAccept TransformTotal Tables TablesProofs
  Accountant AccountantProofs Session SessionSpec SessionMoney SessionSteps SessionTables SessionInv SessionViews SessionWell SessionNames SessionViewTotal
  Neighboring NeighboringSpec NeighboringProofs Builder BuilderProofs BuilderTree BuilderBuild BuilderCalls BuilderSpec BuilderNeighbours SessionSound
  SessionUse Props_Query Props_Session Props_Sound SessionBare.
Import ListNotations.
Local Open Scope string_scope.
Local Open Scope nat_scope.

(** ** C71 *)

(** A table query that the constructors accept and that has a schema is computed if it is
    [computable] (TransformTotal.v: FlatMaps without IDs give max_rows, private joins have
    no grouping columns, join on the ID column or give both truncation strategies, public
    joins do not rename the grouping or ID column), and refused with a ValueError if not.
    No other outcome is possible for [regular] queries; C71_internal_errors_occur shows
    what happens for the others. *)
Theorem C71_computed_or_refused : forall W l2 cat data auto q0 q s,
  inputs_ok l2 cat data -> stocked cat data -> Query.build auto q0 = Ok q -> is_table q -> promises W l2 cat data q -> regular W cat q ->
  schema_of (w_cond_ok W) cat q = Ok s ->
  (computable (w_cond_ok W) cat q /\ exists t cs, build_transformation W l2 cat data q = Ok (t, cs))
  \/ (~ computable (w_cond_ok W) cat q /\ build_transformation W l2 cat data q = Err ValueError).
Proof.
  intros W l2 cat data auto q0 q s IN SK B T P R S.
  destruct (visit_verdict W l2 cat data IN SK auto q T (build_built auto q0 q B) P R s S) as [(C & (t & cs) & V)|(C & V)].
  - left. split; [exact C|]. exists t, cs. exact (C19_no_mismatch_on_regular_queries W l2 cat data auto q0 q s t cs IN B P R S V).
  - right. split; [exact C|]. unfold build_transformation. rewrite S. cbn [bind]. rewrite V. reflexivity.
Qed.
Print Assumptions C71_computed_or_refused.

(** In every session of every honest history. *)
Theorem C71_in_every_session : forall E st p s cat data auto q0 q sc,
  honest_state false E st -> session st p s ->
  catalog_of (s_tree s) (st_public st) (s_cons s) = Ok cat -> data_of (s_tree s) = Ok data ->
  Query.build auto q0 = Ok q -> is_table q -> promises (e_world E) (is_rho (s_left s)) cat data q -> regular (e_world E) cat q ->
  has_schema E st s q sc ->
  (computable (w_cond_ok (e_world E)) cat q <-> exists z, stands_for E st s q z).
Proof.
  intros E st p s cat data auto q0 q sc H S CA DA B T P R (cat' & CA' & SC). rewrite CA in CA'. injection CA' as <-.
  destruct (any_state_facts E st (honest_any _ _ _ H)) as (TK & F & _). destruct (honest_facts _ _ _ H) as (SO & SP).
  destruct (sound_inputs false st s cat data (TK p s S) (F p s S) (SO p s S) SP CA DA) as (IN & _).
  pose proof (session_stocked _ s cat data (TK p s S) (any_state_bare E st (honest_any _ _ _ H) p s S) CA DA) as SK.
  destruct (C71_computed_or_refused _ _ _ _ auto q0 q sc IN SK B T P R SC) as [(C & t & cs & V)|(C & V)].
  - split; [intros _|intros _; exact C]. exists (t, cs), cat, data. auto.
  - split; [intros X; contradiction|]. intros (z & cat2 & data2 & CA2 & DA2 & BT). rewrite CA in CA2. rewrite DA in DA2. injection CA2 as <-. injection DA2 as <-. congruence.
Qed.
Print Assumptions C71_in_every_session.

(** Views: with a free name, in a session that has not been stopped, create_view works for
    exactly these queries, and raises ValueError for the others.  [add_temps]: the
    intermediate tables of the compiled transformation can be stored (see Session.v). *)
Theorem C71_views_are_created : forall E st p s cat data auto q0 q sc names a v cache x1,
  honest_state false E st -> session st p s ->
  catalog_of (s_tree s) (st_public st) (s_cons s) = Ok cat -> data_of (s_tree s) = Ok data ->
  Query.build auto q0 = Ok q -> is_table q -> promises (e_world E) (is_rho (s_left s)) cat data q -> regular (e_world E) cat q ->
  has_schema E st s q sc ->
  state_at (st_root st) p a -> a <> RETIRED -> e_identifier E v = true ->
  private_sources (s_tree s) = Ok names -> ~ In v names -> ~ In v (public_sources (st_public st)) ->
  add_temps (e_temps E (s_tree s) q) (s_tree s) = Ok x1 ->
  exists st', (computable (w_cond_ok (e_world E)) cat q /\ step E st (CreateView p q v cache) = (st', Ok tt))
    \/ (~ computable (w_cond_ok (e_world E)) cat q /\ step E st (CreateView p q v cache) = (st', Err ValueError)).
Proof.
  intros E st p s cat data auto q0 q sc names a v cache x1 H S CA DA B T P R (cat' & CA' & SC) SA NR ID PS NP NB AT. rewrite CA in CA'. injection CA' as <-.
  destruct (any_state_facts E st (honest_any _ _ _ H)) as (TK & F & _). destruct (honest_facts _ _ _ H) as (SO & SP).
  destruct (sound_inputs false st s cat data (TK p s S) (F p s S) (SO p s S) SP CA DA) as (IN & _).
  pose proof (session_stocked _ s cat data (TK p s S) (any_state_bare E st (honest_any _ _ _ H) p s S) CA DA) as SK.
  pose proof (tk_layout s (TK p s S)) as L.
  assert (NP' : smem v names = false) by (destruct (smem v names) eqn:X; [apply smem_In in X; contradiction|reflexivity]).
  assert (NB' : dmem v (st_public st) = false). { destruct (dmem v (st_public st)) eqn:X; [|reflexivity]. exfalso. apply NB. unfold public_sources. apply dmem_In. exact X. }
  assert (NN : ~ In v (dkeys (named (s_tree s)))). { intros I. apply (mem_names _ names v L PS) in I. congruence. }
  assert (S1 : session_at st p = Ok s) by (apply session_at_iff; exact S).
  destruct (C71_computed_or_refused _ _ _ _ auto q0 q sc IN SK B T P R SC) as [(C & t & cs & V)|(C & V)].
  - destruct (add_temps_layout _ _ _ L AT) as (L1 & P1).
    destruct (store_exists q v cache (s_tree s) x1 cat data (t, cs) (e_world E) (is_rho (s_left s)) L NN DA V L1 P1) as (z & z' & x4 & AR & RN & RN2).
    cbn [step]. unfold create_view, attempt, activated. rewrite S1, ID. cbn [negb raise_if]. apply state_at_iff in SA. unfold activate. rewrite SA.
    destruct a; try contradiction; rewrite PS; cbn [st_public set_root]; rewrite NP', NB'; cbn [orb raise_if]; rewrite CA, DA, V, AT, AR, RN, RN2;
      eexists; left; (split; [exact C|reflexivity]).
  - cbn [step]. unfold create_view, attempt, activated. rewrite S1, ID. cbn [negb raise_if]. apply state_at_iff in SA. unfold activate. rewrite SA.
    destruct a; try contradiction; rewrite PS; cbn [st_public set_root]; rewrite NP', NB'; cbn [orb raise_if]; rewrite CA, DA, V;
      eexists; right; (split; [exact C|reflexivity]).
Qed.
Print Assumptions C71_views_are_created.

(** ** A session that shows every case *)

Definition visits : sframe := {| sd_fields := [fl "x_left" IntegerT true; fl "x" StringT true; fl "c" StringT false; fl "cost" FloatT true];
  sd_rows := [[VInt 1; VStr "a"; VStr "u"; VFloat FNan]; [VInt 2; VNull; VStr "v"; VFloat FPInf]; [VInt 1; VStr "b"; VStr "u"; VNull]] |}.
Definition labels : sframe := {| sd_fields := [fl "c" StringT false; fl "label" IntegerT false; fl "x" StringT true; fl "x_left" IntegerT true];
  sd_rows := [[VStr "u"; VInt 7; VStr "a"; VInt 1]; [VStr "u"; VInt 8; VNull; VInt 5]] |}.
Definition tags : sframe := {| sd_fields := [fl "c" StringT false; fl "tag" IntegerT false]; sd_rows := [[VStr "u"; VInt 7]; [VStr "w"; VInt 8]] |}.
Definition mixed_calls : list bcall :=
  [WithBudget (Pure (XFin 4)); WithIdSpace "people"; WithPrivate "visits" visits (AddRowsWithID "x_left" "people");
   WithPrivate "grouped" tags (AddMaxRowsInMaxGroups "c" 1 2); WithPrivate "plain" tags (AddMaxRows 2); WithPublic "labels" labels; WithPublic "tags" tags].
Definition mixed_state : state := match build_by E0 mixed_calls with Ok o => o_state o | Err _ => st0 (Pure (XFin 0)) end.
Lemma mixed_honest : honest_state false E0 mixed_state.
Proof.
  exists mixed_calls. assert (B : exists o, build_by E0 mixed_calls = Ok o) by (eexists; vm_compute; reflexivity). destruct B as (o & B).
  exists o, []. split; [cbn; intuition discriminate|]. split; [exact B|]. split; [|split; [|split]].
  - cbn. intros n f c [H|[H|[H|[]]]]; injection H as <- <- <-; (eapply frame_check; [repeat constructor; cbn; intuition discriminate|reflexivity|vm_compute; reflexivity]).
  - cbn. intros n f [H|[H|[]]]; injection H as <- <-; (eapply frame_check; [repeat constructor; cbn; intuition discriminate|reflexivity|vm_compute; reflexivity]).
  - exact I.
  - unfold mixed_state. rewrite B. reflexivity.
Qed.
Definition new_y : schema := sch0 [("y", dsc INTEGER false false false)] None.
Definition new_g : schema := {| sc_cols := [("y", dsc INTEGER false false false)]; sc_group := Some "y"; sc_id := None; sc_space := None |}.
Definition one_y : rec -> list rec := fun _ => [[("y", VInt 1)]].

(** Each reason for a refusal arises, for a query that the constructors accept and that
    has a schema in the session. *)
Theorem C71_refusals_occur : exists s cat data,
  honest_state false E0 mixed_state /\ session mixed_state [] s
  /\ catalog_of (s_tree s) (st_public mixed_state) (s_cons s) = Ok cat /\ data_of (s_tree s) = Ok data
  /\ Forall (fun q => Query.build false q = Ok q /\ (exists sc, schema_of (w_cond_ok (e_world E0)) cat q = Ok sc)
                      /\ build_transformation (e_world E0) (is_rho (s_left s)) cat data q = Err ValueError)
       [ (* a flat map without max_rows, no IDs *)
         FlatMap (PrivateSource "plain") one_y new_y true None;
         (* a private join without truncation strategies, no IDs *)
         JoinPrivate (PrivateSource "plain") (PrivateSource "plain") (Some (DropExcess 1)) None (Some ["c"]);
         (* a private join of tables with a grouping column *)
         JoinPrivate (PrivateSource "grouped") (PrivateSource "grouped") (Some (DropExcess 1)) (Some (DropExcess 1)) None;
         (* a private join of ID tables, not on the ID column *)
         JoinPrivate (PrivateSource "visits") (PrivateSource "visits") None None (Some ["c"]);
         (* a public join that renames the ID column *)
         JoinPublic (PrivateSource "visits") (PubName "labels") (Some ["c"]) "inner" ].
Proof.
  eexists _, _, _. split; [exact mixed_honest|]. split; [eexists; split; [vm_compute; reflexivity|reflexivity]|].
  split; [vm_compute; reflexivity|]. split; [vm_compute; reflexivity|].
  repeat (constructor; [split; [vm_compute; reflexivity|]; split; [eexists; vm_compute; reflexivity|vm_compute; reflexivity]|]). constructor.
Qed.
Print Assumptions C71_refusals_occur.

(** Irregular queries: the message then tells the user of a bug in the library.  The third
    kind, default treatment of infinities in a float ID column, is C19_irregular_case. *)
Theorem C71_internal_errors_occur : exists s cat data,
  honest_state false E0 mixed_state /\ session mixed_state [] s
  /\ catalog_of (s_tree s) (st_public mixed_state) (s_cons s) = Ok cat /\ data_of (s_tree s) = Ok data
  /\ Forall (fun q => Query.build false q = Ok q /\ (exists sc, schema_of (w_cond_ok (e_world E0)) cat q = Ok sc)
                      /\ computable (w_cond_ok (e_world E0)) cat q
                      /\ build_transformation (e_world E0) (is_rho (s_left s)) cat data q = Err InternalError)
       [ (* a left join of an ID table with a public table *)
         JoinPublic (PrivateSource "visits") (PubName "tags") None "left";
         (* a grouping flat map that does not augment *)
         FlatMap (PrivateSource "plain") one_y new_g false (Some 2%Z) ].
Proof.
  eexists _, _, _. split; [exact mixed_honest|]. split; [eexists; split; [vm_compute; reflexivity|reflexivity]|].
  split; [vm_compute; reflexivity|]. split; [vm_compute; reflexivity|].
  repeat (constructor; [split; [vm_compute; reflexivity|]; split; [eexists; vm_compute; reflexivity|split; [|vm_compute; reflexivity]]|]); [| |constructor].
  - cbn [computable]. split; [exact I|]. intros s r i S R. vm_compute in S, R. injection S as <-. injection R as <-. intros P H.
    destruct P as [P|P]; cbn in P; [discriminate|]. injection P as <-. cbn in H. destruct H as [H|[H|[]]]; discriminate H.
  - cbn [computable]. split; [exact I|]. intros _ _ _ E. discriminate E.
Qed.
Print Assumptions C71_internal_errors_occur.

(** A query with each kind of join meets the hypotheses; the theorem gives its view. *)
Definition chain : query :=
  FlatMap (JoinPublic (JoinPrivate (PrivateSource "plain") (Filter (PrivateSource "plain") "tag > 7") (Some (DropExcess 1)) (Some DropNonUnique) (Some ["c"]))
             (PubName "labels") (Some ["c"]) "inner") one_y new_y true (Some 2%Z).
Example C71_case : exists s cat data sc st', honest_state false E0 mixed_state /\ session mixed_state [] s
  /\ catalog_of (s_tree s) (st_public mixed_state) (s_cons s) = Ok cat /\ data_of (s_tree s) = Ok data
  /\ Query.build false chain = Ok chain /\ promises (e_world E0) (is_rho (s_left s)) cat data chain /\ regular (e_world E0) cat chain
  /\ has_schema E0 mixed_state s chain sc /\ computable (w_cond_ok (e_world E0)) cat chain
  /\ step E0 mixed_state (CreateView [] chain "chained" true) = (st', Ok tt).
Proof.
  eexists _, _, _, _, _. split; [exact mixed_honest|]. split; [eexists; split; [vm_compute; reflexivity|reflexivity]|].
  split; [vm_compute; reflexivity|]. split; [vm_compute; reflexivity|]. split; [vm_compute; reflexivity|].
  split; [|split; [|split; [|split]]].
  - cbn [promises chain].
    split; [split; [split; exact I|exact I]|]. split; [apply has_dup_NoDup; reflexivity|].
    intros t cs r o _ _ [<-|[]]. intros c d D. cbn in D. destruct (String.eqb c "y") eqn:Ec; [|discriminate]. apply String.eqb_eq in Ec. subst c. injection D as <-. reflexivity.
  - cbn [regular chain]. repeat split; auto; intros; discriminate.
  - eexists. split; vm_compute; reflexivity.
  - cbn [computable chain]. split; [split; [split; [exact I|split; [exact I|]]|]|].
    + intros sl sr L R. vm_compute in L, R. injection L as <-. injection R as <-. repeat split; discriminate.
    + intros s r i S R P. vm_compute in S. injection S as <-. destruct P as [P|P]; discriminate P.
    + intros s _ _ E. discriminate E.
  - vm_compute. reflexivity.
Qed.
