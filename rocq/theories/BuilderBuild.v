(** When building succeeds, and what is built. *)
From Coq Require Import String Bool Arith ZArith QArith Lia Permutation List.
From Verif Require Import Prelude Budget BudgetProofs Value Rows Constraints Schema SchemaProofs Query Transform Tables TablesProofs
  Accountant AccountantProofs Session SessionSpec SessionTables SessionInv SessionViews Neighboring NeighboringSpec NeighboringProofs Builder BuilderProofs BuilderTree.
Import ListNotations.
Local Open Scope string_scope.
Local Open Scope nat_scope.
Notation frames l := (map (fun p => (fst p, fst (snd p))) l).
Notation changes l := (map (fun p => (fst p, snd (snd p))) l).

Section Build.
Variable E : env.

Record builder_ok (b : builder) : Prop := {
  bo_names : NoDup (dkeys (b_private b) ++ dkeys (b_public b));
  bo_ids : forall n, In n (dkeys (b_private b)) \/ In n (dkeys (b_public b)) -> e_identifier E n = true;
  bo_checked : forall n f c, In (n, (f, c)) (b_private b) -> check_change c = Ok tt;
  bo_private : forall n f c, In (n, (f, c)) (b_private b) -> coerced f;
  bo_public : forall n f, In (n, f) (b_public b) -> coerced f;
  bo_spaces : NoDup (b_spaces b);
  bo_space_ids : forall s, In s (b_spaces b) -> e_identifier E s = true
}.
Lemma dset_new {V} n (v : V) (d : dict V) : dmem n d = false -> dset n v d = (d ++ [(n, v)])%list.
Proof. intros H. apply dset_append. intros I. apply dmem_In in I. congruence. Qed.
Lemma dmem_false {V} n (d : dict V) : dmem n d = false -> ~ In n (dkeys d).
Proof. intros H I. apply dmem_In in I. congruence. Qed.
Lemma nodup_insert {A} (l m : list A) x : NoDup (l ++ m) -> ~ In x l -> ~ In x m -> NoDup ((l ++ [x]) ++ m).
Proof.
  intros N A1 A2. apply (Permutation_NoDup (l := x :: l ++ m)).
  - rewrite <- app_assoc. apply Permutation_middle.
  - constructor; [rewrite in_app_iff; tauto|exact N].
Qed.
Lemma nodup_insert_r {A} (l m : list A) x : NoDup (l ++ m) -> ~ In x l -> ~ In x m -> NoDup (l ++ m ++ [x]).
Proof. intros N A1 A2. rewrite app_assoc. apply NoDup_snoc; [exact N|rewrite in_app_iff; tauto]. Qed.
Lemma with_private_ok b n f c b' : with_private_dataframe E b n f c = Ok b' <->
  check_change c = Ok tt /\ e_identifier E n = true /\ ~ In n (dkeys (b_private b)) /\ ~ In n (dkeys (b_public b))
  /\ exists f', coerce_spark_schema_or_fail f = Ok f'
     /\ b' = {| b_budget := b_budget b; b_private := (b_private b ++ [(n, (f', c))])%list; b_public := b_public b; b_spaces := b_spaces b |}.
Proof.
  unfold with_private_dataframe. split.
  - intros H. apply bind_ok in H as ([] & A & H). apply bind_ok in H as ([] & B & H). apply bind_ok in H as ([] & D & H). apply bind_ok in H as (f' & F & H). injection H as <-.
    apply raise_if_ok in B. apply Bool.negb_false_iff in B. apply raise_if_ok in D. apply Bool.orb_false_iff in D as (D1 & D2). rewrite (dset_new _ _ _ D1).
    split; [exact A|]. split; [exact B|]. split; [apply dmem_false, D1|]. split; [apply dmem_false, D2|]. eauto.
  - intros (A & B & D1 & D2 & f' & F & ->). rewrite A, B. cbn [bind negb raise_if].
    destruct (dmem n (b_private b)) eqn:M1; [apply dmem_In in M1; contradiction|]. destruct (dmem n (b_public b)) eqn:M2; [apply dmem_In in M2; contradiction|]. cbn. rewrite F. cbn. now rewrite (dset_new _ _ _ M1).
Qed.
Lemma with_public_ok b n f b' : with_public_dataframe E b n f = Ok b' <->
  e_identifier E n = true /\ ~ In n (dkeys (b_private b)) /\ ~ In n (dkeys (b_public b))
  /\ exists f', coerce_spark_schema_or_fail f = Ok f'
     /\ b' = {| b_budget := b_budget b; b_private := b_private b; b_public := (b_public b ++ [(n, f')])%list; b_spaces := b_spaces b |}.
Proof.
  unfold with_public_dataframe. split.
  - intros H. apply bind_ok in H as ([] & B & H). apply bind_ok in H as ([] & D & H). apply bind_ok in H as (f' & F & H). injection H as <-.
    apply raise_if_ok in B. apply Bool.negb_false_iff in B. apply raise_if_ok in D. apply Bool.orb_false_iff in D as (D1 & D2). rewrite (dset_new _ _ _ D2).
    split; [exact B|]. split; [apply dmem_false, D1|]. split; [apply dmem_false, D2|]. eauto.
  - intros (B & D1 & D2 & f' & F & ->). rewrite B. cbn [bind negb raise_if].
    destruct (dmem n (b_private b)) eqn:M1; [apply dmem_In in M1; contradiction|]. destruct (dmem n (b_public b)) eqn:M2; [apply dmem_In in M2; contradiction|]. cbn. rewrite F. cbn. now rewrite (dset_new _ _ _ M2).
Qed.
Lemma with_space_ok b s b' : with_id_space E b s = Ok b' <->
  e_identifier E s = true /\ ~ In s (b_spaces b)
  /\ b' = {| b_budget := b_budget b; b_private := b_private b; b_public := b_public b; b_spaces := (b_spaces b ++ [s])%list |}.
Proof.
  unfold with_id_space. split.
  - intros H. apply bind_ok in H as ([] & B & H). apply bind_ok in H as ([] & D & H). injection H as <-. apply raise_if_ok in B. apply Bool.negb_false_iff in B. apply raise_if_ok, smem_false in D. auto.
  - intros (B & D & ->). apply smem_false in D. rewrite B, D. reflexivity.
Qed.
Lemma with_budget_ok b x b' : with_privacy_budget b x = Ok b' <->
  b_budget b = None /\ b' = {| b_budget := Some x; b_private := b_private b; b_public := b_public b; b_spaces := b_spaces b |}.
Proof.
  unfold with_privacy_budget. destruct (b_budget b); cbn; split; try discriminate; try (intros (? & _); discriminate).
  - intros H. injection H as <-. auto.
  - intros (_ & ->). reflexivity.
Qed.
Lemma empty_ok : builder_ok empty_builder.
Proof. constructor; cbn; try constructor; try tauto. Qed.
Lemma space_keeps b s b' : builder_ok b -> with_id_space E b s = Ok b' -> builder_ok b'.
Proof.
  intros [A B C D F G H] K. apply with_space_ok in K as (I & NI & ->). constructor; cbn; auto.
  - apply NoDup_snoc; assumption.
  - intros x X. apply in_app_iff in X as [X|[<-|[]]]; auto.
Qed.
Lemma add_space_keeps b b' : builder_ok b -> add_id_space_if_one_private_df E b = Ok b' -> builder_ok b'.
Proof.
  intros OK H. unfold add_id_space_if_one_private_df in H. destruct (b_private b) as [|(n, (f, c)) [|q r]]; try (injection H as <-; exact OK); destruct c as [k|g k m|i s]; try (injection H as <-; exact OK).
  destruct (smem s (b_spaces b)); [injection H as <-; exact OK|eapply space_keeps; eassumption].
Qed.
Lemma build_keeps b : builder_ok b -> builder_ok (fst (build E b)).
Proof.
  intros OK. unfold build. destruct (b_budget b); [|exact OK]. destruct (b_private b) eqn:P; [exact OK|]. destruct (add_id_space_if_one_private_df E b) eqn:A; [|exact OK]. eapply add_space_keeps; eassumption.
Qed.
Lemma call_keeps b c b' : builder_ok b -> bcall_result E b c = Ok b' -> builder_ok b'.
Proof.
  intros OK H. destruct c as [x|n f c|n f|s|]; cbn in H.
  - apply with_budget_ok in H as (_ & ->). destruct OK; constructor; assumption.
  - destruct OK as [A B C D F G K]. apply with_private_ok in H as (CH & I & N1 & N2 & f' & FF & ->). constructor; cbn; auto.
    + unfold dkeys in *. rewrite map_app. cbn. apply nodup_insert; assumption.
    + intros m J. unfold dkeys in J. rewrite map_app, in_app_iff in J. cbn in J. destruct J as [[J|[<-|[]]]|J]; [apply B; auto|exact I|apply B; auto].
    + intros m g ch J. apply in_app_iff in J as [J|[J|[]]]; [eauto|]. injection J as <- <- <-. exact CH.
    + intros m g ch J. apply in_app_iff in J as [J|[J|[]]]; [eauto|]. injection J as <- <- <-. eapply coerce_coerced, FF.
  - destruct OK as [A B C D F G K]. apply with_public_ok in H as (I & N1 & N2 & f' & FF & ->). constructor; cbn; auto.
    + unfold dkeys in *. rewrite map_app. cbn. apply nodup_insert_r; assumption.
    + intros m J. unfold dkeys in J. rewrite map_app, in_app_iff in J. cbn in J. destruct J as [J|[J|[<-|[]]]]; [apply B; auto|apply B; auto|exact I].
    + intros m g J. apply in_app_iff in J as [J|[J|[]]]; [eauto|]. injection J as <- <-. eapply coerce_coerced, FF.
  - eapply space_keeps; eassumption.
  - pose proof (build_keeps b OK) as K. destruct (build E b) as (b1, r). cbn in K. destruct r; cbn in H; [|discriminate]. injection H as <-. exact K.
Qed.
Lemma step_keeps b c : builder_ok b -> builder_ok (bstep E b c).
Proof.
  intros OK. destruct c as [x|n f c|n f|s|]; unfold bstep; try (destruct (bcall_result E b _) eqn:H; [eapply call_keeps; eassumption|exact OK]). apply build_keeps, OK.
Qed.
Lemma run_keeps l : forall b, builder_ok b -> builder_ok (brun E b l).
Proof. induction l as [|c l IH]; intros b OK; [exact OK|]. cbn. apply IH, step_keeps, OK. Qed.

(** ** Building *)

Definition declared (l : dict (sframe * change)) (spaces : list string) : Prop :=
  forall n f i s, In (n, (f, AddRowsWithID i s)) l -> In s spaces.
Lemma undeclared_spec (l : dict (sframe * change)) spaces : NoDup (dkeys l) ->
  existsb (undeclared spaces) (children_of (changes l)) = false <-> declared l spaces.
Proof.
  intros N. split.
  - intros H n f i s I. destruct (smem s spaces) eqn:M; [apply smem_In, M|]. exfalso.
    assert (X : existsb (undeclared spaces) (children_of (changes l)) = true); [|congruence]. apply existsb_exists.
    exists (AddRemoveKeys s (flat_map (in_space s) (changes l)) 1). split; [|cbn; now rewrite M]. unfold children_of. apply in_app_iff. right. apply in_map_iff.
    exists (s, flat_map (in_space s) (changes l)). split; [reflexivity|]. apply (spaces_in _ _ n i); [rewrite keys_changes; exact N|]. apply in_changes. eauto.
  - intros D. destruct (existsb _ _) eqn:X; [|reflexivity]. exfalso. apply existsb_exists in X as (r & I & U). unfold children_of in I. apply in_app_iff in I as [I|I].
    + apply in_flat_map in I as ((n, c) & _ & I). unfold row_relation in I. destruct c; cbn in I; try contradiction; destruct I as [<-|[]]; discriminate.
    + apply in_map_iff in I as ((s, d) & <- & I). cbn in U. apply Bool.negb_true_iff in U. apply smem_false in U. apply U.
      pose proof (relation_fold (changes l)) as R. rewrite keys_changes in R. specialize (R N). cbn in R. destruct R as (_ & _ & _ & R).
      assert (K : In s (dkeys (spaces_of (changes l)))) by (apply in_map_iff; exists (s, d); auto). apply R in K as (n & i & K). apply in_changes in K as (f & K). exact (D _ _ _ _ K).
Qed.
(** The state of a new session with these tables. *)
Definition start_state (x : budget) (l : dict (sframe * change)) (names : list string) (pub : dict sframe) : state :=
  {| st_root := Acct ACTIVE {| s_initial := accountant_budget x; s_left := accountant_budget x; s_log := [];
                               s_tree := tree_of_sources (is_rho x) l; s_cons := dict_of (map (fun n => (n, [])) names) |} [];
     st_public := pub |}.
Definition start_distances (x : budget) (l : dict (sframe * change)) : list (ident * distance) :=
  map (fun r => (child_id r, child_distance (is_rho x) r)) (children_of (changes l)).
Lemma named_sources_keys l2 (l : dict (sframe * change)) n : NoDup (dkeys l) -> In n (dkeys (named (tree_of_sources l2 l))) <-> In n (dkeys l).
Proof.
  intros N. pose proof (named_sources l2 l n N) as H. split; intros I.
  - destruct (dget n l) eqn:G; [apply dget_In in G; apply in_map_iff; exists (n, p); auto|]. cbn in H. apply dget_None in H. contradiction.
  - destruct (dget n l) eqn:G; [|apply dget_None in G; contradiction]. cbn in H. apply dget_In in H. apply in_map_iff. eexists. split; [|exact H]. reflexivity.
Qed.
Lemma from_relation_ok x (l : dict (sframe * change)) : NoDup (dkeys l) -> (forall n f c, In (n, (f, c)) l -> coerced f) ->
  (forall n f c, In (n, (f, c)) l -> fits f c) -> same_ids l ->
  exists names, private_sources (tree_of_sources (is_rho x) l) = Ok names /\ NoDup names /\ (forall n, In n names <-> In n (dkeys l))
    /\ from_neighboring_relation x (frames l) (Conjunction (children_of (changes l)))
       = Ok {| o_state := start_state x l names []; o_din := start_distances x l |}.
Proof.
  intros N C F S. assert (NC : NoDup (map fst (changes l))) by (rewrite keys_changes; exact N).
  destruct (private_sources_spec _ (sources_layout (is_rho x) l N)) as (names & P & NN & IN). exists names. split; [exact P|]. split; [exact NN|].
  split; [intros n; rewrite IN; apply named_sources_keys, N|].
  unfold from_neighboring_relation. pose proof (proj2 (validate_builder l N C) (conj F S)) as V. rewrite V. cbn [bind].
  destruct (validate_conjunction _ _ V) as (V1 & _). rewrite visit_flat; [|apply children_flat| |exact V1|apply children_keys_distinct, NC|apply child_ids, NC].
  - cbn [bind fst snd]. unfold new_session. fold (tree_of_sources (is_rho x) l). rewrite P. cbn [bind]. reflexivity.
  - intros n f G. rewrite dget_frames in G. destruct (dget n l) as [(f', c)|] eqn:GG; [|discriminate]. cbn in G. injection G as ->. apply dget_In in GG. eapply C, GG.
Qed.
Lemma from_relation_fails x (l : dict (sframe * change)) o : NoDup (dkeys l) -> (forall n f c, In (n, (f, c)) l -> coerced f) ->
  from_neighboring_relation x (frames l) (Conjunction (children_of (changes l))) = Ok o -> (forall n f c, In (n, (f, c)) l -> fits f c) /\ same_ids l.
Proof. intros N C H. unfold from_neighboring_relation in H. apply bind_ok in H as ([] & V & _). apply validate_builder; assumption. Qed.
Lemma add_public_ok x (l : dict (sframe * change)) names : private_sources (tree_of_sources (is_rho x) l) = Ok names -> forall pub done,
  NoDup (dkeys done ++ dkeys pub) -> (forall n, In n (dkeys pub) -> e_identifier E n = true /\ ~ In n names) -> (forall n f, In (n, f) pub -> coerced f) ->
  add_public E (start_state x l names done) pub = Ok (start_state x l names (done ++ pub)%list).
Proof.
  intros P. induction pub as [|(n, f) pub IH]; intros done N I C; [now rewrite app_nil_r|].
  assert (A : add_public_dataframe E (start_state x l names done) [] n f = (start_state x l names (done ++ [(n, f)])%list, Ok tt)).
  { destruct (I n (or_introl eq_refl)) as (I1 & I2). unfold add_public_dataframe.
    change (session_at (start_state x l names done) []) with (Ok (a_data (st_root (start_state x l names done)))). cbn [attempt]. rewrite I1. cbn [negb raise_if attempt].
    change (s_tree (a_data (st_root (start_state x l names done)))) with (tree_of_sources (is_rho x) l). rewrite P. cbn [attempt].
    assert (D : dmem n done = false). { destruct (dmem n done) eqn:M; [|reflexivity]. apply dmem_In in M. cbn in N. apply NoDup_remove_2 in N. exfalso. apply N, in_app_iff. auto. }
    apply smem_false in I2. cbn [start_state st_public]. rewrite D, I2. cbn [orb raise_if attempt]. rewrite (C n f (or_introl eq_refl)). reflexivity. }
  cbn [add_public]. rewrite A. rewrite IH.
  - now rewrite <- app_assoc.
  - unfold dkeys in *. rewrite map_app, <- app_assoc. exact N.
  - intros m J. apply I. right. exact J.
  - intros m g J. apply (C m g). right. exact J.
Qed.
Lemma build_session_ok b : builder_ok b -> forall x, b_budget b = Some x ->
  (forall n f c, In (n, (f, c)) (b_private b) -> fits f c) -> same_ids (b_private b) -> declared (b_private b) (b_spaces b) ->
  exists names, private_sources (tree_of_sources (is_rho x) (b_private b)) = Ok names /\ NoDup names /\ (forall n, In n names <-> In n (dkeys (b_private b)))
    /\ build_session E b = Ok {| o_state := start_state x (b_private b) names (b_public b); o_din := start_distances x (b_private b) |}.
Proof.
  intros [N I C CP CU S SI] x B F SA D. destruct (nodup_append_inv _ _ N) as (N1 & N2 & N3).
  destruct (from_relation_ok x (b_private b) N1 CP F SA) as (names & P & NN & IN & H). exists names. split; [exact P|]. split; [exact NN|]. split; [exact IN|].
  unfold build_session. rewrite B, generate_ok.
  - cbn [bind]. rewrite H. cbn [bind relation_children]. rewrite (proj2 (undeclared_spec _ _ N1) D). cbn [raise_if bind o_state o_din].
    rewrite (add_public_ok x (b_private b) names P (b_public b) []); [reflexivity|exact N2| |exact CU].
    intros n J. split; [apply I; auto|]. intros K. apply IN in K. exact (N3 n K J).
  - rewrite keys_changes. exact N1.
  - intros n c J. apply in_changes in J as (f & J). eapply C, J.
Qed.
Lemma build_session_needs b o : builder_ok b -> build_session E b = Ok o ->
  b_budget b <> None /\ (forall n f c, In (n, (f, c)) (b_private b) -> fits f c) /\ same_ids (b_private b) /\ declared (b_private b) (b_spaces b).
Proof.
  intros [N I C CP CU S SI] H. destruct (nodup_append_inv _ _ N) as (N1 & N2 & N3). unfold build_session in H. destruct (b_budget b) as [x|]; [|discriminate].
  rewrite generate_ok in H; [|rewrite keys_changes; exact N1|intros n c J; apply in_changes in J as (f & J); eapply C, J].
  cbn [bind] in H. apply bind_ok in H as (o1 & H1 & H). cbn [relation_children bind] in H. apply bind_ok in H as ([] & H2 & _). apply raise_if_ok in H2.
  split; [discriminate|]. destruct (from_relation_fails _ _ _ N1 CP H1). split; [assumption|]. split; [assumption|]. apply undeclared_spec; assumption.
Qed.
(** Spaces are declared, except that of a single private table. *)
Definition spaces_ready (l : dict (sframe * change)) (spaces : list string) : Prop :=
  forall n f i s, In (n, (f, AddRowsWithID i s)) l -> In s spaces \/ (length l = 1 /\ e_identifier E s = true).
Lemma add_space_ok b : builder_ok b -> spaces_ready (b_private b) (b_spaces b) ->
  exists b', add_id_space_if_one_private_df E b = Ok b' /\ b_budget b' = b_budget b /\ b_private b' = b_private b /\ b_public b' = b_public b
    /\ declared (b_private b) (b_spaces b').
Proof.
  intros OK R. unfold add_id_space_if_one_private_df, spaces_ready, declared in *.
  destruct (b_private b) as [|(n, (f, c)) [|q r]] eqn:P.
  - exists b. rewrite P. repeat split; try reflexivity. intros ? ? ? ? [].
  - destruct c as [k|g k m|i s].
    1,2: exists b; rewrite P; repeat split; try reflexivity; intros ? ? ? ? [J|[]]; discriminate.
    destruct (smem s (b_spaces b)) eqn:M.
    + exists b. rewrite P. repeat split; try reflexivity. intros n' f' i' s' [J|[]]. injection J as <- <- <- <-. apply smem_In, M.
    + destruct (R n f i s (or_introl eq_refl)) as [J|(_ & J)]; [apply smem_In in J; congruence|]. exists {| b_budget := b_budget b; b_private := b_private b; b_public := b_public b; b_spaces := (b_spaces b ++ [s])%list |}.
      split; [apply with_space_ok; split; [exact J|]; split; [apply smem_false, M|reflexivity]|]. cbn. rewrite P. repeat split; try reflexivity.
      intros n' f' i' s' [K|[]]. injection K as <- <- <- <-. apply in_app_iff. cbn. auto.
  - exists b. rewrite P. split; [destruct c; reflexivity|]. split; [reflexivity|]. split; [reflexivity|]. split; [reflexivity|]. intros n' f' i' s' J. destruct (R _ _ _ _ J) as [K|(K & _)]; [exact K|discriminate].
Qed.
Lemma add_space_needs b b' : builder_ok b -> add_id_space_if_one_private_df E b = Ok b' ->
  b_budget b' = b_budget b /\ b_private b' = b_private b /\ b_public b' = b_public b /\ (declared (b_private b) (b_spaces b') -> spaces_ready (b_private b) (b_spaces b)).
Proof.
  intros OK H. assert (Z : b' = b -> b_budget b' = b_budget b /\ b_private b' = b_private b /\ b_public b' = b_public b /\ (declared (b_private b) (b_spaces b') -> spaces_ready (b_private b) (b_spaces b))).
  { intros ->. repeat split; try reflexivity. intros D n f i s J. left. exact (D _ _ _ _ J). }
  unfold add_id_space_if_one_private_df in H. destruct (b_private b) as [|(n, (f, c)) [|q r]] eqn:P; [injection H as <-; apply Z; reflexivity| |destruct c; injection H as <-; apply Z; reflexivity].
  destruct c as [k|g k m|i s]; try (injection H as <-; apply Z; reflexivity).
  destruct (smem s (b_spaces b)); [injection H as <-; apply Z; reflexivity|]. apply with_space_ok in H as (I & NI & ->). cbn. split; [reflexivity|]. split; [exact P|]. split; [reflexivity|].
  intros _ n' f' i' s' [K|[]]. injection K as <- <- <- <-. right. cbn. auto.
Qed.
Definition ready (b : builder) : Prop :=
  b_budget b <> None /\ b_private b <> [] /\ (forall n f c, In (n, (f, c)) (b_private b) -> fits f c) /\ same_ids (b_private b)
  /\ spaces_ready (b_private b) (b_spaces b).
Lemma build_ready b : builder_ok b -> forall o, snd (build E b) = Ok o -> ready b.
Proof.
  intros OK o H. unfold build in H. destruct (b_budget b) as [x|] eqn:B; [|discriminate]. destruct (b_private b) as [|p0 l0] eqn:P; [discriminate|].
  destruct (add_id_space_if_one_private_df E b) as [b'|] eqn:A; [|discriminate]. cbn in H. pose proof (add_space_keeps _ _ OK A) as OK'.
  destruct (build_session_needs _ _ OK' H) as (B' & F & S & D). destruct (add_space_needs _ _ OK A) as (E1 & E2 & E3 & E4). rewrite E2 in *. unfold ready. rewrite B.
  split; [discriminate|]. split; [rewrite P; discriminate|]. split; [exact F|]. split; [exact S|]. apply E4, D.
Qed.
Lemma build_ok b : builder_ok b -> ready b -> exists x names, b_budget b = Some x
  /\ private_sources (tree_of_sources (is_rho x) (b_private b)) = Ok names /\ NoDup names /\ (forall n, In n names <-> In n (dkeys (b_private b)))
  /\ snd (build E b) = Ok {| o_state := start_state x (b_private b) names (b_public b); o_din := start_distances x (b_private b) |}.
Proof.
  intros OK (B & P & F & S & R). destruct (b_budget b) as [x|] eqn:EB; [|congruence]. destruct (add_space_ok b OK R) as (b' & A & E1 & E2 & E3 & D).
  pose proof (add_space_keeps _ _ OK A) as OK'. destruct (build_session_ok b' OK' x) as (names & PS & NN & IN & H); [congruence|rewrite E2; exact F|rewrite E2; exact S|rewrite E2; exact D|].
  exists x, names. rewrite E2, E3 in *. split; [reflexivity|]. split; [exact PS|]. split; [exact NN|]. split; [exact IN|]. unfold build. rewrite EB, A. destruct (b_private b); [congruence|exact H].
Qed.
End Build.
