(** Property C82: the names of tables carry no meaning. *)
From Coq Require Import String Bool Arith ZArith QArith Qcanon Lia Permutation List.
From Verif Require Import Prelude Budget BudgetScale Value Rows Constraints Schema SchemaProofs Query QuerySame Rewrite Transform TransformSpec TransformConform QueryProofs Tables TablesProofs
  Accountant AccountantProofs Session SessionSpec SessionMoney SessionSteps SessionTables SessionInv SessionUse SessionViews SessionWell SessionSound
  Neighboring NeighboringProofs Builder BuilderProofs BuilderTree BuilderBuild BuilderCalls BuilderSpec BuilderNeighbours BlindSpec Measure Footprint Props_Query Props_Session Props_Measure Props_Sound Props_Footprint.
From Verif Require Import Shown Renaming RenamedSession.
Import ListNotations.
Local Open Scope string_scope.
Local Open Scope nat_scope.

(** ** One query *)

(** A query with other names, over tables that have those names, has the same schema, gives
    the same rows and constraints, compiles to the same measurement, or is refused with the same
    exception.  Private tables may even share a new name if they are the same. *)
Theorem C82_queries : forall f g R W K auto so mu b q cat data cat' data',
  matches f g q cat data cat' data' ->
  schema_of (w_cond_ok W) cat' (renamed f g q) = schema_of (w_cond_ok W) cat q
  /\ (forall l2, build_transformation W l2 cat' data' (renamed f g q) = build_transformation W l2 cat data q)
  /\ compile R W K auto so mu cat' data' b (renamed f g q) = compile R W K auto so mu cat data b q.
Proof.
  intros f g R W K auto so mu b q cat data cat' data' M.
  split; [exact (schema_ren f g _ _ _ _ _ _ M)|]. split; [intros l2; exact (build_ren f g _ _ _ _ _ _ _ M)|exact (compile_ren f g _ _ _ _ _ _ _ _ _ _ _ _ M)].
Qed.
Print Assumptions C82_queries.

(** ** Calls *)

(** Two session trees that are the same but for the names, after any calls, and any further
    calls, made in one with the old names and in the other with the new ones: each call
    succeeds in both or raises the same exception in both, and afterwards the trees are again
    the same but for the names: budgets, charges, tables, constraints, and which session is
    active. *)
Theorem C82_calls : forall f back E K auto so st st' l,
  (forall n, back (f n) = n) -> (forall n, f (back n) = n) -> name_blind f E K auto so ->
  any_state E st -> any_state E st' -> state_goes f st st' -> Forall proper l ->
  answers E st' (map (renamed_call f) l) = answers E st l
  /\ state_goes f (run E st l) (run E st' (map (renamed_call f) l)).
Proof.
  intros f back E K auto so st st' l BF FB NB A A' H P. destruct (run_kept f back BF FB E K auto so NB l st st' A A' H P) as (X & Y). auto.
Qed.
Print Assumptions C82_calls.
(** Then every query has the same answer in every session, under the new names. *)
Lemma answers_as f E K auto so st st' p c q : any_state E st -> any_state E st' -> state_goes f st st' ->
  answer E K auto so st' p c (renamed f f q) = answer E K auto so st p c q.
Proof.
  intros A A' (H & PB). unfold answer. unfold session_at. pose proof (tree_goes_find f p _ _ H) as X.
  destruct (find p (st_root st)) as [d|] eqn:FC, (find p (st_root st')) as [d'|] eqn:FC'; try contradiction; [|reflexivity]. cbn [bind].
  assert (S : session_at st p = Ok (a_data d)) by (unfold session_at; rewrite FC; reflexivity). assert (S' : session_at st' p = Ok (a_data d')) by (unfold session_at; rewrite FC'; reflexivity).
  destruct (both_match f st st' _ _ (any_known _ _ _ _ A S) (any_known _ _ _ _ A' S') (tree_goes_data f _ _ X) PB) as (cat & data & cat' & data' & CA & DA & CA' & DA' & AG).
  rewrite CA, DA, CA', DA'. cbn [bind]. rewrite (compile_ren f f _ _ _ _ _ _ _ _ _ _ _ _ (AG q)). reflexivity.
Qed.

(** ** Sessions *)

(** The builder's calls with the new names.  ID spaces keep theirs. *)
Definition renamed_bcall (f : string -> string) (c : bcall) : bcall :=
  match c with
  | WithPrivate n x ch => WithPrivate (f n) x ch
  | WithPublic n x => WithPublic (f n) x
  | _ => c
  end.
Section Start.
Variables f back : string -> string.
Hypothesis back_f : forall n, back (f n) = n.
Hypothesis f_back : forall n, f (back n) = n.
Notation as_f l := (map (fun e => (f (fst e), snd e)) l).
Notation ren := (map (renamed_bcall f)).
Lemma budgets_bc l : BuilderCalls.budgets (ren l) = BuilderCalls.budgets l.
Proof. induction l as [|c l IH]; [reflexivity|]. cbn [map BuilderCalls.budgets flat_map]. fold (BuilderCalls.budgets l). fold (BuilderCalls.budgets (ren l)). rewrite IH. destruct c; reflexivity. Qed.
Lemma spaces_bc l : spaces (ren l) = spaces l.
Proof. induction l as [|c l IH]; [reflexivity|]. cbn [map spaces flat_map]. fold (spaces l). fold (spaces (ren l)). rewrite IH. destruct c; reflexivity. Qed.
Lemma privates_bc l : privates (ren l) = as_f (privates l).
Proof. induction l as [|c l IH]; [reflexivity|]. cbn [map privates flat_map]. fold (privates l). fold (privates (ren l)). rewrite IH, map_app. destruct c; reflexivity. Qed.
Lemma publics_bc l : publics (ren l) = as_f (publics l).
Proof. induction l as [|c l IH]; [reflexivity|]. cbn [map publics flat_map]. fold (publics l). fold (publics (ren l)). rewrite IH, map_app. destruct c; reflexivity. Qed.
Lemma keys_bc {V} (d : dict V) : map fst (as_f d) = map f (map fst d).
Proof. rewrite !map_map. reflexivity. Qed.
Lemma stored_bc l : stored_private (as_f l) = as_f (stored_private l).
Proof. unfold stored_private. rewrite !map_map. reflexivity. Qed.
Lemma stored_pub_bc l : stored_public (as_f l) = as_f (stored_public l).
Proof. unfold stored_public. rewrite !map_map. reflexivity. Qed.
Lemma in_bc {V} (d : dict V) n v : In (n, v) (as_f d) <-> exists m, n = f m /\ In (m, v) d.
Proof.
  rewrite in_map_iff. split; [intros ((m, w) & H & I); injection H as <- <-; eauto|intros (m & -> & I); exists (m, v); auto].
Qed.
Lemma dget_bc {V} (d : dict V) n : dget (f n) (as_f d) = dget n d.
Proof. induction d as [|(k, v) d IH]; [reflexivity|]. cbn. rewrite (f_eqb f back back_f), IH. reflexivity. Qed.
Lemma nodup_bc (l : list string) : NoDup (map f l) <-> NoDup l.
Proof.
  split; [apply NoDup_map_inv|]. intros N. apply FinFun.Injective_map_NoDup; [|exact N]. intros x y. apply (f_inj f back back_f).
Qed.
Lemma buildable_bc E l : (forall n, e_identifier E (f n) = e_identifier E n) -> buildable E l <-> buildable E (ren l).
Proof.
  intros ID. split; intros [A B C D F G H I J]; split; rewrite ?budgets_bc, ?spaces_bc, ?privates_bc, ?publics_bc, ?keys_bc, ?stored_bc in *; auto.
  - intros X. apply map_eq_nil in X. auto.
  - rewrite <- map_app. apply nodup_bc, C.
  - intros n [X|[X|X]]; [| |apply D; auto]; apply in_map_iff in X as (m & <- & X); rewrite ID; apply D; auto.
  - intros n x c X. apply in_bc in X as (m & -> & X). eauto.
  - intros n x X. apply in_bc in X as (m & -> & X). eauto.
  - intros n n' x x' i i' s y y' X X'. apply in_bc in X as (m & -> & X). apply in_bc in X' as (m' & -> & X'). eapply I; eassumption.
  - intros n x i s X. apply in_bc in X as (m & -> & X). rewrite map_length. eauto.
  - intros X. rewrite X in B. apply B. reflexivity.
  - rewrite <- map_app in C. apply nodup_bc, C.
  - intros n [X|[X|X]]; [| |apply D; auto]; rewrite <- ID; apply D; [left|right; left]; apply in_map, X.
  - intros n x c X. apply (G (f n)), in_bc. eauto.
  - intros n x X. apply (H (f n)), in_bc. eauto.
  - intros n n' x x' i i' s y y' X X'. apply (I (f n) (f n') x x' i i' s y y'); apply in_bc; eauto.
  - intros n x i s X. specialize (J (f n) x i s). rewrite map_length in J. apply J, in_bc. eauto.
Qed.
Lemma space_bc (l : dict (sframe * change)) s : space_nullable (as_f l) s = space_nullable l s.
Proof. unfold space_nullable. induction l as [|e l IH]; [reflexivity|]. cbn. rewrite IH. reflexivity. Qed.
Lemma start_spaces l2 (l : dict (sframe * change)) c : NoDup (dkeys l) -> In c (id_spaces (tree_of_sources l2 l)) <-> exists n x i, In (n, (x, AddRowsWithID i c)) l.
Proof.
  intros N. assert (NC : NoDup (map fst (changes l))) by (rewrite keys_changes; exact N).
  unfold tree_of_sources, tree_of. cbn [id_spaces]. rewrite in_flat_map. split.
  - intros (e & I & J). apply in_map_iff in I as (r & <- & I). unfold children_of in I. apply in_app_iff in I as [I|I].
    + apply in_flat_map in I as ((n, ch) & I & RR). unfold row_relation in RR. destruct ch; cbn in RR; try contradiction; destruct RR as [<-|[]]; cbn in J; destruct J.
    + apply in_map_iff in I as ((s, d) & <- & I). cbn in J. destruct J as [->|[]]. cbn [fst] in *.
      destruct (relation_fold _ NC) as (_ & _ & _ & SP). assert (IK : In c (dkeys (spaces_of (changes l)))) by (apply in_map_iff; exists (c, d); auto).
      apply SP in IK as (n & i & IK). apply in_changes in IK as (x & IK). eauto.
  - intros (n & x & i & I). assert (IC : In (n, AddRowsWithID i c) (changes l)) by (apply in_changes; eauto).
    pose proof (spaces_in _ _ _ _ NC IC) as IS. eexists. split; [apply in_map; unfold children_of; apply in_app_iff; right; apply in_map; exact IS|]. left. reflexivity.
Qed.
Lemma dget_consts (names : list string) n : NoDup names -> dget n (dict_of (map (fun n => (n, [] : list constraint)) names)) = if smem n names then Some [] else None.
Proof.
  intros N. rewrite dict_of_NoDup by (rewrite map_map; cbn; rewrite map_id; exact N). clear. induction names as [|m l IH]; [reflexivity|]. cbn. destruct (String.eqb n m); [reflexivity|exact IH].
Qed.
Lemma start_goes E l o o' : ~ In Build l -> build_by E l = Ok o -> build_by E (ren l) = Ok o' -> state_goes f (o_state o) (o_state o').
Proof.
  intros NB B B'. assert (NB' : ~ In Build (ren l)) by (intros I; apply in_map_iff in I as (c & H & I); destruct c; try discriminate H; contradiction).
  pose proof (by_names _ _ (proj1 (build_by_iff E l NB) (ex_intro _ o B))) as ND. destruct (nodup_append_inv _ _ ND) as (N & _ & _).
  destruct (build_by_result E l o NB B) as (x & names & BB & NN & IN & PS & ->). destruct (build_by_result E (ren l) o' NB' B') as (x' & names' & BB' & NN' & IN' & PS' & ->).
  rewrite budgets_bc in BB'. rewrite BB in BB'. injection BB' as <-. rewrite privates_bc, stored_bc in *. rewrite publics_bc, stored_pub_bc. cbn [o_state start_state].
  set (d := stored_private (privates l)) in *.
  assert (NDd : NoDup (dkeys d)) by (unfold d; rewrite stored_keys; exact N). assert (NDd' : NoDup (dkeys (as_f d))) by (unfold dkeys; rewrite keys_bc; apply nodup_bc, NDd).
  pose proof (sources_layout (is_rho x) _ NDd) as L. pose proof (sources_layout (is_rho x) _ NDd') as L'.
  split; [|intros n; cbn; apply dget_bc]. unfold start_state. cbn [st_root]. constructor; [|constructor]. split; try reflexivity; cbn [s_tree s_cons].
  - split.
    + apply (named_as f _ _ L L'). intros n. rewrite (named_sources _ _ _ NDd), (named_sources _ _ _ NDd'), dget_bc. destruct (dget n d) as [(y, c)|]; [|reflexivity]. cbn [option_map fst snd]. f_equal.
      unfold source_table. destruct c; try reflexivity. rewrite space_bc. reflexivity.
    + intros c. rewrite (start_spaces _ _ _ NDd), (start_spaces _ _ _ NDd'). split.
      * intros (n & y & i & I). exists (f n), y, i. apply in_bc. eauto.
      * intros (n & y & i & I). apply in_bc in I as (m & -> & I). eauto.
  - intros n. rewrite !dget_consts by assumption. replace (smem (f n) names') with (smem n names); [reflexivity|]. apply Bool.eq_iff_eq_true. rewrite !smem_In, IN, IN', keys_bc.
    split; [apply in_map|]. intros I. apply in_map_iff in I as (m & H & I). apply (f_inj f back back_f) in H as ->. exact I.
Qed.
End Start.

(** Whoever gives the private and public tables other names, different ones for different
    tables and valid ones where the old ones were valid, gets a session if and only if they
    would have got one with the old names.  In it, and in the sessions made from it, every
    history of calls with the new names goes like the history with the old names: each call
    succeeds or raises the same exception, the same budget is left in each session, and every
    query gets the same answer, or the same exception. *)
Theorem C82_sessions : forall f back E K auto so calls,
  (forall n, back (f n) = n) -> (forall n, f (back n) = n) -> name_blind f E K auto so -> ~ In Build calls ->
  ((exists o, build_by E calls = Ok o) <-> (exists o', build_by E (map (renamed_bcall f) calls) = Ok o'))
  /\ forall o o' l, build_by E calls = Ok o -> build_by E (map (renamed_bcall f) calls) = Ok o' -> Forall proper l ->
     let st := run E (o_state o) l in let st' := run E (o_state o') (map (renamed_call f) l) in
     answers E (o_state o') (map (renamed_call f) l) = answers E (o_state o) l
     /\ (forall p s, session st p s -> exists s', session st' p s' /\ s_left s' = s_left s /\ s_log s' = s_log s
           /\ forall n, table_named (s_tree s') (f n) = table_named (s_tree s) n)
     /\ (forall p c q, answer E K auto so st' p c (renamed f f q) = answer E K auto so st p c q).
Proof.
  intros f back E K auto so calls BF FB NB NBL. assert (NBL' : ~ In Build (map (renamed_bcall f) calls)) by (intros I; apply in_map_iff in I as (c & H & I); destruct c; try discriminate H; contradiction).
  split; [rewrite (build_by_iff E calls NBL), (build_by_iff E _ NBL'); apply (buildable_bc f back BF), NB|].
  intros o o' l B B' P. cbv zeta. pose proof (start_goes f back BF E calls o o' NBL B B') as H.
  assert (A : any_state E (o_state o)) by (exists calls, o, []; split; [exact NBL|split; [exact B|split; [constructor|reflexivity]]]).
  assert (A' : any_state E (o_state o')) by (exists (map (renamed_bcall f) calls), o', []; split; [exact NBL'|split; [exact B'|split; [constructor|reflexivity]]]).
  destruct (C82_calls f back E K auto so _ _ l BF FB NB A A' H P) as (AN & GO). split; [exact AN|].
  pose proof (any_state_run E _ l A P) as AR. assert (AR' : any_state E (run E (o_state o') (map (renamed_call f) l))).
  { apply any_state_run; [exact A'|]. apply Forall_map. revert P. apply Forall_impl. apply proper_ren. }
  split; [|intros p c q; apply answers_as; assumption].
  intros p s (c & FC & <-). pose proof (tree_goes_find f p _ _ (proj1 GO)) as X. rewrite FC in X. destruct (find p (st_root (run E (o_state o') (map (renamed_call f) l)))) as [c'|] eqn:FC'; [|contradiction].
  exists (a_data c'). pose proof (tree_goes_data f _ _ X) as D. split; [exists c'; auto|]. split; [symmetry; apply D|]. split; [symmetry; apply D|]. apply (go_tables f _ _ D).
Qed.
Print Assumptions C82_sessions.

(** *** A case *)

(** The session of Props_Sound.  The private table "trips" and the public table "codes"
    exchange their names, and the view "few" is called "all". *)
Definition exchanged (n : string) : string :=
  if String.eqb n "trips" then "codes" else if String.eqb n "codes" then "trips" else if String.eqb n "few" then "all" else if String.eqb n "all" then "few" else n.
Lemma exchanged_twice n : exchanged (exchanged n) = n.
Proof.
  unfold exchanged. destruct (String.eqb_spec n "trips") as [->|A]; [reflexivity|]. destruct (String.eqb_spec n "codes") as [->|B]; [reflexivity|].
  destruct (String.eqb_spec n "few") as [->|C]; [reflexivity|]. destruct (String.eqb_spec n "all") as [->|D]; [reflexivity|].
  apply String.eqb_neq in A, B, C, D. rewrite A, B, C, D. reflexivity.
Qed.
Lemma exchanged_blind : name_blind exchanged E1 K0 true idl.
Proof.
  split; [intros cat x q b; reflexivity| |reflexivity|intros x q _; exists x; reflexivity].
  intros n. unfold exchanged. destruct (String.eqb_spec n "trips") as [->|A]; [reflexivity|]. destruct (String.eqb_spec n "codes") as [->|B]; [reflexivity|].
  destruct (String.eqb_spec n "few") as [->|C]; [reflexivity|]. destruct (String.eqb_spec n "all") as [->|D]; reflexivity.
Qed.
Definition with_codes (n : string) : query := by_city (JoinPublic (PrivateSource n) (PubName "codes") None "inner").
Definition history : list op :=
  [CreateView [] few "few" false; Evaluate [] (with_codes "few") (Zcdp (XFin 1)); CreateView [] few "codes" false; AddPublic [] "trips" codes; AddPublic [] "more" codes;
   Evaluate [] (with_codes "codes") (Zcdp (XFin 1)); Partition [] "few" (Zcdp (XFin 1)) "city" [("trips", VStr "a"); ("few", VStr "b")]; Evaluate [(0, 0)] (with_codes "trips") (Zcdp (XFin 1));
   DeleteView [] "few"; Evaluate [] (with_codes "few") (Zcdp (XFin 1))].
Example C82_case : exists o o', build_by E1 trips_calls' = Ok o /\ build_by E1 (map (renamed_bcall exchanged) trips_calls') = Ok o'
  /\ name_blind exchanged E1 K0 true idl /\ ~ In Build trips_calls' /\ Forall proper history
  /\ answers E1 (o_state o) history = [Ok tt; Ok tt; Err ValueError; Err ValueError; Ok tt; Err ValueError; Ok tt; Ok tt; Ok tt; Err ValueError]
  /\ (let st' := run E1 (o_state o') (map (renamed_call exchanged) (firstn 6 history)) in
      answer E1 K0 true idl st' [] (Zcdp (XFin 1)) (with_codes "few") = Err ValueError
      /\ answer E1 K0 true idl st' [] (Zcdp (XFin 1)) (renamed exchanged exchanged (with_codes "few")) = Ok [[("city", VStr "a"); ("n", VInt 1)]; [("city", VStr "b"); ("n", VInt 0)]]).
Proof.
  assert (B : exists o, build_by E1 trips_calls' = Ok o) by (eexists; vm_compute; reflexivity). destruct B as (o & B).
  assert (B' : exists o', build_by E1 (map (renamed_bcall exchanged) trips_calls') = Ok o') by (eexists; vm_compute; reflexivity). destruct B' as (o' & B').
  exists o, o'. split; [exact B|]. split; [exact B'|]. split; [exact exchanged_blind|]. split; [cbn; intuition discriminate|]. split; [repeat constructor|].
  vm_compute in B. injection B as <-. vm_compute in B'. injection B' as <-. split; [vm_compute; reflexivity|]. split; vm_compute; reflexivity.
Qed.
