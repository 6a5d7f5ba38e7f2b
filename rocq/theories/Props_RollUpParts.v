(** Property C83 for partitions: exact counts of a part are those of the table that was split,
    grouped by the column it was split by. *)
From Coq Require Import String Bool Arith ZArith QArith Qcanon Lia Permutation List.
From Verif Require Import Prelude Budget BudgetScale Value Rows Constraints ConstraintsSpec ConstraintsProofs Schema SchemaProofs Query QuerySame Rewrite RewriteSpec Transform TransformSpec TransformConform TransformVisit QueryProofs Tables TablesProofs
  Accountant AccountantProofs Session SessionSpec SessionMoney SessionSteps SessionTables SessionInv SessionUse SessionViews SessionWell SessionSound SessionNames SessionParts
  Neighboring Builder BuilderCalls BuilderNeighbours SessionBare Measure MeasureTotal MeasureCount MeasureRows Footprint ViewAnswers Props_Query Props_Session Props_Views Props_Measure Props_Sound Props_Footprint Props_ViewAnswers
  Props_PartAnswers AnswerSchema AnswerKeys Exact Props_Exact Props_ExactSession Props_RollUp.
Import ListNotations.
Local Open Scope string_scope.
Local Open Scope nat_scope.

Lemma honest_app E strict l : forall l' st, honest E strict st l -> honest E strict (run E st l) l' -> honest E strict st (l ++ l')%list.
Proof. induction l as [|o l IH]; intros l' st H H'; [exact H'|]. destruct H as (H0 & H). split; [exact H0|]. apply IH; assumption. Qed.
Lemma run_both E l : forall l' st, run E st (l ++ l')%list = run E (run E st l) l'.
Proof. induction l as [|o l IH]; intros l' st; [reflexivity|]. cbn. apply IH. Qed.
Lemma partition_honest E strict st p src want col splits st' l : honest_state strict E st ->
  partition_and_create E st p src want col splits = (st', Ok l) -> honest_state strict E st'.
Proof.
  intros (calls & o & ops & NB & B & F1 & F2 & H & ->) P. exists calls, o, (ops ++ [Partition p src want col splits])%list.
  repeat (split; [assumption|]). split.
  - apply honest_app; [exact H|]. split; exact Logic.I.
  - rewrite run_both. cbn. rewrite P. reflexivity.
Qed.

Lemma counts_of_part cols1 cols2 col v r1 r2 : (forall c, In c cols2 <-> c = col \/ In c cols1) ->
  (forall c, In c cols1 -> getv c r1 = getv c r2) -> getv col r2 = v -> forall rows : table,
  rows_with_key cols1 r1 (filter (has_value col v) rows) = rows_with_key cols2 r2 rows.
Proof.
  intros CO AG V. induction rows as [|x rows IH]; [reflexivity|]. unfold rows_with_key in *. cbn [filter].
  destruct (has_value col v x) eqn:HV; cbn [filter]; rewrite IH.
  - assert (EQ : forallb (fun c => value_eqb (getv c r1) (getv c x)) cols1 = forallb (fun c => value_eqb (getv c r2) (getv c x)) cols2).
    { apply has_value_true in HV. apply eq_true_iff_eq. rewrite !forallb_forall. split.
      - intros H c I. apply CO in I as [Z|I]; [subst c; apply value_eqb_eq; congruence|]. rewrite <- (AG c I). exact (H c I).
      - intros H c I. rewrite (AG c I). apply H. apply CO. right. exact I. }
    rewrite EQ. reflexivity.
  - assert (EQ : forallb (fun c => value_eqb (getv c r2) (getv c x)) cols2 = false).
    { apply not_true_is_false. intros H. rewrite forallb_forall in H. specialize (H col (proj2 (CO col) (or_introl eq_refl))). apply value_eqb_eq in H.
      assert (T : has_value col v x = true) by (apply has_value_true; congruence). congruence. }
    rewrite EQ. reflexivity.
Qed.

Lemma source_rows W l2 cat data n t T cs : dget n data = Some t -> build_transformation W l2 cat data (PrivateSource n) = Ok (T, cs) -> T = t.
Proof.
  intros D B. apply build_transformation_ok in B as (s & _ & V & _). cbn [visit] in V. unfold visit_source in V. rewrite D in V.
  destruct (dget n (cat_private cat)) as [(? & ?)|]; [|discriminate]. injection V as -> _. reflexivity.
Qed.
Lemma source_named E st p s n t data : any_state E st -> session st p s -> table_named (s_tree s) n = Ok t -> data_of (s_tree s) = Ok data -> dget n data = Some t.
Proof.
  intros A S TN DA. pose proof (tk_layout s (proj1 (any_state_facts E st A) p s S)) as L. destruct (data_of_spec _ L) as (d & DA' & D).
  rewrite DA in DA'. injection DA' as <-. rewrite D. rewrite (table_named_spec _ _ L) in TN. destruct (dget n (named (s_tree s))); [congruence|discriminate].
Qed.

(** A part's count for a key is the count of the whole table for that key and the part's value. *)
Theorem C83_parts : forall E K A auto so st p s src t col name v st1 q child cat data cat1 data1 mu1 mu2 k1 k2 o1 o2 m1 m2 co1 co2 t1 t2,
  exact_core K A -> (forall l, Permutation (so l) l) -> honest_state true E st ->
  splits_off E st p s src t col name v st1 q -> session st1 q child -> id_column (v_place t) = None ->
  catalog_of (s_tree s) (st_public st) (s_cons s) = Ok cat -> data_of (s_tree s) = Ok data ->
  catalog_of (s_tree child) (st_public st1) (s_cons child) = Ok cat1 -> data_of (s_tree child) = Ok data1 ->
  exact_answer (e_round E) (e_world E) K auto so mu1 cat1 data1 (GroupByCount (PrivateSource name) k1 o1 m1 co1) t1 ->
  exact_answer (e_round E) (e_world E) K auto so mu2 cat data (GroupByCount (PrivateSource src) k2 o2 m2 co2) t2 ->
  metric_fits (asks_gaussian mu1 m1) child -> metric_fits (asks_gaussian mu2 m2) s ->
  keys_as_declared k1 -> keys_as_declared k2 -> ~ In o1 (keys_columns k1) -> ~ In o2 (keys_columns k2) ->
  (forall c, In c (keys_columns k2) <-> c = col \/ In c (keys_columns k1)) ->
  forall r1 r2, In r1 t1 -> In r2 t2 -> (forall c, In c (keys_columns k1) -> getv c r1 = getv c r2) -> getv col r2 = v ->
  exists n, whole_number o1 r1 n /\ whole_number o2 r2 n.
Proof.
  intros E K A auto so st p s src t col name v st1 q child cat data cat1 data1 mu1 mu2 k1 k2 o1 o2 m1 m2 co1 co2 t1 t2
    EC SO H SP SC NID CA DA CA1 DA1 (q1 & b1 & a1 & B1 & L1 & C1 & R1) (q2 & b2 & a2 & B2 & L2 & C2 & R2) ME1 ME2 D1 D2 N1 N2 CO r1 r2 I1 I2 AG V.
  pose proof (honest_any _ _ _ H) as AS. pose proof (any_state_ok E st AS) as O. destruct (any_state_facts E st AS) as (T & _ & _).
  assert (H1 : honest_state true E st1).
  { destruct (so_call _ _ _ _ _ _ _ _ _ _ _ SP) as (? & ? & ? & ? & P & _). exact (partition_honest _ _ _ _ _ _ _ _ _ _ H P). }
  pose proof (honest_any _ _ _ H1) as AS1.
  destruct (part_entry _ _ _ _ _ _ _ _ _ _ _ O T SP) as (c & C & [(child' & part & S1 & N & RO & DO & PL & CL & CS & _)]).
  rewrite NID in C. destruct c as [c|]; [destruct C|]. rewrite <- (session_unique _ _ _ _ SC S1) in *. clear S1.
  unfold SessionParts.truncated in RO. rewrite NID in RO.
  pose proof (so_session _ _ _ _ _ _ _ _ _ _ _ SP) as S. pose proof (so_table _ _ _ _ _ _ _ _ _ _ _ SP) as TN.
  pose proof (source_named E st p s src t data AS S TN DA) as G.
  assert (TN1 : table_named (s_tree child) name = Ok part).
  { rewrite (table_named_spec _ _ (tk_layout child (proj1 (any_state_facts E st1 AS1) q child SC))), N. cbn [dget]. rewrite String.eqb_refl. reflexivity. }
  pose proof (source_named E st1 q child name part data1 AS1 SC TN1 DA1) as G1.
  destruct (session_meets E st p s cat data _ H S CA DA ME2) as (HO2 & MADE2 & IN2).
  destruct (session_meets E st1 q child cat1 data1 _ H1 SC CA1 DA1 ME1) as (HO1 & MADE1 & IN1).
  assert (HF1 : holds_for (e_world E) cat1 data1 (asks_gaussian mu1 m1) (PrivateSource name)) by (exact (conj IN1 (conj Logic.I (conj Logic.I Logic.I)))).
  assert (HF2 : holds_for (e_world E) cat data (asks_gaussian mu2 m2) (PrivateSource src)) by (exact (conj IN2 (conj Logic.I (conj Logic.I Logic.I)))).
  destruct (C66_counts_exact (e_round E) (e_world E) K A auto so mu1 cat1 data1 b1 q1 _ k1 o1 m1 co1 a1 t1 EC SO HO1 MADE1 B1 HF1 D1 N1 L1 C1 R1) as (T1 & cs1 & BT1 & X1 & _).
  destruct (C66_counts_exact (e_round E) (e_world E) K A auto so mu2 cat data b2 q2 _ k2 o2 m2 co2 a2 t2 EC SO HO2 MADE2 B2 HF2 D2 N2 L2 C2 R2) as (T2 & cs2 & BT2 & X2 & _).
  apply (source_rows _ _ _ _ _ _ _ _ G1) in BT1. apply (source_rows _ _ _ _ _ _ _ _ G) in BT2. subst T1 T2.
  specialize (X1 r1 I1). rewrite RO, (counts_of_part (keys_columns k1) (keys_columns k2) col v r1 r2 CO AG V) in X1.
  exists (length (rows_with_key (keys_columns k2) r2 (v_rows t))). split; [exact X1|exact (X2 r2 I2)].
Qed.
Print Assumptions C83_parts.

(** ** A concrete case *)
Definition city_of (l : list string) : gkeys := KSet [("city", dsc VARCHAR false false false)] (map (fun x => [("city", VStr x)]) l).
Lemma shop_honest : honest_state true E2 shop.
Proof.
  assert (B : exists o, build_by E2 plain_calls = Ok o) by (eexists; vm_compute; reflexivity). destruct B as (o & B). unfold shop. rewrite B.
  exists plain_calls, o, []. split; [cbn; intuition discriminate|]. split; [exact B|].
  split; [cbn; intros n f c [H|[H|[H|[]]]]; injection H as <- <- <-; first [apply trips_conform|apply codes_conform]|].
  split; [cbn; intros n f [H|[]]; injection H as <- <-; apply codes_conform|].
  split; [exact Logic.I|reflexivity].
Qed.
Example C83_parts_case : exists s t st1 child cat data cat1 data1,
  honest_state true E2 shop /\ splits_off E2 shop [] s "plain" t "city" "as" (VStr "a") st1 [(0, 0)] /\ session st1 [(0, 0)] child
  /\ id_column (v_place t) = None
  /\ catalog_of (s_tree s) (st_public shop) (s_cons s) = Ok cat /\ data_of (s_tree s) = Ok data
  /\ catalog_of (s_tree child) (st_public st1) (s_cons child) = Ok cat1 /\ data_of (s_tree child) = Ok data1
  /\ exact_answer (e_round E2) (e_world E2) K2 true idl RhoZCDP cat1 data1 (GroupByCount (PrivateSource "as") (KSet [] [[]]) "n" MDefault None) [[("n", VInt 1)]]
  /\ exact_answer (e_round E2) (e_world E2) K2 true idl RhoZCDP cat data (GroupByCount (PrivateSource "plain") (city_of ["a"; "z"]) "m" MDefault None)
       [[("city", VStr "a"); ("m", VInt 1)]; [("city", VStr "z"); ("m", VInt 0)]]
  /\ metric_fits (asks_gaussian RhoZCDP MDefault) child /\ metric_fits (asks_gaussian RhoZCDP MDefault) s
  /\ keys_as_declared (KSet [] [[]]) /\ keys_as_declared (city_of ["a"; "z"])
  /\ (forall c, In c (keys_columns (city_of ["a"; "z"])) <-> c = "city" \/ In c (keys_columns (KSet [] [[]]))).
Proof.
  do 8 eexists. split; [exact shop_honest|].
  split. { constructor; [eexists; split; [vm_compute; reflexivity|reflexivity]|vm_compute; reflexivity|].
    exists (Zcdp (XFin 1)), [("as", VStr "a"); ("bs", VStr "b")]. eexists. exists 0. split; [vm_compute; reflexivity|]. split; reflexivity. }
  split; [eexists; split; [vm_compute; reflexivity|reflexivity]|]. split; [reflexivity|].
  split; [vm_compute; reflexivity|]. split; [vm_compute; reflexivity|]. split; [vm_compute; reflexivity|]. split; [vm_compute; reflexivity|].
  split. { exists (GroupByCount (PrivateSource "as") (KSet [] [[]]) "n" MDefault None), (Zcdp XPInf). eexists. split; [reflexivity|]. split; [reflexivity|]. split; vm_compute; reflexivity. }
  split. { exists (GroupByCount (PrivateSource "plain") (city_of ["a"; "z"]) "m" MDefault None), (Zcdp XPInf). eexists. split; [reflexivity|]. split; [reflexivity|]. split; vm_compute; reflexivity. }
  split; [left; vm_compute; reflexivity|]. split; [left; vm_compute; reflexivity|].
  split. { split; [constructor|]. intros r [<-|[]]. apply row_conformsb_ok. reflexivity. }
  split. { split; [repeat constructor; intros []|]. intros r [<-|[<-|[]]]; apply row_conformsb_ok; reflexivity. }
  intros c. cbn. split; [intros [Z|[]]; left; symmetry; exact Z|intros [Z|[]]; left; symmetry; exact Z].
Qed.
