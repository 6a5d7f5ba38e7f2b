(** Property C48: the methods of QueryBuilder that transform tables do to the rows exactly what
    their documentation says, whatever calls made the builder.  Vocabulary: QueryBuilder.v
    ([call], [step], [run]) and OperationsSpec.v (one relation between the rows before and after
    for each method). *)
From Coq Require Import String Ascii Bool Arith ZArith QArith Qcanon Lia Permutation List.
From Verif Require Import Prelude Value Rows Constraints ConstraintsSpec ConstraintsProofs Schema SchemaProofs
  Query Transform TransformSpec TransformConform TransformVisit QueryProofs QueryEq QueryBuilder QueryBuilderProofs
  OperationsSpec OperationsProofs Props_Query.
From Verif Require KeySet Props_QueryBuilder.
Import ListNotations.
Local Open Scope string_scope.
Local Open Scope nat_scope.

Section Operations.
Variable KW : KeySet.world.
Variable show : Query.pynum -> string.
Notation step := (QueryBuilder.step KW show).
Notation run := (QueryBuilder.run KW show).
Variables (W : world) (l2 : bool) (cat : catalog) (data : dict vtab).
Hypothesis IN : inputs_ok l2 cat data.

(** A query stands for a table with schema [s] and the given rows; the user's functions used in
    it keep their promises (see [promises]). *)
Definition is_for (e : query) (s : schema) (rows : table) : Prop :=
  promises W l2 cat data e /\ schema_of (w_cond_ok W) cat e = Ok s
  /\ exists t cs, build_transformation W l2 cat data e = Ok (t, cs) /\ v_rows t = rows.
Definition stands_for (st : state) (i : nat) (s : schema) (rows : table) : Prop :=
  exists b, nth_error (st_builders st) i = Some b /\ is_for (bu_expr b) s rows.
(** The same without the schema and the promises. *)
Definition has_rows (st : state) (i : nat) (rows : table) : Prop :=
  exists b t cs, nth_error (st_builders st) i = Some b
    /\ build_transformation W l2 cat data (bu_expr b) = Ok (t, cs) /\ v_rows t = rows.

(** The call [ch] on builder [i], after any calls, turns the table [s], [rows] into [rows']. *)
Definition turns (auto : bool) (l : list call) (ch : change) (s : schema) (rows rows' : table) : Prop :=
  exists i st', step (run (init auto) l) (Change i ch) = (st', Ok tt)
    /\ stands_for (run (init auto) l) i s rows /\ has_rows st' i rows'.

Lemma is_for_fitting a e s rows : built a e -> is_for e s rows ->
  exists t cs, visit W l2 cat data e = Ok (t, cs) /\ v_rows t = rows /\ fitting l2 s t.
Proof.
  intros B (P & S & t & cs & T & <-). exists t, cs. pose proof T as T'. apply build_transformation_ok in T as (s' & _ & V & _).
  split; [exact V|]. split; [reflexivity|].
  pose proof (visit_in_domain W l2 cat data IN a e B P t cs V) as (N & D).
  destruct (built_conforms W l2 cat data IN a e s t cs B P S T') as (Ns & C & M & E). constructor; assumption.
Qed.
Lemma turns_inv auto l ch s rows rows' : turns auto l ch s rows rows' ->
  exists e e' t cs t' cs' s', built true e /\ changed (run (init auto) l) e ch = Ok e'
    /\ visit W l2 cat data e = Ok (t, cs) /\ v_rows t = rows /\ fitting l2 s t /\ schema_of (w_cond_ok W) cat e = Ok s
    /\ visit W l2 cat data e' = Ok (t', cs') /\ v_rows t' = rows' /\ schema_of (w_cond_ok W) cat e' = Ok s'.
Proof.
  intros (i & st' & H & (b & N & F) & (b' & t' & cs' & N' & T' & R')). set (st := run (init auto) l) in *.
  assert (I : inv true st) by (apply run_inv; [apply init_inv; reflexivity|reflexivity]).
  cbn [QueryBuilder.step] in H. rewrite (proj2 (object_ok _ _ _) N) in H. cbn [bind] in H.
  apply outcome_cases in H as [(H & _)|(e & _ & [=] & _)]. apply bind_ok in H as (e' & CH & H). injection H as <-.
  unfold set_expr, with_builders in N'. cbn [st_builders] in N'. rewrite nth_replace_same in N' by (apply nth_error_Some; congruence). injection N' as <-. cbn [bu_expr] in T'.
  pose proof (inv_builders _ _ I _ _ N) as B. destruct (is_for_fitting true _ _ _ B F) as (t & cs & V & R & FT).
  apply build_transformation_ok in T' as (s' & S' & V' & _). exists (bu_expr b), e', t, cs, t', cs', s'.
  destruct F as (_ & S & _). repeat (split; [assumption|]). exact S'.
Qed.

(** ** The operations *)

Ltac start H t t' V' FT CH :=
  let e := fresh "e" in let e' := fresh "e'" in let cs := fresh "cs" in let cs' := fresh "cs'" in let s' := fresh "s'" in
  let B := fresh "B" in let V := fresh "V" in let S := fresh "S" in let S' := fresh "S'" in
  destruct (turns_inv _ _ _ _ _ _ H) as (e & e' & t & cs & t' & cs' & s' & B & CH & V & <- & FT & S & V' & <- & S'); clear H; cbn [changed] in CH.

Theorem C48_filter : forall auto l cond s rows rows', turns auto l (ChFilter cond) s rows rows' ->
  filtered (w_cond_holds W cond) rows rows'.
Proof.
  intros auto l cond s rows rows' H. start H t t' V' FT CH. injection CH as <-. cbn [visit] in V'. rewrite V in V'. cbn [bind] in V'.
  eapply filter_spec; eassumption.
Qed.

Theorem C48_select : forall auto l cols s rows rows', turns auto l (ChSelect cols) s rows rows' ->
  selected (match cols with CNone => [] | CStr c => [c] | CList cs => cs end) rows rows'.
Proof.
  intros auto l cols s rows rows' H. start H t t' V' FT CH. apply bind_ok in CH as (u & _ & CH). injection CH as <-.
  cbn [visit] in V'. rewrite V in V'. cbn [bind] in V'. change (match cols with CNone => [] | CStr c => [c] | CList cs => cs end) with (columns_of cols).
  eapply select_spec; eassumption.
Qed.

Theorem C48_rename : forall auto l m s rows rows', NoDup (map (new_name m) (dkeys (sc_cols s))) ->
  turns auto l (ChRename m) s rows rows' -> columns_renamed m rows rows'.
Proof.
  intros auto l m s rows rows' N H. start H t t' V' FT CH. apply bind_ok in CH as (u & _ & CH). injection CH as <-.
  cbn [visit] in V'. rewrite V in V'. cbn [bind] in V'. eapply rename_spec; eassumption.
Qed.

Theorem C48_drop_null_and_nan : forall auto l cols s rows rows', turns auto l (ChDropNull cols) s rows rows' ->
  kept missing_cell (looked_for_missing s (match cols with CNone => [] | CStr c => [c] | CList cs => cs end)) rows rows'.
Proof.
  intros auto l cols s rows rows' H. start H t t' V' FT CH. injection CH as <-.
  cbn [visit] in V'. rewrite V in V'. cbn [bind] in V'. change (match cols with CNone => [] | CStr c => [c] | CList cs => cs end) with (columns_of cols).
  eapply drop_null_spec; eassumption.
Qed.

Theorem C48_drop_infinity : forall auto l cols s rows rows', turns auto l (ChDropInf cols) s rows rows' ->
  kept infinite_cell (looked_for_infinite s (match cols with CNone => [] | CStr c => [c] | CList cs => cs end)) rows rows'.
Proof.
  intros auto l cols s rows rows' H. start H t t' V' FT CH. injection CH as <-.
  cbn [visit] in V'. rewrite V in V'. cbn [bind] in V'. change (match cols with CNone => [] | CStr c => [c] | CList cs => cs end) with (columns_of cols).
  eapply drop_inf_spec; eassumption.
Qed.

Theorem C48_replace_null_and_nan : forall auto l rw s rows rows', (forall d, rw = Some d -> NoDup (dkeys d)) ->
  turns auto l (ChReplaceNull rw) s rows rows' ->
  cells_replaced s (replaces_missing s (match rw with Some d => d | None => [] end)) rows rows'.
Proof.
  intros auto l rw s rows rows' N H. start H t t' V' FT CH. apply bind_ok in CH as (u & _ & CH). injection CH as <-.
  cbn [visit] in V'. rewrite V in V'. cbn [bind] in V'. refine (replace_null_spec l2 s t _ FT _ _ _ _ _).
  - destruct rw as [d|]; [apply N; reflexivity|constructor].
  - destruct rw; exact V'.
Qed.

Theorem C48_replace_infinity : forall auto l rw s rows rows', turns auto l (ChReplaceInf rw) s rows rows' ->
  cells_replaced s (replaces_infinite (match rw with Some d => d | None => [] end)) rows rows'.
Proof.
  intros auto l rw s rows rows' H. start H t t' V' FT CH. apply bind_ok in CH as (u & _ & CH). injection CH as <-.
  cbn [visit] in V'. rewrite V in V'. cbn [bind] in V'. destruct rw; eapply replace_inf_spec; eassumption.
Qed.

Lemma declared types g new : new_columns_schema types g = Ok new -> dkeys (sc_cols new) = dkeys types /\ sc_group new = g.
Proof.
  unfold new_columns_schema. intros H. apply Schema_init_ok in H as (_ & _ & _ & _ & ->). cbn [sc_cols sc_group]. split; [|reflexivity].
  unfold dkeys. rewrite map_map. reflexivity.
Qed.
Lemma map_fresh e s s' f new augment : schema_of (w_cond_ok W) cat e = Ok s ->
  schema_of (w_cond_ok W) cat (MapQ e f new augment) = Ok s' -> fresh s augment new.
Proof.
  intros S H. cbn [schema_of] in H. rewrite S in H. cbn [bind] in H. unfold map_schema in H. intros -> c C I.
  apply bind_ok in H as (u & X & _). destruct (existsb _ _) eqn:E; [discriminate|]. rewrite <- not_true_iff_false, existsb_exists in E. apply E.
  exists c. split; [exact C|apply dmem_In, I].
Qed.

Theorem C48_map : forall auto l f types augment s rows rows', NoDup (dkeys types) ->
  turns auto l (ChMap f types augment) s rows rows' -> mapped f augment (dkeys types) rows rows'.
Proof.
  intros auto l f types augment s rows rows' N H. start H t t' V' FT CH. unfold map_expr in CH. apply bind_ok in CH as (new & D & CH).
  apply bind_ok in CH as (u & _ & CH). injection CH as <-. pose proof (map_fresh _ _ _ _ _ _ S S') as FR.
  cbn [visit] in V'. rewrite V in V'. cbn [bind] in V'. destruct (declared _ _ _ D) as (K & _). rewrite <- K in N |- *.
  eapply map_spec; eassumption.
Qed.

(** bin_column is a map that adds one column. *)
Theorem C48_bin_column : forall auto l c spec name s rows rows',
  turns auto l (ChBin c spec name) s rows rows' ->
  let n := match name with Some n => n | None => c ++ "_binned" end in
  mapped (fun r => [(n, bn_call spec (getv c r))]) true [n] rows rows'.
Proof.
  intros auto l c spec name s rows rows' H n. start H t t' V' FT CH. unfold bin_expr in CH.
  change (if_none name (c ++ "_binned")) with n in CH. unfold map_expr in CH. apply bind_ok in CH as (new & D & CH).
  apply bind_ok in CH as (u & _ & CH). injection CH as <-. pose proof (map_fresh _ _ _ _ _ _ S S') as FR.
  cbn [visit] in V'. rewrite V in V'. cbn [bind] in V'. destruct (declared _ _ _ D) as (K & _). cbn [dkeys map fst] in K. rewrite <- K.
  eapply map_spec; try eassumption. rewrite K. repeat constructor. intros [].
Qed.

(** On tables with IDs the number of rows is not limited. *)
Theorem C48_flat_map : forall auto l f types augment grouping max_rows s rows rows', NoDup (dkeys types) ->
  turns auto l (ChFlatMap f types augment grouping max_rows) s rows rows' ->
  (sc_id s <> None -> flat_mapped f augment (dkeys types) None rows rows')
  /\ (sc_id s = None -> exists n, max_rows = Some n /\ flat_mapped f augment (dkeys types) (Some (Z.to_nat n)) rows rows').
Proof.
  intros auto l f types augment grouping max_rows s rows rows' N H. start H t t' V' FT CH. apply bind_ok in CH as (g & _ & CH).
  apply bind_ok in CH as (new & D & CH). cbn [post_init] in CH. apply bind_ok in CH as (u & _ & CH). apply bind_ok in CH as (u' & _ & CH). injection CH as <-.
  cbn [visit] in V'. rewrite V in V'. cbn [bind] in V'. destruct (declared _ _ _ D) as (K & _).
  assert (FR : fresh s augment new).
  { cbn [schema_of] in S'. rewrite S in S'. cbn [bind] in S'. unfold flat_map_schema in S'. intros -> c C I.
    apply bind_ok in S' as (? & _ & S'). apply bind_ok in S' as (? & _ & S'). apply bind_ok in S' as (? & X & _).
    destruct (existsb _ _) eqn:E; [discriminate|]. rewrite <- not_true_iff_false, existsb_exists in E. apply E.
    exists c. split; [exact C|apply dmem_In, I]. }
  rewrite <- K in N |- *. destruct (flat_map_spec l2 s t _ FT f new augment max_rows _ _ N FR V') as (FM & MR). destruct (sc_id s) as [i|].
  - split; [intros _; exact FM|discriminate].
  - split; [congruence|]. intros _. destruct max_rows as [n|]; [|exfalso; apply MR; reflexivity]. exists n. split; [reflexivity|exact FM].
Qed.

Theorem C48_flat_map_by_id : forall auto l f types s rows rows',
  turns auto l (ChFlatMapByID f types) s rows rows' ->
  exists id, sc_id s = Some id /\ flat_mapped_by_id id f (dkeys types) rows rows'.
Proof.
  intros auto l f types s rows rows' H. start H t t' V' FT CH. apply bind_ok in CH as (new & D & CH).
  cbn [post_init] in CH. apply bind_ok in CH as (u & _ & CH). injection CH as <-.
  cbn [visit] in V'. rewrite V in V'. cbn [bind] in V'. destruct (declared _ _ _ D) as (K & _). rewrite <- K. eapply by_id_spec; eassumption.
Qed.

Theorem C48_enforce : forall auto l c s rows rows', turns auto l (ChEnforce c) s rows rows' ->
  exists id, sc_id s = Some id /\ enforced id c rows rows'.
Proof.
  intros auto l c s rows rows' H. start H t t' V' FT CH. injection CH as <-. cbn [visit] in V'. rewrite V in V'. cbn [bind] in V'.
  eapply enforce_spec; eassumption.
Qed.

(** The other table of a private join: another builder, as it is at the time of the call, or a
    private table. *)
Definition operand_for (st : state) (o : nat + string) (s : schema) (rows : table) : Prop :=
  match o with inl j => stands_for st j s rows | inr name => is_for (PrivateSource name) s rows end.
Definition names (on : seqarg) : option (list string) :=
  match on with SNone => None | SString s => Some (characters s) | SList l => Some l end.

Theorem C48_join_private : forall auto l o tl tr on s so rows other rows',
  operand_for (run (init auto) l) o so other ->
  turns auto l (ChJoinPrivate o tl tr on) s rows rows' ->
  private_joined (names on) tl tr s so rows other rows'.
Proof.
  intros auto l o tl tr on s so rows other rows' O H.
  assert (I : inv true (run (init auto) l)) by (apply run_inv; [apply init_inv; reflexivity|reflexivity]).
  start H t t' V' FT CH. apply bind_ok in CH as (r & R & CH). apply bind_ok in CH as (u & _ & CH). injection CH as <-.
  assert (F : built true (bu_expr r) /\ is_for (bu_expr r) so other).
  { destruct o as [j|name].
    - destruct O as (b & N & F). apply object_ok in R. rewrite N in R. injection R as ->. split; [exact (inv_builders _ _ I _ _ N)|exact F].
    - split; [exact (new_builder_built _ true _ _ R)|]. apply new_builder_ok in R as (_ & ->). exact O. }
  destruct F as (Br & F). destruct (is_for_fitting true _ _ _ Br F) as (t2 & cs2 & V2 & <- & FT2).
  cbn [visit] in V'. rewrite V, V2 in V'. cbn [bind] in V'. change (names on) with (join_columns_of on). eapply join_private_spec; eassumption.
Qed.

(** The public table: of the session, or a data frame. *)
Definition public_table (p : pubtable) (f : sframe) : Prop :=
  match p with PubName n => exists s, dget n (cat_public cat) = Some (s, f) | PubFrame g => f = g end.

Theorem C48_join_public : forall auto l p on how f s rows rows',
  public_table p f -> NoDup (map sf_name (sd_fields f)) ->
  turns auto l (ChJoinPublic p on how) s rows rows' ->
  public_joined (names on) how s (map sf_name (sd_fields f)) rows (frame_rows f) rows'.
Proof.
  intros auto l p on how f s rows rows' PT N H. start H t t' V' FT CH. cbn [post_init] in CH. apply bind_ok in CH as (u & _ & CH).
  apply bind_ok in CH as (p' & EP & CH). apply bind_ok in CH as (u' & _ & CH). injection CH as <-.
  cbn [visit] in V'. rewrite V in V'. cbn [bind] in V'.
  destruct (join_public_spec l2 cat s t _ _ _ _ _ _ FT V') as (f' & PF & J). change (names on) with (join_columns_of on).
  destruct p as [n|g]; cbn [public_table] in PT.
  - injection EP as <-. destruct PT as (sp & G). cbn [public_frame] in PF. rewrite G in PF. injection PF as <-. exact J.
  - subst g. apply bind_ok in EP as (g' & CO & EP). injection EP as <-. injection PF as <-. rewrite (coerce_ok f N) in CO.
    destruct (_ || _); [discriminate|]. injection CO as <-. cbn [sd_fields sd_rows] in J.
    assert (NM : map sf_name (map widen_field (sd_fields f)) = map sf_name (sd_fields f)).
    { rewrite map_map. apply map_ext. intros x. destruct x. reflexivity. }
    unfold frame_rows in J |- *. cbn [sd_fields sd_rows] in J. rewrite NM in J. exact J.
Qed.
End Operations.

Print Assumptions C48_filter.
Print Assumptions C48_select.
Print Assumptions C48_rename.
Print Assumptions C48_drop_null_and_nan.
Print Assumptions C48_drop_infinity.
Print Assumptions C48_replace_null_and_nan.
Print Assumptions C48_replace_infinity.
Print Assumptions C48_map.
Print Assumptions C48_bin_column.
Print Assumptions C48_flat_map.
Print Assumptions C48_flat_map_by_id.
Print Assumptions C48_enforce.
Print Assumptions C48_join_private.
Print Assumptions C48_join_public.

(** ** Cases: each method once, on a table with IDs or on one without *)

Definition plain : schema := sch0 (sc_cols people) None.
Definition op_src : list (string * schema * list constraint * table) :=
  [("people", people, [], people_rows); ("plain", plain, [], people_rows)].
Definition KW0 := Props_QueryBuilder.KW0.
Definition show0 := Props_QueryBuilder.show0.
Definition turns0 (table : string) (ch : change) (s : schema) (rows' : Rows.table) : Prop :=
  turns KW0 show0 W0 false (cat0 op_src []) (data0 op_src) false [New table; Clone 0; Change 1 (ChSelect (CStr "id"))] ch s people_rows rows'.
Definition is3 := VFloat (z_to_f 3).
Definition is0 := VFloat (FFin (Q2Qc 0)).
Ltac case0 :=
  exists 0; eexists; split; [vm_compute; reflexivity|]; split;
  [eexists; split; [vm_compute; reflexivity|]; split; [exact I|]; split; [vm_compute; reflexivity|];
   eexists _, _; split; vm_compute; reflexivity
  |eexists _, _, _; split; [vm_compute; reflexivity|]; split; vm_compute; reflexivity].

Example C48_case :
  inputs_ok false (cat0 op_src []) (data0 op_src)
  /\ turns0 "people" (ChFilter "grp = 'x'") people [prow "a" (VStr "x") (VFloat FNan); prow "b" (VStr "x") (VFloat FPInf)]
  /\ turns0 "people" (ChSelect (CList ["x"; "id"])) people
       [[("x", VFloat FNan); ("id", VStr "a")]; [("x", VNull); ("id", VStr "a")]; [("x", VFloat FPInf); ("id", VStr "b")]; [("x", is3); ("id", VStr "b")]]
  /\ turns0 "people" (ChDropNull CNone) people [prow "b" (VStr "x") (VFloat FPInf); prow "b" (VStr "y") is3]
  /\ turns0 "people" (ChDropInf (CStr "x")) people
       [prow "a" (VStr "x") (VFloat FNan); prow "a" VNull VNull; prow "b" (VStr "y") is3]
  /\ turns0 "people" (ChReplaceNull None) people
       [prow "a" (VStr "x") is0; prow "a" (VStr "") is0; prow "b" (VStr "x") (VFloat FPInf); prow "b" (VStr "y") is3]
  /\ turns0 "people" (ChReplaceInf (Some [("x", (z_to_f 1, z_to_f 3))])) people
       [prow "a" (VStr "x") (VFloat FNan); prow "a" VNull VNull; prow "b" (VStr "x") is3; prow "b" (VStr "y") is3].
Proof.
  split; [apply inputs0_ok; vm_compute; reflexivity|]. repeat (split; [case0|]). case0.
Qed.

Example C48_rename_case :
  NoDup (map (new_name [("x", "y"); ("grp", "g")]) (dkeys (sc_cols people)))
  /\ turns0 "people" (ChRename [("x", "y"); ("grp", "g")]) people
       (map (fun r => [("id", getv "id" r); ("g", getv "grp" r); ("y", getv "x" r)]) people_rows).
Proof. split; [apply has_dup_NoDup; vm_compute; reflexivity|]. case0. Qed.

Example C48_functions_case :
  turns0 "people" (ChMap (fun r => [("n", VInt 1)]) [("n", RName "INTEGER")] true) people
    (map (fun r => r ++ [("n", VInt 1)])%list people_rows)
  /\ turns0 "people" (ChBin "x" Props_QueryBuilder.zbin None) people (map (fun r => r ++ [("x_binned", VNull)])%list people_rows)
  /\ turns0 "plain" (ChFlatMap (fun r => [[("n", VInt 1)]; [("n", VInt 2)]; [("n", VInt 3)]]) [("n", RName "INTEGER")] false false (Some 2%Z)) plain
       (concat (map (fun _ => [[("n", VInt 1)]; [("n", VInt 2)]]) people_rows))
  /\ turns0 "people" (ChFlatMap (fun r => [[("n", VInt 1)]; [("n", VInt 2)]; [("n", VInt 3)]]) [("n", RName "INTEGER")] true false (Some 2%Z)) people
       (concat (map (fun r => [r ++ [("n", VInt 1)]; r ++ [("n", VInt 2)]; r ++ [("n", VInt 3)]])%list people_rows))
  /\ turns0 "people" (ChFlatMapByID (fun rs => [[("n", VInt (Z.of_nat (length rs)))]]) [("n", RName "INTEGER")]) people
       [[("id", VStr "a"); ("n", VInt 2)]; [("id", VStr "b"); ("n", VInt 2)]]
  /\ exists rows', length rows' = 2 /\ turns0 "people" (ChEnforce (MaxRowsPerID 1)) people rows'.
Proof.
  repeat (split; [case0|]). eexists. split; [|case0]. vm_compute. reflexivity.
Qed.

Example C48_joins_case :
  (exists rows', length rows' = 4 /\ turns0 "people" (ChJoinPublic (PubFrame codes_frame) (SList ["grp"]) "inner") people rows')
  /\ (exists rows', length rows' = 6 /\ turns0 "plain" (ChJoinPublic (PubFrame codes_frame) (SList ["grp"]) "left") plain rows')
  /\ (exists rows', length rows' = 8 /\ turns0 "people" (ChJoinPrivate (inr "people") None None (SList ["id"])) people rows')
  /\ (exists rows', length rows' = 2
        /\ turns0 "plain" (ChJoinPrivate (inr "plain") (Some (DropExcess 2)) (Some DropNonUnique) (SList ["grp"])) plain rows').
Proof.
  repeat split; eexists; (split; [|case0]); vm_compute; reflexivity.
Qed.
