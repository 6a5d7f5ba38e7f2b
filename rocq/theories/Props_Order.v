(** C47: the order of rows never matters.  The specification of "the same up to the order of
    rows" is at the top of QueryLike.v and MeasureLike.v. *)
From Coq Require Import String Bool Arith ZArith QArith Qcanon Lia Permutation List.
From Verif Require Import Prelude Budget BudgetScale Value Rows Constraints Schema Query Rewrite Transform TransformVisit
  QueryLike Measure MeasureLike Props_Query Props_Measure.
Import ListNotations.
Local Open Scope string_scope.
Local Open Scope nat_scope.

(** Reordering the rows of private tables, of named public tables and of data frames joined
    with (in the query itself) changes neither the schema of a derived table, its domain, its
    metric, its constraints nor its rows, other than their order; and whatever is refused is
    refused either way, with the same exception. *)
Theorem C47_derived_tables_ignore_row_order : forall W l2 cat cat' data data' q q',
  catalog_like cat cat' -> data_like data data' -> like q q' -> transformation q ->
  schema_of (w_cond_ok W) cat q = schema_of (w_cond_ok W) cat' q'
  /\ outcome_like (build_transformation W l2 cat data q) (build_transformation W l2 cat' data' q').
Proof.
  intros W l2 cat cat' data data' q q' C D L T.
  split; [exact (schema_like cat cat' C _ q q' L T)|exact (build_transformation_like W l2 cat cat' data data' C D q q' L T)].
Qed.
Print Assumptions C47_derived_tables_ignore_row_order.

(** An aggregation compiles over the reordered tables iff it does over the original ones,
    and then has the same privacy loss and gives the same answer, if tmlt.core's answers
    depend on bags of rows only. *)
Theorem C47_answers_ignore_row_order : forall R W K auto so mu cat data data' b q,
  data_like data data' -> core_sees_bags K ->
  both (fun m m' => privacy_loss K m = privacy_loss K m' /\ run_measurement R K m = run_measurement R K m')
       (compile R W K auto so mu cat data b q) (compile R W K auto so mu cat data' b q).
Proof.
  intros R W K auto so mu cat data data' b q D KB. assert (H := compile_like R W K auto so mu cat data data' D KB b q).
  destruct (compile R W K auto so mu cat data b q) as [m|e], (compile R W K auto so mu cat data' b q) as [m'|e']; cbn [both] in *; try contradiction; [|exact H].
  split; [exact (loss_like K KB m m' H)|exact (run_like R K KB m m' H)].
Qed.
Print Assumptions C47_answers_ignore_row_order.

(** The pipeline of C19_case over the people in the reverse order, with the frame reversed. *)
Definition codes_back : sframe := {| sd_fields := sd_fields codes_frame; sd_rows := rev (sd_rows codes_frame) |}.
Definition pipeline_back : query :=
  Select (Rename (MapQ (ReplaceNullAndNan (JoinPublic (DropInfinity (Filter (PrivateSource "people") "grp = 'x'") ["x"])
            (PubFrame codes_back) (Some ["grp"]) "inner") [("x_left", VInt 5)])
          (fun r => [("y", VInt (0 + 1))]) (sch0 [("y", dsc INTEGER false false false)] None) true)
     [("id", "who")]) ["who"; "x_left"; "y"].
Definition pdata_back := data0 [("people", people, [MaxRowsPerID 2; MaxGroupsPerID "grp" 2], rev people_rows)].
Lemma pdata_back_like : data_like pdata pdata_back.
Proof.
  intros s. unfold pdata, pdata_back, data0, people_src. cbn [map fst snd dget]. destruct (String.eqb s "people"); [|exact I].
  split; [reflexivity|]. split; [reflexivity|]. split; [reflexivity|]. apply Permutation_rev.
Qed.
Example C47_tables_case :
  catalog_like pcat pcat /\ data_like pdata pdata_back /\ like pipeline pipeline_back /\ transformation pipeline
  /\ pdata <> pdata_back
  /\ exists t cs, visit W0 false pcat pdata_back pipeline_back = Ok (t, cs) /\ v_rows t <> [].
Proof.
  split; [apply catalog_like_refl|]. split; [exact pdata_back_like|]. split; [|split; [exact I|split; [discriminate|]]].
  - unfold pipeline, pipeline_back. constructor. constructor. constructor; [|reflexivity]. constructor. constructor; [apply like_refl|].
    split; [reflexivity|]. apply Permutation_rev.
  - eexists _, _. split; [vm_compute; reflexivity|discriminate].
Qed.

(** A core that answers with the number of rows and selects the groups x, y and z that occur. *)
Definition K1 : core :=
  {| k_builds := fun _ => Ok tt; k_groups_builds := fun _ _ => Ok tt; k_groups_loss := fun _ b => b;
     k_select := fun _ t => filter (fun key => existsb (fun r => value_eqb (getv "grp" r) (getv "grp" key)) t)
                   [[("grp", VStr "x")]; [("grp", VStr "y")]; [("grp", VStr "z")]];
     k_answer := fun _ _ t => [VInt (Z.of_nat (length t))] |}.
Lemma existsb_perm {A} (p : A -> bool) l l' : Permutation l l' -> existsb p l = existsb p l'.
Proof.
  intros P. destruct (existsb p l') eqn:E.
  - apply existsb_exists in E as (x & I & H). apply existsb_exists. exists x. split; [|exact H].
    eapply Permutation_in; [symmetry; exact P|exact I].
  - destruct (existsb p l) eqn:E'; [|reflexivity]. apply existsb_exists in E' as (x & I & H).
    rewrite <- E. symmetry. apply existsb_exists. exists x. split; [|exact H]. eapply Permutation_in; [exact P|exact I].
Qed.
Example C47_answers_case :
  data_like pdata pdata_back /\ core_sees_bags K1
  /\ exists m m', compile exact_rounding W0 K1 true idl ApproxDP pcat pdata (Approx (XFin 1) (XFin (1 # 4))) (count_q (KCols ["grp"])) = Ok m
      /\ compile exact_rounding W0 K1 true idl ApproxDP pcat pdata_back (Approx (XFin 1) (XFin (1 # 4))) (count_q (KCols ["grp"])) = Ok m'
      /\ run_measurement exact_rounding K1 m = Ok [[("grp", VStr "x"); ("n", VInt 2)]; [("grp", VStr "y"); ("n", VInt 1)]]
      /\ run_measurement exact_rounding K1 m' = Ok [[("grp", VStr "x"); ("n", VInt 2)]; [("grp", VStr "y"); ("n", VInt 1)]].
Proof.
  split; [exact pdata_back_like|]. split.
  - constructor; cbn [k_builds k_groups_builds k_groups_loss k_select k_answer K1]; try reflexivity.
    + intros b r r' P. apply filter_ext. intros key. apply existsb_perm, P.
    + intros g g' key r r' _ P. rewrite (Permutation_length P). reflexivity.
  - eexists _, _. split; [vm_compute; reflexivity|]. split; [vm_compute; reflexivity|]. split; vm_compute; reflexivity.
Qed.
