(** C74: tables that are written in two ways are the same, and so are the answers. *)
From Coq Require Import String Bool Arith ZArith QArith Qcanon Lia Permutation List.
From Verif Require Import Prelude Budget BudgetScale Value Rows Constraints ConstraintsProofs Schema Query Transform TransformSpec
  QueryLike Rewrite RewriteSpec Measure MeasureLike QueryLaws LawAnswers Props_Query Props_Measure Props_Order.
Import ListNotations.
Local Open Scope string_scope.
Local Open Scope nat_scope.

(** Whatever follows from the laws of [QueryLaws.law], used in any part of a query, in either
    direction and any number of times: the same schema, the same rows, the same ID column and
    the same constraints; or the same exception. *)
Theorem C74_same_tables W l2 cat data q q' : same W l2 cat data q q' ->
  schema_of (w_cond_ok W) cat q = schema_of (w_cond_ok W) cat q'
  /\ match visit W l2 cat data q, visit W l2 cat data q' with
     | Ok (t, cs), Ok (t', cs') =>
         v_dom t = v_dom t' /\ v_coll t = v_coll t' /\ v_place t = v_place t' /\ Permutation (v_rows t) (v_rows t') /\ cs = cs'
     | Err e, Err e' => e = e'
     | _, _ => False
     end.
Proof.
  intros S. destruct (alike_part W l2 cat data q q' S (law_alike W l2 cat data)) as (A & B). split; [exact A|].
  destruct (visit W l2 cat data q) as [[t cs]|e], (visit W l2 cat data q') as [[t' cs']|e']; cbn in B; try exact B. destruct B as ((B1 & B2 & B3 & B4) & B5). auto.
Qed.

(** An aggregation of a table written in two ways: both are refused, for the same reason, or
    both are compiled, cost the same and have the same answer. *)
Theorem C74_same_answers R W K auto so mu cat data b q q' :
  core_sees_bags K -> built auto q -> built auto q' ->
  same_question (fun c c' => computed W false cat data c /\ forall l2, same W l2 cat data c c') q q' ->
  match compile R W K auto so mu cat data b q, compile R W K auto so mu cat data b q' with
  | Ok m, Ok m' => privacy_loss K m = privacy_loss K m' /\ run_measurement R K m = run_measurement R K m'
  | Err e, Err e' => e = e'
  | _, _ => False
  end.
Proof.
  intros KB B B' A.
  assert (A' : same_question (tabs W auto mu cat data) q q').
  { clear KB. induction A as [c c' l T|c c' k m a d T|c c' k o m co T|c c' k l o m co T|c c' k m u a d o T|kd c c' k m a d o me co T|q q' l t A IH];
      [| | | | | |constructor; apply IH; [apply B|apply B']];
      constructor; (apply same_tabs; [apply B|apply B'|apply T|apply T]). }
  pose proof (compile_side R W K auto so mu cat data KB b q q' A') as C.
  destruct (compile R W K auto so mu cat data b q) as [m|e], (compile R W K auto so mu cat data b q') as [m'|e']; try exact C.
  cbn [both] in C. split; [now apply loss_like|now apply run_like].
Qed.

(** Not every exchange of two operations is a law: a filter before a truncation is not a filter
    after it. *)
Theorem C74_filter_enforce_refuted : exists W cat data c a k,
  computed W false cat data (Filter (EnforceConstraint c k) a) /\ computed W false cat data (EnforceConstraint (Filter c a) k)
  /\ ~ alike W false cat data (Filter (EnforceConstraint c k) a) (EnforceConstraint (Filter c a) k).
Proof.
  exists W0, pcat, pdata, (PrivateSource "people"), "grp = 'x'", (MaxRowsPerID 1).
  split; [eexists _, _; split; vm_compute; reflexivity|]. split; [eexists _, _; split; vm_compute; reflexivity|].
  intros (_ & O). vm_compute in O. destruct O as ((_ & _ & _ & P) & _). apply Permutation_length in P. discriminate P.
Qed.

(** *** Cases *)

Definition src : query := PrivateSource "people".
Definition is_x := "grp = 'x'".
Lemma reads_grp : reads W0 is_x ["grp"].
Proof. intros r r' H. cbn. now rewrite (H "grp" (or_introl eq_refl)). Qed.
(** For every law, an instance with rows of an ID, both sides of which can be computed. *)
Definition adds (n : string) (v : value) (t : ctype) : (rec -> rec) * schema := (fun _ => [(n, v)], sch0 [(n, dsc t false false false)] None).
Definition twice (r : rec) : list rec := [[("z", VInt 1)]; [("z", VInt 2)]].
Definition clean : query := DropInfinity src [].
Definition pairs : query := Select src ["id"; "grp"].
Definition instances : list (query * query) :=
  [(Filter (Filter src is_x) "x > 0", Filter (Filter src "x > 0") is_x);
   (Filter (Filter src is_x) is_x, Filter src is_x);
   (Filter (Select src ["id"; "grp"]) is_x, Select (Filter src is_x) ["id"; "grp"]);
   (Filter (Rename src [("x", "y")]) is_x, Rename (Filter src is_x) [("x", "y")]);
   (Filter (MapQ src (fst (adds "z" (VInt 1) INTEGER)) (snd (adds "z" (VInt 1) INTEGER)) true) is_x, MapQ (Filter src is_x) (fst (adds "z" (VInt 1) INTEGER)) (snd (adds "z" (VInt 1) INTEGER)) true);
   (Filter (DropNullAndNan src []) is_x, DropNullAndNan (Filter src is_x) []);
   (Filter (DropInfinity src []) is_x, DropInfinity (Filter src is_x) []);
   (Filter (ReplaceNullAndNan src [("x", VFloat (z_to_f 0))]) is_x, ReplaceNullAndNan (Filter src is_x) [("x", VFloat (z_to_f 0))]);
   (Filter (ReplaceInfinity src [("x", (z_to_f 0, z_to_f 1))]) is_x, ReplaceInfinity (Filter src is_x) [("x", (z_to_f 0, z_to_f 1))]);
   (Filter (FlatMap src twice (snd (adds "z" (VInt 1) INTEGER)) true None) is_x, FlatMap (Filter src is_x) twice (snd (adds "z" (VInt 1) INTEGER)) true None);
   (Filter (JoinPublic src (PubFrame codes_frame) (Some ["grp"]) "inner") is_x, JoinPublic (Filter src is_x) (PubFrame codes_frame) (Some ["grp"]) "inner");
   (Filter (JoinPrivate clean pairs None None (Some ["id"; "grp"])) is_x, JoinPrivate (Filter clean is_x) pairs None None (Some ["id"; "grp"]));
   (Filter (JoinPrivate clean pairs None None (Some ["id"; "grp"])) is_x, JoinPrivate clean (Filter pairs is_x) None None (Some ["id"; "grp"]));
   (Select (Select src ["id"; "x"; "grp"]) ["grp"; "id"], Select src ["grp"; "id"]);
   (DropNullAndNan (DropNullAndNan src ["x"]) ["grp"], DropNullAndNan src ["x"; "grp"]);
   (DropNullAndNan src ["x"; "grp"], DropNullAndNan src ["grp"; "x"; "grp"]);
   (DropInfinity (DropInfinity src ["x"]) ["x"], DropInfinity src ["x"; "x"]);
   (DropInfinity src ["x"; "x"], DropInfinity src ["x"]);
   (DropNullAndNan (DropInfinity src []) ["x"], DropInfinity (DropNullAndNan src ["x"]) []);
   (DropNullAndNan (ReplaceNullAndNan src [("x", VFloat (z_to_f 0))]) ["x"], ReplaceNullAndNan src [("x", VFloat (z_to_f 0))]);
   (DropInfinity (ReplaceInfinity src [("x", (z_to_f 0, z_to_f 1))]) ["x"], ReplaceInfinity src [("x", (z_to_f 0, z_to_f 1))]);
   (MapQ (MapQ src (fst (adds "z" (VInt 1) INTEGER)) (snd (adds "z" (VInt 1) INTEGER)) true) (fun r => [("w", getv "z" r)]) (snd (adds "w" VNull INTEGER)) true,
    MapQ src (one_function (fst (adds "z" (VInt 1) INTEGER)) (fun r => [("w", getv "z" r)]) (snd (adds "z" (VInt 1) INTEGER)) (snd (adds "w" VNull INTEGER)))
      (both_new (snd (adds "z" (VInt 1) INTEGER)) (snd (adds "w" VNull INTEGER))) true);
   (Select (MapQ src (fst (adds "z" (VInt 1) INTEGER)) (snd (adds "z" (VInt 1) INTEGER)) true) ["id"; "grp"], Select src ["id"; "grp"]);
   (EnforceConstraint (EnforceConstraint src (MaxRowsPerID 3)) (MaxRowsPerID 1), EnforceConstraint src (MaxRowsPerID 1))].
Ltac runs := eexists _, _; split; vm_compute; reflexivity.
Example C74_laws_case : Forall (fun p => law W0 (fst p) (snd p) /\ (forall l2, computed W0 l2 pcat pdata (fst p)) /\ (forall l2, computed W0 l2 pcat pdata (snd p))
  /\ exists t cs, visit W0 false pcat pdata (fst p) = Ok (t, cs) /\ v_rows t <> []) instances.
Proof.
  unfold instances. repeat (apply Forall_cons; [cbn [fst snd]; split; [|split; [intros [|]; runs|split; [intros [|]; runs|eexists _, _; split; [vm_compute; reflexivity|discriminate]]]]|]); [..|constructor].
  - apply law_filters.
  - apply law_filter_twice.
  - apply (law_filter_select W0 _ _ _ ["grp"]); [exact reads_grp|]. intros k [<-|[]]. right. now left.
  - apply (law_filter_rename W0 _ _ _ ["grp"]); [exact reads_grp|]. intros k [<-|[]]. split; intros [E|[]]; discriminate E.
  - apply (law_filter_map W0 _ _ _ _ ["grp"]); [repeat constructor; intros []|exact reads_grp|]. intros k [<-|[]] [E|[]]. discriminate E.
  - apply law_filter_drop_null.
  - apply law_filter_drop_inf.
  - apply (law_filter_replace_null W0 _ _ _ ["grp"]); [discriminate|exact reads_grp|]. intros k [<-|[]] [E|[]]. discriminate E.
  - apply (law_filter_replace_inf W0 _ _ _ ["grp"]); [discriminate|exact reads_grp|]. intros k [<-|[]] [E|[]]. discriminate E.
  - apply (law_filter_flat_map W0 _ _ _ _ _ ["grp"]); [repeat constructor; intros []|exact reads_grp|]. intros k [<-|[]] [E|[]]. discriminate E.
  - apply (law_filter_join_public W0 _ _ _ _ _ ["grp"]); [exact reads_grp|]. intros k [<-|[]]. now left.
  - apply (law_filter_join_private W0 _ _ _ _ ["grp"]); [discriminate|exact reads_grp|]. intros k [<-|[]]. right. now left.
  - apply (law_filter_join_private_right W0 _ _ _ _ ["grp"]); [discriminate|exact reads_grp|]. intros k [<-|[]]. right. now left.
  - apply law_selects.
  - apply (law_drop_nulls W0 src ["x"] ["grp"]); discriminate.
  - apply law_drop_null_set; [discriminate| |]; intros k; cbn [In]; tauto.
  - apply (law_drop_infs W0 src ["x"] ["x"]); discriminate.
  - apply law_drop_inf_set; [discriminate| |]; intros k; cbn [In]; tauto.
  - apply law_drop_null_inf.
  - apply law_replace_drop_null; [discriminate|discriminate|]. intros k; cbn [In dkeys map fst]; tauto.
  - apply law_replace_drop_inf; [discriminate|discriminate| |repeat constructor]. intros k; cbn [In dkeys map fst]; tauto.
  - apply law_maps.
  - apply law_map_unused; [repeat constructor; intros []|]. intros k [<-|[<-|[]]] [E|[]]; discriminate E.
  - exact (law_enforce W0 src (MaxRowsPerID 1) 3 1).
Qed.

(** A chain of laws in parts of queries. *)
Definition early : query := Select (DropNullAndNan (Filter src is_x) ["x"]) ["id"; "grp"].
Definition late : query := Filter (Select (Select (DropNullAndNan src ["x"]) ["id"; "grp"; "x"]) ["id"; "grp"]) is_x.
Lemma early_late l2 : same W0 l2 pcat pdata late early.
Proof.
  apply same_trans with (Filter (Select (DropNullAndNan src ["x"]) ["id"; "grp"]) is_x).
  { apply same_filter, same_law; [apply law_selects|destruct l2; runs|destruct l2; runs]. }
  apply same_trans with (Select (Filter (DropNullAndNan src ["x"]) is_x) ["id"; "grp"]).
  { apply same_law; [|destruct l2; runs|destruct l2; runs]. apply (law_filter_select W0 _ _ _ ["grp"]); [exact reads_grp|]. intros k [<-|[]]. right. now left. }
  apply same_select, same_law; [apply law_filter_drop_null|destruct l2; runs|destruct l2; runs].
Qed.
Definition how_many (c : query) : query := SuppressAggregates (GroupByCount c (KSet [("grp", dsc VARCHAR false false false)] [[("grp", VStr "x")]; [("grp", VStr "y")]]) "n" MDefault None) "n" (Query.PInt 1).
Lemma K1_bags : core_sees_bags K1.
Proof. exact (proj1 (proj2 C47_answers_case)). Qed.
Example C74_answers_case : core_sees_bags K1 /\ built true (how_many late) /\ built true (how_many early)
  /\ same_question (fun c c' => computed W0 false pcat pdata c /\ forall l2, same W0 l2 pcat pdata c c') (how_many late) (how_many early)
  /\ exists m, compile exact_rounding W0 K1 true idl PureDP pcat pdata (Pure (XFin 1)) (how_many late) = Ok m
      /\ run_measurement exact_rounding K1 m = Ok [[("grp", VStr "x"); ("n", VInt 1)]].
Proof.
  split; [exact K1_bags|]. split; [vm_compute; repeat split|]. split; [vm_compute; repeat split|]. split.
  - do 2 constructor. split; [runs|exact early_late].
  - eexists. split; vm_compute; reflexivity.
Qed.

Print Assumptions C74_same_tables.
Print Assumptions C74_same_answers.
Print Assumptions C74_filter_enforce_refuted.
