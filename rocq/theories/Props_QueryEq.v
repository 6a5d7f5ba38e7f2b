(** C37: what it means that two queries are equal, or equivalent.  The model (queries as
    objects, ==, _is_equivalent) is QueryEq.v; the assumptions on the two queries are at the
    top of QueryEqProofs.v; [like], "the same query", at the top of QueryLike.v. *)
From Coq Require Import String Bool Arith ZArith QArith Qcanon Lia Permutation List.
From Verif Require Import Prelude Value Rows Constraints Schema SchemaProofs Query Transform QueryLike QueryEq QueryEqProofs Props_Query.
From Verif Require KeySet KeySetApi KeySetTotalApi KeySetMoreApi KeySetMore Props_KeySet.
Import ListNotations.
Local Open Scope string_scope.
Local Open Scope nat_scope.

(** Queries reported equivalent are equal: _is_equivalent is False whenever == is. *)
Theorem C37_equivalent_queries_are_equal : forall KW a b,
  answerable a -> answerable b -> qx_equiv KW a b = Ok true -> qx_eq KW a b = Ok true.
Proof. exact equiv_eq. Qed.
Print Assumptions C37_equivalent_queries_are_equal.

(** ... and stand for the same query: the same operations in the same order with the same
    parameters, and KeySets with the same columns, types and keys.  No assumption is made
    about the user's functions and data frames. *)
Theorem C37_equivalent_queries_are_the_same_partial : forall KW D F a b qa qb,
  answerable a -> answerable b -> everywhere one_heap a b -> everywhere (plain KW D) a b ->
  erase KW F a = Ok qa -> erase KW F b = Ok qb ->
  qx_equiv KW a b = Ok true -> like qa qb.
Proof.
  intros KW D F a b qa qb A B H P Ea Eb E. assert (Q := equiv_eq KW a b A B E).
  apply (eq_like KW D F a b qa qb Q P); [|exact Ea|exact Eb].
  eapply everywhere_impl; [apply strict_parts|]. apply everywhere_and; [exact (equiv_strict KW a b E Q)|exact H].
Qed.
Print Assumptions C37_equivalent_queries_are_the_same_partial.

(** Equal queries are the same, if moreover equal bytecode means equal behaviour and the data
    frames joined with have rows. *)
Theorem C37_equal_queries_are_the_same_partial : forall KW D F a b qa qb,
  everywhere (plain KW D) a b -> everywhere (code_decides F) a b -> everywhere frames_with_rows a b ->
  erase KW F a = Ok qa -> erase KW F b = Ok qb ->
  qx_eq KW a b = Ok true -> like qa qb.
Proof.
  intros KW D F a b qa qb P C Fr Ea Eb Q. apply (eq_like KW D F a b qa qb Q P); [|exact Ea|exact Eb].
  eapply everywhere_impl; [apply contents_parts|]. apply everywhere_and; assumption.
Qed.
Print Assumptions C37_equal_queries_are_the_same_partial.

(** Hence equal transformations derive the same table, with the same constraints, from any
    tables, or are refused with the same exception. *)
Theorem C37_equal_queries_derive_the_same_table_partial : forall KW D F a b qa qb W l2 cat data,
  everywhere (plain KW D) a b -> everywhere (code_decides F) a b -> everywhere frames_with_rows a b ->
  erase KW F a = Ok qa -> erase KW F b = Ok qb -> transformation qa ->
  qx_eq KW a b = Ok true ->
  outcome_like (build_transformation W l2 cat data qa) (build_transformation W l2 cat data qb).
Proof.
  intros KW D F a b qa qb W l2 cat data P C Fr Ea Eb T Q.
  apply build_transformation_like; [apply catalog_like_refl| |eapply C37_equal_queries_are_the_same_partial; eassumption|exact T].
  intros s. destruct (dget s data); [|exact I]. repeat split. apply Permutation_refl.
Qed.
Print Assumptions C37_equal_queries_derive_the_same_table_partial.

(** ** A query is equal and equivalent to itself *)

(** No number in it is NaN, and its new columns have distinct names. *)
Definition no_nan (x : pynum) : Prop := x <> PFloat FNan.
Definition attr_fine (a : attr) : Prop :=
  match a with
  | ANum x => no_nan x
  | ASchema s => wf_schema s
  | ANulls d => forall c v, In (c, v) d -> v <> VFloat FNan
  | AInfs d => forall c x y, In (c, (x, y)) d -> x <> FNan /\ y <> FNan
  | _ => True
  end.
Fixpoint fine (q : qx) : Prop :=
  (forall n a, In (n, a) (attrs q) -> attr_fine a)
  /\ match q with
     | XSource _ => True
     | XJoinPrivate l r _ _ _ => fine l /\ fine r
     | XGetGroups c _ | XGetBounds c _ _ _ _ | XRename c _ | XFilter c _ | XSelect c _ | XMap c _ _ _ | XFlatMap c _ _ _ _
     | XFlatMapByID c _ _ | XJoinPublic c _ _ _ | XReplaceNull c _ | XReplaceInf c _ | XDropNull c _ | XDropInf c _
     | XEnforce c _ | XCount c _ _ _ _ | XCountDistinct c _ _ _ _ _ | XQuantile c _ _ _ _ _ _ | XBounded _ c _ _ _ _ _ _ _
     | XSuppress c _ _ => fine c
     end.

Lemma f_refl x : x <> FNan -> f_eqb x x = true.
Proof. destruct x as [q| | |]; cbn; try reflexivity; [destruct (Qc_eq_dec q q); congruence|congruence]. Qed.
Lemma num_refl x : no_nan x -> num_eqb x x = true.
Proof. destruct x as [z|f]; cbn; intros N; [apply Z.eqb_refl|]. apply f_refl. intros ->. apply N. reflexivity. Qed.
Lemma strs_refl l : strs_eqb l l = true.
Proof. apply (list_eqb_eq String.eqb String.eqb_eq). reflexivity. Qed.
Lemma ostrs_refl l : option_eqb strs_eqb l l = true.
Proof. destruct l; cbn; [apply strs_refl|reflexivity]. Qed.
Lemma frozen_refl {V} (veq : V -> V -> bool) (d : dict V) : (forall c v, In (c, v) d -> veq v v = true) -> frozen_eqb veq d d = true.
Proof.
  induction d as [|[c v] d IH]; intros H; [reflexivity|]. cbn. rewrite String.eqb_refl, (H c v (or_introl eq_refl)). cbn.
  apply IH. intros x y I. apply (H x y). right. exact I.
Qed.
Lemma py_refl v : v <> VFloat FNan -> py_eqb v v = true.
Proof. destruct v; cbn [py_eqb]; intros N; try (apply value_eqb_refl). apply f_refl. congruence. Qed.
Lemma strategy_refl s : option_eqb strategy_eqb s s = true.
Proof. apply (option_eqb_eq strategy_eqb strategy_eq). reflexivity. Qed.
Lemma core_refl s : option_eqb core_eqb s s = true.
Proof. apply (option_eqb_eq core_eqb core_eq). reflexivity. Qed.
Lemma constraint_refl c : constraint_eqb c c = true.
Proof. destruct c; cbn; rewrite ?String.eqb_refl, ?Nat.eqb_refl; reflexivity. Qed.
Lemma mech_refl m : mech_eqb m m = true.
Proof. destruct m; reflexivity. Qed.
Lemma limit_refl m : option_eqb Z.eqb m m = true.
Proof. apply (option_eqb_eq Z.eqb Z.eqb_eq). reflexivity. Qed.
Lemma fun_refl f : fun_eq f f = Ok true.
Proof. unfold fun_eq. rewrite Nat.eqb_refl. reflexivity. Qed.
Lemma pub_refl p : pub_eq p p = true.
Proof. destruct p; cbn; [apply String.eqb_refl|]. rewrite same_names_refl, bag_eqb_refl. cbn. destruct (_ && _); reflexivity. Qed.
Lemma keys_refl KW k : keys_eq KW k k = Ok true.
Proof. destruct k; cbn; [apply KeySetMoreApi.ks_eq_refl|rewrite strs_refl; reflexivity]. Qed.
Lemma attr_refl a : attr_fine a -> attr_equiv a a = Ok true.
Proof.
  destruct a as [s|l|[k|l]|d|f|s|b|z|s|[s|i f]|d|d|c|i m|c|x]; cbn [attr_equiv attr_eqb attr_fine]; intros H.
  - rewrite String.eqb_refl. reflexivity.
  - rewrite ostrs_refl. reflexivity.
  - unfold KeySet.ks_is_equivalent. rewrite Bool.eqb_reflx. cbn [negb]. rewrite KeySetMore.op_eq_refl. reflexivity.
  - rewrite strs_refl. reflexivity.
  - rewrite frozen_refl; [reflexivity|]. intros; apply String.eqb_refl.
  - rewrite Nat.eqb_refl. reflexivity.
  - rewrite (schema_eq_refl s H). reflexivity.
  - rewrite Bool.eqb_reflx. reflexivity.
  - rewrite limit_refl. reflexivity.
  - rewrite strategy_refl. reflexivity.
  - rewrite String.eqb_refl. reflexivity.
  - rewrite Nat.eqb_refl. reflexivity.
  - rewrite frozen_refl; [destruct d; reflexivity|]. intros c v I. apply py_refl, (H c v I).
  - rewrite frozen_refl; [destruct d; reflexivity|]. intros c [x y] I. destruct (H c x y I). cbn. rewrite !f_refl by assumption. reflexivity.
  - rewrite constraint_refl. reflexivity.
  - rewrite Nat.eqb_refl, mech_refl. reflexivity.
  - rewrite core_refl. reflexivity.
  - rewrite (num_refl x H). reflexivity.
Qed.
Lemma fine_forall q : (forall n a, In (n, a) (attrs q) -> attr_fine a) -> Forall attr_fine (map snd (attrs q)).
Proof. intros H. apply Forall_forall. intros a I. apply in_map_iff in I as ([n x] & <- & I). apply (H n x I). Qed.
Lemma eq_self KW q : fine q -> qx_eq KW q q = Ok true.
Proof.
  induction q; intros [N C]; cbn [qx_eq]; apply fine_forall in N; cbn [attrs map snd] in N;
    repeat match goal with H : Forall attr_fine (_ :: _) |- _ => let h := fresh "Fa" in apply Forall_cons_iff in H as [h H]; cbn [attr_fine] in h end.
  all: try (rewrite (IHq C)). all: try (rewrite (IHq1 (proj1 C)), (IHq2 (proj2 C))).
  all: rewrite ?keys_refl, ?fun_refl, ?pub_refl.
  all: rewrite ?String.eqb_refl, ?strs_refl, ?ostrs_refl, ?strategy_refl, ?core_refl, ?constraint_refl, ?mech_refl, ?limit_refl, ?Bool.eqb_reflx.
  all: repeat match goal with H : no_nan ?x |- context [num_eqb ?x ?x] => rewrite (num_refl x H) | H : wf_schema ?x |- _ => rewrite (schema_eq_refl x H); clear H end.
  all: try reflexivity.
  - rewrite frozen_refl; [reflexivity|]. intros; apply String.eqb_refl.
  - rewrite frozen_refl; [reflexivity|]. intros c v I. apply py_refl, (Fa c v I).
  - rewrite frozen_refl; [reflexivity|]. intros c [x y] I. destruct (Fa c x y I). cbn. rewrite !f_refl by assumption. reflexivity.
  - assert (q0 <> FNan) as Hq. { intros ->. match goal with H : no_nan (PFloat FNan) |- _ => apply H end. reflexivity. } rewrite (f_refl _ Hq). reflexivity.
  - destruct kd; reflexivity.
Qed.
Lemma attrs_self l : forall m, (forall n a, In (n, a) l -> dget n m = Some a /\ attr_fine a) -> attrs_equiv l m = Ok true.
Proof.
  induction l as [|[n a] l IH]; intros m H; [reflexivity|]. cbn [attrs_equiv]. destruct (H n a (or_introl eq_refl)) as [-> Fa].
  rewrite (attr_refl a Fa). apply IH. intros x y I. apply H. right. exact I.
Qed.
Lemma attrs_named q n a : In (n, a) (attrs q) -> dget n (attrs q) = Some a.
Proof.
  apply In_dget. destruct q; cbn; repeat constructor; cbn; intuition discriminate.
Qed.
Theorem C37_equal_to_itself : forall KW q, fine q -> qx_eq KW q q = Ok true /\ qx_equiv KW q q = Ok true.
Proof.
  intros KW q H. split; [apply eq_self, H|]. induction q; assert (H0 := H); destruct H0 as [N C]; cbn [qx_equiv]; rewrite Nat.eqb_refl;
    rewrite (attrs_self _ _ (fun n a I => conj (attrs_named _ n a I) (N n a I)));
    cbn [kids dget String.eqb Ascii.eqb Bool.eqb]; try reflexivity;
    try (rewrite (IHq C), (eq_self KW _ C); reflexivity).
  destruct C as [C1 C2]. rewrite (IHq1 C1), (IHq2 C2), (eq_self KW _ C1), (eq_self KW _ C2). reflexivity.
Qed.
Print Assumptions C37_equal_to_itself.

(** ** Cases *)
Definition KW := Props_KeySet.W0.
Definition D := Props_KeySet.D0.
Definition dictE := KeySetApi.EDict [("grp", [VStr "x"; VStr "y"])].
Definition tupE := KeySetApi.ETuples [[VStr "y"]; [VStr "x"]] ["grp"].
Definition empty_ks : KeySet.keyset := {| KeySet.ks_tree := KeySet.FromTuples [] []; KeySet.ks_cols := [] |}.
Definition kd : KeySet.keyset := Eval vm_compute in match KeySetApi.eval KW dictE with Ok k => k | Err _ => empty_ks end.
Definition kt : KeySet.keyset := Eval vm_compute in match KeySetApi.eval KW tupE with Ok k => k | Err _ => empty_ks end.
Definition kd2 : KeySet.keyset := Eval vm_compute in
  match KeySetApi.eval KW (KeySetApi.EDict [("grp", [VStr "x"; VStr "y"]); ("id", [VStr "a"])]) with Ok k => k | Err _ => empty_ks end.
Definition kt2 : KeySet.keyset := Eval vm_compute in
  match KeySetApi.eval KW (KeySetApi.ETuples [[VStr "a"; VStr "y"]; [VStr "a"; VStr "x"]] ["id"; "grp"]) with Ok k => k | Err _ => empty_ks end.
Lemma kd_documented : documented KW D kd.
Proof.
  exists dictE. split; [exact I|]. split; [|split; [reflexivity|vm_compute; reflexivity]].
  split; [repeat constructor; cbn; tauto|]. split; [cbn; intuition discriminate|]. intros c vs [H|[]]. inversion H; subst.
  exists VARCHAR. split; [unfold KeySetTotalApi.key_type; tauto|]. split; [exists (VStr "x"); cbn; auto|].
  intros v [<-|[<-|[]]]; right; reflexivity.
Qed.
Lemma kt_documented : documented KW D kt.
Proof.
  exists tupE. split; [exact I|]. split; [|split; [reflexivity|vm_compute; reflexivity]].
  split; [repeat constructor; cbn; tauto|]. split; [cbn; intuition discriminate|]. split; [intros r [<-|[<-|[]]]; reflexivity|].
  split; [discriminate|]. intros [|i] Hi; [|cbn in Hi; lia].
  exists VARCHAR. split; [unfold KeySetTotalApi.key_type; tauto|]. split; [exists (VStr "x"); cbn; auto|].
  intros v [<-|[<-|[]]]; right; reflexivity.
Qed.

(** Callables 1 and 2 do the same, 3 something else; all have the same bytecode. *)
Definition F : functions :=
  {| f_row := fun n r => [("y", VInt (if n =? 3 then 7 else 1)); ("z", VInt 0)]; f_rows := fun _ r => [r]; f_group := fun _ l => l |}.
Definition fn (n : nat) : pyfun := {| pf_addr := n; pf_code := Some 55 |}.
Definition ysch : schema := sch0 [("y", dsc INTEGER true false false); ("z", dsc INTEGER true false false)] None.
Definition zsch : schema := sch0 [("z", dsc INTEGER true false false); ("y", dsc INTEGER true false false)] None.
Definition frame2 : sframe := {| sd_fields := sd_fields codes_frame; sd_rows := rev (sd_rows codes_frame) |}.
Definition frame0 : sframe := {| sd_fields := sd_fields codes_frame; sd_rows := [] |}.
Definition joined (f : pyfun) (n : nat) (fr : sframe) : qx :=
  XMap (XJoinPublic (XSource "people") (XFrame n fr) (Some ["grp"]) "inner") f ysch true.
Definition counted (c : qx) (k : KeySet.keyset) : qx := XCount c (XSet k) "n" MDefault None.
Definition mapped (f : pyfun) (s : schema) : qx := XMap (XSource "people") f s true.
Definition summed (lo : pynum) : qx := XBounded BSum (joined (fn 1) 4 codes_frame) (XSet kd) "y" lo (PInt 9) "s" MDefault None.
Definition erased (q : qx) : query := match erase KW F q with Ok q => q | Err _ => PrivateSource "" end.

(** Other function objects, another data frame with the rows in another order, and another
    expression for the keys: equal. *)
Example C37_equal_case :
  let a := counted (joined (fn 1) 4 codes_frame) kd in let b := counted (joined (fn 2) 5 frame2) kt in
  everywhere (plain KW D) a b /\ everywhere (code_decides F) a b /\ everywhere frames_with_rows a b
  /\ (exists qa qb, erase KW F a = Ok qa /\ erase KW F b = Ok qb /\ qa <> qb) /\ qx_eq KW a b = Ok true.
Proof.
  cbv zeta. assert (Wy : wf_schema ysch) by (repeat constructor; cbn; intuition discriminate).
  assert (Wf : forall f, sd_fields f = sd_fields codes_frame -> sd_rows f <> [] -> (forall r, In r (sd_rows f) -> length r = 2) -> frame_wf f).
  { intros f E R L. unfold frame_wf, names. rewrite E. split; [repeat constructor; cbn; intuition discriminate|].
    split; [split; [exact R|discriminate]|exact L]. }
  assert (Pl : everywhere (plain KW D) (counted (joined (fn 1) 4 codes_frame) kd) (counted (joined (fn 2) 5 frame2) kt)).
  { cbn [everywhere counted joined kids In]. split; [|intros ? [H|[]]; inversion H; subst; cbn [everywhere kids In]; split;
      [|intros ? [H1|[]]; inversion H1; subst; cbn [everywhere kids In]; split; [|intros ? [H2|[]]; inversion H2; subst; cbn [everywhere]; split; [|exact I]]]].
    all: split; [|split].
    all: try (intros k I1; cbn in I1; intuition discriminate).
    all: try (intros s t I1 I2; cbn in I1, I2; intuition discriminate).
    - intros k I1. cbn in I1. decompose [or] I1; try discriminate; try contradiction;
        match goal with H : _ = _ |- _ => inversion H; subst end; [apply kd_documented|apply kt_documented].
    - intros s t I1 I2. cbn in I1, I2. decompose [or] I1; try discriminate; try contradiction. decompose [or] I2; try discriminate; try contradiction.
      repeat match goal with H : _ = ASchema _ |- _ => inversion H; subst; clear H | H : (_, _) = (_, _) |- _ => inversion H; subst; clear H end. auto. }
  split; [exact Pl|]. split; [|split; [|split]].
  - cbn [everywhere counted joined kids In]. split; [|intros ? [H|[]]; inversion H; subst; cbn [everywhere kids In]; split;
      [|intros ? [H1|[]]; inversion H1; subst; cbn [everywhere kids In]; split; [|intros ? [H2|[]]; inversion H2; subst; cbn [everywhere]; split; [|exact I]]]].
    all: intros f g I1 I2; cbn in I1, I2; try (intuition discriminate).
    decompose [or] I1; try discriminate; try contradiction; decompose [or] I2; try discriminate; try contradiction.
    repeat match goal with H : (_, _) = (_, _) |- _ => inversion H; subst; clear H end. repeat split.
  - cbn [everywhere counted joined kids In]. split; [|intros ? [H|[]]; inversion H; subst; cbn [everywhere kids In]; split;
      [|intros ? [H1|[]]; inversion H1; subst; cbn [everywhere kids In]; split; [|intros ? [H2|[]]; inversion H2; subst; cbn [everywhere]; split; [|exact I]]]].
    all: intros i j f g I1 I2; cbn in I1, I2; try (intuition discriminate).
    decompose [or] I1; try discriminate; try contradiction; decompose [or] I2; try discriminate; try contradiction.
    repeat match goal with H : (_, _) = (_, _) |- _ => inversion H; subst; clear H end.
    split; [|split; [|reflexivity]]; apply Wf; try reflexivity; try discriminate; cbn; intros r Hr; decompose [or] Hr; subst; try reflexivity; contradiction.
  - eexists _, _. split; [vm_compute; reflexivity|]. split; [vm_compute; reflexivity|]. intros H. inversion H.
  - vm_compute. reflexivity.
Qed.
(** The lower bound 0, or 0.0: equivalent. *)
Example C37_equivalent_case :
  let a := summed (PInt 0) in let b := summed (PFloat (z_to_f 0)) in
  answerable a /\ answerable b /\ everywhere one_heap a b /\ everywhere (plain KW D) a b /\ a <> b
  /\ (exists qa qb, erase KW F a = Ok qa /\ erase KW F b = Ok qb) /\ qx_equiv KW a b = Ok true.
Proof.
  cbv zeta. split; [exact I|]. split; [exact I|]. split; [|split; [|split; [discriminate|split]]].
  - cbn [everywhere summed joined kids In]. split; [|intros ? [H|[]]; inversion H; subst; cbn [everywhere kids In]; split;
      [|intros ? [H1|[]]; inversion H1; subst; cbn [everywhere kids In]; split; [|intros ? [H2|[]]; inversion H2; subst; cbn [everywhere]; split; [|exact I]]]].
    all: intros i j f g I1 I2 _; cbn in I1, I2; try (intuition discriminate).
    intuition congruence.
  - cbn [everywhere summed joined kids In]. split; [|intros ? [H|[]]; inversion H; subst; cbn [everywhere kids In]; split;
      [|intros ? [H1|[]]; inversion H1; subst; cbn [everywhere kids In]; split; [|intros ? [H2|[]]; inversion H2; subst; cbn [everywhere]; split; [|exact I]]]].
    all: split; [|split].
    all: try (intros k I1; cbn in I1; intuition discriminate).
    all: try (intros s t I1 I2; cbn in I1, I2; intuition discriminate).
    + intros k I1. cbn in I1. decompose [or] I1; try discriminate; try contradiction;
        match goal with H : _ = _ |- _ => inversion H; subst end; apply kd_documented.
    + intros s t I1 I2. cbn in I1, I2. decompose [or] I1; try discriminate; try contradiction. decompose [or] I2; try discriminate; try contradiction.
      repeat match goal with H : (_, _) = (_, _) |- _ => inversion H; subst; clear H end.
      assert (Wy : wf_schema ysch) by (repeat constructor; cbn; intuition discriminate). auto.
  - eexists _, _. split; vm_compute; reflexivity.
  - vm_compute. reflexivity.
Qed.
Example C37_itself_case : fine (summed (PInt 0)).
Proof.
  cbn [fine summed joined]. split; [|split; [|split; [|split; [|exact I]]]]; intros n a H; cbn in H; decompose [or] H; try contradiction;
    match goal with H : (_, _) = (_, _) |- _ => inversion H; subst end; try exact I; try discriminate.
  repeat constructor; cbn; intuition discriminate.
Qed.

(** ** What does not hold *)

(** Equality does not imply equivalence: two equal KeySets need not be equivalent, and two
    functions with the same code are not the same object. *)
Theorem C37_equal_implies_equivalent_refuted : exists KW a b,
  answerable a /\ answerable b /\ qx_eq KW a b = Ok true /\ qx_equiv KW a b = Ok false.
Proof.
  exists KW, (counted (XSource "people") kd2), (counted (XSource "people") kt2).
  split; [exact I|]. split; [exact I|]. split; vm_compute; reflexivity.
Qed.
Theorem C37_same_function_redefined_refuted : exists KW a b,
  answerable a /\ answerable b /\ qx_eq KW a b = Ok true /\ qx_equiv KW a b = Ok false.
Proof.
  exists KW, (counted (joined (fn 1) 4 codes_frame) kd), (counted (joined (fn 2) 4 codes_frame) kd).
  split; [exact I|]. split; [exact I|]. split; vm_compute; reflexivity.
Qed.
Print Assumptions C37_equal_implies_equivalent_refuted.
Print Assumptions C37_same_function_redefined_refuted.

(** Functions that differ in a constant, a default or a closure have the same bytecode: the
    queries are equal and derive different tables. *)
Theorem C37_bytecode_refuted : exists KW F a b qa qb t t' cs cs',
  qx_eq KW a b = Ok true /\ erase KW F a = Ok qa /\ erase KW F b = Ok qb
  /\ build_transformation W0 false pcat pdata qa = Ok (t, cs) /\ build_transformation W0 false pcat pdata qb = Ok (t', cs')
  /\ ~ Permutation (v_rows t) (v_rows t').
Proof.
  exists KW, F, (mapped (fn 1) ysch), (mapped (fn 3) ysch). eexists _, _, _, _, _, _.
  split; [vm_compute; reflexivity|]. split; [reflexivity|]. split; [reflexivity|].
  split; [vm_compute; reflexivity|]. split; [vm_compute; reflexivity|]. intros P.
  apply (Permutation_map (getv "y")) in P. vm_compute in P.
  assert (X := Permutation_in (VInt 1) P (or_introl eq_refl)). cbn in X. intuition discriminate.
Qed.
Print Assumptions C37_bytecode_refuted.

(** A data frame without rows equals every data frame with the same column names: equal
    queries derive different tables, and equality is not transitive. *)
Theorem C37_empty_frame_refuted : exists KW F a b qa qb t t' cs cs',
  qx_eq KW a b = Ok true /\ erase KW F a = Ok qa /\ erase KW F b = Ok qb
  /\ build_transformation W0 false pcat pdata qa = Ok (t, cs) /\ build_transformation W0 false pcat pdata qb = Ok (t', cs')
  /\ v_rows t <> [] /\ v_rows t' = [].
Proof.
  exists KW, F, (joined (fn 1) 4 codes_frame), (joined (fn 1) 5 frame0). eexists _, _, _, _, _, _.
  split; [vm_compute; reflexivity|]. split; [reflexivity|]. split; [reflexivity|].
  split; [vm_compute; reflexivity|]. split; [vm_compute; reflexivity|]. split; [discriminate|reflexivity].
Qed.
Definition frame1 : sframe := {| sd_fields := sd_fields codes_frame; sd_rows := [[VStr "x"; VInt 9]] |}.
Theorem C37_equality_transitive_refuted : exists KW a b c,
  answerable a /\ answerable b /\ answerable c
  /\ qx_eq KW a b = Ok true /\ qx_eq KW b c = Ok true /\ qx_eq KW a c = Ok false.
Proof.
  exists KW, (counted (joined (fn 1) 4 codes_frame) kd), (counted (joined (fn 1) 5 frame0) kd), (counted (joined (fn 1) 6 frame1) kd).
  split; [exact I|]. split; [exact I|]. split; [exact I|]. split; [vm_compute; reflexivity|]. split; vm_compute; reflexivity.
Qed.
Print Assumptions C37_empty_frame_refuted.
Print Assumptions C37_equality_transitive_refuted.

(** Comparing may raise: of two callables without bytecode (functools.partial, say). *)
Theorem C37_comparison_answers_refuted : exists KW a b,
  answerable a /\ answerable b /\ qx_eq KW a b = Err AttributeError.
Proof.
  exists KW, (counted (joined {| pf_addr := 1; pf_code := None |} 4 codes_frame) kd), (counted (joined {| pf_addr := 2; pf_code := None |} 4 codes_frame) kd).
  split; [exact I|]. split; [exact I|]. vm_compute. reflexivity.
Qed.
Print Assumptions C37_comparison_answers_refuted.

(** 1 == 1.0: replacing the nulls of an integer column by 1 or by 1.0 are equal, and
    equivalent when counted, but the second is refused. *)
Definition replaced (v : value) : qx := XReplaceNull (mapped (fn 1) ysch) [("y", v)].
Theorem C37_replacement_type_refuted : exists KW F a b qa qb t cs e,
  qx_eq KW a b = Ok true /\ qx_equiv KW (counted a kd) (counted b kd) = Ok true
  /\ erase KW F a = Ok qa /\ erase KW F b = Ok qb
  /\ build_transformation W0 false pcat pdata qa = Ok (t, cs) /\ build_transformation W0 false pcat pdata qb = Err e.
Proof.
  exists KW, F, (replaced (VInt 1)), (replaced (VFloat (z_to_f 1))). eexists _, _, _, _, _.
  split; [vm_compute; reflexivity|]. split; [vm_compute; reflexivity|]. split; [reflexivity|]. split; [reflexivity|].
  split; vm_compute; reflexivity.
Qed.
Print Assumptions C37_replacement_type_refuted.

(** New columns in another order: equal, equivalent when counted, but the derived tables have
    their columns in different orders. *)
Theorem C37_column_order_refuted : exists KW F a b qa qb t t' cs cs',
  qx_eq KW a b = Ok true /\ qx_equiv KW (counted a kd) (counted b kd) = Ok true
  /\ erase KW F a = Ok qa /\ erase KW F b = Ok qb
  /\ build_transformation W0 false pcat pdata qa = Ok (t, cs) /\ build_transformation W0 false pcat pdata qb = Ok (t', cs')
  /\ dkeys (v_dom t) <> dkeys (v_dom t').
Proof.
  exists KW, F, (mapped (fn 1) ysch), (mapped (fn 1) zsch). eexists _, _, _, _, _, _.
  split; [vm_compute; reflexivity|]. split; [vm_compute; reflexivity|]. split; [reflexivity|]. split; [reflexivity|].
  split; [vm_compute; reflexivity|]. split; [vm_compute; reflexivity|]. vm_compute. discriminate.
Qed.
Print Assumptions C37_column_order_refuted.

(** Equal queries hash different things, hence (unless the hash collides) differently. *)
Theorem C37_hash_refuted : exists KW a b h h',
  answerable a /\ answerable b /\ qx_eq KW a b = Ok true /\ hash_key a = Ok h /\ hash_key b = Ok h' /\ h <> h'.
Proof.
  exists KW, (counted (joined (fn 1) 4 codes_frame) kd), (counted (joined (fn 2) 4 codes_frame) kd). eexists _, _.
  split; [exact I|]. split; [exact I|]. split; [vm_compute; reflexivity|]. split; [reflexivity|]. split; [reflexivity|]. discriminate.
Qed.
Print Assumptions C37_hash_refuted.
