(** Properties C36 and C41: frozen mappings, schemas and Spark schemas. *)
From Coq Require Import String Bool Arith ZArith Lia Permutation List.
From Verif Require Import Prelude Value Schema SchemaProofs.
Import ListNotations.
Local Open Scope nat_scope.
Local Open Scope string_scope.

(** ** C36 *)

(** Two frozen mappings that compare equal hash equally, for every value type whose own
    equality and hash agree, and whatever the hash functions are. *)
Theorem C36_equal_frozen_mappings_hash_equally :
  forall (V : Type) (veq : V -> V -> bool) hash_str (hash_val : V -> Z) hash_pair hash_tuple a b,
  (forall x y, veq x y = true -> hash_val x = hash_val y) ->
  fd_eq veq a b = true ->
  fd_hash hash_str hash_val hash_pair hash_tuple a = fd_hash hash_str hash_val hash_pair hash_tuple b.
Proof. intros V veq. exact (fd_eq_hash veq). Qed.
Print Assumptions C36_equal_frozen_mappings_hash_equally.

(** A frozen mapping made from a dict is that dict: same keys in the same order, same
    length, same lookups, and converting back gives the dict. *)
Theorem C36_frozen_mapping_is_the_dict : forall (V : Type) (d : dict V),
  NoDup (dkeys d) ->
  fd_iter (from_dict d) = dkeys d
  /\ fd_len (from_dict d) = length d
  /\ (forall k, fd_getitem k (from_dict d) = match dget k d with Some v => Ok v | None => Err KeyError end)
  /\ dict_of_frozen (from_dict d) = Ok d.
Proof.
  intros V d ND. repeat split.
  - intros k. apply first_value_dget.
  - apply dict_of_frozen_ok, ND.
Qed.
Print Assumptions C36_frozen_mapping_is_the_dict.

(** f | e: entries of e win, keys of f come first and keep their order. *)
Theorem C36_frozen_mapping_union : forall (V : Type) (d e : dict V),
  NoDup (dkeys d) -> NoDup (dkeys e) ->
  exists g, fd_or (from_dict d) e = Ok g
    /\ NoDup (fd_iter g)
    /\ fd_iter g = (dkeys d ++ filter (fun k => negb (smem k (dkeys d))) (dkeys e))%list
    /\ forall k, fd_getitem k g = match dget k e with
                                  | Some v => Ok v
                                  | None => fd_getitem k (from_dict d)
                                  end.
Proof.
  intros V d e Nd Ne. unfold fd_or. rewrite dict_of_frozen_ok by assumption. cbn [bind].
  exists (from_dict (merge d e)). split; [reflexivity|]. unfold fd_iter, fd_getitem. cbn [elements from_dict].
  split; [apply NoDup_merge, Nd|]. split; [apply dkeys_merge, Ne|].
  intros k. rewrite !first_value_dget, dget_merge by assumption. destruct (dget k e); reflexivity.
Qed.
Print Assumptions C36_frozen_mapping_union.

(** Order matters for frozen mappings. *)
Theorem C36_frozen_mapping_equality : forall (V : Type) (veq : V -> V -> bool),
  (forall x y, veq x y = true <-> x = y) ->
  forall d e : dict V, fd_eq veq (from_dict d) (from_dict e) = true <-> d = e.
Proof.
  intros V veq E d e. unfold fd_eq. cbn [elements from_dict]. apply list_eqb_eq.
  intros [k v] [k' v']. simpl. rewrite andb_true_iff, String.eqb_eq, E. split.
  - intros [-> ->]; reflexivity.
  - intros H; inversion H; auto.
Qed.
Print Assumptions C36_frozen_mapping_equality.

(** Schema construction: accepted exactly when no column is named "", the grouping and
    ID columns exist and every type is known; columns keep their order. *)
Theorem C36_schema_construction : forall cols group id space dn dnan dinf,
  is_ok (Schema_init cols group id space dn dnan dinf) = true <->
  ~ In "" (dkeys cols)
  /\ (forall c, group = Some c -> In c (dkeys cols))
  /\ (forall c, id = Some c -> In c (dkeys cols))
  /\ (forall c r, In (c, r) cols -> exists t, raw_name r = ctype_name t).
Proof.
  intros cols g i sp dn dnan dinf.
  pose proof (Schema_init_ok cols g i sp dn dnan dinf) as H.
  destruct (Schema_init cols g i sp dn dnan dinf) as [s|e]; simpl; split; intros X; try reflexivity; try discriminate.
  - destruct (proj1 (H s) eq_refl) as (? & ? & ? & ? & _). auto.
  - destruct X as (X1 & X2 & X3 & X4).
    pose proof (proj2 (H _) (conj X1 (conj X2 (conj X3 (conj X4 eq_refl))))). discriminate.
Qed.
Print Assumptions C36_schema_construction.

(** What a schema holds for a column: a descriptor is kept as it is; a type, or the name of a
    type, gets the three defaults. *)
Definition described_as (dn dnan dinf : bool) (r : rawdesc) (d : coldesc) : Prop :=
  match r with
  | RDesc d' => d = d'
  | RType t => cd_type d = t /\ cd_null d = dn /\ cd_nan d = dnan /\ cd_inf d = dinf
  | RName s => ctype_name (cd_type d) = s /\ cd_null d = dn /\ cd_nan d = dnan /\ cd_inf d = dinf
  end.

(** A schema has the given columns in the given order, described as asked. *)
Theorem C36_schema_contents : forall cols group id space dn dnan dinf s,
  Schema_init cols group id space dn dnan dinf = Ok s ->
  Forall2 (fun p q => fst q = fst p /\ described_as dn dnan dinf (snd p) (snd q)) cols (sc_cols s)
  /\ sc_group s = group /\ sc_id s = id /\ sc_space s = space.
Proof.
  intros cols g i sp dn dnan dinf s H. apply Schema_init_ok in H as (_ & _ & _ & K & ->).
  cbn [sc_cols sc_group sc_id sc_space]. split; [|auto].
  assert (K' : forall p, In p cols -> exists t, raw_name (snd p) = ctype_name t).
  { intros [c r] Hp. exact (K c r Hp). }
  clear K. induction cols as [|p cols IH]; [constructor|].
  constructor; [|apply IH; intros q Hq; apply K'; right; exact Hq].
  cbn [map fst snd]. split; [reflexivity|].
  destruct (K' p (or_introl eq_refl)) as (t & E). destruct p as [c r]. cbn [snd] in *.
  unfold filled. destruct r as [s|t'|d]; cbn [raw_name fill] in *.
  - subst s. rewrite ctype_named_name. cbn. auto.
  - cbn. auto.
  - reflexivity.
Qed.
Print Assumptions C36_schema_contents.
Example C36_schema_contents_case : exists s,
  Schema_init [("a", RType DECIMAL); ("b", RName "DATE")] None (Some "b") None true false true = Ok s
  /\ sc_cols s = [("a", {| cd_type := DECIMAL; cd_null := true; cd_nan := false; cd_inf := true |});
                  ("b", {| cd_type := DATE; cd_null := true; cd_nan := false; cd_inf := true |})].
Proof. eexists. split; reflexivity. Qed.

(** Equality of schemas ignores the order of columns. *)
Theorem C36_schema_equality : forall a b,
  NoDup (dkeys (sc_cols a)) -> NoDup (dkeys (sc_cols b)) ->
  schema_eq a b = true <->
  (forall c, dget c (sc_cols a) = dget c (sc_cols b))
  /\ sc_group a = sc_group b /\ sc_id a = sc_id b /\ sc_space a = sc_space b.
Proof. exact schema_eq_spec. Qed.
Print Assumptions C36_schema_equality.

(** Partial: equal schemas with the columns in the same order hash equally.  Missing:
    schemas that differ in column order, which compare equal; see the next theorem. *)
Theorem C36_equal_schemas_hash_equally_partial : forall hs hv hp ht a b,
  NoDup (dkeys (sc_cols a)) -> NoDup (dkeys (sc_cols b)) ->
  schema_eq a b = true -> dkeys (sc_cols a) = dkeys (sc_cols b) ->
  schema_hash hs hv hp ht a = schema_hash hs hv hp ht b.
Proof.
  intros hs hv hp ht a b Na Nb H K. apply schema_eq_spec in H as [H _]; try assumption.
  unfold schema_hash. f_equal. f_equal.
  destruct a as [x g i s], b as [y g' i' s']. cbn [sc_cols] in *. clear g i s g' i' s'.
  revert y Nb H K. induction x as [|[k v] r IH]; intros [|[k' v'] r'] Nb H K; simpl in *; try discriminate; auto.
  inversion K as [[K1 K2]]. subst k'. inversion Na; inversion Nb; subst.
  pose proof (H k) as Hk. rewrite String.eqb_refl in Hk. inversion Hk; subst v'. f_equal.
  apply IH; try assumption. intros c. specialize (H c).
  destruct (String.eqb_spec c k) as [Ec|]; [subst c|assumption].
  transitivity (@None coldesc); [|symmetry]; apply dget_None; assumption.
Qed.
Print Assumptions C36_equal_schemas_hash_equally_partial.

(** Refuted in general: two schemas accepted by the constructor compare equal, yet hash
    differently whenever the hash functions have no collisions. *)
Theorem C36_equal_schemas_hash_equally_refuted : exists a b,
  (exists cols, Schema_init cols None None None false false false = Ok a)
  /\ (exists cols, Schema_init cols None None None false false false = Ok b)
  /\ schema_eq a b = true
  /\ forall hs hv hp ht,
       (forall x y, hs x = hs y -> x = y) ->
       (forall x y x' y', hp x y = hp x' y' -> x = x' /\ y = y') ->
       (forall l l', ht l = ht l' -> l = l') ->
       schema_hash hs hv hp ht a <> schema_hash hs hv hp ht b.
Proof.
  set (i := {| cd_type := INTEGER; cd_null := false; cd_nan := false; cd_inf := false |}).
  exists {| sc_cols := [("A", i); ("B", i)]; sc_group := None; sc_id := None; sc_space := None |}.
  exists {| sc_cols := [("B", i); ("A", i)]; sc_group := None; sc_id := None; sc_space := None |}.
  split; [exists [("A", RName "INTEGER"); ("B", RType INTEGER)]; reflexivity|].
  split; [exists [("B", RDesc i); ("A", RName "INTEGER")]; reflexivity|].
  split; [reflexivity|]. intros hs hv hp ht Hs Hp Ht E. unfold schema_hash, fd_hash in E. simpl in E.
  apply Ht in E. inversion E as [[E1 E2]]. apply Hp in E1 as [E1 _]. apply Hs in E1. discriminate.
Qed.
Print Assumptions C36_equal_schemas_hash_equally_refuted.

Example C36_case :
  fd_or (from_dict [("a", 1); ("b", 2)]) [("c", 3); ("a", 4)] = Ok (from_dict [("a", 4); ("b", 2); ("c", 3)])
  /\ fd_eq Nat.eqb (from_dict [("a", 1); ("b", 2)]) (from_dict [("b", 2); ("a", 1)]) = false.
Proof. split; reflexivity. Qed.

(** ** C41 *)

(** What a Spark schema can say about a column: name, type and nullability survive, and
    NaN and infinity are assumed possible exactly in DECIMAL columns. *)
Theorem C41_through_spark_schema : forall s,
  NoDup (dkeys (sc_cols s)) ->
  exists cols, spark_schema_to_analytics_columns (analytics_to_spark_schema s) = Ok cols
    /\ dkeys cols = dkeys (sc_cols s)
    /\ forall c d, dget c (sc_cols s) = Some d ->
         exists d', dget c cols = Some d'
           /\ cd_type d' = cd_type d /\ cd_null d' = cd_null d
           /\ (cd_nan d' = true <-> cd_type d = DECIMAL) /\ (cd_inf d' = true <-> cd_type d = DECIMAL).
Proof.
  intros s W. eexists. split; [apply via_spark, W|]. split; [apply dkeys_map_val|].
  intros c d H. rewrite (dget_map_val spark_view), H. eexists. split; [reflexivity|].
  unfold spark_view; simpl. rewrite !ctype_eqb_eq. tauto.
Qed.
Print Assumptions C41_through_spark_schema.

(** So the round trip is the identity exactly for schemas whose DECIMAL columns allow NaN
    and infinity and whose other columns do not. *)
Theorem C41_spark_round_trip_identity_iff : forall s,
  NoDup (dkeys (sc_cols s)) ->
  spark_schema_to_analytics_columns (analytics_to_spark_schema s) = Ok (sc_cols s) <->
  forall c d, In (c, d) (sc_cols s) ->
    cd_nan d = ctype_eqb (cd_type d) DECIMAL /\ cd_inf d = ctype_eqb (cd_type d) DECIMAL.
Proof.
  intros s W. rewrite via_spark by assumption. generalize (sc_cols s). intros l. split.
  - intros E. injection E as E. induction l as [|[c d] r IH]; simpl; [tauto|].
    injection E as E1 E2. intros c' d' [H|H].
    + injection H as <- <-. rewrite <- E1. unfold spark_view. simpl. auto.
    + apply (IH E2 c' d' H).
  - intros H.
    assert (E : map (fun p : string * coldesc => (fst p, spark_view (snd p))) l = l).
    { rewrite <- (map_id l) at 2. apply map_ext_in. intros [c d] Hd. simpl.
      destruct (H c d Hd) as [H1 H2]. destruct d; unfold spark_view; simpl in *. congruence. }
    rewrite E. reflexivity.
Qed.
Print Assumptions C41_spark_round_trip_identity_iff.

(** Refuted as an identity on all schemas: a DECIMAL column without NaN comes back as one
    that allows NaN and infinity. *)
Theorem C41_spark_round_trip_refuted : exists s,
  Schema_init [("x", RName "DECIMAL")] None None None false false false = Ok s
  /\ spark_schema_to_analytics_columns (analytics_to_spark_schema s) <> Ok (sc_cols s).
Proof. eexists. split; [reflexivity|]. simpl. discriminate. Qed.
Print Assumptions C41_spark_round_trip_refuted.

(** Through the column descriptors of tmlt.core, which are what the library attaches to
    private tables, nothing is lost as long as only DECIMAL columns claim to allow NaN or
    infinity; on other columns the claim is dropped. *)
Theorem C41_core_round_trip : forall s,
  exists cols, core_to_analytics (analytics_to_core s) = Ok cols
    /\ dkeys cols = dkeys (sc_cols s)
    /\ (forall c d, dget c (sc_cols s) = Some d ->
         exists d', dget c cols = Some d'
           /\ cd_type d' = cd_type d /\ cd_null d' = cd_null d
           /\ (cd_type d = DECIMAL -> d' = d)
           /\ (cd_type d <> DECIMAL -> cd_nan d' = false /\ cd_inf d' = false))
    /\ ((forall c d, In (c, d) (sc_cols s) -> cd_type d <> DECIMAL -> cd_nan d = false /\ cd_inf d = false) ->
        cols = sc_cols s).
Proof.
  intros s. eexists. split; [apply via_core|]. split; [apply dkeys_map_val|]. split.
  - intros c d H. rewrite (dget_map_val core_view), H. eexists. split; [reflexivity|].
    unfold core_view; simpl. split; [reflexivity|]. split; [reflexivity|]. split.
    + intros E. destruct d as [t n a i]. simpl in *. subst t. simpl. rewrite !andb_true_r. reflexivity.
    + intros E. destruct (ctype_eqb (cd_type d) DECIMAL) eqn:T; [apply ctype_eqb_eq in T; contradiction|].
      rewrite !andb_false_r. auto.
  - intros H. rewrite <- (map_id (sc_cols s)) at 2. apply map_ext_in. intros [c d] Hd. simpl. f_equal.
    specialize (H c d Hd). destruct d as [[] n a i]; unfold core_view; simpl in *; rewrite ?andb_true_r, ?andb_false_r;
      try reflexivity; destruct H as [-> ->]; congruence.
Qed.
Print Assumptions C41_core_round_trip.

(** Loading a Spark table with distinct column names: refused exactly when a column is
    named "" or has an unsupported type; otherwise names, order, nullability and cells
    are kept and types become 64-bit. *)
Theorem C41_loading_coerces_or_refuses : forall d,
  NoDup (map sf_name (sd_fields d)) ->
  match coerce_spark_schema_or_fail d with
  | Err e => e = ValueError
      /\ (In "" (map sf_name (sd_fields d))
          \/ exists f n, In f (sd_fields d) /\ sf_type f = OtherT n)
  | Ok d' =>
      ~ In "" (map sf_name (sd_fields d))
      /\ (forall f n, In f (sd_fields d) -> sf_type f <> OtherT n)
      /\ sd_rows d' = sd_rows d
      /\ Forall2 (fun f f' => sf_name f' = sf_name f /\ sf_nullable f' = sf_nullable f
            /\ sf_type f' = match sf_type f with IntegerT => LongT | FloatT => DoubleT | t => t end)
           (sd_fields d) (sd_fields d')
  end.
Proof.
  intros d ND. rewrite coerce_ok by assumption.
  destruct (smem "" (map sf_name (sd_fields d))) eqn:E1; cbn [orb].
  { split; [reflexivity|]. left. apply smem_In, E1. }
  apply smem_false in E1.
  destruct (forallb (fun f => supported (sf_type f)) (sd_fields d)) eqn:E2; cbn [negb].
  - split; [assumption|]. rewrite forallb_forall in E2. split.
    { intros f n Hf E. specialize (E2 f Hf). rewrite E in E2. discriminate. }
    split; [reflexivity|]. cbn [sd_fields]. clear. induction (sd_fields d) as [|f r IH]; simpl; constructor; auto.
    split; [reflexivity|]. split; [reflexivity|]. unfold widen_field, widen. simpl. destruct (sf_type f); reflexivity.
  - split; [reflexivity|]. right.
    assert (X : exists f, In f (sd_fields d) /\ supported (sf_type f) = false).
    { revert E2. clear. induction (sd_fields d) as [|f r IH]; simpl; [discriminate|].
      destruct (supported (sf_type f)) eqn:S; simpl.
      - intros H. destruct (IH H) as (g & Hg & Sg). eauto.
      - intros _. eauto. }
    destruct X as (f & Hf & S). destruct (sf_type f) eqn:T; try discriminate. eauto.
Qed.
Print Assumptions C41_loading_coerces_or_refuses.

(** A loaded table always has an Analytics schema, with the same columns. *)
Theorem C41_loaded_tables_have_schemas : forall d d',
  NoDup (map sf_name (sd_fields d)) -> coerce_spark_schema_or_fail d = Ok d' ->
  exists cols s, spark_schema_to_analytics_columns (sd_fields d') = Ok cols
    /\ mk_schema cols None None None = Ok s
    /\ dkeys (sc_cols s) = map sf_name (sd_fields d).
Proof.
  intros d d' ND H. rewrite coerce_ok in H by assumption.
  destruct (smem "" (map sf_name (sd_fields d))) eqn:E1; [discriminate|].
  destruct (forallb (fun f => supported (sf_type f)) (sd_fields d)) eqn:E2; [|discriminate].
  inversion H; subst d'. clear H. cbn [sd_fields]. apply smem_false in E1.
  assert (X : exists l, mapM (fun f => let* t := spark_to_analytics (sf_type f) in
      Ok (sf_name f, {| cd_type := t; cd_null := sf_nullable f; cd_nan := ctype_eqb t DECIMAL; cd_inf := ctype_eqb t DECIMAL |}))
      (map widen_field (sd_fields d)) = Ok l /\ map fst l = map sf_name (sd_fields d)).
  { clear E1 ND. revert E2. induction (sd_fields d) as [|f r IH]; simpl; intros H; [exists []; auto|].
    apply andb_true_iff in H as [H1 H2]. destruct (IH H2) as (l & Hl & Kl).
    rewrite Hl. change (sf_type (widen_field f)) with (widen (sf_type f)).
    destruct (sf_type f); try discriminate; cbn [widen coercion spark_to_analytics bind];
      eexists; (split; [reflexivity|simpl; congruence]). }
  destruct X as (l & Hl & Kl). unfold spark_schema_to_analytics_columns. rewrite Hl. cbn [bind].
  rewrite dict_of_NoDup by (rewrite Kl; assumption).
  eexists; eexists. split; [reflexivity|]. split.
  - apply mk_schema_ok. split; [unfold dkeys; rewrite Kl; assumption|]. split; [discriminate|]. split; [discriminate|reflexivity].
  - exact Kl.
Qed.
Print Assumptions C41_loaded_tables_have_schemas.

Example C41_case :
  coerce_spark_schema_or_fail
    {| sd_fields := [{| sf_name := "n"; sf_type := IntegerT; sf_nullable := false |};
                     {| sf_name := "x"; sf_type := FloatT; sf_nullable := true |};
                     {| sf_name := "s"; sf_type := StringT; sf_nullable := true |}];
       sd_rows := [[VInt 1; VNull; VStr "a"]] |}
  = Ok {| sd_fields := [{| sf_name := "n"; sf_type := LongT; sf_nullable := false |};
                     {| sf_name := "x"; sf_type := DoubleT; sf_nullable := true |};
                     {| sf_name := "s"; sf_type := StringT; sf_nullable := true |}];
          sd_rows := [[VInt 1; VNull; VStr "a"]] |}
  /\ coerce_spark_schema_or_fail
    {| sd_fields := [{| sf_name := "b"; sf_type := OtherT 0; sf_nullable := false |}]; sd_rows := [] |} = Err ValueError.
Proof. split; reflexivity. Qed.
