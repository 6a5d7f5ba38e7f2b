(** Property C72: which calls on query builders are refused, and how. *)
From Coq Require Import String Ascii Bool Arith ZArith QArith Qcanon Lia List.
From Verif Require Import Prelude Value Rows Constraints Schema SchemaProofs Query TransformVisit QueryProofs QueryAccept TransformConform QueryEq QueryBuilder QueryBuilderProofs
  Props_Schema Props_Query Props_Reported Props_QueryBuilder.
From Verif Require KeySet Props_KeySet.
Import ListNotations.
Local Open Scope string_scope.
Local Open Scope nat_scope.

(** ** What can be wrong with the arguments *)

(** The number a Python int or float stands for, and x >= y for these. *)
Definition number (x : pynum) : fnum := match x with PInt z => FFin (Q2Qc (inject_Z z)) | PFloat f => f end.
Definition not_below (x y : fnum) : Prop :=
  match x, y with
  | FFin a, FFin b => (b <= a)%Qc
  | FPInf, FNan | FNan, _ | FFin _, FPInf | FFin _, FNan | FNInf, FFin _ | FNInf, FPInf | FNInf, FNan => False
  | FPInf, _ | _, FNInf => True
  end.
(** Columns to be made by map, flat_map or flat_map_by_id: a name is empty, or a type is
    given by a word that names none. *)
Definition bad_columns (types : dict rawdesc) : Prop :=
  exists n t, In (n, t) types /\ (n = "" \/ exists w, t = RName w /\ ~ In w ["INTEGER"; "DECIMAL"; "VARCHAR"; "DATE"; "TIMESTAMP"]).
(** A frame to join with: an empty column name, a type that is not supported, or an integer
    or float column whose name is that of another column as well. *)
Definition bad_frame (f : sframe) : Prop :=
  In "" (map sf_name (sd_fields f))
  \/ (exists c n, In c (sd_fields f) /\ sf_type c = OtherT n)
  \/ (exists c, In c (sd_fields f) /\ (sf_type c = IntegerT \/ sf_type c = FloatT)
        /\ 1 < count_occ string_dec (map sf_name (sd_fields f)) (sf_name c)).
(** join_columns=: given, but empty or with repetitions. *)
Definition bad_on (on : seqarg) : Prop := exists l, join_columns_of on = Some l /\ (l = [] \/ ~ NoDup l).

(** Complaints about a method that changes a builder. *)
Inductive change_fault : change -> exn -> Prop :=
| FPublicOn p on how : bad_on on -> change_fault (ChJoinPublic p on how) ValueError
| FPublicFrame f on how : bad_frame f -> change_fault (ChJoinPublic (PubFrame f) on how) ValueError
| FPublicHow p on how : how <> "inner" -> how <> "left" -> change_fault (ChJoinPublic p on how) ValueError
| FPrivateOn o tl tr on : bad_on on -> change_fault (ChJoinPrivate o tl tr on) ValueError
| FPrivateName n tl tr on : ~ identifier n -> change_fault (ChJoinPrivate (inr n) tl tr on) ValueError
| FReplaceNull d c v : In (c, v) d -> v = VNull \/ v = VFloat FNan \/ v = VFloat FPInf \/ v = VFloat FNInf -> change_fault (ChReplaceNull (Some d)) ValueError
| FReplaceInf d c lo hi : In (c, (lo, hi)) d -> (forall q, lo <> FFin q) \/ (forall q, hi <> FFin q) -> change_fault (ChReplaceInf (Some d)) ValueError
| FRename m c : In (c, "") m -> change_fault (ChRename m) ValueError
| FSelect cols : ~ NoDup (columns_of cols) -> change_fault (ChSelect cols) ValueError
| FMap f types a : bad_columns types -> change_fault (ChMap f types a) ValueError
| FFlatMap f types a g mr : bad_columns types -> change_fault (ChFlatMap f types a g mr) ValueError
| FFlatMapGroup f types a mr : length types <> 1 -> change_fault (ChFlatMap f types a true mr) ValueError
| FFlatMapRows f types a g z : (z < 0)%Z -> change_fault (ChFlatMap f types a g (Some z)) ValueError
| FFlatMapByID f types : bad_columns types -> change_fault (ChFlatMapByID f types) ValueError
| FBin c spec : change_fault (ChBin c spec (Some "")) ValueError.

(** A mechanism given by a word that is not a mechanism, in any case of letters. *)
Definition unknown_mech (m : mecharg) : Prop := exists w, m = MechName w /\ ~ In (upper w) ["DEFAULT"; "LAPLACE"; "GAUSSIAN"].
(** low >= high *)
Definition bad_bounds (low high : pynum) : Prop := not_below (number low) (number high).

(** Complaints about an aggregation. *)
Inductive agg_fault : aggcall -> exn -> Prop :=
| FCountMech n m : unknown_mech m -> agg_fault (UCount n m) ValueError
| FDistinctMech c n m : unknown_mech m -> agg_fault (UCountDistinct c n m) ValueError
| FBoundedMech kd c lo hi n m : unknown_mech m -> agg_fault (UBounded kd c lo hi n m) ValueError
| FBoundedBounds kd c lo hi n m : bad_bounds lo hi -> agg_fault (UBounded kd c lo hi n m) ValueError
| FQuantile c q lo hi n : ~ (not_below (number q) (number (PInt 0)) /\ not_below (number (PInt 1)) (number q)) -> agg_fault (UQuantile c q lo hi n) ValueError
| FQuantileBounds c q lo hi n : bad_bounds lo hi -> agg_fault (UQuantile c q lo hi n) ValueError
| FMinBounds c lo hi n : bad_bounds lo hi -> agg_fault (UMin c lo hi n) ValueError
| FMaxBounds c lo hi n : bad_bounds lo hi -> agg_fault (UMax c lo hi n) ValueError
| FMedianBounds c lo hi n : bad_bounds lo hi -> agg_fault (UMedian c lo hi n) ValueError.

Section Calls.
Variable KW : KeySet.world.
Variable show : pynum -> string.
Notation step := (QueryBuilder.step KW show).
Notation run := (QueryBuilder.run KW show).

(** Complaints about a call.  Grouping by columns instead of a KeySet needs automatic
    partition selection to be switched on, also when the aggregation is asked for. *)
Inductive fault (st : state) : call -> exn -> Prop :=
| FNew n : ~ identifier n -> fault st (New n) ValueError
| FChange b c e : change_fault c e -> fault st (Change b c) e
| FTotal b a e : agg_fault a e -> fault st (Total b a) e
| FSpec b c e n : fault st (Histogram b c (Err e) n) e
| FBins b c s n e : keys_from_dict KW [(if_not n (c ++ "_binned"), bn_bins s)] = Err e -> fault st (Histogram b c (Ok s) n) e
| FGroupName b s : st_auto st = false -> fault st (GroupBy b (ByName s)) ValueError
| FGroupList b l : st_auto st = false -> fault st (GroupBy b (ByList l)) ValueError
| FAggregate g a e : agg_fault a e -> fault st (Aggregate g a) e
| FAuto g a o l : nth_error (st_groups st) g = Some o -> gr_keys o = KCols l -> st_auto st = false -> fault st (Aggregate g a) RuntimeError
| FSuppress i q th : nth_error (st_queries st) i = Some q -> q_suppress q = false -> fault st (Suppress i th) AttributeError.

(** The objects that a call names exist. *)
Definition named_by (st : state) (c : call) : Prop :=
  match c with
  | New _ | SetAuto _ => True
  | Clone b | GetGroupsOf b _ | Total b _ | Histogram b _ _ _ | GroupBy b _ => nth_error (st_builders st) b <> None
  | Change b ch => nth_error (st_builders st) b <> None
      /\ match ch with ChJoinPrivate (inl o) _ _ _ => nth_error (st_builders st) o <> None | _ => True end
  | Aggregate g _ => nth_error (st_groups st) g <> None
  | Suppress i _ => nth_error (st_queries st) i <> None
  end.

(** ** Proofs *)
Definition decided {A} (r : res A) (F : exn -> Prop) : Prop := match r with Ok _ => forall e, ~ F e | Err e => F e end.
Lemma decided_step {A B} (r : res A) (k : A -> res B) (F G : exn -> Prop) :
  decided r G -> (forall e, G e -> F e) -> ((forall e, ~ G e) -> forall x, r = Ok x -> decided (k x) F) -> decided (bind r k) F.
Proof. destruct r as [x|e]; cbn [decided bind]; intros D GF K; [apply K; auto|auto]. Qed.
Lemma decided_if {B} (b : bool) (x : exn) (P : Prop) (k : unit -> res B) (F : exn -> Prop) :
  (b = true <-> P) -> (P -> F x) -> (~ P -> decided (k tt) F) -> decided (bind (raise_if b x) k) F.
Proof. intros E Y N. destruct b; cbn [raise_if bind decided]; [apply Y, E; reflexivity|]. apply N. intros p. apply E in p. discriminate. Qed.

Lemma fnum_ge_iff x y : fnum_ge x y = true <-> not_below x y.
Proof.
  destruct x as [a| | |], y as [b| | |]; cbn; try (split; [discriminate|intros []]); try (split; auto; fail).
  unfold Qccompare, Qcle. change (match (this a ?= this b)%Q with Lt => false | _ => true end = true <-> (this b <= this a)%Q).
  unfold Qle, Qcompare. set (x := (Qnum (this a) * QDen (this b))%Z). set (y := (Qnum (this b) * QDen (this a))%Z). clearbody x y.
  destruct (Z.compare_spec x y); split; intros; try reflexivity; try discriminate; lia.
Qed.
Lemma to_float_number x : to_float x = number x.
Proof. destruct x; reflexivity. Qed.
Lemma check_bounds_decided low high (F : exn -> Prop) B (k : _ -> res B) :
  (bad_bounds low high -> F ValueError) -> (~ bad_bounds low high -> forall b, decided (k b) F) -> decided (bind (check_bounds low high) k) F.
Proof.
  intros Y N. unfold check_bounds, bad_bounds in *. rewrite <- (to_float_number low), <- (to_float_number high) in Y, N.
  destruct low as [a|a], high as [b|b];
    try (destruct (fnum_ge _ _) eqn:E; cbn [raise_if bind decided];
         [apply Y, fnum_ge_iff, E|apply N; intros X; apply fnum_ge_iff in X; cbn [to_float] in *; congruence]).
  assert (X : (b <=? a)%Z = true <-> not_below (to_float (PInt a)) (to_float (PInt b))).
  { cbn. rewrite Z.leb_le. unfold Qcle. change ((b <= a)%Z <-> (Qred (inject_Z b) <= Qred (inject_Z a))%Q). rewrite !Qred_correct, <- Zle_Qle. reflexivity. }
  destruct (b <=? a)%Z; cbn [raise_if bind decided]; [apply Y, X; reflexivity|]. apply N. intros Z. apply X in Z. discriminate.
Qed.
Lemma has_dup_iff l : has_dup l = true <-> ~ NoDup l.
Proof.
  split.
  - intros H N. unfold has_dup in H. rewrite nodup_fixed_point in H by exact N. rewrite Nat.eqb_refl in H. discriminate.
  - intros N. destruct (has_dup l) eqn:E; [reflexivity|]. apply has_dup_NoDup in E. contradiction.
Qed.
Lemma check_on_decided on : decided (check_on (join_columns_of on)) (fun e => e = ValueError /\ bad_on on).
Proof.
  unfold check_on, bad_on. destruct (join_columns_of on) as [l|].
  - eapply decided_if with (P := l = []).
    + destruct l; cbn; split; intros; congruence.
    + intros ->. split; [reflexivity|]. exists []. auto.
    + intros N. destruct (has_dup l) eqn:E; cbn [raise_if decided].
      * apply has_dup_iff in E. split; [reflexivity|]. exists l. auto.
      * intros e (_ & l' & [= <-] & [?|D]); [contradiction|]. apply has_dup_iff in D. congruence.
  - cbn [decided]. intros e (_ & l & [=] & _).
Qed.
Lemma coerce_loop_decided (d : sframe) : forall fs x, map sf_name (sd_fields x) = map sf_name (sd_fields d) ->
  decided (coerce_loop fs x) (fun e => e = ValueError /\ exists c, In c fs /\ (sf_type c = IntegerT \/ sf_type c = FloatT)
    /\ 1 < count_occ string_dec (map sf_name (sd_fields d)) (sf_name c)).
Proof.
  induction fs as [|f fs IH]; intros x N; cbn [coerce_loop]; [intros e (_ & c & [] & _)|].
  assert (C : forall ty, (sf_type f = IntegerT \/ sf_type f = FloatT) ->
     decided (let* d' := with_cast (sf_name f) ty x in coerce_loop fs d')
       (fun e => e = ValueError /\ exists c, In c (f :: fs) /\ (sf_type c = IntegerT \/ sf_type c = FloatT) /\ 1 < count_occ string_dec (map sf_name (sd_fields d)) (sf_name c))).
  { intros ty T. unfold with_cast. rewrite N. destruct (1 <? count_occ string_dec (map sf_name (sd_fields d)) (sf_name f)) eqn:E; cbn [raise_if bind decided].
    - apply Nat.ltb_lt in E. split; [reflexivity|]. exists f. cbn. auto.
    - apply Nat.ltb_ge in E. set (x' := {| sd_fields := _; sd_rows := _ |}).
      assert (N' : map sf_name (sd_fields x') = map sf_name (sd_fields d)).
      { rewrite <- N. subst x'. cbn [sd_fields]. rewrite map_map. apply map_ext. intros a. destruct (String.eqb (sf_name a) (sf_name f)); reflexivity. }
      specialize (IH x' N'). destruct (coerce_loop fs x') as [y|e]; cbn [decided] in *.
      + intros e (-> & c & [<-|I] & T' & O); [lia|]. apply (IH ValueError). split; [reflexivity|]. eauto.
      + destruct IH as (-> & c & I & R). split; [reflexivity|]. exists c. split; [right; exact I|exact R]. }
  destruct (sf_type f) eqn:T; cbn [coercion]; try (apply C; auto; fail);
    (specialize (IH x N); destruct (coerce_loop fs x) as [y|e]; cbn [decided] in *;
     [intros e (-> & c & [<-|I] & [T'|T'] & O); try congruence; (apply (IH ValueError); split; [reflexivity|]; eauto)
     |destruct IH as (-> & c & I & R); split; [reflexivity|]; exists c; split; [right; exact I|exact R]]).
Qed.
Lemma coerce_decided f : decided (coerce_spark_schema_or_fail f) (fun e => e = ValueError /\ bad_frame f).
Proof.
  unfold coerce_spark_schema_or_fail, bad_frame.
  eapply decided_if; [apply smem_In|auto|]. intros N1.
  eapply decided_if with (P := exists c n, In c (sd_fields f) /\ sf_type c = OtherT n).
  - rewrite negb_true_iff. split.
    + intros H. destruct (existsb (fun c => negb (supported (sf_type c))) (sd_fields f)) eqn:X.
      * apply existsb_exists in X as (c & I & S). destruct (sf_type c) eqn:T; try discriminate S. eauto.
      * exfalso. enough (forallb (fun c => supported (sf_type c)) (sd_fields f) = true) by congruence.
        apply forallb_forall. intros c I. destruct (supported (sf_type c)) eqn:S; [reflexivity|].
        assert (existsb (fun c => negb (supported (sf_type c))) (sd_fields f) = true) by (apply existsb_exists; exists c; rewrite S; auto). congruence.
    + intros (c & n & I & T). destruct (forallb _ _) eqn:X; [|reflexivity]. rewrite forallb_forall in X. specialize (X c I). rewrite T in X. discriminate.
  - auto.
  - intros N2. pose proof (coerce_loop_decided f (sd_fields f) f eq_refl) as C. destruct (coerce_loop (sd_fields f) f) as [y|e]; cbn [decided] in *.
    + intros e (-> & [X|[X|X]]); [auto|auto|]. apply (C ValueError). auto.
    + destruct C as (-> & X). auto.
Qed.
Lemma columns_decided types g B (k : schema -> res B) (F : exn -> Prop) :
  (match g with Some c => In c (dkeys types) | None => True end) ->
  (bad_columns types -> F ValueError) ->
  (~ bad_columns types -> forall s, sc_group s = g -> sc_id s = None -> length (sc_cols s) = length types -> decided (k s) F) ->
  decided (bind (new_columns_schema types g) k) F.
Proof.
  intros G Y N. unfold new_columns_schema, Schema_init, bad_columns in *. 
  assert (AS : forall A B C (r : res A) (f : A -> res B) (h : B -> res C), bind (bind r f) h = bind r (fun x => bind (f x) h)) by (intros ? ? ? [] ? ?; reflexivity).
  rewrite AS. eapply decided_if with (P := In "" (dkeys types)).
  - apply dmem_In.
  - intros I. apply in_map_iff in I as ((n & t) & E & I). cbn [fst] in E. subst n. apply Y. exists "", t. auto.
  - intros N1. rewrite AS. eapply decided_if with (P := False).
    + unfold opt_missing. destruct g as [c|]; [|split; [discriminate|intros []]]. apply dmem_In in G. rewrite G. split; [discriminate|intros []].
    + intros [].
    + intros _. cbn [opt_missing raise_if bind]. rewrite AS.
      assert (NAMES : forall w, In w (map ctype_name all_ctypes) <-> In w ["INTEGER"; "DECIMAL"; "VARCHAR"; "DATE"; "TIMESTAMP"]) by (intros w; reflexivity).
      assert (OWN : forall t, In (ctype_name t) (map ctype_name all_ctypes)) by (intros []; cbn; auto 6).
      eapply decided_if with (P := exists n t, In (n, t) types /\ exists w, t = RName w /\ ~ In w ["INTEGER"; "DECIMAL"; "VARCHAR"; "DATE"; "TIMESTAMP"]).
      * rewrite negb_true_iff. split.
        -- intros H. assert (X : existsb (fun p => negb (smem (raw_name (snd p)) (map ctype_name all_ctypes))) types = true).
           { destruct (existsb _ types) eqn:X; [reflexivity|]. exfalso. enough (forallb (fun p => smem (raw_name (snd p)) (map ctype_name all_ctypes)) types = true) by congruence.
             apply forallb_forall. intros p I. destruct (smem (raw_name (snd p)) (map ctype_name all_ctypes)) eqn:S; [reflexivity|].
             assert (existsb (fun p => negb (smem (raw_name (snd p)) (map ctype_name all_ctypes))) types = true) by (apply existsb_exists; exists p; rewrite S; auto). congruence. }
           apply existsb_exists in X as ((n & t) & I & S). cbn [snd] in S. apply negb_true_iff, smem_false in S. exists n, t. split; [exact I|].
           destruct t as [w|t|d]; cbn [raw_name] in S; [|exfalso; apply S, OWN|exfalso; apply S, OWN]. exists w. split; [reflexivity|]. rewrite <- NAMES. exact S.
        -- intros (n & t & I & w & -> & W). destruct (forallb _ types) eqn:X; [|reflexivity]. rewrite forallb_forall in X. specialize (X _ I). cbn [snd raw_name] in X.
           apply smem_In, NAMES in X. contradiction.
      * intros (n & t & I & w & T). apply Y. exists n, t. eauto.
      * intros N2. rewrite AS.
        assert (M : exists l, mapM (fun p => let* d := fill true true true (snd p) in Ok (fst p, d)) types = Ok l).
        { apply mapM_accepted. intros (n & t) I. cbn [fst snd]. destruct t as [w|t|d]; cbn [fill bind]; eauto.
          unfold ctype_named. destruct (find (fun t => String.eqb (ctype_name t) w) all_ctypes) as [t|] eqn:X; cbn [bind]; eauto.
          exfalso. apply N2. exists n, (RName w). split; [exact I|]. exists w. split; [reflexivity|]. rewrite <- NAMES. intros W. apply in_map_iff in W as (t & <- & W).
          pose proof (find_none _ _ X t W) as E. cbn beta in E. rewrite String.eqb_refl in E. discriminate. }
        destruct M as (l & M). rewrite M. cbn [bind]. apply N; [|reflexivity|reflexivity|eapply mapM_ok_length; exact M].
        intros (n & t & I & [->|T]); [|apply N2; eauto]. apply N1. apply (in_map fst) in I. exact I.
Qed.

Lemma changed_decided st e c :
  (match c with ChJoinPrivate (inl o) _ _ _ => nth_error (st_builders st) o <> None | _ => True end) ->
  decided (changed st e c) (change_fault c).
Proof.
  intros O. destruct c; cbn [changed post_init].
  - (* join_public *)
    eapply decided_step; [apply check_on_decided|intros x (-> & B); apply FPublicOn, B|]. intros N1 _ _.
    eapply decided_step with (G := fun x => x = ValueError /\ exists f, p = PubFrame f /\ bad_frame f).
    + destruct p as [n|f]; cbn [decided]; [intros x (_ & f & [=] & _)|]. pose proof (coerce_decided f) as D.
      destruct (coerce_spark_schema_or_fail f); cbn [bind decided] in *; [|destruct D as (-> & D); eauto].
      intros x (-> & f' & [= <-] & B). apply (D ValueError). auto.
    + intros x (-> & f & -> & B). apply FPublicFrame, B.
    + intros N2 p' _. eapply decided_if with (P := how <> "inner" /\ how <> "left").
      * rewrite negb_true_iff. rewrite smem_false. cbn [In]. split; [intros H; split; intros ->; apply H; auto|intros (A & B) [C|[C|[]]]; congruence].
      * intros (A & B). apply FPublicHow; assumption.
      * intros N3 x F. inversion F; subst; eauto.
        -- eapply (N1 ValueError). auto.
        -- eapply (N2 ValueError). eauto.
  - (* join_private *)
    eapply decided_step with (G := fun x => x = ValueError /\ exists n, operand = inr n /\ ~ identifier n).
    + destruct operand as [o|n]; cbn [decided].
      * unfold object. destruct (nth_error (st_builders st) o); [|congruence]. cbn [decided]. intros x (_ & n & [=] & _).
      * destruct (C42_source_names (st_auto st) n) as (A & B). destruct (is_identifier n) eqn:E.
        -- apply identifier_iff in E. rewrite (A E). cbn [decided]. intros x (_ & n' & [= <-] & X). auto.
        -- assert (NI : ~ identifier n) by (intros X; apply identifier_iff in X; congruence). rewrite (B NI). cbn [decided]. eauto.
    + intros x (-> & n & -> & N). apply FPrivateName, N.
    + intros N1 r _. eapply decided_step; [apply check_on_decided|intros x (-> & B); apply FPrivateOn, B|]. intros N2 _ _ x F. inversion F; subst.
      * eapply (N2 ValueError). auto.
      * eapply (N1 ValueError). eauto.
  - (* replace_null_and_nan *)
    eapply decided_if with (P := exists d k v, rw = Some d /\ In (k, v) d /\ (v = VNull \/ v = VFloat FNan \/ v = VFloat FPInf \/ v = VFloat FNInf)).
    + rewrite existsb_exists. split.
      * intros ((k & v) & I & H). cbn [snd] in H. destruct rw as [d|]; [|destruct I]. exists d, k, v. split; [reflexivity|]. split; [exact I|].
        destruct v as [| |f| | |]; try discriminate H; auto; destruct f; try discriminate H; auto.
      * intros (d & k & v & -> & I & H). exists (k, v). split; [exact I|]. cbn [snd]. destruct H as [->|[->|[->| ->]]]; reflexivity.
    + intros (d & k & v & -> & I & H). eapply FReplaceNull; eassumption.
    + intros N x F. inversion F; subst. apply N. eauto 6.
  - (* replace_infinity *)
    eapply decided_if with (P := exists d k lo hi, rw = Some d /\ In (k, (lo, hi)) d /\ ((forall q, lo <> FFin q) \/ (forall q, hi <> FFin q))).
    + assert (FF : forall f, finite_f f = false <-> forall q, f <> FFin q).
      { intros [q| | |]; cbn; split; try discriminate; try reflexivity; try (intros _ q'; discriminate). intros H. exfalso. apply (H q). reflexivity. }
      rewrite existsb_exists. split.
      * intros ((k & (lo & hi)) & I & H). cbn [fst snd] in H. destruct rw as [d|]; [|destruct I]. exists d, k, lo, hi. split; [reflexivity|]. split; [exact I|].
        apply negb_true_iff, andb_false_iff in H as [H|H]; [left|right]; apply FF, H.
      * intros (d & k & lo & hi & -> & I & H). exists (k, (lo, hi)). split; [exact I|]. cbn [fst snd]. apply negb_true_iff, andb_false_iff.
        destruct H as [H|H]; [left|right]; apply FF, H.
    + intros (d & k & lo & hi & -> & I & H). eapply FReplaceInf; eassumption.
    + intros N x F. inversion F; subst. apply N. eauto 8.
  - intros x F. inversion F.
  - intros x F. inversion F.
  - (* rename *)
    eapply decided_if with (P := exists k, In (k, "") m).
    + rewrite existsb_exists. split.
      * intros ((k & v) & I & H). cbn [snd] in H. apply String.eqb_eq in H. subst v. eauto.
      * intros (k & I). exists (k, ""). auto.
    + intros (k & I). eapply FRename, I.
    + intros N x F. inversion F; subst. apply N. eauto.
  - intros x F. inversion F.
  - (* select *)
    eapply decided_if; [apply has_dup_iff|apply FSelect|]. intros N x F. inversion F; subst. contradiction.
  - (* map *)
    unfold map_expr. eapply columns_decided; [exact I|apply FMap|]. intros N s G _ _. cbn [post_init]. rewrite G. cbn [raise_if bind decided].
    intros x F. inversion F; subst. contradiction.
  - (* flat_map *)
    eapply decided_step with (G := fun x => x = ValueError /\ grouping = true /\ length types <> 1).
    + destruct grouping; [|cbn [decided]; intros x (_ & [=] & _)]. destruct types as [|(k & t) [|]]; cbn [decided length]; [repeat split; lia|intros x (_ & _ & H); lia|repeat split; lia].
    + intros x (-> & -> & H). apply FFlatMapGroup, H.
    + intros N1 g G. eapply columns_decided.
      * destruct grouping; [|injection G as <-; exact I]. destruct types as [|(k & t) [|]]; try discriminate G. injection G as <-. cbn. auto.
      * apply FFlatMap.
      * intros N2 s SG _ SL. cbn [post_init]. eapply decided_if with (P := exists z, max_rows = Some z /\ (z < 0)%Z).
        -- destruct max_rows as [z|]; [rewrite Z.ltb_lt|]; split; try discriminate; eauto; intros (z' & [= <-] & H); exact H.
        -- intros (z & -> & H). apply FFlatMapRows, H.
        -- intros N3. rewrite SG, SL.
           assert (L : match g with Some _ => negb (length types =? 1) | None => false end = false).
           { destruct grouping; [|injection G as <-; reflexivity]. destruct types as [|(k & t) [|]]; try discriminate G. injection G as <-. reflexivity. }
           rewrite L. cbn [raise_if bind decided]. intros x F. inversion F; subst; eauto.
           apply (N1 ValueError). auto.
  - (* flat_map_by_id *)
    eapply columns_decided; [exact I|apply FFlatMapByID|]. intros N s G GI _. cbn [post_init]. rewrite G, GI. cbn [raise_if bind decided].
    intros x F. inversion F; subst. contradiction.
  - (* bin_column *)
    unfold bin_expr, map_expr. eapply columns_decided; [exact I| |].
    + intros (k & t & [X|[]] & [H|(w & X' & _)]); [|rewrite X' in X; discriminate X]. injection X as <- <-. destruct name as [n|]; cbn [if_none] in H; [subst n; constructor|].
      exfalso. destruct column; discriminate H.
    + intros N s G _ _. cbn [post_init]. rewrite G. cbn [raise_if bind decided]. intros x F. inversion F; subst. apply N.
      exists "", (RDesc (bn_desc spec)). cbn. auto.
  - intros x F. inversion F.
Qed.

Lemma mech_decided m B (k : mech -> res B) (F : exn -> Prop) :
  (unknown_mech m -> F ValueError) -> (~ unknown_mech m -> forall x, decided (k x) F) -> decided (bind (mech_of m) k) F.
Proof.
  intros Y N. unfold mech_of, unknown_mech in *. destruct m as [w|m]; [|cbn [bind]; apply N; intros (w & [=] & _)].
  destruct (String.eqb (upper w) "DEFAULT") eqn:E1; [cbn [bind]; apply N; intros (w' & [= <-] & H); apply String.eqb_eq in E1; rewrite E1 in H; cbn in H; tauto|].
  destruct (String.eqb (upper w) "LAPLACE") eqn:E2; [cbn [bind]; apply N; intros (w' & [= <-] & H); apply String.eqb_eq in E2; rewrite E2 in H; cbn in H; tauto|].
  destruct (String.eqb (upper w) "GAUSSIAN") eqn:E3; [cbn [bind]; apply N; intros (w' & [= <-] & H); apply String.eqb_eq in E3; rewrite E3 in H; cbn in H; tauto|].
  cbn [bind decided]. apply Y. exists w. split; [reflexivity|]. apply String.eqb_neq in E1, E2, E3. cbn [In]. intros [H|[H|[H|[]]]]; congruence.
Qed.
Lemma keys_decided auto k B (f : unit -> res B) (F : exn -> Prop) :
  ((exists l, k = KCols l) /\ auto = false -> F RuntimeError) -> (~ ((exists l, k = KCols l) /\ auto = false) -> decided (f tt) F) -> decided (bind (check_keys auto k) f) F.
Proof.
  intros Y N. unfold check_keys. destruct k as [c r|l]; [apply N; intros ((l & [=]) & _)|].
  destruct auto; cbn [negb raise_if bind decided]; [apply N; intros (_ & [=])|apply Y; eauto].
Qed.
Lemma decided_bind_ok {A B} (r : res A) (f : A -> B) F : decided r F -> decided (let* x := r in Ok (f x)) F.
Proof. destruct r; exact (fun H => H). Qed.
Lemma quantile_decided auto g c q lo hi n (F : exn -> Prop) :
  ((exists l, gr_keys g = KCols l) /\ auto = false -> F RuntimeError) ->
  (~ (not_below (number q) (number (PInt 0)) /\ not_below (number (PInt 1)) (number q)) -> F ValueError) ->
  (bad_bounds lo hi -> F ValueError) ->
  (~ ((exists l, gr_keys g = KCols l) /\ auto = false) -> (not_below (number q) (number (PInt 0)) /\ not_below (number (PInt 1)) (number q)) -> ~ bad_bounds lo hi -> forall e, ~ F e) ->
  decided (quantile_expr show auto g c q lo hi n) F.
Proof.
  intros K Q B N. unfold quantile_expr. cbn [post_init]. apply keys_decided; [exact K|]. intros NK.
  eapply decided_if with (P := ~ (not_below (number q) (number (PInt 0)) /\ not_below (number (PInt 1)) (number q))).
  - rewrite to_float_number, negb_true_iff, <- !fnum_ge_iff. change (number (PInt 0)) with (z_to_f 0). change (number (PInt 1)) with (z_to_f 1).
    destruct (fnum_ge (number q) (z_to_f 0)), (fnum_ge (z_to_f 1) (number q)); cbn [andb]; split; intros H; try congruence; try tauto; intros (X & Y); congruence.
  - exact Q.
  - intros NQ. apply check_bounds_decided; unfold bad_bounds in *; cbn [number]; rewrite !to_float_number; [exact B|]. intros NB b. cbn [decided]. apply N; auto.
    destruct (fnum_ge (number q) (number (PInt 0))) eqn:E1.
    + destruct (fnum_ge (number (PInt 1)) (number q)) eqn:E2; [apply fnum_ge_iff in E1, E2; auto|].
      exfalso. apply NQ. intros (X & Y). apply fnum_ge_iff in Y. congruence.
    + exfalso. apply NQ. intros (X & Y). apply fnum_ge_iff in X. congruence.
Qed.
Lemma aggregate_decided auto g a :
  decided (aggregate show auto g a) (fun e => agg_fault a e \/ ((exists l, gr_keys g = KCols l) /\ auto = false) /\ e = RuntimeError).
Proof.
  assert (IN : forall q, not_below q (number (PInt 0)) -> not_below (number (PInt 1)) q -> not_below q (number (PInt 0)) /\ not_below (number (PInt 1)) q) by auto.
  destruct a; cbn [aggregate].
  - apply mech_decided; [left; constructor; assumption|]. intros N1 x. cbn [post_init]. apply decided_bind_ok. apply keys_decided; [auto|]. intros N2.
    cbn [decided]. intros e [F|(F & _)]; [inversion F; subst; contradiction|contradiction].
  - apply mech_decided; [left; constructor; assumption|]. intros N1 x. cbn [post_init]. apply decided_bind_ok. apply keys_decided; [auto|]. intros N2.
    cbn [decided]. intros e [F|(F & _)]; [inversion F; subst; contradiction|contradiction].
  - apply decided_bind_ok, quantile_decided; try (intros; auto; left; constructor; assumption).
    intros N1 N2 N3 e [F|(F & _)]; [inversion F; subst; contradiction|contradiction].
  - apply decided_bind_ok, quantile_decided; try (intros; auto; left; constructor; assumption).
    + intros H. exfalso. apply H. split; apply fnum_ge_iff; vm_compute; reflexivity.
    + intros N1 N2 N3 e [F|(F & _)]; [inversion F; subst; contradiction|contradiction].
  - apply decided_bind_ok, quantile_decided; try (intros; auto; left; constructor; assumption).
    + intros H. exfalso. apply H. split; apply fnum_ge_iff; vm_compute; reflexivity.
    + intros N1 N2 N3 e [F|(F & _)]; [inversion F; subst; contradiction|contradiction].
  - apply decided_bind_ok, quantile_decided; try (intros; auto; left; constructor; assumption).
    + intros H. exfalso. apply H. split; apply fnum_ge_iff; vm_compute; reflexivity.
    + intros N1 N2 N3 e [F|(F & _)]; [inversion F; subst; contradiction|contradiction].
  - apply mech_decided; [left; constructor; assumption|]. intros N1 x. cbn [post_init]. apply decided_bind_ok. apply keys_decided; [auto|]. intros N2.
    apply check_bounds_decided; [left; constructor; assumption|]. intros N3 b.
    cbn [decided]. intros e [F|(F & _)]; [inversion F; subst; contradiction|contradiction].
  - cbn [post_init]. apply decided_bind_ok. apply keys_decided; [auto|]. intros N2.
    cbn [decided]. intros e [F|(F & _)]; [inversion F|contradiction].
Qed.

(** What holds of all objects made by calls. *)
Definition tidy (st : state) : Prop :=
  (forall b, In b (st_builders st) -> identifier (bu_source b))
  /\ (forall q, In q (st_queries st) -> q_suppress q = true -> exists c k o m co, q_expr q = GroupByCount c k o m co).
Lemma in_replace {A} (l : list A) i x y : In y (replace l i x) -> y = x \/ In y l.
Proof. revert i; induction l as [|z l IH]; intros [|i]; cbn [replace In]; intros H; try tauto; destruct H as [H|H]; auto. apply IH in H. tauto. Qed.
Lemma aggregate_suppress auto g a q : aggregate show auto g a = Ok q -> q_suppress q = true -> exists c k o m co, q_expr q = GroupByCount c k o m co.
Proof.
  destruct a; cbn [aggregate]; intros H S;
    try (repeat apply bind_ok in H as (? & ? & H); injection H as <-; discriminate S).
  - apply bind_ok in H as (x & _ & H). apply bind_ok in H as (e & P & H). injection H as <-. cbn [post_init q_expr] in *. apply bind_ok in P as (? & _ & P).
    injection P as <-. eauto 6.
Qed.
Lemma step_tidy st c : tidy st -> tidy (fst (step st c)).
Proof.
  intros (T1 & T2). destruct (step st c) as (st', r) eqn:H. cbn [fst].
  destruct c; try (cbn [QueryBuilder.step] in H; apply outcome_cases in H as [(H & ->)|(e & _ & _ & ->)]; [|split; assumption]).
  - apply bind_ok in H as (b & B & H). injection H as <-. split; cbn [with_builders st_builders st_queries]; [|exact T2].
    intros b' I. apply in_app_or in I as [I|[<-|[]]]; [auto|]. apply new_builder_ok in B as (B & ->). cbn [bu_source]. apply identifier_iff, B.
  - apply bind_ok in H as (x & X & H). apply bind_ok in H as (b1 & B & H). injection H as <-. split; cbn [with_builders st_builders st_queries]; [|exact T2].
    intros b' I. apply in_app_or in I as [I|[<-|[]]]; [auto|]. apply new_builder_ok in B as (B & ->). cbn [bu_source]. apply identifier_iff, B.
  - apply bind_ok in H as (x & X & H). apply bind_ok in H as (e & B & H). injection H as <-. split; cbn [set_expr with_builders st_builders st_queries]; [|exact T2].
    intros b' I. apply in_replace in I as [->|I]; [|auto]. cbn [bu_source]. apply T1. apply object_ok in X. eapply nth_error_In, X.
  - apply bind_ok in H as (x & X & H). apply bind_ok in H as (e & B & H). injection H as <-. split; cbn [add_query st_builders st_queries]; [exact T1|].
    intros q I. apply in_app_or in I as [I|[<-|[]]]; [auto|]. discriminate.
  - apply bind_ok in H as (x & X & H). apply bind_ok in H as (k & _ & H). apply bind_ok in H as (g & _ & H). apply bind_ok in H as (q & Q & H). injection H as <-.
    split; cbn [add_query st_builders st_queries]; [exact T1|]. intros q' I. apply in_app_or in I as [I|[<-|[]]]; [auto|]. eapply aggregate_suppress, Q.
  - cbn [QueryBuilder.step] in H. destruct (bind (object _ _) _) as [((b1, e), k)|x] eqn:E; [|injection H as <- _; split; assumption].
    assert (T : tidy (set_expr st b b1 e)).
    { apply bind_ok in E as (x & X & E). split; cbn [set_expr with_builders st_builders st_queries]; [|exact T2].
      apply bind_ok in E as (? & _ & E). apply bind_ok in E as (? & _ & E). apply bind_ok in E as (? & _ & E). injection E as <- <- <-.
      intros b' I. apply in_replace in I as [->|I]; [|auto]. cbn [bu_source]. apply T1. apply object_ok in X. eapply nth_error_In, X. }
    destruct T as (U1 & U2). apply outcome_cases in H as [(H & ->)|(y & _ & _ & ->)]; [|split; assumption].
    apply bind_ok in H as (g & _ & H). apply bind_ok in H as (q & Q & H). injection H as <-.
    split; cbn [add_query st_builders st_queries]; [exact U1|]. intros q' I. apply in_app_or in I as [I|[<-|[]]]; [auto|]. eapply aggregate_suppress, Q.
  - apply bind_ok in H as (x & X & H). apply bind_ok in H as (e & B & H). injection H as <-. split; [exact T1|exact T2].
  - apply bind_ok in H as (x & X & H). apply bind_ok in H as (q & Q & H). injection H as <-.
    split; cbn [add_query st_builders st_queries]; [exact T1|]. intros q' I. apply in_app_or in I as [I|[<-|[]]]; [auto|]. eapply aggregate_suppress, Q.
  - apply bind_ok in H as (x & X & H). apply bind_ok in H as (q' & Q & H). injection H as <-. split; cbn [add_query st_builders st_queries]; [exact T1|].
    intros y I. apply in_app_or in I as [I|[<-|[]]]; [auto|]. unfold suppress in Q. apply bind_ok in Q as (? & _ & Q). destruct (q_expr x); try discriminate Q.
    apply bind_ok in Q as (? & _ & Q). injection Q as <-. discriminate.
  - injection H as <- _. split; assumption.
Qed.
Lemma run_tidy l : forall st, tidy st -> tidy (run st l).
Proof. induction l as [|c l IH]; intros st T; cbn [QueryBuilder.run]; [exact T|]. apply IH, step_tidy, T. Qed.

Lemma step_decided st c : tidy st -> named_by st c -> decided (snd (step st c)) (fault st c).
Proof.
  intros (T1 & T2) N.
  assert (OUT : forall (r : res state) F, decided r F -> decided (snd (outcome st r)) F) by (intros [x|x] F D; exact D).
  assert (OB : forall i, nth_error (st_builders st) i <> None -> exists b, object (st_builders st) i = Ok b /\ In b (st_builders st)).
  { intros i H. unfold object. destruct (nth_error (st_builders st) i) as [b|] eqn:E; [|congruence]. exists b. split; [reflexivity|]. eapply nth_error_In, E. }
  destruct c; cbn [named_by] in N; cbn [QueryBuilder.step]; try apply OUT.
  - destruct (C42_source_names (st_auto st) source) as (A & B). destruct (is_identifier source) eqn:E.
    + apply identifier_iff in E. rewrite (A E). cbn [bind decided]. intros x F. inversion F; subst. contradiction.
    + assert (NI : ~ identifier source) by (intros X; apply identifier_iff in X; congruence). rewrite (B NI). cbn [bind decided]. constructor. exact NI.
  - destruct (OB _ N) as (x & E & I). rewrite E. cbn [bind]. rewrite (proj1 (C42_source_names (st_auto st) (bu_source x)) (T1 _ I)). cbn [bind decided]. intros e F. inversion F.
  - destruct N as (N & O). destruct (OB _ N) as (x & E & I). rewrite E. cbn [bind]. apply decided_bind_ok. pose proof (changed_decided st (bu_expr x) c O) as D.
    destruct (changed st (bu_expr x) c); cbn [decided] in *; [intros e F; inversion F; subst; eapply D; eassumption|constructor; exact D].
  - destruct (OB _ N) as (x & E & I). rewrite E. cbn [bind post_init decided]. intros e F. inversion F.
  - destruct (OB _ N) as (x & E & I). rewrite E. cbn [bind]. rewrite no_keys. cbn [bind group_by raise_if]. apply decided_bind_ok.
    match goal with |- decided (aggregate _ _ ?g _) _ => pose proof (aggregate_decided (st_auto st) g a) as D end.
    destruct (aggregate _ _ _ _); cbn [decided gr_keys] in *.
    + intros e F. inversion F; subst. eapply D. left. eassumption.
    + destruct D as [D|(((l & [=]) & _) & _)]. constructor. exact D.
  - destruct (OB _ N) as (x & E & I). rewrite E. cbn [bind]. destruct spec as [s|e]; cbn [bind]; [|constructor].
    destruct (keys_from_dict KW _) as [k|e] eqn:K; cbn [bind]; [|cbn [snd decided]; apply FBins; exact K].
    pose proof (changed_decided st (bu_expr x) (ChBin column s (Some (if_not name (column ++ "_binned")))) Logic.I) as D. cbn [changed] in D.
    destruct (bin_expr _ _ _ _ _) as [e|e]; cbn [bind decided] in *.
    + destruct (keys_are_a_set KW _ _ K) as (c & r & ->). cbn [group_by raise_if bind aggregate mech_of upper upper_char].
      cbn. intros y F. inversion F; subst. congruence.
    + exfalso. inversion D as [| | | | | | | | | | | | | |? ? X]. destruct name as [[|a n]|]; cbn [if_not] in *; try discriminate; destruct column; discriminate.
  - destruct (OB _ N) as (x & E & I). rewrite E. cbn [bind]. apply decided_bind_ok. unfold group_by.
    destruct keys as [c r|s|l]; cbn [raise_if bind].
    + cbn [decided]. intros e F. inversion F.
    + destruct (st_auto st) eqn:A; cbn [negb raise_if bind decided]; [intros e F; inversion F; congruence|apply FGroupName; exact A].
    + destruct (st_auto st) eqn:A; cbn [negb raise_if bind decided]; [intros e F; inversion F; congruence|apply FGroupList; exact A].
  - destruct (nth_error (st_groups st) g) as [o|] eqn:G; [|congruence]. unfold object. rewrite G. cbn [bind]. apply decided_bind_ok.
    pose proof (aggregate_decided (st_auto st) o a) as D. destruct (aggregate _ _ _ _); cbn [decided] in *.
    + intros e F. inversion F; subst; [eapply D; left; eassumption|]. eapply D. right. rewrite G in H1. injection H1 as <-. eauto.
    + destruct D as [D|(((l & K) & A) & ->)]; [constructor; exact D|]. eapply FAuto; eassumption.
  - destruct (nth_error (st_queries st) q) as [o|] eqn:G; [|congruence]. unfold object. rewrite G. cbn [bind]. apply decided_bind_ok.
    unfold suppress. destruct (q_suppress o) eqn:S; cbn [negb raise_if bind].
    + destruct (T2 o (nth_error_In _ _ G) S) as (c & k & out & m & co & X). rewrite X. cbn [post_init is_groupby_count negb raise_if bind decided].
      intros e F. inversion F; subst. congruence.
    + cbn [decided]. eapply FSuppress; eassumption.
  - cbn [snd decided]. intros e F. inversion F.
Qed.

(** ** C72 *)

(** Whatever has been done with builders before: a call on existing objects is refused
    exactly if there is a fault in its arguments, with the exception the fault calls for
    (the first one found, if there are several), and then changes nothing. *)
Theorem C72_refused_exactly_for_faults : forall auto l c st' r,
  named_by (run (init auto) l) c -> step (run (init auto) l) c = (st', r) ->
  match r with
  | Ok _ => forall e, ~ fault (run (init auto) l) c e
  | Err e => fault (run (init auto) l) c e /\ st' = run (init auto) l
  end.
Proof.
  intros auto l c st' r N H.
  assert (T : tidy (run (init auto) l)) by (apply run_tidy; split; intros ? []).
  pose proof (step_decided _ c T N) as D. rewrite H in D. cbn [snd] in D. destruct r as [x|e]; cbn [decided] in D; [exact D|].
  split; [exact D|]. eapply C42_failed_calls_change_nothing, H.
Qed.

(** A call without a fault always works. *)
Corollary C72_faultless_calls_work : forall auto l c,
  named_by (run (init auto) l) c -> (forall e, ~ fault (run (init auto) l) c e) -> exists st', step (run (init auto) l) c = (st', Ok tt).
Proof.
  intros auto l c N F. destruct (step (run (init auto) l) c) as (st', r) eqn:H. pose proof (C72_refused_exactly_for_faults auto l c st' r N H) as D.
  destruct r as [[]|e]; [eauto|]. destruct D as (D & _). destruct (F e D).
Qed.
End Calls.
Print Assumptions C72_refused_exactly_for_faults.
Print Assumptions C72_faultless_calls_work.

(** Truncation strategies and constraints are made exactly with positive bounds and
    non-empty column names. *)
Theorem C72_bounds_are_positive : forall g z,
  (mk_drop_excess z = if (1 <=? z)%Z then Ok (DropExcess (Z.to_nat z)) else Err ValueError)
  /\ ((1 <= z)%Z -> mk_max_rows_per_id z = Ok (MaxRowsPerID (Z.to_nat z)))
  /\ ((z < 1)%Z -> mk_max_rows_per_id z = Err ValueError)
  /\ ((1 <= z)%Z -> g <> "" -> mk_max_groups_per_id g z = Ok (MaxGroupsPerID g (Z.to_nat z)) /\ mk_max_rows_per_group_per_id g z = Ok (MaxRowsPerGroupPerID g (Z.to_nat z)))
  /\ ((z < 1)%Z \/ g = "" -> mk_max_groups_per_id g z = Err ValueError /\ mk_max_rows_per_group_per_id g z = Err ValueError).
Proof.
  intros g z. unfold mk_drop_excess, mk_max_rows_per_id, mk_max_groups_per_id, mk_max_rows_per_group_per_id.
  destruct (Z.ltb_spec z 1), (Z.leb_spec 1 z), (String.eqb_spec g ""); cbn [raise_if bind]; repeat split; intros; try reflexivity; try lia; try congruence; exfalso;
    match goal with H : _ \/ _ |- _ => destruct H; [lia|congruence] end.
Qed.
Print Assumptions C72_bounds_are_positive.

(** Faults of many kinds, and the calls that follow them unharmed. *)
Section Case.
Notation KW0 := Props_KeySet.W0.
Definition show0 (x : pynum) : string := "q".
Definition some_calls : list call := [New "trips"; Change 0 (ChFilter "cost > 0"); GroupBy 0 (ByName "city"); New "2nd"; Clone 0].
Notation st1 := (QueryBuilder.run KW0 show0 (init false) some_calls).
Notation st2 := (QueryBuilder.run KW0 show0 (init true) some_calls).
Example C72_case :
  (* grouping by a column needs automatic partition selection *)
  (length (st_groups st1) = 0 /\ length (st_groups st2) = 1 /\ length (st_builders st1) = 2)
  /\ Forall (fun c => named_by st1 c /\ (exists e, fault KW0 st1 c e) /\ exists e, QueryBuilder.step KW0 show0 st1 c = (st1, Err e))
       [New ""; Change 1 (ChJoinPublic (PubName "codes") (SList ["a"; "a"]) "inner"); Change 0 (ChJoinPublic (PubName "codes") SNone "outer");
        Change 0 (ChReplaceNull (Some [("a", VInt 1); ("b", VFloat FNan)])); Change 0 (ChSelect (CList ["a"; "b"; "a"]));
        Change 0 (ChMap (fun r => r) [("y", RName "INT")] true); Change 0 (ChFlatMap (fun r => [r]) [("y", RName "INTEGER")] true false (Some (-1)%Z));
        Total 0 (UBounded BSum "x" (PInt 3) (PFloat (z_to_f 3)) None (MechName "laplace")); Total 0 (UQuantile "x" (PInt 2) (PInt 0) (PInt 1) None);
        GroupBy 0 (ByList ["city"])]
  /\ Forall (fun c => named_by st2 c /\ exists st', QueryBuilder.step KW0 show0 st2 c = (st', Ok tt))
       [New "a1"; Change 1 (ChJoinPublic (PubName "codes") (SList ["a"; "b"]) "left"); Change 0 (ChReplaceNull (Some [("a", VInt 1)]));
        Change 0 (ChFlatMap (fun r => [r]) [("y", RName "INTEGER")] true true (Some 0%Z)); Aggregate 0 (UBounded BSum "x" (PInt 3) (PFloat (z_to_f 4)) None (MechName "Gaussian"))].
Proof.
  split; [repeat split; vm_compute; reflexivity|]. split.
  - Ltac show_fault tac := constructor; [split; [vm_compute; auto; try (split; [discriminate|exact I]); try discriminate|split; [exists ValueError; constructor; tac|eexists; vm_compute; reflexivity]]|].
    show_fault ltac:(vm_compute; intros []).
    show_fault ltac:(apply FPublicOn; exists ["a"; "a"]; split; [reflexivity|right]; intros N; inversion N as [|? ? X]; apply X; cbn; auto).
    show_fault ltac:(apply FPublicHow; discriminate).
    show_fault ltac:(eapply FReplaceNull with (c := "b"); [right; left; reflexivity|auto]).
    show_fault ltac:(apply FSelect; intros N; inversion N as [|? ? X]; apply X; cbn; auto).
    show_fault ltac:(apply FMap; exists "y", (RName "INT"); split; [left; reflexivity|right]; exists "INT"; split; [reflexivity|]; cbn; intuition discriminate).
    show_fault ltac:(apply FFlatMapRows; lia).
    show_fault ltac:(apply FBoundedBounds; apply fnum_ge_iff; vm_compute; reflexivity).
    show_fault ltac:(apply FQuantile; intros (_ & X); apply fnum_ge_iff in X; vm_compute in X; discriminate).
    show_fault ltac:(vm_compute; reflexivity).
    constructor.
  - repeat (constructor; [split; [vm_compute; auto; try (split; [discriminate|exact I]); try discriminate|eexists; vm_compute; reflexivity]|]). constructor.
Qed.
End Case.
