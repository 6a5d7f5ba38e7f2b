(** C61: KeySets are values.
    Model: KeySetObject.v (KeySets as Python objects with remembered dataframes and sizes).
    Specification: KeySetObjectSpec.v ([spec_run]: the same program over KeySets that cannot
    change; [lists_left_alone]; [stored], [wants]). *)
From Coq Require Import String Bool Arith ZArith Lia List.
From Verif Require Import Prelude Value KeySet KeySetObject KeySetObjectSpec KeySetObjectProofs KeySetStorage.
Import ListNotations.
Local Open Scope string_scope.
Local Open Scope nat_scope.

(** Whatever a program does with any number of KeySets, in any order, every call answers as
    if KeySets never changed: earlier calls, caching and derived KeySets make no difference.
    Missing from the full statement: programs that change a list of columns after handing
    it to a KeySet (see the refutation below). *)
Theorem C61_keysets_never_change_partial :
  forall (W : world) (cs : list call),
    lists_left_alone cs -> snd (run W empty cs) = spec_run W bare cs.
Proof. intros. apply run_spec. assumption. Qed.
Print Assumptions C61_keysets_never_change_partial.

(** For all programs: once dataframe() or size() has answered, it never answers otherwise. *)
Theorem C61_dataframe_and_size_are_final :
  forall (W : world) (cs : list call) (k : nat),
    (forall f g, In (DataframeCall k, Ok (AFrame f)) (snd (run W empty cs)) ->
                 In (DataframeCall k, Ok (AFrame g)) (snd (run W empty cs)) -> f = g)
    /\ (forall m n, In (SizeCall k, Ok (ASize m)) (snd (run W empty cs)) ->
                    In (SizeCall k, Ok (ASize n)) (snd (run W empty cs)) -> m = n).
Proof.
  intros W cs k. pose proof (run_tells W empty [] cs empty_tells) as [F _]. specialize (F k).
  cbn [app] in F. unfold fits, shown, sized in F.
  destruct (nth_error (objects (fst (run W empty cs))) k) as [o|].
  - destruct F as (_ & _ & D & Z). split.
    + intros f g A B. apply D in A, B. congruence.
    + intros f g A B. apply Z in A, B. congruence.
  - destruct F as (_ & _ & D & Z). split.
    + intros f g A. destruct (D f A).
    + intros f g A. destruct (Z f A).
Qed.
Print Assumptions C61_dataframe_and_size_are_final.

(** For all programs: a KeySet's dataframe is in Spark's storage only while the last of
    cache() and uncache() called on it is cache(), and then it is there as soon as it has
    been shown; Spark is never asked to store what it already stores (which it warns about). *)
Theorem C61_storage_follows_cache_and_uncache :
  forall (W : world) (cs : list call),
    let (h, t) := run W empty cs in
    (forall k, wants k t = false -> stored k (spark h) = false)
    /\ (forall k f, wants k t = true -> In (DataframeCall k, Ok (AFrame f)) t ->
          stored k (spark h) = true)
    /\ (forall before k after, spark h = (before ++ Persist k :: after)%list -> stored k before = false).
Proof.
  intros W cs. pose proof (run_tells W empty [] cs empty_tells) as [F C].
  destruct (run W empty cs) as [h t]. cbn [app fst snd] in F, C. unfold fits, shown, sized, asked in F.
  repeat split; auto.
  - intros k Wk. specialize (F k). destruct (nth_error (objects h) k) as [o|].
    + destruct F as (-> & E & _). rewrite <- E, Wk. reflexivity.
    + apply F.
  - intros k f Wk Sh. specialize (F k). destruct (nth_error (objects h) k) as [o|].
    + destruct F as (-> & E & D & _). rewrite (D f Sh), <- E, Wk. reflexivity.
    + destruct F as (_ & _ & D & _). destruct (D f Sh).
Qed.
Print Assumptions C61_storage_follows_cache_and_uncache.

(** ** Sample programs *)
Definition W0 : world := {|
  content := fun _ => [[VInt 1; VStr "x"]; [VInt 2; VStr "y"]];
  holds := fun c g => match g "a" with VInt z => (z =? 2)%Z | _ => false end;
  holds_ext := fun c g h H => f_equal (fun v => match v with VInt z => (z =? 2)%Z | _ => false end) (H "a");
  hval := fun _ => 0%Z |}.

(** A program that reuses one list for several KeySets, caches, compares and derives. *)
Definition sample : list call :=
  [ NewList ["b"]; SetList 0 ["a"]; FromTuplesCall [[VInt 1]; [VInt 2]] (Kept 0);
    FromTuplesCall [[VInt 2]; [VInt 1]] (Kept 0); CacheCall 0; EqualCall 0 1;
    FromTuplesCall [[VStr "x"]] (Given ["c"]); MulCall 0 2; SelectCall 3 (Kept 0); EqualCall 0 4;
    DataframeCall 3; SizeCall 3; DataframeCall 0; UncacheCall 0; ColumnsCall 4; DetectCall (Given ["z"]);
    SizeCall 5 ].
Example C61_example :
  lists_left_alone sample
  /\ map snd (snd (run W0 empty sample)) =
     [ Ok (AList 0); Ok ANone; Ok (AKeySet 0); Ok (AKeySet 1); Ok ANone; Ok (AVerdict (Some true));
       Ok (AKeySet 2); Ok (AKeySet 3); Ok (AKeySet 4); Ok (AVerdict (Some true));
       Ok (AFrame {| fcols := ["a"; "c"]; frows := [[VInt 1; VStr "x"]; [VInt 2; VStr "x"]] |});
       Ok (ASize 2%Z);
       Ok (AFrame {| fcols := ["a"]; frows := [[VInt 1]; [VInt 2]] |}); Ok ANone;
       Ok (AColumns ["a"]); Ok (AKeySet 5); Err AttributeError ].
Proof.
  split; [|reflexivity].
  intros before l new after E c I. unfold sample in E.
  destruct before as [|x before]; [discriminate|]. injection E as <- E.
  destruct before as [|y before].
  - destruct I as [<-|[]]. intros [].
  - exfalso. injection E as <- E.
    repeat (destruct before as [|? before]; [discriminate|]; injection E as <- E).
    destruct before; discriminate.
Qed.

(** cache() before and after the dataframe exists, and uncache(). *)
Definition caching : list call :=
  [ FromFrameCall 0 [("a", {| cd_type := INTEGER; cd_null := true; cd_nan := false; cd_inf := false |});
                     ("b", {| cd_type := VARCHAR; cd_null := true; cd_nan := false; cd_inf := false |})];
    CacheCall 0; DataframeCall 0; CacheCall 0; DataframeCall 0; UncacheCall 0; CacheCall 0 ].
Example C61_storage_example :
  exists h t, run W0 empty caching = (h, t) /\ spark h = [Persist 0; Unpersist 0; Persist 0]
    /\ wants 0 t = true /\ exists f, In (DataframeCall 0, Ok (AFrame f)) t.
Proof.
  eexists _, _. split; [reflexivity|]. split; [reflexivity|]. split; [reflexivity|].
  eexists. right. right. left. reflexivity.
Qed.

(** A KeySet does not copy the list of columns it is given.  When the caller changes the list
    later, columns() changes with it, schema() raises, and dataframe() raises or, when it
    has been called before, disagrees with columns(). *)
Theorem C61_callers_list_changes_keyset_refuted :
  exists (W : world) (cs : list call) (k k' l : nat) f,
    snd (run W empty cs) =
    [ (NewList ["a"], Ok (AList l));
      (FromTuplesCall [[VInt 1]] (Kept l), Ok (AKeySet k));
      (FromTuplesCall [[VInt 2]] (Kept l), Ok (AKeySet k'));
      (ColumnsCall k, Ok (AColumns ["a"]));
      (DataframeCall k, Ok (AFrame f));
      (SetList l ["b"], Ok ANone);
      (ColumnsCall k, Ok (AColumns ["b"]));
      (SchemaCall k, Err KeyError);
      (DataframeCall k, Ok (AFrame f));
      (DataframeCall k', Err InternalError) ]
    /\ fcols f = ["a"].
Proof.
  exists W0, [ NewList ["a"]; FromTuplesCall [[VInt 1]] (Kept 0); FromTuplesCall [[VInt 2]] (Kept 0);
               ColumnsCall 0; DataframeCall 0; SetList 0 ["b"]; ColumnsCall 0; SchemaCall 0;
               DataframeCall 0; DataframeCall 1 ], 0, 1, 0.
  eexists. split; reflexivity.
Qed.
Print Assumptions C61_callers_list_changes_keyset_refuted.
