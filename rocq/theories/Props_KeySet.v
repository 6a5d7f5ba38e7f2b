(** C08-C13: KeySets.

    The specification is in KeySetApi.v ([kexpr]: a program that builds a KeySet; [kcols],
    [kden]: its documented columns and keys; [usable]: the guard), KeySetTotalApi.v
    ([kvalid]: the documented requirements of each operation) and KeySetMoreApi.v
    ([has_key]: the keys a KeySet object shows through dataframe()). *)
From Coq Require Import String Bool Arith ZArith Lia List.
From Verif Require Import Prelude Value KeySet KeySetSem KeySetRules KeySetApi KeySetMore KeySetTotal
  KeySetTotalRules KeySetTotalApi KeySetMoreApi.
Import ListNotations.
Local Open Scope string_scope.

(** ** C08 *)

(** dataframe() of a KeySet built by any nesting of the operations shows the documented
    columns, in order, and one row for each documented key. *)
Theorem C08_keyset_means_relational_algebra :
  forall (W : world) (D : oracle) (e : kexpr) (k : keyset),
    usable W D e -> eval W e = Ok k -> concrete e = true -> kcols e <> [] ->
    exists f, ks_dataframe W k = Ok f /\ fcols f = kcols e
      /\ (forall r, In r (frows f) -> length r = length (kcols e)) /\ NoDup (frows f)
      /\ forall key, In (map key (kcols e)) (frows f) <-> kden W D e key.
Proof. exact eval_dataframe. Qed.

(** The same for plans, whose keys depend on the outcome [D] of partition selection: the
    stored tree has exactly the documented columns and, for every [D], the documented keys. *)
Theorem C08_plan_means_relational_algebra :
  forall (W : world) (e : kexpr) (k : keyset) (D : oracle),
    usable W D e -> eval W e = Ok k ->
    ks_cols k = kcols e
    /\ (forall c, In c (columns (ks_tree k)) <-> In c (kcols e))
    /\ forall key, den W D (ks_tree k) key <-> kden W D e key.
Proof.
  intros W e k D U E. destruct (eval_stands W D e U k E) as ((_ & Cs & Sc & Dn & _) & _). auto.
Qed.

(** ** Sample data *)
Definition W0 : world := {|
  content := fun p => match p with O => [] | _ => [[VInt 1; VStr "x"]; [VInt 2; VStr "y"]; [VInt 2; VStr "y"]] end;
  holds := fun c g => match g "a" with VInt z => (z =? 2)%Z | _ => false end;
  holds_ext := fun c g h H => f_equal (fun v => match v with VInt z => (z =? 2)%Z | _ => false end) (H "a");
  hval := fun _ => 0%Z |}.
Definition D0 : oracle.
Proof. refine {| found := fun _ _ => True; found_ext := _ |}. intros; tauto. Defined.
Definition tab := EFrame 1 [("a", {| cd_type := INTEGER; cd_null := true; cd_nan := false; cd_inf := false |});
                            ("b", {| cd_type := VARCHAR; cd_null := true; cd_nan := false; cd_inf := false |})].
Definition cvals := ETuples [[VInt 7]; [VInt 8]; [VInt 7]] ["c"].
Definition bvals := ETuples [[VStr "y"]; [VStr "z"]] ["b"].
(** ((tab × c) join b-values) - (c = 8), projected on c and a, filtered by a = 2. *)
Definition sample :=
  EFilter (EProj (ESub (EJoin (EMul tab cvals) bvals) (ETuples [[VInt 8]] ["c"])) ["c"; "a"]) (CondStr "a = 2").

Example C08_example :
  usable W0 D0 sample /\ exists k f, eval W0 sample = Ok k /\ ks_dataframe W0 k = Ok f
    /\ fcols f = ["c"; "a"] /\ frows f = [[VInt 7; VInt 2]].
Proof.
  split.
  - assert (Ut : usable W0 D0 tab).
    { split; [simpl; repeat constructor; simpl; intuition discriminate|].
      simpl. intros r [<-|[<-|[<-|[]]]]; reflexivity. }
    split; [|discriminate]. split; [|exists (fun c => if c =? "a" then VInt 2 else if c =? "b" then VStr "y" else VInt 7)].
    + split; [|split; [exact I|discriminate]]. split; [split; [exact Ut|exact I]|exact I].
    + split.
      * split; [split; [right; simpl; auto|right; simpl; auto]|right; simpl; auto].
      * simpl. intros [H|[H|[]]]; discriminate.
  - eexists _, _. split; [vm_compute; reflexivity|]. split; [vm_compute; reflexivity|]. split; reflexivity.
Qed.

(** Without the guard the property fails: with A empty, (A × B)[b] shows B's keys. *)
Definition none := ESub (ETuples [[VInt 1]] ["a"]) (ETuples [[VInt 1]] ["a"]).
Theorem C08_projection_of_empty_product_refuted :
  exists (W : world) (e : kexpr) k f key,
    kvalid W e /\ concrete e = true /\ eval W e = Ok k /\ ks_dataframe W k = Ok f
    /\ In (map key (kcols e)) (frows f) /\ forall D, ~ kden W D e key.
Proof.
  exists W0, (EProj (EMul none bvals) ["b"]). eexists _, _, (fun _ => VStr "y").
  split; [|split; [reflexivity|split; [vm_compute; reflexivity|split; [vm_compute; reflexivity|split; [vm_compute; auto|]]]]].
  - split; [|split; [|split; [discriminate|]]].
    + split; [|split].
      * split; [|split].
        -- split; [repeat constructor; simpl; tauto|]. split; [simpl; intuition discriminate|].
           split; [intros r [<-|[]]; reflexivity|]. split; [discriminate|].
           intros i Hi. exists INTEGER. split; [left; reflexivity|]. simpl in Hi. assert (i = 0)%nat by lia; subst.
           simpl. split; [exists (VInt 1); simpl; auto|intros v [<-|[]]; auto].
        -- split; [repeat constructor; simpl; tauto|]. split; [simpl; intuition discriminate|].
           split; [intros r [<-|[]]; reflexivity|]. split; [discriminate|].
           intros i Hi. exists INTEGER. split; [left; reflexivity|]. simpl in Hi. assert (i = 0)%nat by lia; subst.
           simpl. split; [exists (VInt 1); simpl; auto|intros v [<-|[]]; auto].
        -- simpl. tauto.
      * split; [repeat constructor; simpl; tauto|]. split; [simpl; intuition discriminate|].
        split; [intros r [<-|[<-|[]]]; reflexivity|]. split; [discriminate|].
        intros i Hi. exists VARCHAR. split; [right; right; reflexivity|]. simpl in Hi. assert (i = 0)%nat by lia; subst.
        simpl. split; [exists (VStr "y"); simpl; auto|intros v [<-|[<-|[]]]; auto].
      * simpl. intros c [<-|[]] [H|[]]; discriminate.
    + repeat constructor; simpl; tauto.
    + simpl. tauto.
  - intros D (k' & [[H1 H2] _] & _). tauto.
Qed.

(** ** C09 *)

(** Rewriting a tree over KeySets that have keys preserves columns and keys. *)
Theorem C09_optimizing_preserves_keys_partial :
  forall (W : world) (D : oracle) (o o' : op),
    good W D o -> is_plan o = false -> columns o <> [] -> rewrite W o = Ok o' ->
    exists f f', dataframe W o = Ok f /\ dataframe W o' = Ok f'
      /\ (forall c, In c (fcols f) <-> In c (fcols f'))
      /\ (forall key, In (map key (fcols f)) (frows f) <-> In (map key (fcols f')) (frows f')).
Proof.
  intros W D o o' G P N E. destruct (rewrite_sound W D o o' G E) as [G' (C & Dn & P' & _)].
  destruct (dataframe_correct W D o (proj1 G) P N) as (f & Ef & (Wf & _ & Cf & Hf)).
  destruct (dataframe_correct W D o') as (f' & Ef' & (Wf' & _ & Cf' & Hf')); [apply G'|auto| |].
  { eapply nonempty_same; [|exact N]. exact C. }
  exists f, f'. split; [assumption|]. split; [assumption|]. split.
  - intros c. rewrite Cf, Cf'. apply C.
  - intros key. change (has f key <-> has f' key). rewrite Hf, Hf'. apply Dn.
Qed.

(** The same for plans, for every outcome of partition selection. *)
Theorem C09_optimizing_preserves_plans_partial :
  forall (W : world) (D : oracle) (o o' : op),
    good W D o -> rewrite W o = Ok o' ->
    (forall c, In c (columns o) <-> In c (columns o'))
    /\ (forall key, den W D o key <-> den W D o' key)
    /\ (is_plan o = false -> is_plan o' = false).
Proof.
  intros W D o o' G E. destruct (rewrite_sound W D o o' G E) as [_ (C & Dn & P & _)]. auto.
Qed.

(** The guard is needed: a projection of a cross product forgets an empty factor. *)
Definition ints := [("a", {| cd_type := INTEGER; cd_null := false; cd_nan := false; cd_inf := false |})].
Definition strs := [("b", {| cd_type := VARCHAR; cd_null := false; cd_nan := false; cd_inf := false |})].
Theorem C09_optimizing_adds_keys_refuted :
  exists (W : world) (o o' : op) f f', rewrite W o = Ok o' /\ dataframe W o = Ok f /\ dataframe W o' = Ok f'
    /\ fcols f = fcols f' /\ frows f = [] /\ frows f' <> [].
Proof.
  exists W0. eexists (Project (CrossJoin false [FromDF 0 ints; FromTuples [[VStr "y"]] strs]) ["b"]), _, _, _.
  split; [vm_compute; reflexivity|]. split; [vm_compute; reflexivity|]. split; [vm_compute; reflexivity|].
  split; [reflexivity|]. split; [reflexivity|discriminate].
Qed.

Definition tree0 := Project (CrossJoin false [Join (FromTuples [[VInt 1]; [VInt 2]] ints) (FromDF 1
     [("a", {| cd_type := INTEGER; cd_null := true; cd_nan := false; cd_inf := false |});
      ("b", {| cd_type := VARCHAR; cd_null := true; cd_nan := false; cd_inf := false |})]);
   FromTuples [[VInt 5]] [("c", {| cd_type := INTEGER; cd_null := false; cd_nan := false; cd_inf := false |})]]) ["b"; "c"].
Example C09_example :
  good W0 D0 tree0 /\ is_plan tree0 = false /\ exists o', rewrite W0 tree0 = Ok o' /\ o' <> tree0.
Proof.
  split; [|split; [reflexivity|eexists; split; [vm_compute; reflexivity|discriminate]]].
  split.
  - simpl. repeat split; try (repeat constructor; simpl; intuition discriminate);
      try (intros ? [<-|[<-|[<-|[]]]]; reflexivity); try (intros ? [<-|[<-|[]]]; reflexivity);
      try (intros ? [<-|[]]; reflexivity); try discriminate.
    + exists "a". simpl. auto.
    + apply FOP_cons; [constructor; [|constructor]|apply FOP_cons; constructor].
      simpl. intuition congruence.
    + tauto.
  - simpl. repeat split.
    exists (fun c => if c =? "a" then VInt 1 else if c =? "b" then VStr "x" else VInt 5).
    repeat split; simpl; auto.
Qed.

(** ** C10 *)

(** Every KeySet built according to the documented requirements, where the KeySets of a
    chain of joins have a column in common and filters are SQL strings, can be built,
    and so optimized, and shown. *)
Theorem C10_optimizing_succeeds_partial :
  forall (W : world) (D : oracle) (e : kexpr),
    usable W D e -> kvalid W e -> concrete e = true ->
    exists k, eval W e = Ok k /\ (exists s, ks_schema k = Ok s)
      /\ (kcols e <> [] -> exists f, ks_dataframe W k = Ok f) /\ exists n, ks_size W k = Ok n.
Proof.
  intros W D e U V C. destruct (eval_total W D e U V C) as (k & E & B). exists k. split; [assumption|].
  destruct (eval_stands W D e U k E) as (S & P & ND). split; [|split].
  - destruct (ks_schema_total W D _ _ _ _ B ND) as (s & Es & _). eauto.
  - intros N. destruct (eval_dataframe W D e k U E C N) as (f & Ef & _). eauto.
  - destruct (stands_size W D _ _ _ S (P C)) as [S1 S2]. destruct (kcols e) as [|c cs]; [eauto|].
    destruct S2 as (f & _ & Es); [discriminate|eauto].
Qed.

(** The sample above meets the hypotheses. *)
Lemma tuples_valid W ts c t : (forall r, In r ts -> exists v, r = [v] /\ value_type v = Some t) -> ts <> [] ->
  key_type t -> c <> "" -> kvalid W (ETuples ts [c]).
Proof.
  intros H N K Nc. split; [repeat constructor; simpl; tauto|]. split; [simpl; intuition congruence|].
  split; [intros r Hr; destruct (H r Hr) as (v & -> & _); reflexivity|]. split; [discriminate|].
  intros i Hi. exists t. split; [assumption|]. simpl in Hi. assert (i = 0)%nat by lia; subst i. split.
  - destruct ts as [|r ts]; [congruence|]. destruct (H r (or_introl eq_refl)) as (v & -> & Ev).
    exists v. simpl; auto.
  - intros v Hv. apply in_map_iff in Hv as (r & <- & Hr). destruct (H r Hr) as (w & -> & Ew). right. exact Ew.
Qed.
Ltac singles := intros r Hr; repeat (destruct Hr as [<-|Hr]; [eexists; split; reflexivity|]); destruct Hr.
Example C10_example : usable W0 D0 sample /\ kvalid W0 sample /\ concrete sample = true.
Proof.
  split; [apply C08_example|]. split; [|reflexivity].
  assert (Vt : kvalid W0 tab).
  { split; [simpl; intuition discriminate|]. split; [discriminate|].
    intros c cd [H|[H|[]]]; inversion H; subst; simpl; unfold key_type; auto. }
  assert (Vc : kvalid W0 cvals).
  { apply tuples_valid with (t := INTEGER); [singles|discriminate|left; reflexivity|discriminate]. }
  assert (Vb : kvalid W0 bvals).
  { apply tuples_valid with (t := VARCHAR); [singles|discriminate|right; right; reflexivity|discriminate]. }
  assert (V8 : kvalid W0 (ETuples [[VInt 8]] ["c"])).
  { apply tuples_valid with (t := INTEGER); [singles|discriminate|left; reflexivity|discriminate]. }
  split; [|exists "a = 2"; split; [reflexivity|discriminate]].
  split; [|split; [repeat constructor; simpl; intuition discriminate|split; [discriminate|simpl; tauto]]].
  split; [|split; [assumption|simpl; tauto]].
  split; [|split; [assumption|split]].
  - split; [assumption|]. split; [assumption|]. simpl. intros c [<-|[<-|[]]] [H|[]]; discriminate.
  - intros c t t' Ht Ht'.
    assert (c = "b" /\ t' = VARCHAR) as [-> ->].
    { destruct Ht' as (i & Ei & (v & Hv & Tv) & _). destruct i as [|[|i]]; try discriminate. inversion Ei; subst.
      split; [reflexivity|]. simpl in Hv. destruct Hv as [<-|[<-|[]]]; inversion Tv; reflexivity. }
    destruct Ht as [(cd & [H|[H|[]]] & <-)|(i & Ei & _)].
    + inversion H.
    + inversion H; subst. reflexivity.
    + destruct i as [|[|i]]; discriminate.
  - exists "b". simpl. auto.
Qed.

(** Joining ACD with C and then with D: each join shares a column, and the result has a
    documented meaning, but the optimizer pairs C with D and raises. *)
Definition acd := ETuples [[VInt 1; VInt 2; VInt 3]] ["a"; "c"; "d"].
Theorem C10_chain_of_joins_refuted :
  exists (W : world) (a b c : kexpr) x ka kb kc key,
    eval W (EJoin a b) = Ok x /\ eval W a = Ok ka /\ eval W b = Ok kb /\ eval W c = Ok kc
    /\ (exists col, In col (kcols (EJoin a b)) /\ In col (kcols c))
    /\ (forall D, kden W D (EJoin (EJoin a b) c) key)
    /\ eval W (EJoin (EJoin a b) c) = Err ValueError.
Proof.
  exists W0, acd, (ETuples [[VInt 2]] ["c"]), (ETuples [[VInt 3]] ["d"]). eexists _, _, _, _,
    (fun c => if c =? "a" then VInt 1 else if c =? "c" then VInt 2 else VInt 3).
  split; [vm_compute; reflexivity|]. split; [vm_compute; reflexivity|]. split; [vm_compute; reflexivity|].
  split; [vm_compute; reflexivity|]. split; [exists "d"; simpl; auto|].
  split; [|vm_compute; reflexivity]. intros D. simpl. auto.
Qed.

(** Removing the columnless KeySet from a product raises IndexError. *)
Theorem C10_subtract_columnless_refuted :
  exists (W : world) (a b : kexpr) ka kb,
    eval W a = Ok ka /\ eval W b = Ok kb /\ kvalid W (ESub a b) /\ eval W (ESub a b) = Err IndexError.
Proof.
  exists W0, (EMul cvals bvals), (ETuples [] []). eexists _, _.
  split; [vm_compute; reflexivity|]. split; [vm_compute; reflexivity|]. split; [|vm_compute; reflexivity].
  split; [|split; [|intros c []]].
  - split; [|split].
    + apply tuples_valid with (t := INTEGER); [singles|discriminate|left; reflexivity|discriminate].
    + apply tuples_valid with (t := VARCHAR); [singles|discriminate|right; right; reflexivity|discriminate].
    + simpl. intros c [<-|[]] [H|[]]; discriminate.
  - repeat split; try constructor; simpl; try tauto. intros i Hi. inversion Hi.
Qed.

(** A KeySet filtered by a Spark Column cannot be joined. *)
Theorem C10_column_filter_refuted :
  exists (W : world) (a b : kexpr) ka kb,
    eval W a = Ok ka /\ eval W b = Ok kb /\ kcols a = kcols b /\ eval W (EJoin a b) = Err TypeError.
Proof.
  exists W0, (EFilter cvals (CondCol 0)), cvals. eexists _, _.
  split; [vm_compute; reflexivity|]. split; [vm_compute; reflexivity|]. split; [reflexivity|vm_compute; reflexivity].
Qed.

(** ** C11 *)

(** size() is the number of rows of dataframe(), whose rows are distinct; a columnless
    KeySet has size 1. *)
Theorem C11_size_counts_keys :
  forall (W : world) (D : oracle) (e : kexpr) (k : keyset),
    usable W D e -> eval W e = Ok k -> concrete e = true ->
    (kcols e = [] -> ks_size W k = Ok 1%Z)
    /\ (kcols e <> [] -> exists f, ks_dataframe W k = Ok f /\ NoDup (frows f)
          /\ ks_size W k = Ok (Z.of_nat (length (frows f)))).
Proof.
  intros W D e k U E C. destruct (eval_stands W D e U k E) as (S & P & ND).
  destruct (stands_size W D _ _ _ S (P C)) as [S1 S2]. split; [exact S1|]. intros N.
  destruct (S2 N) as (f & Ef & Es). destruct (eval_dataframe W D e k U E C N) as (g & Eg & _ & _ & Nd & _).
  exists f. rewrite Ef in Eg. inversion Eg; subst. auto.
Qed.

(** The emptiness check says "empty" exactly when size() is 0, for KeySets that involve
    no zero-column Spark dataframe. *)
Theorem C11_is_empty_agrees_partial :
  forall (W : world) (D : oracle) (e : kexpr) (k : keyset),
    usable W D e -> eval W e = Ok k -> concrete e = true -> no_columnless_df (ks_tree k) ->
    exists b n, is_empty W (ks_tree k) = Ok b /\ ks_size W k = Ok n /\ (b = true <-> n = 0%Z).
Proof.
  intros W D e k U E C ND. destruct (eval_stands W D e U k E) as (S & P & _). specialize (P C).
  assert (G := proj1 (proj1 S)).
  destruct (is_empty_correct W D _ G P ND) as (b & Eb & V). exists b.
  destruct (stands_size W D _ _ _ S P) as [S1 S2]. destruct S as (_ & _ & Sc & Dn & _).
  destruct (kcols e) as [|c cs] eqn:K.
  - exists 1%Z. split; [assumption|]. split; [auto|]. split; [|discriminate].
    intros ->. exfalso. apply (V (fun _ => VNull)). apply den_total; [assumption|].
    destruct (columns (ks_tree k)) as [|c t]; [reflexivity|]. exfalso. apply (Sc c). simpl; auto.
  - destruct S2 as (f & Ef & Es); [discriminate|]. eexists. split; [assumption|]. split; [exact Es|].
    assert (N : kcols e <> []) by (rewrite K; discriminate).
    destruct (eval_dataframe W D e k U E C N) as (g & Eg & Cg & Wg & Nd & Hg). rewrite Ef in Eg. inversion Eg; subst g.
    assert (R : frows f = [] <-> forall rho, ~ kden W D e rho).
    { split.
      - intros Z rho H. apply Hg in H. rewrite Z in H. destruct H.
      - intros H. destruct (frows f) as [|r rs] eqn:R; [reflexivity|]. exfalso.
        apply (H (rget (kcols e) r)). apply Hg. rewrite map_rget; [simpl; auto| |apply Wg; simpl; auto].
        apply (eval_stands W D e U k E). }
    destruct b; simpl in V.
    + split; [intros _|reflexivity]. rewrite (proj2 R); [reflexivity|]. intros rho H. apply (V rho), Dn, H.
    + split; [discriminate|]. intros Z. exfalso. destruct V as (rho & H). apply Dn in H.
      assert (X : frows f = []) by (destruct (frows f); [reflexivity|simpl in Z; lia]). rewrite R in X. apply (X rho H).
Qed.

Example C11_example : exists k, eval W0 sample = Ok k /\ no_columnless_df (ks_tree k)
  /\ ks_size W0 k = Ok 1%Z /\ exists k', eval W0 (EMul tab cvals) = Ok k' /\ ks_size W0 k' = Ok 4%Z.
Proof.
  eexists. split; [vm_compute; reflexivity|]. split; [|split; [vm_compute; reflexivity|eexists; split; vm_compute; reflexivity]].
  simpl. repeat split; try discriminate. 
Qed.

(** A zero-column Spark dataframe is "empty" yet has size 1. *)
Theorem C11_columnless_dataframe_refuted :
  exists (W : world) (p : nat) k, eval W (EFrame p []) = Ok k
    /\ is_empty W (ks_tree k) = Ok true /\ ks_size W k = Ok 1%Z.
Proof. exists W0, 0. eexists. split; [vm_compute; reflexivity|]. split; vm_compute; reflexivity. Qed.

(** ** C12 *)

(** The keys of a KeySet are those in every factor and in no subtracted part; the factors
    cover its columns and share only split columns ([decomposes], KeySetMoreApi.v). *)
Theorem C12_decompose_loses_no_keys :
  forall (W : world) (D : oracle) (e : kexpr) (k : keyset) (split : list string) fs ss,
    usable W D e -> eval W e = Ok k -> concrete e = true ->
    ks_decompose W k split = Ok (fs, ss) -> decomposes W split k fs ss.
Proof.
  intros W D e k split fs ss U E C Ed. destruct (eval_stands W D e U k E) as (S & P & _).
  exact (ks_decompose_correct W D k _ _ split fs ss S (P C) Ed).
Qed.
Theorem C12_decompose_succeeds_partial :
  forall (W : world) (D : oracle) (e : kexpr) (split : list string),
    usable W D e -> kvalid W e -> concrete e = true ->
    exists k fs ss, eval W e = Ok k /\ ks_decompose W k split = Ok (fs, ss).
Proof.
  intros W D e split U V C. destruct (eval_total W D e U V C) as (k & E & B).
  destruct (eval_stands W D e U k E) as (S & P & ND).
  destruct (ks_decompose_total W D k _ _ _ split B ND) as (fs & ss & Ed). eauto 6.
Qed.
Example C12_example : exists k f1 f2 f3 s1,
  eval W0 (ESub (EJoin (EMul tab cvals) bvals) (ETuples [[VInt 1; VInt 8]] ["a"; "c"])) = Ok k
  /\ ks_decompose W0 k ["b"] = Ok ([f1; f2; f3], [s1])
  /\ ks_cols f1 = ["a"; "b"] /\ ks_cols f2 = ["b"] /\ ks_cols f3 = ["c"] /\ ks_cols s1 = ["a"; "c"].
Proof. eexists _, _, _, _, _. split; [vm_compute; reflexivity|]. split; [vm_compute; reflexivity|]. repeat split. Qed.

(** ** C13 *)

(** is_equivalent True: same columns and keys.  is_equivalent False: some column's type
    (or presence) differs.  == True: same columns and keys.  == False: a column type
    or the keys differ.  In every case the answer is the right one. *)
Theorem C13_is_equivalent_true_means_same_keys :
  forall (W : world) (D : oracle) a b ka kb,
    usable W D a -> usable W D b -> eval W a = Ok ka -> eval W b = Ok kb ->
    ks_is_equivalent ka kb = Ok (Some true) ->
    (forall c, In c (kcols a) <-> In c (kcols b)) /\ forall key, kden W D a key <-> kden W D b key.
Proof.
  intros W D a b ka kb Ua Ub Ea Eb. destruct (eval_stands W D a Ua ka Ea) as (Sa & _), (eval_stands W D b Ub kb Eb) as (Sb & _).
  exact (is_equivalent_true W D ka kb _ _ _ _ Sa Sb).
Qed.
Theorem C13_is_equivalent_false_means_types_differ :
  forall (W : world) (D : oracle) a b ka kb,
    usable W D a -> usable W D b -> concrete a = true -> concrete b = true ->
    eval W a = Ok ka -> eval W b = Ok kb -> ks_is_equivalent ka kb = Ok (Some false) -> type_differs ka kb.
Proof.
  intros W D a b ka kb Ua Ub Ca Cb Ea Eb. destruct (eval_stands W D a Ua ka Ea) as (Sa & Pa & _), (eval_stands W D b Ub kb Eb) as (Sb & Pb & _).
  exact (is_equivalent_false W D ka kb _ _ _ _ Sa Sb (Pa Ca) (Pb Cb)).
Qed.
Theorem C13_equality_verdicts :
  forall (W : world) (D : oracle) a b ka kb v,
    usable W D a -> usable W D b -> concrete a = true -> concrete b = true -> kcols a <> [] ->
    eval W a = Ok ka -> eval W b = Ok kb -> ks_eq W ka kb = Ok v ->
    if v then (forall c, In c (kcols a) <-> In c (kcols b)) /\ (forall key, kden W D a key <-> kden W D b key)
    else type_differs ka kb \/ ~ (forall key, kden W D a key <-> kden W D b key).
Proof.
  intros W D a b ka kb v Ua Ub Ca Cb N Ea Eb. destruct (eval_stands W D a Ua ka Ea) as (Sa & Pa & _), (eval_stands W D b Ub kb Eb) as (Sb & Pb & _).
  exact (ks_eq_meaning W D ka kb _ _ _ _ v Sa Sb (Pa Ca) (Pb Cb) N).
Qed.

(** For KeySets built as documented, == answers, and answers True exactly when the columns,
    their types, and the keys agree. *)
Theorem C13_equality_decides_partial :
  forall (W : world) (D : oracle) a b,
    usable W D a -> usable W D b -> kvalid W a -> kvalid W b ->
    concrete a = true -> concrete b = true -> kcols a <> [] ->
    exists ka kb v, eval W a = Ok ka /\ eval W b = Ok kb /\ ks_eq W ka kb = Ok v
    /\ (v = true <-> (forall c t, ktyp a c t <-> ktyp b c t) /\ (forall key, kden W D a key <-> kden W D b key)).
Proof.
  intros W D a b Ua Ub Va Vb Ca Cb N.
  destruct (eval_total W D a Ua Va Ca) as (ka & Ea & Ba), (eval_total W D b Ub Vb Cb) as (kb & Eb & Bb).
  destruct (eval_stands W D a Ua ka Ea) as (Sa & Pa & _), (eval_stands W D b Ub kb Eb) as (Sb & Pb & _).
  destruct (ks_eq_decides W D ka kb _ _ _ _ _ _ _ _ Sa Sb Ba Bb N) as (v & Ev & H). exists ka, kb, v. auto.
Qed.
Theorem C13_equality_reflexive : forall (W : world) (k : keyset), ks_eq W k k = Ok true.
Proof. exact ks_eq_refl. Qed.

Example C13_example : exists ka kb kc,
  eval W0 (EDict [("a", [VInt 1; VInt 2]); ("c", [VInt 7])]) = Ok ka
  /\ eval W0 (ETuples [[VInt 7; VInt 2]; [VInt 7; VInt 1]] ["c"; "a"]) = Ok kb
  /\ eval W0 (ETuples [[VInt 7; VInt 2]; [VInt 7; VInt 3]] ["c"; "a"]) = Ok kc
  /\ ks_eq W0 ka kb = Ok true /\ ks_is_equivalent ka kb = Ok None /\ ks_eq W0 ka kc = Ok false.
Proof. eexists _, _, _. repeat split; vm_compute; reflexivity. Qed.

(** Equal KeySets hash different things, hence (unless the hash collides) differently:
    the hash covers the column order, equality does not. *)
Theorem C13_hash_contract_refuted :
  exists (W : world) a b ka kb ha hb, eval W a = Ok ka /\ eval W b = Ok kb
    /\ ks_eq W ka kb = Ok true /\ ks_hash_key ka = Ok ha /\ ks_hash_key kb = Ok hb /\ ha <> hb.
Proof.
  exists W0, (EDict [("a", [VInt 1]); ("c", [VInt 7])]), (EDict [("c", [VInt 7]); ("a", [VInt 1])]). eexists _, _, _, _.
  split; [vm_compute; reflexivity|]. split; [vm_compute; reflexivity|]. split; [vm_compute; reflexivity|].
  split; [vm_compute; reflexivity|]. split; [vm_compute; reflexivity|]. discriminate.
Qed.

(** Two plans with the same documented keys in a different column order, on which
    is_equivalent answers a definite False. *)
Theorem C13_plan_column_order_refuted :
  exists (W : world) a b ka kb, eval W a = Ok ka /\ eval W b = Ok kb
    /\ (forall D key, kden W D a key <-> kden W D b key)
    /\ (forall c, In c (kcols a) <-> In c (kcols b))
    /\ ks_is_equivalent ka kb = Ok (Some false).
Proof.
  exists W0, (EMul (EDetect ["a"]) cvals), (EMul (EUnion cvals (ETuples [[VInt 7]] ["c"])) (EDetect ["a"])). eexists _, _.
  split; [vm_compute; reflexivity|]. split; [vm_compute; reflexivity|]. split; [|split; [simpl; tauto|]].
  - intros D key. simpl. tauto.
  - vm_compute. reflexivity.
Qed.

Print Assumptions C08_keyset_means_relational_algebra.
Print Assumptions C08_plan_means_relational_algebra.
Print Assumptions C08_projection_of_empty_product_refuted.
Print Assumptions C09_optimizing_preserves_keys_partial.
Print Assumptions C09_optimizing_preserves_plans_partial.
Print Assumptions C09_optimizing_adds_keys_refuted.
Print Assumptions C10_optimizing_succeeds_partial.
Print Assumptions C10_chain_of_joins_refuted.
Print Assumptions C10_subtract_columnless_refuted.
Print Assumptions C10_column_filter_refuted.
Print Assumptions C11_size_counts_keys.
Print Assumptions C11_is_empty_agrees_partial.
Print Assumptions C11_columnless_dataframe_refuted.
Print Assumptions C12_decompose_loses_no_keys.
Print Assumptions C12_decompose_succeeds_partial.
Print Assumptions C13_is_equivalent_true_means_same_keys.
Print Assumptions C13_is_equivalent_false_means_types_differ.
Print Assumptions C13_equality_verdicts.
Print Assumptions C13_equality_decides_partial.
Print Assumptions C13_equality_reflexive.
Print Assumptions C13_hash_contract_refuted.
Print Assumptions C13_plan_column_order_refuted.
