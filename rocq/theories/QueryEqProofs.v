(** What == and _is_equivalent on queries establish: specification and proofs for C37. *)
From Coq Require Import String Bool Arith ZArith QArith Qcanon Lia Permutation List.
From Verif Require Import Prelude Value Rows Constraints Schema SchemaProofs Query Transform QueryLike QueryEq.
From Verif Require KeySet KeySetApi KeySetTotalApi KeySetMoreApi KeySetTotal.
Import ListNotations.
Local Open Scope string_scope.
Local Open Scope nat_scope.

(** ** Specification: what is assumed of two queries that are compared *)

(** A KeySet built as documented. *)
Definition documented (KW : KeySet.world) (D : KeySetSem.oracle) (k : KeySet.keyset) : Prop :=
  exists e, KeySetApi.usable KW D e /\ KeySetTotalApi.kvalid KW e /\ KeySetApi.concrete e = true /\ KeySetApi.eval KW e = Ok k.

(** At every pair of corresponding expressions. *)
Fixpoint everywhere (P : qx -> qx -> Prop) (a b : qx) {struct a} : Prop :=
  P a b /\
  match a with
  | XSource _ => True
  | XJoinPrivate l r _ _ _ =>
      (forall x, In ("left_child", x) (kids b) -> everywhere P l x) /\ (forall x, In ("right_child", x) (kids b) -> everywhere P r x)
  | XGetGroups c _ | XGetBounds c _ _ _ _ | XRename c _ | XFilter c _ | XSelect c _ | XMap c _ _ _ | XFlatMap c _ _ _ _
  | XFlatMapByID c _ _ | XJoinPublic c _ _ _ | XReplaceNull c _ | XReplaceInf c _ | XDropNull c _ | XDropInf c _
  | XEnforce c _ | XCount c _ _ _ _ | XCountDistinct c _ _ _ _ _ | XQuantile c _ _ _ _ _ _ | XBounded _ c _ _ _ _ _ _ _
  | XSuppress c _ _ => forall x, In ("child", x) (kids b) -> everywhere P c x
  end.

(** Two data frames at the same address are the same data frame. *)
Definition one_heap (a b : qx) : Prop :=
  forall i j f g, In ("public_table", APub (XFrame i f)) (attrs a) -> In ("public_table", APub (XFrame j g)) (attrs b) -> i = j -> f = g.
(** KeySets are built as documented; new columns are declared in the same order; replacement
    values have the same types. *)
Definition plain KW D (a b : qx) : Prop :=
  (forall k, In ("groupby_keys", AKeys (XSet k)) (attrs a ++ attrs b)%list -> documented KW D k)
  /\ (forall s t, In ("schema_new_columns", ASchema s) (attrs a) -> In ("schema_new_columns", ASchema t) (attrs b) ->
        wf_schema s /\ wf_schema t /\ dkeys (sc_cols s) = dkeys (sc_cols t))
  /\ (forall d e, In ("replace_with", ANulls d) (attrs a) -> In ("replace_with", ANulls e) (attrs b) ->
        map (fun p => KeySet.value_type (snd p)) d = map (fun p => KeySet.value_type (snd p)) e).
(** Callables with the same bytecode do the same. *)
Definition code_decides (F : functions) (a b : qx) : Prop :=
  forall f g, In ("f", AFun f) (attrs a) -> In ("f", AFun g) (attrs b) -> pf_code f <> None -> pf_code f = pf_code g ->
    (forall r, f_row F (pf_addr f) r = f_row F (pf_addr g) r) /\ (forall r, f_rows F (pf_addr f) r = f_rows F (pf_addr g) r)
    /\ forall l, f_group F (pf_addr f) l = f_group F (pf_addr g) l.
(** Data frames have columns and rows, distinct column names, and fields in the same order with the same
    types. *)
Definition frame_wf (f : sframe) : Prop :=
  NoDup (names f) /\ (sd_rows f <> [] /\ sd_fields f <> []) /\ forall r, In r (sd_rows f) -> length r = length (names f).
Definition frames_with_rows (a b : qx) : Prop :=
  forall i j f g, In ("public_table", APub (XFrame i f)) (attrs a) -> In ("public_table", APub (XFrame j g)) (attrs b) ->
    frame_wf f /\ frame_wf g /\ sd_fields f = sd_fields g.
(** The expression of a Query: what Session.evaluate accepts. *)
Definition answerable (q : qx) : Prop :=
  match q with
  | XGetGroups _ _ | XGetBounds _ _ _ _ _ | XCount _ _ _ _ _ | XCountDistinct _ _ _ _ _ _ | XQuantile _ _ _ _ _ _ _
  | XBounded _ _ _ _ _ _ _ _ _ | XSuppress _ _ _ => True
  | _ => False
  end.

(** ** Proofs *)

Lemma both_of_true x y : both_of x y = Ok true -> x = Ok true /\ y = Ok true.
Proof. destruct x as [[|]|e]; cbn; intros H; try discriminate. auto. Qed.
Lemma ok_true (b : bool) : Ok b = Ok true -> b = true.
Proof. congruence. Qed.
Ltac bo := repeat match goal with
  | H : both_of _ _ = Ok true |- _ => apply both_of_true in H as [? H]
  | H : Ok (A:=bool) ?b = Ok true |- _ => apply ok_true in H
  | H : _ && _ = true |- _ => apply andb_true_iff in H as [? H]
  end.

Lemma f_eqb_eq a b : f_eqb a b = true -> a = b.
Proof. destruct a, b; cbn; try discriminate; try reflexivity. destruct (Qc_eq_dec q q0); congruence. Qed.
Lemma num_eqb_like a b : num_eqb a b = true -> num_like a b.
Proof.
  unfold num_like. destruct a, b; cbn [num_eqb]; intros H; try (apply f_eqb_eq, H).
  apply Z.eqb_eq in H. congruence.
Qed.
Lemma py_eqb_eq a b : py_eqb a b = true -> KeySet.value_type a = KeySet.value_type b -> a = b.
Proof.
  destruct a, b; cbn [py_eqb KeySet.value_type]; intros H T; try discriminate; try (apply value_eqb_eq, H).
  f_equal. apply f_eqb_eq, H.
Qed.
Lemma strs_eq a b : strs_eqb a b = true -> a = b.
Proof. apply (list_eqb_eq String.eqb String.eqb_eq). Qed.
Lemma frozen_eq {V} (veq : V -> V -> bool) (R : V -> V -> Prop) a b : (forall x y, veq x y = true -> R x y) ->
  frozen_eqb veq a b = true -> Forall2 (fun p q => fst p = fst q /\ R (snd p) (snd q)) a b.
Proof.
  intros H. revert b. induction a as [|p a IH]; intros [|q b]; cbn; try discriminate; [constructor|].
  intros E. apply andb_true_iff in E as [E E2]. apply andb_true_iff in E as [E E1]. apply String.eqb_eq in E.
  constructor; [auto|apply IH, E2].
Qed.
Lemma Forall2_pairs {V} (a b : list (string * V)) : Forall2 (fun p q => fst p = fst q /\ snd p = snd q) a b -> a = b.
Proof. induction 1 as [|[x y] [x' y'] a b [H1 H2] _ IH]; [reflexivity|]. cbn in *. congruence. Qed.
Lemma opt_strs_eq a b : option_eqb strs_eqb a b = true -> a = b.
Proof. apply option_eqb_eq. intros x y. apply (list_eqb_eq String.eqb String.eqb_eq). Qed.
Lemma strategy_eq a b : strategy_eqb a b = true <-> a = b.
Proof. destruct a, b; cbn; split; try discriminate; try reflexivity; [intros H; apply Nat.eqb_eq in H; congruence|intros H; inversion H; apply Nat.eqb_refl]. Qed.
Lemma constraint_eq a b : constraint_eqb a b = true -> a = b.
Proof.
  destruct a, b; cbn; try discriminate; intros H; try (apply andb_true_iff in H as [G H]; apply String.eqb_eq in G);
    apply Nat.eqb_eq in H; congruence.
Qed.
Lemma mech_eq a b : mech_eqb a b = true -> a = b.
Proof. destruct a, b; cbn; congruence. Qed.
Lemma core_eq a b : core_eqb a b = true <-> a = b.
Proof. destruct a, b; cbn; split; congruence. Qed.
Lemma kind_eq a b : kind_eqb a b = true -> a = b.
Proof. destruct a, b; cbn; congruence. Qed.
Lemma same_schema s t : wf_schema s -> wf_schema t -> dkeys (sc_cols s) = dkeys (sc_cols t) -> schema_eq s t = true -> s = t.
Proof.
  intros Ws Wt K E. apply schema_eq_spec in E as (E & G & I & Sp); [|assumption..].
  destruct s as [c g i sp], t as [c' g' i' sp']. cbn [sc_cols sc_group sc_id sc_space] in *. unfold wf_schema in *. cbn [sc_cols] in *. subst.
  f_equal. clear Wt. revert c' K E. unfold dkeys in *. induction c as [|[n d] c IH]; intros [|[n' d'] c'] K E; cbn [map fst] in *; try discriminate; [reflexivity|].
  inversion K; subst n'. inversion Ws as [|? ? N1 N2]; subst. assert (E0 := E n). cbn [dget] in E0. rewrite String.eqb_refl in E0.
  inversion E0; subst d'. f_equal. apply IH; [exact N2|assumption|].
  intros x. destruct (string_dec x n) as [Hx|Hx].
  - rewrite Hx. assert (X1 : dget n c = None) by (apply dget_None; exact N1). rewrite X1. symmetry. apply dget_None.
    unfold dkeys. congruence.
  - specialize (E x). cbn [dget] in E. rewrite (proj2 (String.eqb_neq x n) Hx) in E. exact E.
Qed.

(** *** KeySets *)
Section Keys.
Variable KW : KeySet.world.
Variable D : KeySetSem.oracle.

Lemma erased_keys k e n : KeySetApi.usable KW D e -> KeySetTotalApi.kvalid KW e -> KeySetApi.concrete e = true ->
  KeySetApi.eval KW e = Ok k -> erase_keys KW (XSet k) = Ok n ->
  exists s r, n = KSet s r /\ dkeys s = KeySetApi.kcols e
  /\ (KeySetApi.kcols e = [] -> n = KSet [] [])
  /\ (KeySetApi.kcols e <> [] ->
      (forall c t, KeySetTotal.ty s c = Some t <-> KeySetTotalApi.ktyp e c t)
      /\ forall key, (exists x, In x r /\ forall c, In c (dkeys s) -> getv c x = key c) <-> KeySetApi.kden KW D e key).
Proof.
  intros U V C Ev E. destruct (KeySetApi.eval_stands KW D e U k Ev) as (S & Pl & ND). specialize (Pl C).
  destruct (KeySetTotalApi.eval_total KW D e U V C) as (k' & Ev' & B). rewrite Ev in Ev'. inversion Ev'; subst k'. clear Ev'.
  assert (Cs : KeySet.ks_cols k = KeySetApi.kcols e) by apply B.
  cbn [erase_keys] in E. destruct (KeySet.ks_cols k) as [|c0 cs] eqn:Ek.
  - inversion E; subst n. exists [], []. split; [reflexivity|]. split; [exact Cs|]. split; [reflexivity|]. congruence.
  - assert (NE : KeySetApi.kcols e <> []) by (rewrite <- Cs; discriminate).
    destruct (KeySetMoreApi.ks_schema_total KW D _ _ _ _ B ND) as (s & Es & Ks & Ts).
    destruct (KeySetMoreApi.stands_dataframe KW D _ _ _ S Pl NE) as (f & g & _ & Ef & Cf & Wf & _ & _ & H).
    rewrite Es in E. cbn [bind] in E. rewrite Ef in E. cbn [bind] in E. inversion E; subst n. clear E.
    exists s, (map (combine (fcols f)) (frows f)). split; [reflexivity|]. split; [exact Ks|]. split; [congruence|]. intros _.
    split; [exact Ts|]. intros key. rewrite <- H. rewrite Ks, Cf. destruct Wf as [W1 W2]. rewrite Cf in W1, W2.
    assert (G : forall l r c, NoDup l -> length r = length l -> In c l -> getv c (combine l r) = rget l r c).
    { clear. intros l. induction l as [|y l IH]; intros [|v r] c N L I; cbn [length] in L; try discriminate; [destruct I|].
      inversion N; subst. unfold getv, rget in *. cbn. destruct (String.eqb_spec c y) as [->|Hc].
      - try rewrite String.eqb_refl; reflexivity.
      - destruct I as [->|I]; [congruence|]. specialize (IH r c H2 (eq_add_S _ _ L) I).
        try (destruct (String.eqb_spec y c); [congruence|]). exact IH. }
    split.
    + intros (x & Hx & K). apply in_map_iff in Hx as (r & <- & Hr).
      replace (map key (KeySetApi.kcols e)) with r; [exact Hr|].
      rewrite <- (KeySetMoreApi.map_rget_row (KeySetApi.kcols e) r W1 (W2 r Hr)) at 1. apply map_ext_in. intros c Hc.
      rewrite <- (K c Hc). symmetry. apply G; auto.
    + intros Hk. exists (combine (KeySetApi.kcols e) (map key (KeySetApi.kcols e))). split.
      * apply in_map_iff. eauto.
      * intros c Hc. clear - Hc. induction (KeySetApi.kcols e) as [|y l IH]; [destruct Hc|]. unfold getv in *. cbn.
        destruct (String.eqb_spec c y) as [->|Hn].
        -- try rewrite String.eqb_refl; reflexivity.
        -- destruct Hc as [->|Hc]; [congruence|]. try (destruct (String.eqb_spec y c); [congruence|]). apply IH, Hc.
Qed.
Lemma eq_keys_like j k n m : documented KW D j -> documented KW D k -> KeySet.ks_eq KW j k = Ok true ->
  erase_keys KW (XSet j) = Ok n -> erase_keys KW (XSet k) = Ok m -> keys_like n m.
Proof.
  intros (e & U & V & C & Ev) (e' & U' & V' & C' & Ev') Q En Em.
  destruct (erased_keys j e n U V C Ev En) as (s & r & -> & K & Z & N).
  destruct (erased_keys k e' m U' V' C' Ev' Em) as (s' & r' & -> & K' & Z' & N').
  destruct (KeySetApi.eval_stands KW D e U j Ev) as (S & Pl & ND). destruct (KeySetApi.eval_stands KW D e' U' k Ev') as (S' & Pl' & ND').
  specialize (Pl C). specialize (Pl' C').
  destruct (KeySetTotalApi.eval_total KW D e U V C) as (x & Ex & B). rewrite Ev in Ex. inversion Ex; subst x. clear Ex.
  destruct (KeySetTotalApi.eval_total KW D e' U' V' C') as (x & Ex & B'). rewrite Ev' in Ex. inversion Ex; subst x. clear Ex.
  destruct (KeySetMoreApi.ks_schema_total KW D _ _ _ _ B ND) as (sj & Esj & Ksj & Tsj).
  destruct (KeySetMoreApi.ks_schema_total KW D _ _ _ _ B' ND') as (sk & Esk & Ksk & Tsk).
  assert (CC : forall c, In c (KeySetApi.kcols e) <-> In c (KeySetApi.kcols e')).
  { unfold KeySet.ks_eq, KeySet.ks_plan in Q. rewrite Pl, Pl' in Q. cbn [Bool.eqb negb] in Q.
    apply bind_ok in Q as (v & Ee & Q). destruct v as [[|]|]; [|discriminate|].
    - apply (KeySetMoreApi.is_equivalent_true KW D _ _ _ _ _ _ S S' Ee).
    - unfold KeySet.ks_is_equivalent, KeySet.ks_plan in Ee. rewrite Pl, Pl' in Ee. cbn [Bool.eqb negb] in Ee.
      apply bind_ok in Ee as (v & _ & Ee). destruct v; [discriminate|]. rewrite Esj in Ee. cbn [bind] in Ee. rewrite Esk in Ee. cbn [bind] in Ee.
      destruct (KeySet.types_dict_eqb (KeySet.types_dict sj) (KeySet.types_dict sk)) eqn:X; [|discriminate].
      rewrite KeySetMoreApi.types_dict_eqb_ty in X by congruence.
      intros c. rewrite <- Ksj, <- Ksk. assert (Z1 := KeySetTotal.ty_None sj c). assert (Z2 := KeySetTotal.ty_None sk c). rewrite (X c) in Z1.
      destruct (in_dec string_dec c (dkeys sj)), (in_dec string_dec c (dkeys sk)); tauto. }
  destruct (KeySetApi.kcols e) as [|c0 cs] eqn:Ec.
  - rewrite (Z eq_refl). destruct (KeySetApi.kcols e') as [|c1 cs'] eqn:Ec'; [rewrite (Z' eq_refl); apply keys_like_refl|].
    exfalso. apply (CC c1). left. reflexivity.
  - assert (NE : KeySetApi.kcols e <> []) by (rewrite Ec; discriminate).
    assert (NE' : KeySetApi.kcols e' <> []). { intros X. rewrite X in CC. apply (CC c0). left. reflexivity. }
    rewrite <- Ec in *.
    destruct (N NE) as [T1 R1]. destruct (N' NE') as [T2 R2].
    destruct (KeySetMoreApi.ks_eq_decides KW D j k _ _ _ _ _ _ _ _ S S' B B' NE) as (v & Ev1 & H).
    rewrite Q in Ev1. inversion Ev1; subst v. destruct (proj1 H eq_refl) as [HT HK]. split.
    + intros c. change (KeySetTotal.ty s c = KeySetTotal.ty s' c). destruct (KeySetTotal.ty s c) as [t|] eqn:E1.
      * symmetry. apply T2, HT, T1, E1.
      * destruct (KeySetTotal.ty s' c) as [t|] eqn:E2; [|reflexivity]. apply T2, HT, T1 in E2. congruence.
    + intros key. rewrite R1, R2. apply HK.
Qed.
End Keys.

(** *** Data frames *)
Lemma bag_eqb_perm a b : bag_eqb a b = true -> Permutation a b.
Proof.
  unfold bag_eqb, occurs. rewrite forallb_forall. intros H. apply (Permutation_count_occ rec_eq_dec). intros r.
  destruct (in_dec rec_eq_dec r (a ++ b)%list) as [I|I].
  - apply Nat.eqb_eq, H, I.
  - rewrite in_app_iff in I. rewrite !(proj1 (count_occ_not_In rec_eq_dec _ _)); [reflexivity|tauto|tauto].
Qed.
Lemma bag_eqb_refl a : bag_eqb a a = true.
Proof. apply forallb_forall. intros r _. apply Nat.eqb_refl. Qed.
Lemma same_names_refl l : same_names l l = true.
Proof. apply forallb_forall. intros r _. apply Nat.eqb_refl. Qed.
Lemma select_combine l r : NoDup l -> length r = length l -> select_row l (combine l r) = combine l r.
Proof.
  intros N. assert (G : forall (l : list string) (r : list value) (p : rec), NoDup (map fst p ++ l)%list -> length r = length l ->
    map (fun c => (c, getv c (p ++ combine l r)%list)) l = combine l r).
  { clear. intros l. induction l as [|y l IH]; intros [|v r] p N L; cbn [length] in L; try discriminate; [reflexivity|].
    cbn [map combine]. f_equal.
    - f_equal. unfold getv. rewrite dget_app. rewrite (proj2 (dget_None y p)).
      + cbn [dget]. rewrite String.eqb_refl. reflexivity.
      + intros I. apply NoDup_remove_2 in N. apply N, in_or_app. left. exact I.
    - specialize (IH r (p ++ [(y, v)])%list). rewrite <- app_assoc in IH. cbn [app] in IH. apply IH; [|lia].
      rewrite map_app, <- app_assoc. exact N. }
  intros L. unfold select_row. exact (G l r [] N L).
Qed.
Lemma equal_frames f g : frame_wf f -> frame_wf g -> sd_fields f = sd_fields g ->
  bag_eqb (arranged (names f) f) (arranged (names f) g) = true -> frame_like f g.
Proof.
  intros (N & _ & Wf) (_ & _ & Wg) Fi E. split; [exact Fi|]. apply bag_eqb_perm in E.
  assert (NN : names g = names f) by (unfold names; rewrite Fi; reflexivity). rewrite NN in Wg.
  assert (A : forall h, names h = names f -> (forall r, In r (sd_rows h) -> length r = length (names f)) ->
     arranged (names f) h = map (combine (names f)) (sd_rows h)).
  { intros h Nh Wh. unfold arranged, frame_rows. fold (names h). rewrite Nh, map_map. apply map_ext_in. intros r Hr.
    apply select_combine; auto. }
  rewrite (A f eq_refl Wf), (A g NN Wg) in E. apply Permutation_map_inv in E as (l & E & P). 
  assert (El : sd_rows f = l); [|rewrite El; symmetry; exact P].
  assert (Wl : forall r, In r l -> length r = length (names f)).
  { intros r Hr. apply Wg. eapply Permutation_in; [symmetry; exact P|exact Hr]. }
  clear P. revert l E Wl. induction (sd_rows f) as [|r rs IH]; intros [|x l] E Wl; cbn [map] in E; try discriminate; [reflexivity|].
  inversion E as [[E1 E2]]. f_equal.
  - assert (L1 : length r = length (names f)) by (apply Wf; left; reflexivity).
    assert (L2 : length x = length (names f)) by (apply Wl; left; reflexivity).
    assert (S : forall (l : list string) (r : list value), length r = length l -> map snd (combine l r) = r).
    { clear. induction l as [|y l IH]; intros [|v r] L; cbn in *; try discriminate; [reflexivity|]. f_equal. apply IH. lia. }
    rewrite <- (S (names f) r L1), <- (S (names f) x L2), E1. reflexivity.
  - apply IH; [intros y Hy; apply Wf; right; exact Hy|exact E2|intros y Hy; apply Wl; right; exact Hy].
Qed.

(** *** Trees *)
Lemma everywhere_impl (P Q : qx -> qx -> Prop) : (forall a b, P a b -> Q a b) -> forall a b, everywhere P a b -> everywhere Q a b.
Proof.
  intros H a. induction a; intros b' [E1 E2]; (split; [apply H, E1|]); try exact I;
    try (intros x Hx; apply IHa, E2, Hx).
  destruct E2 as [E2 E3]. split; [intros x Hx; apply IHa1, E2, Hx|intros x Hx; apply IHa2, E3, Hx].
Qed.
Lemma everywhere_and (P Q : qx -> qx -> Prop) a : forall b, everywhere P a b -> everywhere Q a b -> everywhere (fun x y => P x y /\ Q x y) a b.
Proof.
  induction a; intros b' [E1 E2] [F1 F2]; (split; [split; assumption|]); try exact I;
    try (intros x Hx; apply IHa; [apply E2|apply F2]; exact Hx).
  destruct E2 as [E2 E3], F2 as [F2 F3]. split; intros x Hx; [apply IHa1|apply IHa2]; auto.
Qed.

(** Callables and data frames that compare equal are alike. *)
Definition parts_like (F : functions) (a b : qx) : Prop :=
  (forall f g, In ("f", AFun f) (attrs a) -> In ("f", AFun g) (attrs b) -> fun_eq f g = Ok true ->
    (forall r, f_row F (pf_addr f) r = f_row F (pf_addr g) r) /\ (forall r, f_rows F (pf_addr f) r = f_rows F (pf_addr g) r)
    /\ forall l, f_group F (pf_addr f) l = f_group F (pf_addr g) l)
  /\ (forall i j f g, In ("public_table", APub (XFrame i f)) (attrs a) -> In ("public_table", APub (XFrame j g)) (attrs b) ->
        pub_eq (XFrame i f) (XFrame j g) = true -> frame_like f g).

Section Tree.
Variable KW : KeySet.world.
Variable D : KeySetSem.oracle.
Variable F : functions.

Lemma keys_eq_like a b n m : (forall k, a = XSet k \/ b = XSet k -> documented KW D k) -> keys_eq KW a b = Ok true ->
  erase_keys KW a = Ok n -> erase_keys KW b = Ok m -> keys_like n m.
Proof.
  intros H E En Em. destruct a as [j|l], b as [k|l']; cbn [keys_eq] in E; try discriminate.
  - apply (eq_keys_like KW D j k n m); [apply H; left; reflexivity|apply H; right; reflexivity|assumption..].
  - bo. apply strs_eq in E. cbn [erase_keys] in *. inversion En; inversion Em; subst. reflexivity.
Qed.
Ltac eqs := repeat match goal with
  | H : String.eqb _ _ = true |- _ => apply String.eqb_eq in H
  | H : strs_eqb _ _ = true |- _ => apply strs_eq in H
  | H : option_eqb strs_eqb _ _ = true |- _ => apply opt_strs_eq in H
  | H : option_eqb strategy_eqb _ _ = true |- _ => apply (option_eqb_eq strategy_eqb strategy_eq) in H
  | H : option_eqb core_eqb _ _ = true |- _ => apply (option_eqb_eq core_eqb core_eq) in H
  | H : option_eqb Z.eqb _ _ = true |- _ => apply (option_eqb_eq Z.eqb Z.eqb_eq) in H
  | H : Bool.eqb _ _ = true |- _ => apply Bool.eqb_prop in H
  | H : mech_eqb _ _ = true |- _ => apply mech_eq in H
  | H : kind_eqb _ _ = true |- _ => apply kind_eq in H
  | H : constraint_eqb _ _ = true |- _ => apply constraint_eq in H
  | H : f_eqb _ _ = true |- _ => apply f_eqb_eq in H
  | H : num_eqb _ _ = true |- _ => apply num_eqb_like in H
  end.
Ltac peel_erase := repeat match goal with
  | H : bind (erase _ _ _) _ = Ok _ |- _ => let e := fresh "Er" in apply bind_ok in H as (? & e & H)
  | H : bind (erase_keys _ _) _ = Ok _ |- _ => let e := fresh "Ek" in apply bind_ok in H as (? & e & H)
  end; repeat match goal with H : Ok _ = Ok (A:=query) _ |- _ => inversion H; clear H end.
Ltac child := match goal with IH : forall b qa qb, qx_eq KW ?c b = Ok true -> _, H : qx_eq KW ?c ?d = Ok true |- like _ _ =>
  eapply IH; [exact H|first [match goal with P : forall x, In _ _ -> everywhere (plain KW D) c x |- _ => apply P end]; left; reflexivity
              |first [match goal with P : forall x, In _ _ -> everywhere (parts_like F) c x |- _ => apply P end]; left; reflexivity|eassumption..] end.
Ltac keys := match goal with H : keys_eq KW ?k ?k' = Ok true, P0 : plain KW D _ _ |- keys_like _ _ =>
  apply (keys_eq_like k k' _ _); [let kk := fresh "kk" in intros kk [Hk|Hk]; subst; apply (proj1 P0); cbn; auto 20|assumption..] end.
Lemma eq_like a : forall b qa qb, qx_eq KW a b = Ok true -> everywhere (plain KW D) a b -> everywhere (parts_like F) a b ->
  erase KW F a = Ok qa -> erase KW F b = Ok qb -> like qa qb.
Proof.
  induction a; intros b0 qa qb E P L Ea Eb; destruct b0; cbn [qx_eq] in E; try discriminate;
    cbn [erase] in Ea, Eb; destruct P as [P0 P], L as [L0 L]; bo; eqs; peel_erase; subst;
    try (constructor; first [child|keys|assumption]).
  - (* Rename *)
    match goal with H : frozen_eqb _ _ _ = true |- _ => apply (frozen_eq _ eq) in H; [|intros ? ? Q; apply String.eqb_eq, Q]; apply Forall2_pairs in H; subst end.
    constructor; child.
  - match goal with H : fun_eq _ _ = Ok true |- _ => rename H into Hf end. destruct (proj1 L0 f f0) as (Hq & _ & _); [cbn; auto..|exact Hf|].
    destruct (proj1 (proj2 P0) new new0) as (W1 & W2 & K); [cbn; auto..|].
    rewrite (same_schema new new0) by assumption. constructor; [child|exact Hq].
  - match goal with H : fun_eq _ _ = Ok true |- _ => rename H into Hf end. destruct (proj1 L0 f f0) as (_ & Hq & _); [cbn; auto..|exact Hf|].
    destruct (proj1 (proj2 P0) new new0) as (W1 & W2 & K); [cbn; auto..|].
    rewrite (same_schema new new0) by assumption. constructor; [child|exact Hq].
  - match goal with H : fun_eq _ _ = Ok true |- _ => rename H into Hf end. destruct (proj1 L0 f f0) as (_ & _ & Hq); [cbn; auto..|exact Hf|].
    destruct (proj1 (proj2 P0) new new0) as (W1 & W2 & K); [cbn; auto..|].
    rewrite (same_schema new new0) by assumption. constructor; [child|exact Hq].
  - destruct P as [Pl Pr], L as [Ll Lr]. constructor.
    + eapply IHa1; [eassumption|apply Pl; left; reflexivity|apply Ll; left; reflexivity|eassumption..].
    + eapply IHa2; [eassumption|apply Pr; right; left; reflexivity|apply Lr; right; left; reflexivity|eassumption..].
  - constructor; [child|]. destruct p as [n|i f], p0 as [n'|j g]; match goal with H : pub_eq _ _ = true |- _ => rename H into Q end; cbn [erase_pub pub_like].
    + apply String.eqb_eq, Q.
    + discriminate.
    + discriminate.
    + apply (proj2 L0 i j f g); [cbn; auto..|exact Q].
  - match goal with H : frozen_eqb _ _ _ = true |- _ => rename H into Q end.
    assert (K := proj2 (proj2 P0) rw rw0 (or_introl eq_refl) (or_introl eq_refl)).
    replace rw0 with rw; [constructor; child|].
    apply (frozen_eq _ (fun x y => KeySet.value_type x = KeySet.value_type y -> x = y)) in Q; [|exact py_eqb_eq].
    clear - K Q. induction Q as [|[x y] [x' y'] d e [H1 H2] _ IH]; [reflexivity|]. cbn in *. inversion K. f_equal; [|auto]. rewrite H1, H2 by assumption. reflexivity.
  - match goal with H : frozen_eqb _ _ _ = true |- _ => apply (frozen_eq _ eq) in H;
      [apply Forall2_pairs in H; subst|intros [? ?] [? ?] Q; apply andb_true_iff in Q as [Q1 Q2]; apply f_eqb_eq in Q1, Q2; cbn in *; congruence] end.
    constructor; child.
Qed.
End Tree.

(** *** Equality *)
Lemma contents_parts F a b : code_decides F a b /\ frames_with_rows a b -> parts_like F a b.
Proof.
  intros [C Fr]. split.
  - intros f g If Ig E. unfold fun_eq in E. destruct (Nat.eqb_spec (pf_addr f) (pf_addr g)) as [->|_]; [auto|].
    destruct (pf_code f) as [x|] eqn:Ex; [|discriminate]. destruct (pf_code g) as [y|] eqn:Ey; [|discriminate].
    bo. apply Nat.eqb_eq in E. apply C; [assumption|assumption|congruence|congruence].
  - intros i j f g If Ig E. destruct (Fr i j f g If Ig) as (Wf & Wg & Fi). cbn [pub_eq] in E. bo.
    assert (A : forall h, frame_wf h -> is_empty_frame h = false).
    { intros h (_ & [H1 H2] & _). unfold is_empty_frame. destruct (sd_rows h); [congruence|]. destruct (sd_fields h); congruence. }
    rewrite (A f Wf), (A g Wg) in E. cbn [negb andb] in E. apply equal_frames; assumption.
Qed.

(** *** Equivalence *)
Definition same_addresses (a b : qx) : Prop :=
  (forall f g, In ("f", AFun f) (attrs a) -> In ("f", AFun g) (attrs b) -> pf_addr f = pf_addr g)
  /\ (forall i j f g, In ("public_table", APub (XFrame i f)) (attrs a) -> In ("public_table", APub (XFrame j g)) (attrs b) -> i = j).
Section Equiv.
Variable KW : KeySet.world.
Lemma is_equivalent_eq j k : KeySet.ks_is_equivalent j k = Ok (Some true) -> KeySet.ks_eq KW j k = Ok true.
Proof.
  intros E. unfold KeySet.ks_eq. destruct (negb (Bool.eqb (KeySet.ks_plan j) (KeySet.ks_plan k))) eqn:P.
  - unfold KeySet.ks_is_equivalent in E. rewrite P in E. discriminate.
  - rewrite E. reflexivity.
Qed.
Lemma keys_equiv_eq j k : attr_equiv (AKeys j) (AKeys k) = Ok true -> keys_eq KW j k = Ok true.
Proof.
  destruct j as [j|l], k as [k|l']; cbn [attr_equiv attr_eqb keys_eq]; intros H; try discriminate; [|exact H].
  apply bind_ok in H as ([[|]|] & E & H); try discriminate. apply is_equivalent_eq, E.
Qed.
Lemma equiv_eq a b : answerable a -> answerable b -> qx_equiv KW a b = Ok true -> qx_eq KW a b = Ok true.
Proof.
  destruct a; intros A; try destruct A; destruct b; intros B; try destruct B; intros E; cbn [qx_equiv] in E;
    cbn [kids attrs length Nat.add Nat.eqb] in E; try discriminate E;
    apply both_of_true in E as [E E3]; apply both_of_true in E as [_ E2]; cbn [dget String.eqb Ascii.eqb Bool.eqb] in E2;
    apply both_of_true in E2 as [_ E2]; cbn [attrs_equiv dget String.eqb Ascii.eqb Bool.eqb] in E3; try discriminate E3.
  all: repeat match goal with H : both_of _ _ = Ok true |- _ => apply both_of_true in H as [? H] end; try discriminate.
  all: cbn [qx_eq]; rewrite E2.
  all: repeat match goal with H : attr_equiv (AKeys _) (AKeys _) = Ok true |- _ => apply keys_equiv_eq in H; rewrite H; clear H end.
  all: cbn [attr_equiv attr_eqb] in *; repeat match goal with H : Ok (A:=bool) ?b = Ok true |- _ => apply ok_true in H end.
  all: repeat match goal with H : option_eqb strs_eqb (Some _) (Some _) = true |- _ => cbn [option_eqb] in H end.
  all: try (destruct kd, kd0; cbn [class_of_kind Nat.eqb andb] in *; try discriminate).
  all: cbn [Nat.eqb andb] in *; try (change (f_eqb q q0 = true) in H1).
  all: repeat match goal with H : ?x = true |- context [?x] => rewrite H end; reflexivity.
Qed.
Lemma equiv_strict a : forall b, qx_equiv KW a b = Ok true -> qx_eq KW a b = Ok true -> everywhere same_addresses a b.
Proof.
  induction a; intros b0 E Q; destruct b0; try discriminate Q; cbn [qx_equiv] in E;
    apply both_of_true in E as [E E3]; apply both_of_true in E as [_ E2]; cbn [kids dget String.eqb Ascii.eqb Bool.eqb] in E2;
    cbn [attrs attrs_equiv dget String.eqb Ascii.eqb Bool.eqb] in E3.
  all: split; [split; [intros f1 g1 I1 I2|intros i1 j1 f1 g1 I1 I2]; cbn [attrs In] in I1, I2|].
  all: repeat match goal with H : In _ _ |- _ => cbn in H end.
  all: repeat match goal with H : _ \/ _ |- _ => destruct H | H : False |- _ => destruct H end.
  all: repeat match goal with H : (_, _) = (_, _) |- _ => inversion H; clear H end; subst; try discriminate.
  all: repeat match goal with H : both_of _ _ = Ok true |- _ => apply both_of_true in H as [? H] end.
  all: cbn [attr_equiv attr_eqb] in *; repeat match goal with H : Ok (A:=bool) ?b = Ok true |- _ => apply ok_true in H end.
  all: try (match goal with H : (_ =? _) = true |- _ = _ => apply Nat.eqb_eq, H end).
  all: try exact I.
  all: cbn [kids In]; try (intros x [Hx|[]]; inversion Hx; subst; apply IHa; assumption).
  split; intros x [Hx|[Hx|[]]]; inversion Hx; subst; [apply IHa1|apply IHa2]; assumption.
Qed.
Lemma strict_parts F a b : same_addresses a b /\ one_heap a b -> parts_like F a b.
Proof.
  intros [[S1 S2] H]. split.
  - intros f g If Ig _. rewrite (S1 f g If Ig). auto.
  - intros i j f g If Ig _. rewrite (H i j f g If Ig (S2 i j f g If Ig)). apply frame_like_refl.
Qed.
End Equiv.
