(** Size, decomposition and equality of KeySets built through the public operations. *)
From Coq Require Import String Bool Arith ZArith Lia List Permutation.
From Verif Require Import Prelude Value KeySet KeySetSem KeySetRules KeySetApi KeySetMore KeySetTotal
  KeySetTotalRules KeySetTotalApi.
Import ListNotations.

(** ** Specification: the keys a KeySet object shows.  A columnless KeySet has the one empty key. *)
Definition has_key (W : world) (k : keyset) (key : valuation) : Prop :=
  ks_cols k = [] \/ exists f, ks_dataframe W k = Ok f /\ In (map key (ks_cols k)) (frows f).

Section MoreApi.
Variable W : world.
Variable D : oracle.
Notation den := (den W D).
Notation good := (good W D).
Notation full := (full W D).
Notation stands := (stands W D).

Lemma stands_dataframe k cs P : stands k cs P -> is_plan (ks_tree k) = false -> cs <> [] ->
  exists f g, dataframe W (ks_tree k) = Ok g /\ ks_dataframe W k = Ok f /\ fcols f = cs
  /\ wf_frame f /\ NoDup (frows f) /\ length (frows f) = length (frows g)
  /\ forall key, In (map key cs) (frows f) <-> P key.
Proof.
  intros (G & Cs & Sc & Dn & ND) Pl N. specialize (ND Pl).
  destruct (dataframe_correct W D (ks_tree k)) as (f & Ef & (Wf & Nr & Cf & Hf)); [apply G|assumption| |].
  { eapply nonempty_same; [|exact N]. intros c; symmetry; apply Sc. }
  unfold ks_dataframe. rewrite Ef. cbn [bind]. rewrite Cs.
  assert (S : forall c, In c cs <-> In c (fcols f)).
  { intros c. rewrite Cf. symmetry. apply Sc. }
  rewrite (proj2 (set_eqb_In (fcols f) cs)) by (intros c; symmetry; apply S). simpl.
  exists (fselect cs f), f. split; [reflexivity|]. split; [reflexivity|]. split; [reflexivity|].
  split; [apply wf_select; assumption|]. split; [|split].
  - cbn [fselect frows]. apply NoDup_map_inj; [assumption|]. intros r s Hr Hs Heq.
    destruct Wf as [W1 W2].
    rewrite <- (map_rget (fcols f) r), <- (map_rget (fcols f) s); auto.
    apply map_ext_in. intros c Hc. apply S in Hc. revert c Hc.
    change (forall c, In c cs -> rget (fcols f) r c = rget (fcols f) s c).
    apply map_eq_ext. exact Heq.
  - cbn [fselect frows]. apply map_length.
  - intros key. rewrite <- Dn, <- Hf. symmetry. rewrite <- (has_reorder cs f key Wf S). reflexivity.
Qed.

Lemma stands_has_key k cs P key : stands k cs P -> is_plan (ks_tree k) = false -> has_key W k key <-> P key.
Proof.
  intros S Pl. assert (S0 := S). destruct S0 as (G & Cs & Sc & Dn & ND). unfold has_key. rewrite Cs.
  destruct cs as [|c cs].
  - split; [|auto]. intros _. apply Dn. apply den_total; [apply G|].
    destruct (columns (ks_tree k)) as [|c t]; [reflexivity|]. exfalso. apply (Sc c). simpl; auto.
  - destruct (stands_dataframe _ _ _ S Pl) as (f & g & _ & Ef & Cf & _ & _ & _ & H); [discriminate|].
    rewrite <- H. split.
    + intros [X|(f' & Ef' & X)]; [discriminate|]. congruence.
    + intros X. right. eauto.
Qed.

(** ** size *)
Lemma stands_size k cs P : stands k cs P -> is_plan (ks_tree k) = false ->
  (cs = [] -> ks_size W k = Ok 1%Z)
  /\ (cs <> [] -> exists f, ks_dataframe W k = Ok f /\ ks_size W k = Ok (Z.of_nat (length (frows f)))).
Proof.
  intros S Pl. assert (S0 := S). destruct S0 as (G & Cs & Sc & Dn & ND).
  assert (Z := size_correct W D (ks_tree k) (proj1 G) Pl). split.
  - intros ->. destruct (columns (ks_tree k)) as [|c t] eqn:E.
    + simpl in Z. unfold ks_size. rewrite Z. reflexivity.
    + exfalso. apply (Sc c). simpl; auto.
  - intros N. destruct (stands_dataframe _ _ _ S Pl N) as (f & g & Eg & Ef & _ & _ & _ & L & _).
    assert (X : is_nil (columns (ks_tree k)) = false).
    { apply is_nil_false. eapply nonempty_same; [|exact N]. intros c; symmetry; apply Sc. }
    rewrite X in Z. destruct Z as (g' & Eg' & Z). exists f. split; [assumption|].
    unfold ks_size. rewrite Z. cbn [bind]. rewrite Eg in Eg'. inversion Eg'; subst. unfold zlen. rewrite L. reflexivity.
Qed.

(** ** decompose *)
Lemma as_keyset_stands k cs P o k' : stands k cs P -> is_plan (ks_tree k) = false -> good o -> is_plan o = false ->
  (forall c, In c (columns o) -> In c cs) ->
  mkKeySet W o (filter (fun c => smem c (columns o)) cs) = Ok k' ->
  stands k' (filter (fun c => smem c (columns o)) cs) (den o) /\ is_plan (ks_tree k') = false
  /\ forall c, In c (ks_cols k') <-> In c (columns o).
Proof.
  intros S Pl G P0 I E. apply mkKeySet_stands with (D := D) (P := den o) in E; [|assumption|reflexivity].
  destruct E as [S' P']. split; [assumption|]. split; [assumption|].
  destruct S' as (_ & C & _). rewrite C. intros c. rewrite filter_In, smem_In. split; [tauto|]. auto.
Qed.

Definition decomposes (split : list string) (k : keyset) (fs ss : list keyset) : Prop :=
  (forall key, has_key W k key <->
     (forall f, In f fs -> has_key W f key) /\ (forall s, In s ss -> ~ has_key W s key))
  /\ (forall c, In c (ks_cols k) <-> exists f, In f fs /\ In c (ks_cols f))
  /\ ForallOrdPairs (fun f g => forall c, In c (ks_cols f) -> In c (ks_cols g) -> In c split) fs
  /\ (forall s, In s ss -> ks_cols s <> [] /\ forall c, In c (ks_cols s) -> In c (ks_cols k)).

Lemma ks_decompose_correct k cs P split fs ss : stands k cs P -> is_plan (ks_tree k) = false ->
  ks_decompose W k split = Ok (fs, ss) -> decomposes split k fs ss.
Proof.
  intros S Pl E. unfold ks_decompose in E. apply bind_ok in E as ([fo so] & E1 & E).
  apply bind_ok in E as (fs' & E2 & E). apply bind_ok in E as (ss' & E3 & E). inversion E; subst fs' ss'. clear E.
  assert (S0 := S). destruct S0 as (G & Cs & Sc & Dn & ND). rewrite Cs in E2, E3. cbn [fst snd] in *.
  destruct (decompose_correct W D split _ G Pl _ _ E1) as (F1 & F2 & F3 & F4 & F5 & F6).
  apply mapM_ok_Forall2 in E2, E3.
  set (R := fun o k' => (forall key, has_key W k' key <-> den o key) /\ forall c, In c (ks_cols k') <-> In c (columns o)).
  assert (R2 : Forall2 R fo fs).
  { refine (Forall2_impl_In _ _ _ _ _ E2). intros o k' Ho Hk. cbv beta in Hk. destruct (F1 o Ho) as [Go Po].
    destruct (as_keyset_stands _ _ _ o k' S Pl Go Po) as (S' & P' & C').
    - intros c Hc. apply Sc, F4. eauto.
    - assumption.
    - split; [|assumption]. intros key. eapply stands_has_key; eassumption. }
  assert (R3 : Forall2 R so ss).
  { refine (Forall2_impl_In _ _ _ _ _ E3). intros o k' Ho Hk. cbv beta in Hk. destruct (F2 o Ho) as (Go & Po & _ & I).
    destruct (as_keyset_stands _ _ _ o k' S Pl Go Po) as (S' & P' & C').
    - intros c Hc. apply Sc, I, Hc.
    - assumption.
    - split; [|assumption]. intros key. eapply stands_has_key; eassumption. }
  split; [|split; [|split]].
  - intros key. rewrite (stands_has_key _ _ _ key S Pl), <- Dn, F6. split.
    + intros [H1 H2]. split.
      * intros f Hf. destruct (Forall2_In_r _ _ _ _ R2 Hf) as (o & Ho & K & _). apply K, H1, Ho.
      * intros s Hs HK. destruct (Forall2_In_r _ _ _ _ R3 Hs) as (o & Ho & K & _). apply (H2 o Ho). apply K, HK.
    + intros [H1 H2]. split.
      * intros o Ho. destruct (Forall2_In_l _ _ _ _ R2 Ho) as (f & Hf & K & _). apply K, H1, Hf.
      * intros o Ho HK. destruct (Forall2_In_l _ _ _ _ R3 Ho) as (f & Hf & K & _). apply (H2 f Hf). apply K, HK.
  - intros c. rewrite Cs, <- Sc, F4. split.
    + intros (o & Ho & Hc). destruct (Forall2_In_l _ _ _ _ R2 Ho) as (f & Hf & _ & K). exists f. split; [assumption|]. apply K, Hc.
    + intros (f & Hf & Hc). destruct (Forall2_In_r _ _ _ _ R2 Hf) as (o & Ho & _ & K). exists o. split; [assumption|]. apply K, Hc.
  - clear - R2 F5. induction R2 as [|o f fo fs Rf R2 IH]; [constructor|]. inversion F5 as [|? ? A1 A2]; subst.
    constructor; [|auto]. rewrite Forall_forall in *. intros g Hg c Hc Hc'.
    destruct (Forall2_In_r _ _ _ _ R2 Hg) as (o' & Ho & _ & K). apply (A1 o' Ho c); [apply Rf|apply K]; assumption.
  - intros s Hs. destruct (Forall2_In_r _ _ _ _ R3 Hs) as (o & Ho & _ & K). destruct (F2 o Ho) as (_ & _ & N & I). split.
    + eapply nonempty_same; [|exact N]. intros c; symmetry; apply K.
    + intros c Hc. rewrite Cs. apply Sc, I, K, Hc.
Qed.

Lemma decompose_total split o : full o -> exists fs ss, decompose split o = Ok (fs, ss)
  /\ (forall f, In f fs -> full f) /\ (forall s, In s ss -> full s).
Proof.
  assert (Self : forall o, full o -> exists fs ss, Ok (A := list op * list op) ([o], []) = Ok (fs, ss)
     /\ (forall f, In f fs -> full f) /\ (forall s, In s ss -> full s)).
  { intros o0 F0. exists [o0], []. split; [reflexivity|]. split; [intros f [<-|[]]; assumption|intros ? []]. }
  induction o as [t d|p d|c|im gs IH|l r IHl IHr|c cs IHc|c k IHc|l r IHl IHr|l r IHl IHr] using op_ind';
    intros F; cbn [decompose]; try (apply Self; assumption).
  - destruct F as (_ & P & _). discriminate.
  - apply full_cross in F as (_ & _ & Ff & _).
    assert (X : exists ds, mapM (decompose split) gs = Ok ds
       /\ forall d, In d ds -> (forall f, In f (fst d) -> full f) /\ (forall s, In s (snd d) -> full s)).
    { clear - IH Ff. induction gs as [|g gs IHg]; [exists []; split; [reflexivity|intros ? []]|].
      inversion IH as [|? ? I1 I2]; subst. destruct (I1 (Ff g (or_introl eq_refl))) as (fs & ss & E & A1 & A2).
      destruct IHg as (ds & Ed & K); [assumption|intros; apply Ff; simpl; auto|].
      cbn [mapM]. rewrite E. cbn [bind]. rewrite Ed. cbn [bind]. exists ((fs, ss) :: ds). split; [reflexivity|].
      intros d [<-|Hd]; auto. }
    destruct X as (ds & E & K). rewrite E. cbn [bind]. exists (flat_map fst ds), (flat_map snd ds). split; [reflexivity|].
    split; intros f Hf; apply in_flat_map in Hf as (d & Hd & Hf); destruct (K d Hd); auto.
  - destruct (subset (join_columns l r) split); [|apply Self; assumption].
    apply full_join in F as (Fl & Fr & _). destruct (IHl Fl) as (f1 & s1 & E1 & A1 & B1), (IHr Fr) as (f2 & s2 & E2 & A2 & B2).
    rewrite E1. cbn [bind]. rewrite E2. cbn [bind fst snd]. exists (f1 ++ f2), (s1 ++ s2). split; [reflexivity|].
    split; intros f Hf; apply in_app_iff in Hf as [Hf|Hf]; auto.
  - apply full_subtract in F as (Fl & Fr & NE & I). destruct (IHl Fl) as (f1 & s1 & E1 & A1 & B1).
    rewrite E1. cbn [bind fst snd].
    assert (X : exists fs, mapM (fun f => if subset (columns r) (columns f) then mkSubtract f r else Ok f) f1 = Ok fs
       /\ forall f, In f fs -> full f).
    { clear - A1 Fr NE. induction f1 as [|f f1 IH]; [exists []; split; [reflexivity|intros ? []]|].
      destruct IH as (fs & E & K); [intros; apply A1; simpl; auto|]. cbn [mapM].
      assert (Ff := A1 f (or_introl eq_refl)).
      destruct (subset (columns r) (columns f)) eqn:S.
      - rewrite subset_In in S. destruct (mkSubtract_total W D f r Ff Fr NE S) as [Es Fs].
        rewrite Es. cbn [bind]. rewrite E. cbn [bind]. eexists. split; [reflexivity|]. intros g [<-|Hg]; auto.
      - cbn [bind]. rewrite E. cbn [bind]. eexists. split; [reflexivity|]. intros g [<-|Hg]; auto. }
    destruct X as (fs & E & K). rewrite E. cbn [bind].
    destruct (existsb _ f1); [exists fs, s1|exists fs, (s1 ++ [r])]; (split; [reflexivity|]); split; auto.
    intros s Hs. apply in_app_iff in Hs as [Hs|[<-|[]]]; auto.
Qed.

Lemma ks_decompose_total k cs Ty H split : built W D k cs Ty H -> NoDup cs ->
  exists fs ss, ks_decompose W k split = Ok (fs, ss).
Proof.
  intros (Cs & F & Sc & _) N. unfold ks_decompose.
  destruct (decompose_total split _ F) as (fo & so & E & A & B). rewrite E. cbn [bind fst snd].
  assert (DC := decompose_correct W D split _ (proj1 F) (proj1 (proj2 F)) _ _ E). destruct DC as (_ & F2 & _ & F4 & _).
  assert (M : forall l, (forall o, In o l -> full o /\ forall c, In c (columns o) -> In c cs) ->
     exists ks, mapM (fun o => mkKeySet W o (filter (fun c => smem c (columns o)) (ks_cols k))) l = Ok ks).
  { rewrite Cs. induction l as [|o l IH]; intros K; [exists []; reflexivity|]. cbn [mapM].
    destruct (K o) as [Fo I]; [simpl; auto|].
    destruct (mkKeySet_total W D o (filter (fun c => smem c (columns o)) cs) Fo) as (k' & Ek & _).
    - apply List.NoDup_filter; assumption.
    - intros c. rewrite filter_In, smem_In. split; [auto|tauto].
    - rewrite Ek. cbn [bind]. destruct IH as (ks & Eks); [intros; apply K; simpl; auto|]. rewrite Eks. eexists; reflexivity. }
  destruct (M fo) as (fs & Ef).
  { intros o Ho. split; [auto|]. intros c Hc. apply Sc, F4. eauto. }
  destruct (M so) as (ss & Es).
  { intros o Ho. split; [auto|]. intros c Hc. apply Sc. apply (F2 o Ho). assumption. }
  rewrite Ef. cbn [bind]. rewrite Es. eexists _, _. reflexivity.
Qed.

(** ** equality *)
Lemma op_eq_T a : forall b, op_eq a b = Ok true -> forall c t, T a c t <-> T b c t.
Proof.
  induction a as [ts d|p d|c|im fs IH|l r IHl IHr|x cs IHc|x k IHc|l r IHl IHr|l r IHl IHr] using op_ind';
    intros b E; destruct b as [ts' d'|p' d'|c'|im' fs'|l' r'|x' cs'|x' k'|l' r'|l' r'];
    try discriminate; intros y ty0.
  - cbn [op_eq] in E. inversion E as [E1]. apply andb_true_iff in E1 as [E1 E2].
    apply dict_eqb_eq in E2. subst d'. reflexivity.
  - cbn [op_eq] in E. inversion E as [E1]. apply andb_true_iff in E1 as [E1 E2].
    apply dict_eqb_eq in E1. subst d'. reflexivity.
  - reflexivity.
  - rewrite op_eq_cross in E. destruct (Bool.eqb im im'); [|discriminate].
    apply go_eq_true in E. rewrite Forall_forall in IH. rewrite !T_cross. split; intros (f & Hf & H).
    + destruct (Forall2_In_l _ _ _ _ E Hf) as (g & Hg & K). exists g. split; [assumption|]. apply (IH f Hf g K); assumption.
    + destruct (Forall2_In_r _ _ _ _ E Hf) as (g & Hg & K). exists g. split; [assumption|]. apply (IH g Hg f K); assumption.
  - cbn [op_eq] in E. apply and_then_true in E as [E1 E2]. simpl. rewrite (IHl _ E1), (IHr _ E2). reflexivity.
  - cbn [op_eq] in E. apply and_then_true in E as [E1 E2]. inversion E2 as [E3]. rewrite set_eqb_In in E3.
    simpl. rewrite (IHc _ E1), (E3 y). reflexivity.
  - cbn [op_eq] in E. apply and_then_true in E as [E1 E2]. simpl. apply (IHc _ E1).
  - cbn [op_eq] in E. apply and_then_true in E as [E1 E2]. simpl. apply (IHl _ E1).
  - cbn [op_eq] in E. apply and_then_true in E as [E1 E2]. simpl. apply (IHl _ E1).
Qed.

Lemma and_then_total a b : (exists x, a = Ok x) -> (exists y, b = Ok y) -> exists z, and_then a b = Ok z.
Proof. intros (x & ->) (y & ->). destruct x; simpl; eauto. Qed.
Lemma op_eq_total a : fine a -> forall b, fine b -> exists x, op_eq a b = Ok x.
Proof.
  induction a as [ts d|p d|c|im fs IH|l r IHl IHr|x cs IHc|x k IHc|l r IHl IHr|l r IHl IHr] using op_ind';
    intros Fa b Fb; destruct b as [ts' d'|p' d'|c'|im' fs'|l' r'|x' cs'|x' k'|l' r'|l' r']; try (simpl; eauto; fail).
  - rewrite op_eq_cross. destruct (Bool.eqb im im'); [|eauto]. rewrite fine_cross in Fa, Fb.
    revert fs' Fb. induction fs as [|f fs IHf]; intros [|g fs'] Fb; cbn [go_eq]; eauto.
    inversion IH as [|? ? I1 I2]; subst. apply and_then_total.
    + apply I1; [apply Fa|apply Fb]; simpl; auto.
    + apply IHf; [assumption|intros; apply Fa; simpl; auto|intros; apply Fb; simpl; auto].
  - cbn [op_eq]. simpl in Fa, Fb. apply and_then_total; [apply IHl|apply IHr]; tauto.
  - cbn [op_eq]. simpl in Fa, Fb. apply and_then_total; [apply IHc; tauto|eauto].
  - cbn [op_eq]. destruct Fa as (Fa & s & -> & _), Fb as (Fb & s' & -> & _). apply and_then_total; [auto|simpl; eauto].
  - cbn [op_eq]. simpl in Fa, Fb. apply and_then_total; [apply IHl|apply IHr]; tauto.
  - cbn [op_eq]. simpl in Fa, Fb. apply and_then_total; [apply IHl|apply IHr]; tauto.
Qed.

Lemma ty_map_types s c : dget c (types_dict s) = ty s c.
Proof.
  unfold types_dict, ty. induction s as [|[x d] s IH]; simpl; [reflexivity|]. destruct (c =? x)%string; [reflexivity|apply IH].
Qed.
Lemma types_dict_eqb_ty a b : NoDup (dkeys a) -> NoDup (dkeys b) ->
  types_dict_eqb (types_dict a) (types_dict b) = true <-> forall c, ty a c = ty b c.
Proof.
  intros Na Nb. unfold types_dict_eqb. rewrite andb_true_iff, !forallb_forall.
  assert (MK : forall c, dmem c (types_dict a) = true <-> ty a c <> None).
  { intros c. rewrite dmem_In, <- (ty_map_types a). destruct (dget c (types_dict a)) eqn:E.
    - split; [discriminate|]. intros _. apply dget_In in E. unfold dkeys. apply in_map_iff. exists (c, c0). auto.
    - split; [|congruence]. intros H. apply dget_None in E. tauto. }
  split.
  - intros [H1 H2] c. destruct (ty a c) as [t|] eqn:Ea.
    + apply ty_In in Ea as (cd & H & Et); [|assumption].
      assert (K := H1 (c, cd_type cd)). rewrite ty_map_types in K. cbn [fst snd] in K.
      assert (In (c, cd_type cd) (types_dict a)).
      { unfold types_dict. apply in_map_iff. exists (c, cd). auto. }
      apply K in H0. destruct (ty b c); [|discriminate]. apply ctype_eqb_eq in H0. congruence.
    + destruct (ty b c) as [t|] eqn:Eb; [|reflexivity]. apply ty_In in Eb as (cd & H & Et); [|assumption].
      assert (K := H2 (c, cd_type cd)). cbn [fst] in K. rewrite MK in K. exfalso. apply K; [|assumption].
      unfold types_dict. apply in_map_iff. exists (c, cd). auto.
  - intros H. split.
    + intros [c t] Hc. cbn [fst snd]. rewrite ty_map_types, <- H. unfold types_dict in Hc.
      apply in_map_iff in Hc as ([x cd] & E & Hx). inversion E; subst. simpl.
      rewrite (proj2 (ty_In a c (cd_type cd) Na)); [apply ctype_eqb_eq; reflexivity|eauto].
    + intros [c t] Hc. cbn [fst]. apply MK. rewrite H. unfold types_dict in Hc.
      apply in_map_iff in Hc as ([x cd] & E & Hx). inversion E; subst. simpl in *.
      rewrite (proj2 (ty_In b c (cd_type cd) Nb)); [discriminate|eauto].
Qed.

Lemma ks_schema_keys k s : NoDup (ks_cols k) -> ks_schema k = Ok s -> dkeys s = ks_cols k.
Proof.
  intros N E. unfold ks_schema in E. apply bind_ok in E as (s0 & E0 & E). apply bind_ok in E as (ds & E1 & E).
  inversion E; subst s.
  assert (M : map fst ds = ks_cols k).
  { clear - E1. revert ds E1. induction (ks_cols k) as [|c cs IH]; intros ds E; cbn [mapM] in E.
    - inversion E; reflexivity.
    - apply bind_ok in E as (y & Ey & E). apply bind_ok in E as (ys & Eys & E). inversion E; subst.
      apply bind_ok in Ey as (d & _ & Ey). inversion Ey; subst. simpl. rewrite (IH _ Eys). reflexivity. }
  rewrite dict_of_NoDup by (rewrite M; assumption). exact M.
Qed.

Lemma ks_schema_total k cs Ty H : built W D k cs Ty H -> NoDup cs ->
  exists s, ks_schema k = Ok s /\ dkeys s = cs /\ forall c t, ty s c = Some t <-> Ty c t.
Proof.
  intros (Cs & F & Sc & TT & _) N. destruct F as (G & P & Fi).
  destruct (schema_ok W (ks_tree k) (proj1 G) P Fi) as (s0 & Es & Ns & K).
  unfold ks_schema. rewrite Es. cbn [bind]. rewrite Cs.
  assert (X : forall l, (forall c, In c l -> In c cs) -> exists ds,
     mapM (fun c => let* d := dget_res c s0 in Ok (c, d)) l = Ok ds /\ map fst ds = l
     /\ forall c cd, In (c, cd) ds -> dget c s0 = Some cd).
  { induction l as [|c l IH]; intros I.
    - exists []. split; [reflexivity|]. split; [reflexivity|intros ? ? []].
    - destruct IH as (ds & Ed & M & Q); [intros; apply I; simpl; auto|].
      assert (Hc : In c (columns (ks_tree k))) by (apply Sc, I; simpl; auto).
      apply (T_dom W _ (proj1 G) P) in Hc as (t & Ht). apply K in Ht. unfold ty in Ht.
      destruct (dget c s0) as [cd|] eqn:Ec; [|discriminate].
      cbn [mapM]. unfold dget_res at 1. rewrite Ec. cbn [bind]. rewrite Ed. cbn [bind].
      exists ((c, cd) :: ds). split; [reflexivity|]. split; [simpl; congruence|].
      intros x xd [Hx|Hx]; [inversion Hx; subst; assumption|auto]. }
  destruct (X cs (fun c H => H)) as (ds & Ed & M & Q). rewrite Ed. cbn [bind].
  rewrite dict_of_NoDup by (rewrite M; assumption). exists ds. split; [reflexivity|]. split; [exact M|].
  intros c t. rewrite <- TT. rewrite <- K. rewrite ty_In by (unfold dkeys; rewrite M; assumption). unfold ty. split.
  - intros (cd & Hc & <-). rewrite (Q _ _ Hc). reflexivity.
  - intros Ht. destruct (dget c s0) as [cd|] eqn:Ec; [|discriminate]. inversion Ht; subst.
    assert (Hc : In c (map fst ds)).
    { rewrite M. apply Sc. apply (T_dom W _ (proj1 G) P). exists (cd_type cd). apply K. unfold ty. rewrite Ec. reflexivity. }
    apply in_map_iff in Hc as ([x xd] & E & Hx). simpl in E. subst x.
    rewrite (Q _ _ Hx) in Ec. inversion Ec; subst. eauto.
Qed.

(** rows of a reordered frame *)
Lemma reorder_In (cs : list string) f P : wf_frame f -> (forall c, In c cs <-> In c (fcols f)) ->
  (forall key, In (map key (fcols f)) (frows f) <-> P key) ->
  forall key, In (map key cs) (frows (fselect cs f)) <-> P key.
Proof.
  intros Wf S H key. rewrite <- H. exact (has_reorder cs f key Wf S).
Qed.
Lemma map_rget_row (cs : list string) r : NoDup cs -> length r = length cs -> map (rget cs r) cs = r.
Proof. intros; apply map_rget; assumption. Qed.

(** The comparison KeySet.__eq__ falls back to. *)
Lemma compare_frames a b ca cb Pa Pb da db : stands a ca Pa -> stands b cb Pb ->
  is_plan (ks_tree a) = false -> is_plan (ks_tree b) = false -> ca <> [] -> (forall c, In c ca <-> In c cb) ->
  ks_dataframe W a = Ok da -> ks_dataframe W b = Ok db ->
  let sa := frows (fselect ca da) in let sb := frows (fselect ca db) in
  (is_nil (except_all sa sb) = true <-> forall key, Pa key -> Pb key)
  /\ (is_nil (except_all sb sa) = true <-> forall key, Pb key -> Pa key).
Proof.
  intros Sa Sb Pla Plb NE CC Ea Eb. cbv zeta.
  destruct (stands_dataframe _ _ _ Sa Pla NE) as (fa & ? & _ & Ea' & Ca & Wa & Na & _ & Ha).
  destruct (stands_dataframe _ _ _ Sb Plb) as (fb & ? & _ & Eb' & Cb & Wb & Nb & _ & Hb).
  { eapply nonempty_same; [|exact NE]. assumption. }
  rewrite Ea in Ea'. rewrite Eb in Eb'. inversion Ea'; inversion Eb'; subst fa fb. clear Ea' Eb'.
  assert (Nca : NoDup ca) by (apply Sa; assumption).
  assert (Ra : forall key, In (map key ca) (frows (fselect ca da)) <-> Pa key).
  { apply reorder_In; [assumption|rewrite Ca; reflexivity|]. rewrite Ca. exact Ha. }
  assert (Rb : forall key, In (map key ca) (frows (fselect ca db)) <-> Pb key).
  { apply reorder_In; [assumption|rewrite Cb; exact CC|]. rewrite Cb. exact Hb. }
  assert (Inj : forall f, wf_frame f -> NoDup (frows f) -> (forall c, In c ca <-> In c (fcols f)) -> NoDup (frows (fselect ca f))).
  { intros f [W1 W2] Nf S. cbn [fselect frows]. apply NoDup_map_inj; [assumption|]. intros r s Hr Hs Heq.
    rewrite <- (map_rget (fcols f) r), <- (map_rget (fcols f) s); auto.
    apply map_ext_in. intros c Hc. apply S in Hc. revert c Hc.
    change (forall c, In c ca -> rget (fcols f) r c = rget (fcols f) s c). apply map_eq_ext. exact Heq. }
  assert (Nsa : NoDup (frows (fselect ca da))) by (apply Inj; [assumption|assumption|rewrite Ca; reflexivity]).
  assert (Nsb : NoDup (frows (fselect ca db))) by (apply Inj; [assumption|assumption|rewrite Cb; exact CC]).
  assert (Wd : forall f r, In r (frows (fselect ca f)) -> length r = length ca).
  { intros f r Hr. cbn [fselect frows] in Hr. apply in_map_iff in Hr as (s & <- & _). apply map_length. }
  split; rewrite is_nil_true, except_all_nil by assumption; split.
  - intros H key K. apply Rb, H, Ra, K.
  - intros H r Hr. assert (L := Wd _ _ Hr). rewrite <- (map_rget ca r Nca L) in Hr |- *. apply Rb, H, Ra, Hr.
  - intros H key K. apply Ra, H, Rb, K.
  - intros H r Hr. assert (L := Wd _ _ Hr). rewrite <- (map_rget ca r Nca L) in Hr |- *. apply Ra, H, Rb, Hr.
Qed.

(** What the two verdicts mean, whatever the KeySets. *)
Lemma is_equivalent_true a b ca cb Pa Pb : stands a ca Pa -> stands b cb Pb ->
  ks_is_equivalent a b = Ok (Some true) ->
  (forall c, In c ca <-> In c cb) /\ forall key, Pa key <-> Pb key.
Proof.
  intros (Ga & Ca & Sa & Da & Na) (Gb & Cb & Sb & Db & Nb) E. unfold ks_is_equivalent in E.
  destruct (negb (Bool.eqb (ks_plan a) (ks_plan b))); [discriminate|].
  apply bind_ok in E as (e & Ee & E). destruct e.
  - destruct (op_eq_same W D _ _ Ee) as [C1 D1]. split.
    + intros c. rewrite <- Sa, <- Sb. apply C1.
    + intros key. rewrite <- Da, <- Db. apply D1.
  - exfalso. destruct (ks_plan a).
    + destruct (list_eqb String.eqb (ks_cols a) (ks_cols b)); discriminate.
    + apply bind_ok in E as (sa & Esa & E). apply bind_ok in E as (sb & Esb & E).
      destruct (types_dict_eqb (types_dict sa) (types_dict sb)); discriminate.
Qed.

Definition type_differs (a b : keyset) : Prop :=
  exists sa sb c, ks_schema a = Ok sa /\ ks_schema b = Ok sb
    /\ option_map cd_type (dget c sa) <> option_map cd_type (dget c sb).

Lemma not_all_ty a b : NoDup (dkeys a) -> NoDup (dkeys b) ->
  types_dict_eqb (types_dict a) (types_dict b) = false -> exists c, ty a c <> ty b c.
Proof.
  intros Na Nb E.
  assert (Dc : forall x y : option ctype, {x = y} + {x <> y}) by (intros; decide equality; decide equality).
  assert (X : forall l, (exists c, In c l /\ ty a c <> ty b c) \/ forall c, In c l -> ty a c = ty b c).
  { induction l as [|c l IH]; [right; intros ? []|]. destruct (Dc (ty a c) (ty b c)) as [Ec|Ec].
    - destruct IH as [(x & Hx & Nx)|IH]; [left; exists x; simpl; auto|]. right. intros x [<-|Hx]; auto.
    - left. exists c; simpl; auto. }
  destruct (X (dkeys a ++ dkeys b)) as [(c & _ & H)|H]; [eauto|]. exfalso.
  assert (K : types_dict_eqb (types_dict a) (types_dict b) = true); [|congruence].
  apply types_dict_eqb_ty; [assumption|assumption|]. intros c.
  destruct (in_dec string_dec c (dkeys a ++ dkeys b)) as [Hc|Hc]; [auto|].
  rewrite (proj2 (ty_None a c)), (proj2 (ty_None b c)); [reflexivity|intros Hd; apply Hc, in_or_app; auto..].
Qed.

Lemma is_equivalent_false a b ca cb Pa Pb : stands a ca Pa -> stands b cb Pb ->
  is_plan (ks_tree a) = false -> is_plan (ks_tree b) = false ->
  ks_is_equivalent a b = Ok (Some false) -> type_differs a b.
Proof.
  intros (Ga & Ca & Sa & Da & Na) (Gb & Cb & Sb & Db & Nb) Pla Plb E. unfold ks_is_equivalent, ks_plan in E.
  rewrite Pla, Plb in E. cbn [Bool.eqb negb] in E. apply bind_ok in E as (e & Ee & E). destruct e; [discriminate|].
  apply bind_ok in E as (sa & Esa & E). apply bind_ok in E as (sb & Esb & E).
  destruct (types_dict_eqb (types_dict sa) (types_dict sb)) eqn:X; [discriminate|].
  rewrite <- Ca in Na. rewrite <- Cb in Nb.
  apply not_all_ty in X as (c & Hc).
  - exists sa, sb, c. auto.
  - rewrite (ks_schema_keys _ _ (Na Pla) Esa). auto.
  - rewrite (ks_schema_keys _ _ (Nb Plb) Esb). auto.
Qed.

Lemma ks_eq_meaning a b ca cb Pa Pb v : stands a ca Pa -> stands b cb Pb ->
  is_plan (ks_tree a) = false -> is_plan (ks_tree b) = false -> ca <> [] ->
  ks_eq W a b = Ok v ->
  if v then (forall c, In c ca <-> In c cb) /\ (forall key, Pa key <-> Pb key)
  else type_differs a b \/ ~ (forall key, Pa key <-> Pb key).
Proof.
  intros Sa Sb Pla Plb NE E. unfold ks_eq, ks_plan in E. rewrite Pla, Plb in E. cbn [Bool.eqb negb] in E.
  apply bind_ok in E as (e & Ee & E). destruct e as [[|]|].
  - inversion E; subst v. eapply is_equivalent_true; eassumption.
  - inversion E; subst v. left. eapply is_equivalent_false; eassumption.
  - apply bind_ok in E as (da & Eda & E). apply bind_ok in E as (db & Edb & E).
    assert (CC : forall c, In c ca <-> In c cb).
    { unfold ks_is_equivalent, ks_plan in Ee. rewrite Pla, Plb in Ee. cbn [Bool.eqb negb] in Ee.
      apply bind_ok in Ee as (e & _ & Ee). destruct e; [discriminate|].
      apply bind_ok in Ee as (sa & Esa & Ee). apply bind_ok in Ee as (sb & Esb & Ee).
      destruct (types_dict_eqb (types_dict sa) (types_dict sb)) eqn:X; [|discriminate].
      destruct Sa as (_ & Ca & _ & _ & Na), Sb as (_ & Cb & _ & _ & Nb). specialize (Na Pla). specialize (Nb Plb).
      rewrite <- Ca in Na |- *. rewrite <- Cb in Nb |- *.
      assert (Ka := ks_schema_keys _ _ Na Esa). assert (Kb := ks_schema_keys _ _ Nb Esb).
      rewrite types_dict_eqb_ty in X by congruence.
      intros c. rewrite <- Ka, <- Kb. assert (Z1 := ty_None sa c). assert (Z2 := ty_None sb c). rewrite (X c) in Z1.
      destruct (in_dec string_dec c (dkeys sa)), (in_dec string_dec c (dkeys sb)); tauto. }
    assert (Cka : ks_cols a = ca) by apply Sa. rewrite Cka in E.
    destruct (compare_frames _ _ _ _ _ _ _ _ Sa Sb Pla Plb NE CC Eda Edb) as [K1 K2].
    destruct (is_nil (except_all (frows (fselect ca da)) (frows (fselect ca db)))) eqn:X1; cbn [negb] in E.
    + destruct (is_nil (except_all (frows (fselect ca db)) (frows (fselect ca da)))) eqn:X2; cbn [negb] in E.
      * inversion E; subst v. split; [assumption|]. intros key. split; [apply K1|apply K2]; reflexivity.
      * inversion E; subst v. right. intros H. assert (false = true) by (apply K2; intros; apply H; assumption). discriminate.
    + inversion E; subst v. right. intros H. assert (false = true) by (apply K1; intros; apply H; assumption). discriminate.
Qed.

Lemma ks_eq_refl k : ks_eq W k k = Ok true.
Proof.
  unfold ks_eq, ks_is_equivalent. rewrite Bool.eqb_reflx. cbn [negb]. rewrite op_eq_refl. reflexivity.
Qed.

(** Equality of valid KeySets: it returns, and the answer is right. *)
Lemma ks_eq_decides a b ca cb Pa Pb Ta Tb Ha Hb : stands a ca Pa -> stands b cb Pb ->
  built W D a ca Ta Ha -> built W D b cb Tb Hb -> ca <> [] ->
  exists v, ks_eq W a b = Ok v
  /\ (v = true <-> (forall c t, Ta c t <-> Tb c t) /\ (forall key, Pa key <-> Pb key)).
Proof.
  intros Sa Sb Ba Bb NE.
  assert (Pla := built_plan _ _ _ _ _ _ Ba). assert (Plb := built_plan _ _ _ _ _ _ Bb). unfold ks_plan in *.
  assert (Na : NoDup ca) by (apply Sa; assumption). assert (Nb : NoDup cb) by (apply Sb; assumption).
  destruct (ks_schema_total _ _ _ _ Ba Na) as (sa & Esa & Ksa & Tsa).
  destruct (ks_schema_total _ _ _ _ Bb Nb) as (sb & Esb & Ksb & Tsb).
  assert (TS : (forall c, ty sa c = ty sb c) <-> forall c t, Ta c t <-> Tb c t).
  { split.
    - intros H c t. rewrite <- Tsa, <- Tsb, H. reflexivity.
    - intros H c. destruct (ty sa c) as [t|] eqn:E1.
      + apply Tsa, H, Tsb in E1. congruence.
      + destruct (ty sb c) as [t|] eqn:E2; [|reflexivity]. apply Tsb, H, Tsa in E2. congruence. }
  unfold ks_eq, ks_is_equivalent, ks_plan. rewrite Pla, Plb. cbn [Bool.eqb negb].
  destruct Ba as (Ca & Fa & Sca & TTa & _), Bb as (Cb & Fb & Scb & TTb & _).
  destruct (op_eq_total (ks_tree a) (proj2 (proj2 Fa)) (ks_tree b) (proj2 (proj2 Fb))) as (e & Ee).
  rewrite Ee. cbn [bind]. destruct e.
  - exists true. split; [reflexivity|]. split; [intros _|reflexivity].
    destruct (op_eq_same W D _ _ Ee) as [C1 D1]. assert (T1 := op_eq_T _ _ Ee). split.
    + intros c t. rewrite <- TTa, <- TTb. apply T1.
    + intros key. destruct Sa as (_ & _ & _ & Da & _), Sb as (_ & _ & _ & Db & _). rewrite <- Da, <- Db. apply D1.
  - rewrite Esa. cbn [bind]. rewrite Esb. cbn [bind].
    destruct (types_dict_eqb (types_dict sa) (types_dict sb)) eqn:X.
    + rewrite types_dict_eqb_ty in X by congruence.
      assert (CC : forall c, In c ca <-> In c cb).
      { intros c. rewrite <- Ksa, <- Ksb. assert (Z1 := ty_None sa c). assert (Z2 := ty_None sb c). rewrite (X c) in Z1.
        destruct (in_dec string_dec c (dkeys sa)), (in_dec string_dec c (dkeys sb)); tauto. }
      destruct (stands_dataframe _ _ _ Sa Pla NE) as (da & ? & _ & Eda & _).
      destruct (stands_dataframe _ _ _ Sb Plb) as (db & ? & _ & Edb & _).
      { eapply nonempty_same; [|exact NE]. assumption. }
      cbn [bind]. rewrite Eda. cbn [bind]. rewrite Edb. cbn [bind]. rewrite Ca.
      destruct (compare_frames _ _ _ _ _ _ _ _ Sa Sb Pla Plb NE CC Eda Edb) as [K1 K2].
      destruct (is_nil (except_all (frows (fselect ca da)) (frows (fselect ca db)))) eqn:X1; cbn [negb].
      * destruct (is_nil (except_all (frows (fselect ca db)) (frows (fselect ca da)))) eqn:X2; cbn [negb].
        -- exists true. split; [reflexivity|]. split; [intros _|reflexivity]. split; [apply TS, X|].
           intros key. split; [apply K1|apply K2]; reflexivity.
        -- exists false. split; [reflexivity|]. split; [discriminate|]. intros [_ H]. apply K2. intros; apply H; assumption.
      * exists false. split; [reflexivity|]. split; [discriminate|]. intros [_ H]. apply K1. intros; apply H; assumption.
    + cbn [bind]. exists false. split; [reflexivity|]. split; [discriminate|]. intros [H _]. exfalso.
      assert (Z := proj2 TS H). apply types_dict_eqb_ty in Z; congruence.
Qed.

End MoreApi.
