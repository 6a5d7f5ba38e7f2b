(** Each rewrite rule succeeds on valid trees, and hence so does rewriting. *)
From Coq Require Import String Bool Arith ZArith Lia List Permutation.
From Verif Require Import Prelude Value KeySet KeySetSem KeySetRules KeySetApi KeySetMore KeySetTotal.
Import ListNotations.

Section Rules.
Variable W : world.
Variable D : oracle.
Notation wf := (wf W).
Notation good := (good W D).
Notation same := (same W D).
Notation bag := (bag W D).
Notation sound := (sound W D).
Notation full := (full W D).
Notation result := (result W D).
Notation total := (total W D).
Notation ok_step := (ok_step W D).

Lemma T_columns o c t : full o -> T o c t -> In c (columns o).
Proof. intros ([Wf _] & P & _) H. apply (T_dom W o Wf P). eauto. Qed.

(** ** Groups of disjoint trees *)
Lemma cof_total gs : gs <> [] -> Dj gs -> (forall f, In f gs -> full f) ->
  exists g, cross_or_first gs = Ok g /\ full g
  /\ (forall c, In c (columns g) <-> exists f, In f gs /\ In c (columns f))
  /\ (forall c t, T g c t <-> TX gs c t) /\ (forall c, HX gs c -> hub c g).
Proof.
  intros NE Dd F. destruct gs as [|g [|h gs]]; [congruence| |].
  - exists g. split; [reflexivity|]. split; [apply F; simpl; auto|]. split; [|split].
    + intros c. split; [intros H; exists g; simpl; auto|intros (f & [<-|[]] & H); assumption].
    + intros c t. split; [intros H; exists g; simpl; auto|intros (f & [<-|[]] & H); assumption].
    + intros c (f & [<-|[]] & H). assumption.
  - destruct (mkCrossJoin_total W D false (g :: h :: gs) NE Dd F) as [E F']; [discriminate|].
    exists (CrossJoin false (g :: h :: gs)). split; [exact E|]. split; [assumption|]. split; [|split].
    + intros c. apply columns_cross.
    + intros c t. apply T_cross.
    + intros c. apply hub_cross.
Qed.

(** the same with [match l with [f] => f | _ => CrossJoin l] *)
Lemma cof_match gs : gs <> [] -> cross_or_first gs = match gs with [f] => Ok f | _ => mkCrossJoin false gs end.
Proof. destruct gs as [|g [|h gs]]; [congruence|reflexivity|reflexivity]. Qed.

Lemma factors_full f : full f -> factors_of f <> [] /\ (forall g, In g (factors_of f) -> full g) /\ Dj (factors_of f)
  /\ (forall c, In c (columns f) <-> exists g, In g (factors_of f) /\ In c (columns g))
  /\ (forall c t, T f c t <-> TX (factors_of f) c t) /\ (forall c, hub c f -> HX (factors_of f) c).
Proof.
  intros F.
  assert (X : factors_of f = [f] \/ exists im fs, f = CrossJoin im fs).
  { destruct f; simpl; auto. right; eauto. }
  destruct X as [->|(im & fs & ->)].
  - split; [discriminate|]. split; [intros g [<-|[]]; assumption|]. split; [repeat constructor|].
    split; [|split].
    + intros c. split; [intros H; exists f; simpl; auto|intros (g & [<-|[]] & H); assumption].
    + intros c t. split; [intros H; exists f; simpl; auto|intros (g & [<-|[]] & H); assumption].
    + intros c H. exists f; simpl; auto.
  - apply full_cross in F as (NE & Dd & Ff & _). cbn [factors_of]. split; [assumption|]. split; [assumption|].
    split; [assumption|]. split; [|split].
    + intros c. apply columns_cross.
    + intros c t. apply T_cross.
    + intros c. apply hub_cross.
Qed.

Lemma flat_full fs : Dj fs -> (forall f, In f fs -> full f) ->
  (fs <> [] -> flat_map factors_of fs <> []) /\ (forall g, In g (flat_map factors_of fs) -> full g) /\ Dj (flat_map factors_of fs)
  /\ (forall c t, TX fs c t <-> TX (flat_map factors_of fs) c t)
  /\ (forall c, HX fs c -> HX (flat_map factors_of fs) c).
Proof.
  intros Dd F. split; [|split; [|split; [|split]]].
  - destruct fs as [|f fs]; [congruence|]. intros _. simpl.
    destruct (factors_full f (F f (or_introl eq_refl))) as (NE & _). destruct (factors_of f); [congruence|discriminate].
  - intros g Hg. apply in_flat_map in Hg as (f & Hf & Hg). destruct (factors_full f (F f Hf)) as (_ & H & _). auto.
  - induction fs as [|f fs IH]; simpl; [constructor|]. apply Dj_cons in Dd as [D1 D2]. apply Dj_app.
    destruct (factors_full f (F f (or_introl eq_refl))) as (_ & _ & Df & Cf & _).
    split; [assumption|]. split; [apply IH; [assumption|intros; apply F; simpl; auto]|].
    intros g h Hg Hh c Hc Hc'. apply in_flat_map in Hh as (k & Hk & Hh).
    destruct (factors_full k (F k (or_intror Hk))) as (_ & _ & _ & Ck & _).
    apply (D2 k Hk c); [apply Cf|apply Ck]; eauto.
  - intros c t. split.
    + intros (f & Hf & H). destruct (factors_full f (F f Hf)) as (_ & _ & _ & _ & K & _).
      apply K in H as (g & Hg & H). exists g. split; [apply in_flat_map; eauto|assumption].
    + intros (g & Hg & H). apply in_flat_map in Hg as (f & Hf & Hg). exists f. split; [assumption|].
      destruct (factors_full f (F f Hf)) as (_ & _ & _ & _ & K & _). apply K. exists g; auto.
  - intros c (f & Hf & H). destruct (factors_full f (F f Hf)) as (_ & _ & _ & _ & _ & K).
    apply K in H as (g & Hg & H). exists g. split; [apply in_flat_map; eauto|assumption].
Qed.

Lemma nonzero_TX fs c t : (forall f, In f fs -> full f) ->
  TX (filter (fun f => negb (is_nil (columns f))) fs) c t <-> TX fs c t.
Proof.
  intros F. split.
  - intros (f & Hf & H). apply filter_In in Hf as [Hf _]. exists f; auto.
  - intros (f & Hf & H). exists f. split; [|assumption]. apply filter_In. split; [assumption|].
    apply negb_true_iff, is_nil_false. apply (T_columns _ _ _ (F f Hf)) in H. destruct (columns f); [destruct H|discriminate].
Qed.
Lemma nonzero_HX fs c : HX fs c -> HX (filter (fun f => negb (is_nil (columns f))) fs) c.
Proof.
  intros (f & Hf & H). exists f. split; [|assumption]. apply filter_In. split; [assumption|].
  apply negb_true_iff, is_nil_false. apply hub_columns in H. destruct (columns f); [destruct H|discriminate].
Qed.

Ltac noop F := eexists; split; [reflexivity|split; [apply F|apply tsame_refl]].

Lemma merge_total flag : total flag merge_cross_joins.
Proof.
  intros o F _. apply result_intro; [apply merge_sound|assumption|].
  destruct o as [ts d|p d|cs|im fs|l r|c cs|c k|l r|l r]; cbn [merge_cross_joins]; try (noop F).
  apply full_cross in F as (NE & Dd & Ff & _).
  destruct (flat_full fs Dd Ff) as (N2 & F2 & D2 & T2 & H2). specialize (N2 NE).
  set (factors := flat_map factors_of fs) in *.
  set (nt := filter (fun f => negb (is_nil (columns f))) factors).
  assert (NT : forall c t, T (CrossJoin im fs) c t <-> TX nt c t).
  { intros c t. rewrite T_cross, T2. symmetry. apply nonzero_TX; assumption. }
  assert (NH : forall c, hub c (CrossJoin im fs) -> HX nt c).
  { intros c. rewrite hub_cross. intros H. apply nonzero_HX, H2, H. }
  assert (NF : forall f, In f nt -> full f) by (intros f Hf; apply F2; apply filter_In in Hf; tauto).
  destruct nt as [|f [|g r]] eqn:En.
  - destruct factors as [|f r] eqn:Ef; [congruence|]. exists f. split; [reflexivity|].
    split; [apply F2; simpl; auto|]. split.
    + intros c t. rewrite NT. split; [intros (? & [] & _)|]. intros H.
      assert (Z : columns f = []).
      { destruct (columns f) eqn:Ec; [reflexivity|]. exfalso.
        assert (Hin : In f (filter (fun f => negb (is_nil (columns f))) (f :: r))).
        { apply filter_In. split; [simpl; auto|]. rewrite Ec. reflexivity. }
        unfold nt in En. rewrite En in Hin. destruct Hin. }
      apply (T_columns f c t (F2 f (or_introl eq_refl))) in H. rewrite Z in H. destruct H.
    + intros c H. apply NH in H as (? & [] & _).
  - exists f. split; [reflexivity|]. split; [apply NF; simpl; auto|]. split.
    + intros c t. rewrite NT. split; [intros (? & [<-|[]] & H); assumption|intros H; exists f; simpl; auto].
    + intros c H. apply NH in H as (? & [<-|[]] & H). assumption.
  - destruct (mkCrossJoin_total W D false (f :: g :: r)) as [E F']; [discriminate| |exact NF|discriminate|].
    + rewrite <- En. apply Dj_filter; assumption.
    + exists (CrossJoin false (f :: g :: r)). split; [exact E|]. split; [apply F'|]. split.
      * intros c t. rewrite NT, T_cross. reflexivity.
      * intros c H. apply hub_cross, NH, H.
Qed.

Lemma collapse_total flag : total flag collapse_nested_projections.
Proof.
  intros o F _. apply result_intro; [apply collapse_sound|assumption|].
  destruct o as [ts d|p d|cs|im fs|l r|c cs|c k|l r|l r]; cbn [collapse_nested_projections]; try (noop F).
  destruct c as [ts d|p d|cs'|im fs|l r|c cs'|c k|l r|l r]; try (noop F).
  apply full_project in F as (Fc & (rho & Hr) & ND & NE & I & N).
  apply full_project in Fc as (Fc & (rho' & Hr') & ND' & NE' & I' & N').
  destruct (mkProject_total W D c cs) as [E F']; eauto.
  exists (Project c cs). split; [exact E|]. split; [apply F'|]. split.
  - intros x t. simpl. split; [tauto|]. intros [H1 H2]. repeat split; auto.
  - intros x [[H1 H2] H3]. split; assumption.
Qed.

Lemma remove_noop_total flag : total flag remove_noop_projections.
Proof.
  intros o F _. apply result_intro; [apply remove_noop_sound|assumption|].
  destruct o as [ts d|p d|cs|im fs|l r|c cs|c k|l r|l r]; cbn [remove_noop_projections]; try (noop F).
  destruct (set_eqb cs (columns c)) eqn:S; [|noop F]. rewrite set_eqb_In in S.
  apply full_project in F as (Fc & _ & ND & NE & I & N).
  exists c. split; [reflexivity|]. split; [apply Fc|]. split.
  - intros x t. simpl. split; [tauto|]. intros H. split; [|assumption]. apply S. eapply T_columns; eassumption.
  - intros x [H _]. assumption.
Qed.

Lemma order_total flag : total flag order_cross_joins.
Proof.
  intros o F _. apply result_intro; [apply order_sound|assumption|].
  destruct o as [ts d|p d|cs|im fs|l r|c cs|c k|l r|l r]; cbn [order_cross_joins]; try (noop F).
  apply full_cross in F as (NE & Dd & Ff & IM).
  assert (P := isort_perm columns_le fs).
  assert (IN : forall f, In f (isort columns_le fs) <-> In f fs).
  { intros f. split; apply Permutation_in; [symmetry|]; assumption. }
  destruct (mkCrossJoin_total W D im (isort columns_le fs)) as [E F'].
  - intros Z. rewrite Z in P. apply Permutation_sym, Permutation_nil in P. auto.
  - eapply Dj_perm; eassumption.
  - intros f Hf. apply Ff, IN, Hf.
  - intros Ei f Hf. apply IM; [assumption|]. apply IN, Hf.
  - eexists. split; [exact E|]. split; [apply F'|]. split.
    + intros c t. rewrite !T_cross. split; intros (f & Hf & H); exists f; (split; [apply IN|]; assumption).
    + intros c. rewrite !hub_cross. intros (f & Hf & H); exists f; (split; [apply IN|]; assumption).
Qed.

Lemma touches_spec cs f : touches cs f = true <-> exists c, In c (columns f) /\ In c cs.
Proof. unfold touches. rewrite negb_true_iff, is_nil_false, common_not_nil. reflexivity. Qed.
Lemma touches_no cs f : negb (touches cs f) = true <-> forall c, In c (columns f) -> In c cs -> False.
Proof.
  unfold touches. rewrite negb_involutive, is_nil_true, common_nil. reflexivity.
Qed.

Lemma extract_join_total flag : total flag extract_crossjoin_from_join.
Proof.
  intros o F _. apply result_intro; [apply extract_join_sound|assumption|].
  destruct o as [ts d|p d|cs|im fs|l r|c cs|c k|l r|l r]; cbn [extract_crossjoin_from_join]; try (noop F).
  set (jc := join_columns l r).
  destruct (is_nil (filter (fun f => negb (touches jc f)) (factors_of l) ++
                    filter (fun f => negb (touches jc f)) (factors_of r))) eqn:NX; [noop F|]. clear NX.
  apply full_join in F as (Fl & Fr & K & c0 & Hl & Hr).
  destruct (factors_full l Fl) as (Nl & Gl & Dl & Cl & Tl & HHl).
  destruct (factors_full r Fr) as (Nr & Gr & Dr & Cr & Tr & HHr).
  set (lf := factors_of l) in *. set (rf := factors_of r) in *.
  assert (JC : forall c, In c jc <-> In c (columns l) /\ In c (columns r)) by (intros c; apply common_In).
  assert (JC0 : In c0 jc) by (apply JC; split; apply hub_columns; assumption).
  assert (SPl : forall c, In c jc -> exists f, In f (filter (touches jc) lf) /\ In c (columns f)).
  { intros c Hc. destruct (proj1 (Cl c) (proj1 (proj1 (JC c) Hc))) as (f & Hf & Hcf). exists f. split; [|assumption].
    apply filter_In. split; [assumption|]. apply touches_spec. eauto. }
  assert (SPr : forall c, In c jc -> exists f, In f (filter (touches jc) rf) /\ In c (columns f)).
  { intros c Hc. destruct (proj1 (Cr c) (proj2 (proj1 (JC c) Hc))) as (f & Hf & Hcf). exists f. split; [|assumption].
    apply filter_In. split; [assumption|]. apply touches_spec. eauto. }
  destruct (cof_total (filter (touches jc) lf)) as (jl & Ejl & Fjl & Cjl & Tjl & Hjl).
  { destruct (SPl c0 JC0) as (f & Hf & _). destruct (filter (touches jc) lf); [destruct Hf|discriminate]. }
  { apply Dj_filter; assumption. } { intros f Hf. apply Gl. apply filter_In in Hf; tauto. }
  destruct (cof_total (filter (touches jc) rf)) as (jr & Ejr & Fjr & Cjr & Tjr & Hjr).
  { destruct (SPr c0 JC0) as (f & Hf & _). destruct (filter (touches jc) rf); [destruct Hf|discriminate]. }
  { apply Dj_filter; assumption. } { intros f Hf. apply Gr. apply filter_In in Hf; tauto. }
  destruct (mkJoin_total W D jl jr Fjl Fjr) as [Ej Fj].
  { intros c t t' H1 H2. apply Tjl in H1 as (f & Hf & H1). apply Tjr in H2 as (g & Hg & H2).
    apply filter_In in Hf as [Hf _]. apply filter_In in Hg as [Hg _].
    apply (K c); [apply Tl; exists f; auto|apply Tr; exists g; auto]. }
  { exists c0. split.
    - apply HHl in Hl as (f & Hf & H). apply Hjl. exists f. split; [|assumption]. apply filter_In.
      split; [assumption|]. apply touches_spec. exists c0. split; [apply hub_columns|]; assumption.
    - apply HHr in Hr as (f & Hf & H). apply Hjr. exists f. split; [|assumption]. apply filter_In.
      split; [assumption|]. apply touches_spec. exists c0. split; [apply hub_columns|]; assumption. }
  rewrite Ejl. cbn [bind]. rewrite Ejr. cbn [bind]. rewrite Ej. cbn [bind].
  set (xl := filter (fun f => negb (touches jc f)) lf). set (xr := filter (fun f => negb (touches jc f)) rf).
  assert (XL : forall f, In f xl -> In f lf /\ forall c, In c (columns f) -> In c jc -> False).
  { intros f Hf. apply filter_In in Hf as [Hf H]. split; [assumption|]. apply touches_no; assumption. }
  assert (XR : forall f, In f xr -> In f rf /\ forall c, In c (columns f) -> In c jc -> False).
  { intros f Hf. apply filter_In in Hf as [Hf H]. split; [assumption|]. apply touches_no; assumption. }
  assert (LL : forall f c, In f xl -> In c (columns f) -> In c (columns l)).
  { intros f c Hf Hc. apply Cl. exists f. split; [apply XL|]; assumption. }
  assert (RR : forall f c, In f xr -> In c (columns f) -> In c (columns r)).
  { intros f c Hf Hc. apply Cr. exists f. split; [apply XR|]; assumption. }
  assert (JL : forall f g c, In f lf -> In g (filter (touches jc) lf) -> In f xl -> In c (columns f) -> In c (columns g) -> False).
  { intros f g c Hf Hg Hx Hc Hc'. apply filter_In in Hg as [Hg Ht].
    assert (f = g) by (eapply (Dj_same f g lf c); eassumption). subst g.
    apply touches_spec in Ht as (x & Hx1 & Hx2). apply (proj2 (XL f Hx) x); assumption. }
  assert (JR : forall f g c, In f rf -> In g (filter (touches jc) rf) -> In f xr -> In c (columns f) -> In c (columns g) -> False).
  { intros f g c Hf Hg Hx Hc Hc'. apply filter_In in Hg as [Hg Ht].
    assert (f = g) by (eapply (Dj_same f g rf c); eassumption). subst g.
    apply touches_spec in Ht as (x & Hx1 & Hx2). apply (proj2 (XR f Hx) x); assumption. }
  destruct (mkCrossJoin_total W D false ((xl ++ xr) ++ [Join jl jr])) as [E F'].
  - destruct (xl ++ xr); discriminate.
  - apply Dj_app. split; [|split].
    + apply Dj_app. split; [apply Dj_filter; assumption|]. split; [apply Dj_filter; assumption|].
      intros f g Hf Hg c Hc Hc'. apply (proj2 (XL f Hf) c); [assumption|]. apply JC. split; eauto.
    + repeat constructor.
    + intros f g Hf [<-|[]] c Hc Hc'. simpl in Hc'. apply union_cols_In in Hc'.
      apply in_app_iff in Hf as [Hf|Hf].
      * assert (Hcl := LL f c Hf Hc). destruct Hc' as [Hc'|Hc'].
        -- apply Cjl in Hc' as (g & Hg & Hc'). apply (JL f g c); auto. apply XL; assumption.
        -- apply Cjr in Hc' as (g & Hg & Hc'). apply filter_In in Hg as [Hg _].
           apply (proj2 (XL f Hf) c); [assumption|]. apply JC. split; [assumption|]. apply Cr. eauto.
      * assert (Hcr := RR f c Hf Hc). destruct Hc' as [Hc'|Hc'].
        -- apply Cjl in Hc' as (g & Hg & Hc'). apply filter_In in Hg as [Hg _].
           apply (proj2 (XR f Hf) c); [assumption|]. apply JC. split; [|assumption]. apply Cl. eauto.
        -- apply Cjr in Hc' as (g & Hg & Hc'). apply (JR f g c); auto. apply XR; assumption.
  - intros f Hf. apply in_app_iff in Hf as [Hf|[<-|[]]]; [|assumption].
    apply in_app_iff in Hf as [Hf|Hf]; [apply Gl, XL, Hf|apply Gr, XR, Hf].
  - discriminate.
  - eexists. split; [exact E|]. split; [apply F'|]. split.
    + intros c t. rewrite T_cross. cbn [T]. rewrite Tl, Tr. split.
      * intros [(f & Hf & H)|(f & Hf & H)]; destruct (touches jc f) eqn:Tch.
        -- exists (Join jl jr). split; [apply in_or_app; simpl; auto|]. simpl. left. apply Tjl. exists f.
           split; [apply filter_In; auto|assumption].
        -- exists f. split; [|assumption]. apply in_or_app. left. apply in_or_app. left. apply filter_In.
           rewrite Tch. auto.
        -- exists (Join jl jr). split; [apply in_or_app; simpl; auto|]. simpl. right. apply Tjr. exists f.
           split; [apply filter_In; auto|assumption].
        -- exists f. split; [|assumption]. apply in_or_app. left. apply in_or_app. right. apply filter_In.
           rewrite Tch. auto.
      * intros (f & Hf & H). apply in_app_iff in Hf as [Hf|[<-|[]]].
        -- apply in_app_iff in Hf as [Hf|Hf]; [left|right]; exists f; (split; [|assumption]); [apply XL|apply XR]; assumption.
        -- simpl in H. destruct H as [H|H].
           ++ left. apply Tjl in H as (g & Hg & H). apply filter_In in Hg as [Hg _]. exists g; auto.
           ++ right. apply Tjr in H as (g & Hg & H). apply filter_In in Hg as [Hg _]. exists g; auto.
    + intros c [H1 H2]. apply hub_cross. exists (Join jl jr). split; [apply in_or_app; simpl; auto|].
      assert (Hc : In c jc) by (apply JC; split; apply hub_columns; assumption). split.
      * apply HHl in H1 as (f & Hf & H1). apply Hjl. exists f. split; [|assumption]. apply filter_In.
        split; [assumption|]. apply touches_spec. exists c. split; [apply hub_columns|]; assumption.
      * apply HHr in H2 as (f & Hf & H2). apply Hjr. exists f. split; [|assumption]. apply filter_In.
        split; [assumption|]. apply touches_spec. exists c. split; [apply hub_columns|]; assumption.
Qed.

Lemma extract_subtract_total flag : total flag extract_crossjoin_from_subtract.
Proof.
  intros o F _. apply result_intro; [apply extract_subtract_sound|assumption|].
  destruct o as [ts d|p d|cs|im fs|l r|c cs|c k|l r|l r]; cbn [extract_crossjoin_from_subtract]; try (noop F).
  destruct l as [ts d|p d|cs'|im fs|l r'|c cs'|c k|l r'|l r']; try (noop F).
  set (jc := columns r).
  destruct (is_nil (filter (fun f => negb (touches jc f)) fs)) eqn:NX; [noop F|]. clear NX.
  apply full_subtract in F as (Fl & Fr & NE & I). apply full_cross in Fl as (Nl & Dl & Gl & _).
  destruct (cof_total (filter (touches jc) fs)) as (sl & Esl & Fsl & Csl & Tsl & Hsl).
  { destruct (columns r) as [|c t] eqn:Ec; [congruence|].
    assert (Hc : In c (columns (CrossJoin im fs))) by (apply I; simpl; auto).
    apply columns_cross in Hc as (f & Hf & Hc).
    assert (X : In f (filter (touches jc) fs)).
    { apply filter_In. split; [assumption|]. apply touches_spec. exists c. split; [assumption|].
      unfold jc. simpl; auto. }
    destruct (filter (touches jc) fs); [destruct X|discriminate]. }
  { apply Dj_filter; assumption. } { intros f Hf. apply Gl. apply filter_In in Hf; tauto. }
  destruct (mkSubtract_total W D sl r Fsl Fr NE) as [Es Fs].
  { intros c Hc. apply Csl. specialize (I c Hc). apply columns_cross in I as (f & Hf & Hcf).
    exists f. split; [|assumption]. apply filter_In. split; [assumption|]. apply touches_spec. eauto. }
  rewrite Esl. cbn [bind]. rewrite Es. cbn [bind].
  set (x := filter (fun f => negb (touches jc f)) fs).
  assert (XL : forall f, In f x -> In f fs /\ forall c, In c (columns f) -> In c jc -> False).
  { intros f Hf. apply filter_In in Hf as [Hf H]. split; [assumption|]. apply touches_no; assumption. }
  destruct (mkCrossJoin_total W D false (x ++ [Subtract sl r])) as [E F'].
  - destruct x; discriminate.
  - apply Dj_app. split; [apply Dj_filter; assumption|]. split; [repeat constructor|].
    intros f g Hf [<-|[]] c Hc Hc'. simpl in Hc'. apply Csl in Hc' as (g & Hg & Hc').
    apply filter_In in Hg as [Hg Ht]. apply XL in Hf as [Hf Hn].
    assert (f = g) by (eapply (Dj_same f g fs c); eassumption). subst g.
    apply touches_spec in Ht as (z & Hz1 & Hz2). apply (Hn z); assumption.
  - intros f Hf. apply in_app_iff in Hf as [Hf|[<-|[]]]; [|assumption]. apply Gl, XL, Hf.
  - discriminate.
  - eexists. split; [exact E|]. split; [apply F'|]. split.
    + intros c t. rewrite (T_cross false). change (T (Subtract (CrossJoin im fs) r) c t) with (T (CrossJoin im fs) c t).
      rewrite T_cross. split.
      * intros (f & Hf & H); destruct (touches jc f) eqn:Tch.
        -- exists (Subtract sl r). split; [apply in_or_app; simpl; auto|]. simpl. apply Tsl. exists f.
           split; [apply filter_In; auto|assumption].
        -- exists f. split; [|assumption]. apply in_or_app. left. apply filter_In. rewrite Tch. auto.
      * intros (f & Hf & H). apply in_app_iff in Hf as [Hf|[<-|[]]].
        -- exists f; (split; [|assumption]). apply XL; assumption.
        -- simpl in H. apply Tsl in H as (g & Hg & H). apply filter_In in Hg as [Hg _]. exists g; auto.
    + intros c H. change (hub c (CrossJoin im fs)) in H. apply hub_cross in H as (f & Hf & H).
      apply hub_cross. destruct (touches jc f) eqn:Tch.
      * exists (Subtract sl r). split; [apply in_or_app; simpl; auto|]. simpl. apply Hsl. exists f.
        split; [apply filter_In; auto|assumption].
      * exists f. split; [|assumption]. apply in_or_app. left. apply filter_In. rewrite Tch. auto.
Qed.

Lemma extract_total flag : total flag extract_crossjoins.
Proof.
  intros o F _. destruct (extract_join_total false o F) as (o1 & E1 & S1); [discriminate|].
  destruct (extract_subtract_total false o1) as (o2 & E2 & S2); [apply S1|discriminate|].
  exists o2. unfold extract_crossjoins. rewrite E1. cbn [bind]. split; [exact E2|].
  eapply ok_step_trans; [exact S1|exact S2].
Qed.

(** ** project_across_crossjoin *)
Lemma project_step_changes o o' : project_step o = Ok (Some o') -> (weight o' < weight o)%nat /\ o' <> o.
Proof.
  intros E. assert (L : (weight o' < weight o)%nat); [|split; [assumption|intros ->; lia]].
  destruct o as [| | | | |c cs| | |]; try discriminate. destruct c as [| | |im fs| | | | |]; try discriminate.
  cbn [project_step] in E. apply bind_ok in E as (inc & E1 & E).
  assert (X : (fold_right (fun f acc => weight f + acc) 0 inc <= 2 * fold_right (fun f acc => weight f + acc) 0 fs)%nat).
  { clear E. revert inc E1. induction fs as [|f fs IH]; intros inc E; cbn [filter mapM] in E.
    - inversion E; subst; simpl; lia.
    - destruct (negb (is_nil (common (columns f) cs))).
      + cbn [mapM] in E. apply bind_ok in E as (y & Ey & E). apply bind_ok in E as (ys & Eys & E).
        apply mkProject_ok in Ey as (-> & _). inversion E; subst. specialize (IH _ Eys).
        cbn [fold_right weight]. lia.
      + specialize (IH _ E). cbn [fold_right]. lia. }
  cbn [weight]. destruct inc as [|f [|g r]].
  - discriminate.
  - inversion E; subst. cbn [fold_right] in X. lia.
  - apply bind_ok in E as (x & Ex & E). inversion E; subst. apply mkCrossJoin_ok in Ex as (-> & _).
    cbn [weight]. lia.
Qed.

Lemma project_step_progress : progress W D project_step.
Proof.
  intros o F. assert (X : (exists o', project_step o = Ok (Some o')) \/ project_step o = Ok None).
  { destruct o as [ts d|p d|cs|im fs|l r|c cs|c k|l r|l r]; auto.
    destruct c as [ts d|p d|cs'|im fs|l r|c cs'|c k|l r|l r]; auto. left.
    cbn [project_step]. apply full_project in F as (Fc & (rho & Hr) & ND & NE & I & N).
    apply full_cross in Fc as (Nf & Dd & Ff & _). rewrite den_cross in Hr.
    set (kept := filter (fun f => negb (is_nil (common (columns f) cs))) fs).
    assert (K : forall f, In f kept -> In f fs /\ common (columns f) cs <> []).
    { intros f Hf. apply filter_In in Hf as [Hf H]. split; [assumption|].
      apply negb_true_iff, is_nil_false in H. assumption. }
    assert (P : forall f, In f kept -> mkProject f (common (columns f) cs) = Ok (Project f (common (columns f) cs))
                 /\ full (Project f (common (columns f) cs))).
    { intros f Hf. destruct (K f Hf) as [Hf' Hn]. apply mkProject_total; auto.
      - exists rho. auto.
      - apply common_NoDup. apply columns_NoDup with (W := W). apply (Ff f Hf').
      - intros x Hx. apply common_In in Hx. tauto.
      - intros Hx. apply common_In in Hx. tauto. }
    assert (M : mapM (fun f => mkProject f (common (columns f) cs)) kept
                = Ok (map (fun f => Project f (common (columns f) cs)) kept)).
    { clear - P. induction kept as [|f r IH]; [reflexivity|]. cbn [mapM map].
      rewrite (proj1 (P f (or_introl eq_refl))). cbn [bind]. rewrite IH by (intros g Hg; apply P; simpl; auto). reflexivity. }
    rewrite M. cbn [bind].
    destruct (mkCrossJoin_total W D false (map (fun f => Project f (common (columns f) cs)) kept)) as [E _].
    - destruct cs as [|c cs]; [congruence|]. specialize (I c (or_introl eq_refl)).
      apply columns_cross in I as (f & Hf & Hc).
      assert (In f kept).
      { apply filter_In. split; [assumption|]. apply negb_true_iff, is_nil_false, common_not_nil. exists c; simpl; auto. }
      destruct kept; [destruct H|discriminate].
    - assert (Dk : Dj kept) by (apply Dj_filter; assumption). clear - Dk.
      induction kept as [|f r IH]; simpl; [constructor|]. apply Dj_cons in Dk as [D1 D2]. apply Dj_cons.
      split; [auto|]. intros g' Hg' c Hc Hc'. apply in_map_iff in Hg' as (g & <- & Hg). simpl in *.
      apply common_In in Hc as [Hc _]. apply common_In in Hc' as [Hc' _]. apply (D2 g Hg c); assumption.
    - intros p Hp. apply in_map_iff in Hp as (f & <- & Hf). apply P; assumption.
    - discriminate.
    - destruct (map (fun f => Project f (common (columns f) cs)) kept) as [|a [|b r]]; eauto; rewrite E; cbn [bind]; eauto. }
  destruct X as [(o' & E)|E]; [right|auto]. exists o'. split; [assumption|].
  destruct F as (G & P & Fo). destruct (project_step_sound W D _ _ G E) as [G' S'].
  split; [|apply project_step_changes; assumption].
  (* types and hubs *)
  destruct o as [| | | | |c cs| | |]; try discriminate. destruct c as [| | |im fs| | | | |]; try discriminate.
  cbn [project_step] in E. apply bind_ok in E as (inc & E1 & E).
  assert (Q : full (Project (CrossJoin im fs) cs)) by (split; auto).
  apply full_project in Q as (Fc & _ & ND & NE & I & N). apply full_cross in Fc as (Nf & Dd & Ff & _).
  set (kept := filter (fun f => negb (is_nil (common (columns f) cs))) fs) in *.
  assert (Einc : inc = map (fun f => Project f (common (columns f) cs)) kept).
  { clear - E1. revert inc E1. induction kept as [|f r IH]; intros inc E; cbn [mapM] in E.
    - inversion E; reflexivity.
    - apply bind_ok in E as (y & Ey & E). apply bind_ok in E as (ys & Eys & E).
      apply mkProject_ok in Ey as (-> & _). inversion E; subst. rewrite (IH _ Eys). reflexivity. }
  assert (KI : forall f c, In f fs -> In c (columns f) -> In c cs -> In f kept).
  { intros f c Hf Hc Hc'. apply filter_In. split; [assumption|].
    apply negb_true_iff, is_nil_false, common_not_nil. eauto. }
  assert (FI : forall p, In p inc -> fine p).
  { intros p Hp. rewrite Einc in Hp. apply in_map_iff in Hp as (f & <- & Hf). apply filter_In in Hf as [Hf _].
    simpl. split; [apply Ff, Hf|]. intros Hx. apply common_In in Hx. tauto. }
  assert (TI : forall c t, T (Project (CrossJoin im fs) cs) c t <-> TX inc c t).
  { intros c t. change (T (Project (CrossJoin im fs) cs) c t) with (In c cs /\ T (CrossJoin im fs) c t).
    rewrite T_cross, Einc. split.
    - intros [Hc (f & Hf & H)]. assert (Hcf := T_columns f c t (Ff f Hf) H).
      exists (Project f (common (columns f) cs)). split.
      + apply (in_map (fun f => Project f (common (columns f) cs))). eauto.
      + simpl. split; [apply common_In; auto|assumption].
    - intros (p & Hp & H). apply in_map_iff in Hp as (f & <- & Hf). apply filter_In in Hf as [Hf _].
      destruct H as [H1 H2]. apply common_In in H1 as [_ H1]. split; [assumption|]. exists f; auto. }
  assert (HI : forall c, hub c (Project (CrossJoin im fs) cs) -> HX inc c).
  { intros c [H Hc]. apply (hub_cross im) in H as (f & Hf & H). assert (Hcf := hub_columns _ _ H).
    rewrite Einc. exists (Project f (common (columns f) cs)). split.
    - apply (in_map (fun f => Project f (common (columns f) cs))). eauto.
    - simpl. split; [assumption|apply common_In; auto]. }
  assert (R : fine o' /\ tsame (Project (CrossJoin im fs) cs) o').
  { destruct inc as [|a [|b r]].
    - discriminate.
    - inversion E; subst o'. split; [apply FI; simpl; auto|]. split.
      + intros c t. rewrite TI. split; [intros (? & [<-|[]] & H); assumption|intros H; exists a; simpl; auto].
      + intros c H. apply HI in H as (? & [<-|[]] & H). assumption.
    - apply bind_ok in E as (x & Ex & E). inversion E; subst x. apply mkCrossJoin_ok in Ex as (-> & _).
      split; [apply fine_cross; assumption|]. split.
      + intros c t. rewrite TI, T_cross. reflexivity.
      + intros c H. apply hub_cross, HI, H. }
  destruct R as [R1 R2]. split; [|split; assumption]. split; [assumption|]. split; [|assumption].
  apply S'; assumption.
Qed.

Lemma project_across_total o : full o -> result project_across_crossjoin o.
Proof.
  intros F. unfold project_across_crossjoin. apply (breadth_first_fuel W D _ project_step_progress (S (weight o)) o F). lia.
Qed.

(** ** In-memory cross joins *)
Lemma size_fast_total o : full o -> exists n, size W true o = Ok n.
Proof.
  induction o as [ts d|p d|cs|im fs IH|l r IHl IHr|c cs IHc|c k IHc|l r IHl IHr|l r IHl IHr] using op_ind';
    intros F; cbn [size]; eauto.
  - destruct (is_nil d); eauto.
  - destruct F as (_ & P & _). discriminate.
  - apply full_cross in F as (NE & _ & Ff & _).
    assert (X : exists ss, mapM (size W true) fs = Ok ss /\ length ss = length fs).
    { clear NE. induction fs as [|f fs IHf]; [exists []; auto|]. inversion IH as [|? ? I1 I2]; subst.
      destruct (I1 (Ff f (or_introl eq_refl))) as (n & En).
      destruct IHf as (ss & Es & L); [assumption|intros; apply Ff; simpl; auto|].
      exists (n :: ss). cbn [mapM]. rewrite En. cbn [bind]. rewrite Es. split; [reflexivity|simpl; congruence]. }
    destruct X as (ss & Es & L). rewrite Es. cbn [bind]. destruct (all_some ss) as [l|] eqn:A; [|eauto].
    destruct l as [|z l]; [|simpl; eauto].
    destruct ss as [|[s|] ss]; [destruct fs; [congruence|discriminate]| |discriminate].
    simpl in A. destruct (all_some ss); discriminate.
Qed.

Lemma TX_app a b c t : TX (a ++ b) c t <-> TX a c t \/ TX b c t.
Proof.
  unfold TX. split.
  - intros (f & Hf & H). apply in_app_iff in Hf as [Hf|Hf]; [left|right]; eauto.
  - intros [(f & Hf & H)|(f & Hf & H)]; exists f; rewrite in_app_iff; auto.
Qed.
Lemma HX_app a b c : HX (a ++ b) c <-> HX a c \/ HX b c.
Proof.
  unfold HX. split.
  - intros (f & Hf & H). apply in_app_iff in Hf as [Hf|Hf]; [left|right]; eauto.
  - intros [(f & Hf & H)|(f & Hf & H)]; exists f; rewrite in_app_iff; auto.
Qed.
Lemma TX_In a b c t : (forall f, In f a <-> In f b) -> TX a c t <-> TX b c t.
Proof. intros H. split; intros (f & Hf & K); exists f; (split; [apply H|]; assumption). Qed.
Lemma HX_In a b c : (forall f, In f a <-> In f b) -> HX a c <-> HX b c.
Proof. intros H. split; intros (f & Hf & K); exists f; (split; [apply H|]; assumption). Qed.

Lemma pack_total n : forall q acc, (length q <= n)%nat ->
  (forall p, In p q -> is_tuples (snd p) /\ columns (snd p) <> []) ->
  Dj (acc ++ map snd q) -> (forall f, In f (acc ++ map snd q) -> full f) ->
  exists all, pack n q acc = Ok all /\ Dj all /\ (forall f, In f all -> full f)
  /\ (acc ++ map snd q <> [] -> all <> [])
  /\ (forall c t, TX (acc ++ map snd q) c t <-> TX all c t)
  /\ (forall c, HX (acc ++ map snd q) c -> HX all c).
Proof.
  induction n as [|n IH]; intros q acc L Q Dd F; cbn [pack].
  - destruct q; [|simpl in L; lia]. simpl in *. rewrite app_nil_r in *. exists acc.
    split; [reflexivity|]. split; [assumption|]. split; [assumption|]. split; [auto|]. split; [reflexivity|auto].
  - destruct (rev q) as [|[sz large] rq] eqn:R.
    + apply (f_equal (@rev _)) in R. rewrite rev_involutive in R. subst q. simpl in *. rewrite app_nil_r in *.
      exists acc. split; [reflexivity|]. split; [assumption|]. split; [assumption|]. split; [auto|]. split; [reflexivity|auto].
    + assert (Eq : q = rev rq ++ [(sz, large)]).
      { apply (f_equal (@rev _)) in R. rewrite rev_involutive in R. exact R. }
      destruct (take_group sz [large] (rev rq)) as [g rest] eqn:TG.
      destruct (take_group_spec _ _ _ _ _ TG) as (H1 & H2 & H3).
      assert (L' : (length rest <= n)%nat).
      { rewrite Eq, app_length in L. simpl in L. lia. }
      assert (Q' : forall p, In p rest -> is_tuples (snd p) /\ columns (snd p) <> []).
      { intros p Hp. apply Q. rewrite Eq. apply in_or_app. auto. }
      assert (PM : Permutation (acc ++ map snd q) (acc ++ g ++ map snd rest)).
      { apply Permutation_app_head. rewrite <- H1, Eq, map_app. simpl.
        rewrite Permutation_app_comm. reflexivity. }
      assert (IN : forall f, In f (acc ++ map snd q) <-> In f (acc ++ g ++ map snd rest)).
      { intros f. split; apply Permutation_in; [|symmetry]; assumption. }
      assert (D' := Dj_perm _ _ PM Dd).
      assert (Qg : forall f, In f g -> is_tuples f /\ columns f <> []).
      { intros f Hf. assert (Hf' : In f ([large] ++ map snd (rev rq))).
        { rewrite H1. apply in_or_app; auto. }
        apply in_app_iff in Hf' as [[<-|[]]|Hf'].
        - apply (Q (sz, large)). rewrite Eq. apply in_or_app; simpl; auto.
        - apply in_map_iff in Hf' as (p & <- & Hp). apply Q. rewrite Eq. apply in_or_app; auto. }
      assert (Gne : g <> []).
      { assert (X : forall q sz g g' q', take_group sz g q = (g', q') -> g <> [] -> g' <> []).
        { clear. induction q as [|[n f] q IH]; intros sz g g' q' E N; cbn [take_group] in E.
          - congruence.
          - destruct (n * sz <? threshold)%Z; [|congruence]. apply IH in E; [assumption|]. destruct g; discriminate. }
        apply (X _ _ _ _ _ TG). discriminate. }
      assert (Fg : forall f, In f (acc ++ g ++ map snd rest) -> full f) by (intros f Hf; apply F, IN, Hf).
      (* the element pushed onto the accumulator *)
      assert (K : exists x, (match g with [f] => pack n rest (acc ++ [f]) | _ => let* y := mkCrossJoin true g in pack n rest (acc ++ [y]) end)
                           = pack n rest (acc ++ [x])
                /\ full x /\ (forall c, In c (columns x) <-> exists f, In f g /\ In c (columns f))
                /\ (forall c t, T x c t <-> TX g c t) /\ (forall c, HX g c -> hub c x)).
      { destruct g as [|f [|f' g]]; [congruence| |].
        - exists f. split; [reflexivity|]. split; [apply Fg; apply in_or_app; simpl; auto|]. split; [|split].
          + intros c. split; [intros H; exists f; simpl; auto|intros (h & [<-|[]] & H); assumption].
          + intros c t. split; [intros H; exists f; simpl; auto|intros (h & [<-|[]] & H); assumption].
          + intros c (h & [<-|[]] & H). assumption.
        - destruct (mkCrossJoin_total W D true (f :: f' :: g)) as [E F'].
          + discriminate.
          + apply Dj_app in D' as (_ & D' & _). apply Dj_app in D' as (D' & _ & _). assumption.
          + intros h Hh. apply Fg. apply in_or_app. right. apply in_or_app. auto.
          + intros _. assumption.
          + eexists. rewrite E. cbn [bind]. split; [reflexivity|]. split; [assumption|]. split; [|split].
            * intros c. apply columns_cross.
            * intros c t. apply T_cross.
            * intros c. apply hub_cross. }
      destruct K as (x & Ex & Fx & Cx & Tx & Hx). rewrite Ex.
      destruct (IH rest (acc ++ [x]) L' Q') as (all & Ea & Da & Fa & Na & Ta & Ha).
      * rewrite <- app_assoc. apply Dj_app in D' as (A1 & A2 & A3). apply Dj_app in A2 as (A4 & A5 & A6).
        apply Dj_app. split; [assumption|]. split.
        -- apply Dj_cons. split; [assumption|]. intros h Hh c Hc Hc'. apply Cx in Hc as (f & Hf & Hc).
           apply (A6 f h Hf Hh c); assumption.
        -- intros f h Hf [<-|Hh] c Hc Hc'.
           ++ apply Cx in Hc' as (k & Hk & Hc'). apply (A3 f k Hf (in_or_app _ _ _ (or_introl Hk)) c); assumption.
           ++ apply (A3 f h Hf (in_or_app _ _ _ (or_intror Hh)) c); assumption.
      * intros f Hf. rewrite <- app_assoc in Hf. apply in_app_iff in Hf as [Hf|[<-|Hf]].
        -- apply Fg, in_or_app; auto.
        -- assumption.
        -- apply Fg. apply in_or_app. right. apply in_or_app; auto.
      * exists all. split; [assumption|]. split; [assumption|]. split; [assumption|]. split; [|split].
        -- intros _. apply Na. rewrite <- app_assoc. destruct acc; discriminate.
        -- intros c t. rewrite <- Ta. rewrite (TX_In _ _ c t IN). rewrite !TX_app, <- Tx.
           assert (TX [x] c t <-> T x c t).
           { split; [intros (? & [<-|[]] & H); assumption|intros H; exists x; simpl; auto]. }
           tauto.
        -- intros c H. apply Ha. apply (HX_In _ _ c IN) in H. rewrite !HX_app in *.
           destruct H as [H|[H|H]]; auto. left; right. exists x. simpl; auto.
Qed.

Lemma apply_in_memory_total : total true (apply_cross_joins_in_memory W).
Proof.
  intros o F N. apply result_intro; [apply apply_in_memory_sound|assumption|].
  destruct o as [ts d|p d|cs|im fs|l r|c cs|c k|l r|l r]; cbn [apply_cross_joins_in_memory]; try (noop F).
  destruct im; [noop F|]. specialize (N eq_refl). simpl in N.
  rewrite (proj1 (proj2 F)).
  assert (F0 := F). apply full_cross in F as (NE & Dd & Ff & _).
  assert (X : exists tagged, mapM (fun f => let* s := small_factor W f in Ok (s, f)) fs = Ok tagged
              /\ map snd tagged = fs /\ forall n f, In (Some n, f) tagged -> is_tuples f).
  { clear - Ff. induction fs as [|f fs IH].
    - exists []. split; [reflexivity|]. split; [reflexivity|]. intros ? ? [].
    - destruct IH as (tg & E & M & K); [intros; apply Ff; simpl; auto|].
      destruct (size_fast_total f (Ff f (or_introl eq_refl))) as (z & Ez).
      unfold small_factor in *. cbn [mapM]. rewrite Ez. cbn [bind]. rewrite E. cbn [bind].
      eexists. split; [reflexivity|]. split; [simpl; congruence|].
      intros n g [Hg|Hg]; [|eapply K; eassumption]. inversion Hg; subst.
      destruct g; try discriminate. exists tuples, descs. reflexivity. }
  destruct X as (tagged & Et & M & K). rewrite Et. cbn [bind].
  set (large := flat_map (fun p : option Z * op => match fst p with None => [snd p] | Some _ => [] end) tagged).
  set (small := flat_map (fun p : option Z * op => match fst p with Some n => [(n, snd p)] | None => [] end) tagged).
  destruct (length small <? 2)%nat; [noop F0|].
  set (q := isort (fun a b : Z * op => (fst a <=? fst b)%Z) small).
  assert (PM : Permutation fs (large ++ map snd q)).
  { transitivity (large ++ map snd small).
    - rewrite <- M. unfold large, small. clear. induction tagged as [|[[z|] f] tg IH]; simpl.
      + reflexivity.
      + rewrite <- Permutation_middle. constructor. assumption.
      + constructor. assumption.
    - apply Permutation_app_head, Permutation_map, isort_perm. }
  assert (IN : forall f, In f fs <-> In f (large ++ map snd q)).
  { intros f; split; apply Permutation_in; [|symmetry]; assumption. }
  destruct (pack_total (length q) q large) as (all & Ea & Da & Fa & Na & Ta & Ha).
  - lia.
  - intros p Hp. split.
    + apply (Permutation_in _ (Permutation_sym (isort_perm _ _))) in Hp.
      unfold small in Hp. apply in_flat_map in Hp as ([s f] & Hp' & Hp). simpl in Hp.
      destruct s; [|destruct Hp]. destruct Hp as [<-|[]]. simpl. eapply K; eassumption.
    + apply N, IN, in_or_app. right. apply in_map; assumption.
  - eapply Dj_perm; eassumption.
  - intros f Hf. apply Ff, IN, Hf.
  - rewrite Ea. cbn [bind].
    assert (All : all <> []).
    { apply Na. intros Z. rewrite Z in PM. apply Permutation_sym, Permutation_nil in PM. auto. }
    destruct (cof_total all All Da Fa) as (g & Eg & Fg & Cg & Tg & Hg).
    rewrite cof_match in Eg by assumption. exists g. split; [assumption|]. split; [apply Fg|]. split.
    + intros c t. rewrite T_cross, Tg, <- Ta. apply TX_In; assumption.
    + intros c H. apply hub_cross in H. apply Hg, Ha. apply (HX_In _ _ c IN); assumption.
Qed.

(** ** Normalizing *)
Lemma fine_hashable o : fine o -> hashable o = true.
Proof.
  induction o as [ts d|p d|cs|im fs IH|l r IHl IHr|c cs IHc|c k IHc|l r IHl IHr|l r IHl IHr] using op_ind';
    intros F; try reflexivity.
  - rewrite fine_cross in F. rewrite Forall_forall in IH. cbn [hashable]. apply forallb_forall.
    intros f Hf; auto.
  - simpl in *. rewrite IHl, IHr; [reflexivity|apply F|apply F].
  - simpl in *. apply IHc, F.
  - destruct F as (F & s & -> & _). simpl. auto.
  - simpl in *. rewrite IHl, IHr; [reflexivity|apply F|apply F].
  - simpl in *. rewrite IHl, IHr; [reflexivity|apply F|apply F].
Qed.
Lemma with_hash_total l : (forall f, In f l -> fine f) -> exists hs, with_hash W l = Ok hs /\ map fst hs = l.
Proof.
  intros F. assert (X : exists hs, with_hash W l = Ok hs).
  { induction l as [|f l IH]; [exists []; reflexivity|].
    destruct IH as (hs & E); [intros; apply F; simpl; auto|]. unfold with_hash in *. cbn [mapM].
    unfold hash at 1. rewrite fine_hashable by (apply F; simpl; auto). cbn [bind]. rewrite E. eexists; reflexivity. }
  destruct X as (hs & E). exists hs. split; [assumption|]. eapply with_hash_ok; eassumption.
Qed.

Lemma join_leaves_full o : full o -> (exists l r, o = Join l r) ->
  (forall f, In f (join_leaves o) -> full f) /\ (forall c t, T o c t <-> TX (join_leaves o) c t)
  /\ (forall c, hub c o <-> forall f, In f (join_leaves o) -> hub c f) /\ join_leaves o <> [].
Proof.
  induction o as [ts d|p d|cs|im fs IH|l r IHl IHr|c cs IHc|c k IHc|l r IHl IHr|l r IHl IHr] using op_ind';
    intros F (l0 & r0 & Eo); try discriminate. clear Eo l0 r0.
  apply full_join in F as (Fl & Fr & _ & _).
  (* leaves of one side *)
  set (sl := match l with Join _ _ => join_leaves l | _ => [l] end).
  set (sr := match r with Join _ _ => join_leaves r | _ => [r] end).
  assert (SL : (forall f, In f sl -> full f) /\ (forall c t, T l c t <-> TX sl c t)
     /\ (forall c, hub c l <-> forall f, In f sl -> hub c f) /\ sl <> []).
  { unfold sl. destruct l; try (split; [intros f [<-|[]]; assumption|]; split;
      [intros c t; split; [intros H; eexists; split; [left; reflexivity|exact H]|intros (g & [<-|[]] & H); exact H]|];
      split; [|discriminate]; intros c; split; [intros H f [<-|[]]; exact H|intros H; apply H; left; reflexivity]).
    apply IHl; eauto. }
  assert (SR : (forall f, In f sr -> full f) /\ (forall c t, T r c t <-> TX sr c t)
     /\ (forall c, hub c r <-> forall f, In f sr -> hub c f) /\ sr <> []).
  { unfold sr. destruct r; try (split; [intros f [<-|[]]; assumption|]; split;
      [intros c t; split; [intros H; eexists; split; [left; reflexivity|exact H]|intros (g & [<-|[]] & H); exact H]|];
      split; [|discriminate]; intros c; split; [intros H f [<-|[]]; exact H|intros H; apply H; left; reflexivity]).
    apply IHr; eauto. }
  assert (IN : forall f, In f (join_leaves (Join l r)) <-> In f (sl ++ sr)).
  { intros f. cbn [join_leaves]. unfold sl, sr. rewrite !in_app_iff. destruct l, r; simpl; tauto. }
  destruct SL as (L1 & L2 & L3 & L4), SR as (R1 & R2 & R3 & R4).
  split; [|split; [|split]].
  - intros f Hf. apply IN, in_app_iff in Hf as [Hf|Hf]; auto.
  - intros c t. rewrite (TX_In _ _ c t IN), TX_app, <- L2, <- R2. reflexivity.
  - intros c. cbn [hub]. rewrite L3, R3. split.
    + intros [H1 H2] f Hf. apply IN, in_app_iff in Hf as [Hf|Hf]; auto.
    + intros H. split; intros f Hf; apply H, IN, in_app_iff; auto.
  - intros Z. destruct sl as [|f t]; [congruence|]. specialize (IN f). rewrite Z in IN. simpl in IN. tauto.
Qed.

Lemma fold_join_total l : forall acc, full acc -> (forall f, In f l -> full f) ->
  (forall c t t', TX (acc :: l) c t -> TX (acc :: l) c t' -> t = t') ->
  (exists c, forall f, In f (acc :: l) -> hub c f) ->
  exists o, fold_mk (fun r l => mkJoin l r) acc l = Ok o /\ full o
  /\ (forall c t, T o c t <-> TX (acc :: l) c t)
  /\ (forall c, (forall f, In f (acc :: l) -> hub c f) -> hub c o).
Proof.
  induction l as [|x l IH]; intros acc Fa Fl K (c0 & H0); cbn [fold_mk].
  - exists acc. split; [reflexivity|]. split; [assumption|]. split.
    + intros c t. split; [intros H; exists acc; simpl; auto|intros (f & [<-|[]] & H); assumption].
    + intros c H. apply H; simpl; auto.
  - destruct (mkJoin_total W D x acc) as [E F'].
    + apply Fl; simpl; auto.
    + assumption.
    + intros c t t' H1 H2. apply (K c); [exists x|exists acc]; simpl; auto.
    + exists c0. split; apply H0; simpl; auto.
    + rewrite E. cbn [bind].
      assert (TXE : forall c t, TX (Join x acc :: l) c t <-> TX (acc :: x :: l) c t).
      { intros c t. split.
        - intros (f & [<-|Hf] & H).
          + simpl in H. destruct H as [H|H]; [exists x|exists acc]; simpl; auto.
          + exists f; simpl; auto.
        - intros (f & [<-|[<-|Hf]] & H).
          + exists (Join x acc). simpl; auto.
          + exists (Join x acc). simpl; auto.
          + exists f; simpl; auto. }
      destruct (IH (Join x acc)) as (o & Eo & Fo & To & Ho).
      * assumption.
      * intros f Hf; apply Fl; simpl; auto.
      * intros c t t' H1 H2. apply (K c); apply TXE; assumption.
      * exists c0. intros f [<-|Hf]; [simpl; split|]; apply H0; simpl; auto.
      * exists o. split; [assumption|]. split; [assumption|]. split.
        -- intros c t. rewrite To. apply TXE.
        -- intros c H. apply Ho. intros f [<-|Hf]; [simpl; split|]; apply H; simpl; auto.
Qed.

Lemma normalize_joins_total flag : total flag (normalize_joins W).
Proof.
  intros o F _. apply result_intro; [apply normalize_joins_sound|assumption|].
  destruct o as [ts d|p d|cs|im fs|l r|c cs|c k|l r|l r]; cbn [normalize_joins]; try (noop F).
  destruct (join_leaves_full _ F) as (L1 & L2 & L3 & L4); [eauto|].
  destruct (with_hash_total (join_leaves (Join l r))) as (hs & Eh & Mh); [intros f Hf; apply L1, Hf|].
  rewrite Eh. cbn [bind].
  set (s := map fst (isort_rev key_le hs)).
  assert (IN : forall f, In f s <-> In f (join_leaves (Join l r))).
  { intros f. unfold s. rewrite <- Mh. split; apply Permutation_in, Permutation_map; [symmetry|]; apply isort_rev_perm. }
  destruct s as [|a t] eqn:Es.
  { exfalso. apply L4. destruct (join_leaves (Join l r)) as [|f z]; [reflexivity|].
    exfalso. apply (IN f). simpl; auto. }
  cbn [reduce_mk].
  assert (F0 := F). destruct F0 as ([Wf _] & P & Fo). assert (F1 := F). apply full_join in F1 as (_ & _ & _ & c0 & H1 & H2).
  destruct (fold_join_total t a) as (o & Eo & Fo' & To & Ho).
  - apply L1, IN. simpl; auto.
  - intros f Hf. apply L1, IN. simpl; auto.
  - intros c t1 t2 Ht1 Ht2. apply (TX_In _ _ c t1 IN), L2 in Ht1. apply (TX_In _ _ c t2 IN), L2 in Ht2.
    eapply (T_fun W _ Wf P Fo); eassumption.
  - exists c0. intros f Hf. apply (proj1 (L3 c0)); [split; assumption|]. apply IN, Hf.
  - exists o. split; [exact Eo|]. split; [apply Fo'|]. split.
    + intros c t0. rewrite To, L2. symmetry. apply TX_In, IN.
    + intros c H. apply Ho. intros f Hf. apply (proj1 (L3 c) H). apply IN, Hf.
Qed.

Lemma union_leaves_full o : full o -> (exists l r, o = Union l r) ->
  (forall f, In f (union_leaves o) -> full f /\ (forall c, In c (columns f) <-> In c (columns o))
     /\ forall c t, T f c t <-> T o c t) /\ union_leaves o <> [] /\ (1 < length (union_leaves o))%nat.
Proof.
  induction o as [ts d|p d|cs|im fs IH|l r IHl IHr|c cs IHc|c k IHc|l r IHl IHr|l r IHl IHr] using op_ind';
    intros F (l0 & r0 & Eo); try discriminate. clear Eo l0 r0.
  apply full_union in F as (Fl & Fr & C & NE & K).
  set (sl := match l with Union _ _ => union_leaves l | _ => [l] end).
  set (sr := match r with Union _ _ => union_leaves r | _ => [r] end).
  assert (SL : (forall f, In f sl -> full f /\ (forall c, In c (columns f) <-> In c (columns l))
     /\ forall c t, T f c t <-> T l c t) /\ (1 <= length sl)%nat).
  { unfold sl. destruct l; try (split; [intros f [<-|[]]; split; [assumption|]; split; reflexivity|simpl; lia]).
    destruct IHl as (H1 & _ & H2); [assumption|eauto|]. split; [assumption|lia]. }
  assert (SR : (forall f, In f sr -> full f /\ (forall c, In c (columns f) <-> In c (columns r))
     /\ forall c t, T f c t <-> T r c t) /\ (1 <= length sr)%nat).
  { unfold sr. destruct r; try (split; [intros f [<-|[]]; split; [assumption|]; split; reflexivity|simpl; lia]).
    destruct IHr as (H1 & _ & H2); [assumption|eauto|]. split; [assumption|lia]. }
  assert (IN : forall f, In f (union_leaves (Union l r)) <-> In f (sl ++ sr)).
  { intros f. cbn [union_leaves]. unfold sl, sr. rewrite !in_app_iff. destruct l, r; simpl; tauto. }
  assert (LE : length (union_leaves (Union l r)) = (length sl + length sr)%nat).
  { cbn [union_leaves]. unfold sl, sr. rewrite !app_length. destruct l, r; simpl; lia. }
  destruct SL as (L1 & L2), SR as (R1 & R2).
  split; [|split].
  - intros f Hf. apply IN, in_app_iff in Hf as [Hf|Hf].
    + destruct (L1 f Hf) as (H1 & H2 & H3). auto.
    + destruct (R1 f Hf) as (H1 & H2 & H3). split; [assumption|]. split.
      * intros c. rewrite H2. simpl. symmetry. apply C.
      * intros c t. rewrite H3. simpl. symmetry. apply K.
  - intros Z. rewrite Z in LE. simpl in LE. lia.
  - lia.
Qed.

Lemma fold_union_total l : forall acc, full acc -> columns acc <> [] ->
  (forall f, In f l -> full f /\ (forall c, In c (columns f) <-> In c (columns acc)) /\ forall c t, T f c t <-> T acc c t) ->
  exists o, fold_mk (fun r l => mkUnion l r) acc l = Ok o /\ full o
  /\ (forall c, In c (columns o) <-> In c (columns acc)) /\ (forall c t, T o c t <-> T acc c t)
  /\ (l <> [] -> exists a b, o = Union a b).
Proof.
  induction l as [|x l IH]; intros acc Fa NE H; cbn [fold_mk].
  - exists acc. split; [reflexivity|]. split; [assumption|]. split; [reflexivity|]. split; [reflexivity|]. congruence.
  - destruct (H x (or_introl eq_refl)) as (Fx & Cx & Tx).
    destruct (mkUnion_total W D x acc Fx Fa Cx) as [E F'].
    + eapply nonempty_same; [|exact NE]. intros c; symmetry; apply Cx.
    + exact Tx.
    + rewrite E. cbn [bind]. destruct (IH (Union x acc) F') as (o & Eo & Fo & Co & To & Uo).
      * simpl. eapply nonempty_same; [|exact NE]. intros c; symmetry; apply Cx.
      * intros f Hf. destruct (H f (or_intror Hf)) as (Ff & Cf & Tf). split; [assumption|]. simpl. split.
        -- intros c. rewrite Cf. symmetry. apply Cx.
        -- intros c t. rewrite Tf. symmetry. apply Tx.
      * exists o. split; [assumption|]. split; [assumption|]. split; [|split].
        -- intros c. rewrite Co. apply Cx.
        -- intros c t. rewrite To. apply Tx.
        -- intros _. destruct l as [|y l]; [|apply Uo; discriminate]. simpl in Eo. inversion Eo; subst. eauto.
Qed.

Lemma normalize_unions_total flag : total flag (normalize_unions W).
Proof.
  intros o F _. apply result_intro; [apply normalize_unions_sound|assumption|].
  destruct o as [ts d|p d|cs|im fs|l r|c cs|c k|l r|l r]; cbn [normalize_unions]; try (noop F).
  destruct (union_leaves_full _ F) as (L1 & L2 & L3); [eauto|].
  destruct (with_hash_total (union_leaves (Union l r))) as (hs & Eh & Mh); [intros f Hf; apply L1, Hf|].
  rewrite Eh. cbn [bind].
  set (s := map fst (isort (fun a b : op * Z => (snd a <=? snd b)%Z) hs)).
  assert (PM : Permutation s (union_leaves (Union l r))).
  { unfold s. rewrite <- Mh. apply Permutation_map. symmetry. apply isort_perm. }
  assert (IN : forall f, In f s <-> In f (union_leaves (Union l r))).
  { intros f. split; apply Permutation_in; [|symmetry]; assumption. }
  apply Permutation_length in PM.
  rewrite <- PM in L3.
  destruct s as [|a t] eqn:Es; [simpl in L3; lia|]. cbn [reduce_mk].
  destruct (L1 a) as (Fa & Ca & Ta); [apply IN; simpl; auto|].
  apply full_union in F as (_ & _ & _ & NE & _).
  destruct (fold_union_total t a Fa) as (o & Eo & Fo & Co & To & Uo).
  - eapply nonempty_same; [|exact NE]. intros c; symmetry; apply Ca.
  - intros f Hf. destruct (L1 f) as (Ff & Cf & Tf); [apply IN; simpl; auto|]. split; [assumption|]. split.
    + intros c. rewrite Cf. symmetry. apply Ca.
    + intros c t0. rewrite Tf. symmetry. apply Ta.
  - exists o. split; [exact Eo|]. split; [apply Fo|]. split.
    + intros c t0. rewrite To. symmetry. apply Ta.
    + destruct Uo as (x & y & ->); [intros ->; simpl in L3; lia|]. intros c H.
      change (In c (columns (Union l r))) in H. apply Ca, Co in H. exact H.
Qed.

Lemma spine_full o : full o -> let '(b, rs) := subtract_spine o in
  full b /\ (forall r, In r rs -> full r /\ columns r <> [] /\ forall c, In c (columns r) -> In c (columns b))
  /\ (forall c t, T o c t <-> T b c t) /\ (forall c, hub c o <-> hub c b) /\ (forall c, In c (columns o) <-> In c (columns b)).
Proof.
  induction o as [ts d|p d|cs|im fs IH|l r IHl IHr|c cs IHc|c k IHc|l r IHl IHr|l r IHl IHr] using op_ind';
    intros F; cbn [subtract_spine];
    try (split; [assumption|]; split; [intros ? []|]; split; [reflexivity|]; split; reflexivity).
  apply full_subtract in F as (Fl & Fr & NE & I). specialize (IHl Fl).
  destruct (subtract_spine l) as [b rs]. destruct IHl as (Fb & Rs & Tb & Hb & Cb).
  split; [assumption|]. split; [|split; [|split]].
  - intros x [<-|Hx]; [|auto]. split; [assumption|]. split; [assumption|]. intros c Hc. apply Cb, I, Hc.
  - exact Tb.
  - exact Hb.
  - exact Cb.
Qed.

Lemma fold_subtract_total rs : forall b, full b ->
  (forall r, In r rs -> full r /\ columns r <> [] /\ forall c, In c (columns r) -> In c (columns b)) ->
  exists o, fold_mk mkSubtract b rs = Ok o /\ full o /\ (forall c t, T o c t <-> T b c t) /\ (forall c, hub c o <-> hub c b).
Proof.
  induction rs as [|r rs IH]; intros b Fb H; cbn [fold_mk].
  - exists b. split; [reflexivity|]. split; [assumption|]. split; reflexivity.
  - destruct (H r (or_introl eq_refl)) as (Fr & NE & I).
    destruct (mkSubtract_total W D b r Fb Fr NE I) as [E F']. rewrite E. cbn [bind].
    destruct (IH (Subtract b r) F') as (o & Eo & Fo & To & Ho).
    + intros x Hx. apply H; simpl; auto.
    + exists o. split; [assumption|]. split; [assumption|]. split; [exact To|exact Ho].
Qed.

Lemma normalize_subtracts_total flag : total flag (normalize_subtracts W).
Proof.
  intros o F _. apply result_intro; [apply normalize_subtracts_sound|assumption|].
  destruct o as [ts d|p d|cs|im fs|l r|c cs|c k|l r|l r]; cbn [normalize_subtracts]; try (noop F).
  assert (S := spine_full _ F). destruct (subtract_spine (Subtract l r)) as [b rs].
  destruct S as (Fb & Rs & Tb & Hb & _).
  destruct (with_hash_total rs) as (hs & Eh & Mh); [intros f Hf; apply Rs, Hf|].
  rewrite Eh. cbn [bind].
  destruct (fold_subtract_total (map fst (isort key_le hs)) b Fb) as (o & Eo & Fo & To & Ho).
  - intros x Hx. apply Rs. rewrite <- Mh. revert Hx. apply Permutation_in, Permutation_map. symmetry. apply isort_perm.
  - exists o. split; [assumption|]. split; [apply Fo|]. split.
    + intros c t. rewrite To, Tb. reflexivity.
    + intros c H. apply Ho, Hb, H.
Qed.

(** ** Columnless factors are gone after merge_cross_joins *)
Lemma nz_factors f g : nz f -> In g (factors_of f) -> nz g.
Proof.
  destruct f; intros N H; cbn [factors_of] in H; try (destruct H as [<-|[]]; assumption).
  apply (proj1 (nz_cross _ _) N); assumption.
Qed.

Lemma nz_depth_first f : (forall o o', nz o \/ (exists im fs, o = CrossJoin im fs /\ forall g, In g fs -> nz g) ->
    f o = Ok o' -> nz o') -> forall o o', depth_first f o = Ok o' -> nz o'.
Proof.
  intros H. induction o as [ts d|p d|cs|im fs IH|l r IHl IHr|c cs IHc|c k IHc|l r IHl IHr|l r IHl IHr] using op_ind';
    intros o' E; cbn [depth_first] in E.
  - eapply H; [|exact E]. left; exact I.
  - eapply H; [|exact E]. left; exact I.
  - eapply H; [|exact E]. left; exact I.
  - apply bind_ok in E as (fs' & E1 & E). apply bind_ok in E as (x & E2 & E).
    apply mkCrossJoin_ok in E2 as (-> & _). eapply H; [|exact E]. right. exists im, fs'. split; [reflexivity|].
    apply mapM_ok_Forall2 in E1. intros g Hg. destruct (Forall2_In_r _ _ _ _ E1 Hg) as (g0 & Hg0 & K).
    rewrite Forall_forall in IH. eapply IH; eassumption.
  - apply bind_ok in E as (l' & E1 & E). apply bind_ok in E as (r' & E2 & E). apply bind_ok in E as (x & E3 & E).
    apply mkJoin_ok in E3 as (-> & _). eapply H; [|exact E]. left. simpl; eauto.
  - apply bind_ok in E as (c' & E1 & E). apply bind_ok in E as (x & E3 & E).
    apply mkProject_ok in E3 as (-> & _). eapply H; [|exact E]. left. simpl; eauto.
  - apply bind_ok in E as (c' & E1 & E). apply bind_ok in E as (x & E3 & E).
    apply mkFilter_ok in E3 as ->. eapply H; [|exact E]. left. simpl; eauto.
  - apply bind_ok in E as (l' & E1 & E). apply bind_ok in E as (r' & E2 & E). apply bind_ok in E as (x & E3 & E).
    apply mkSubtract_ok in E3 as (-> & _). eapply H; [|exact E]. left. simpl; eauto.
  - apply bind_ok in E as (l' & E1 & E). apply bind_ok in E as (r' & E2 & E). apply bind_ok in E as (x & E3 & E).
    apply mkUnion_ok in E3 as (-> & _). eapply H; [|exact E]. left. simpl; eauto.
Qed.

Lemma merge_nz o o' : depth_first merge_cross_joins o = Ok o' -> nz o'.
Proof.
  apply nz_depth_first. clear. intros o o' H E.
  assert (H' : match o with CrossJoin _ fs => forall g, In g fs -> nz g | _ => nz o end).
  { destruct H as [H|(im & fs & -> & H)]; [|assumption]. destruct o; try assumption.
    intros g Hg. apply (proj1 (nz_cross _ _) H); assumption. }
  clear H. destruct o; cbn [merge_cross_joins] in E; try (inversion E; subst; assumption).
  assert (K : forall g, In g (flat_map factors_of factors) -> nz g).
  { intros g Hg. apply in_flat_map in Hg as (f & Hf & Hg). eapply nz_factors; eauto. }
  set (nt := filter (fun f => negb (is_nil (columns f))) (flat_map factors_of factors)) in *.
  assert (KN : forall g, In g nt -> columns g <> [] /\ nz g).
  { intros g Hg. apply filter_In in Hg as [Hg Hn]. apply negb_true_iff, is_nil_false in Hn. auto. }
  destruct nt as [|f [|g r]].
  - destruct (flat_map factors_of factors) as [|f r]; [discriminate|]. inversion E; subst. apply K; simpl; auto.
  - inversion E; subst. apply KN; simpl; auto.
  - apply mkCrossJoin_ok in E as (-> & _). apply nz_cross. assumption.
Qed.

Lemma order_nz o o' : nz o -> depth_first order_cross_joins o = Ok o' ->
  nz o' /\ forall c, In c (columns o) <-> In c (columns o').
Proof.
  revert o'. induction o as [ts d|p d|cs|im fs IH|l r IHl IHr|c cs IHc|c k IHc|l r IHl IHr|l r IHl IHr] using op_ind';
    intros o' N E; cbn [depth_first] in E.
  - inversion E; subst. split; [exact I|reflexivity].
  - inversion E; subst. split; [exact I|reflexivity].
  - inversion E; subst. split; [exact I|reflexivity].
  - apply bind_ok in E as (fs' & E1 & E). apply bind_ok in E as (x & E2 & E).
    apply mkCrossJoin_ok in E2 as (-> & _). cbn [order_cross_joins] in E. apply mkCrossJoin_ok in E as (-> & _).
    rewrite nz_cross in N. rewrite Forall_forall in IH.
    assert (F2 : Forall2 (fun f g => nz g /\ forall c, In c (columns f) <-> In c (columns g)) fs fs').
    { apply mapM_ok_Forall2 in E1. refine (Forall2_impl_In _ _ _ _ _ E1). intros a b Ha Hab. simpl in Hab.
      apply IH; [assumption|apply N; assumption|assumption]. }
    assert (IN : forall f, In f (isort columns_le fs') <-> In f fs').
    { intros f. split; apply Permutation_in; [symmetry|]; apply isort_perm. }
    split.
    + apply nz_cross. intros g Hg. apply IN in Hg. destruct (Forall2_In_r _ _ _ _ F2 Hg) as (f & Hf & K1 & K2).
      split; [|assumption]. eapply nonempty_same; [exact K2|apply N, Hf].
    + intros c. rewrite !columns_cross. split; intros (f & Hf & Hc).
      * destruct (Forall2_In_l _ _ _ _ F2 Hf) as (g & Hg & K1 & K2). exists g. split; [apply IN, Hg|apply K2, Hc].
      * apply IN in Hf. destruct (Forall2_In_r _ _ _ _ F2 Hf) as (g & Hg & K1 & K2). exists g. split; [assumption|apply K2, Hc].
  - apply bind_ok in E as (l' & E1 & E). apply bind_ok in E as (r' & E2 & E). apply bind_ok in E as (x & E3 & E).
    apply mkJoin_ok in E3 as (-> & _). inversion E; subst. destruct N as [Nl Nr].
    destruct (IHl _ Nl E1) as [A1 A2], (IHr _ Nr E2) as [B1 B2]. split; [split; assumption|].
    intros c. simpl. rewrite !union_cols_In, A2, B2. reflexivity.
  - apply bind_ok in E as (c' & E1 & E). apply bind_ok in E as (x & E3 & E).
    apply mkProject_ok in E3 as (-> & _). inversion E; subst. destruct (IHc _ N E1) as [A1 A2].
    split; [assumption|reflexivity].
  - apply bind_ok in E as (c' & E1 & E). apply bind_ok in E as (x & E3 & E).
    apply mkFilter_ok in E3 as ->. inversion E; subst. destruct (IHc _ N E1) as [A1 A2]. split; assumption.
  - apply bind_ok in E as (l' & E1 & E). apply bind_ok in E as (r' & E2 & E). apply bind_ok in E as (x & E3 & E).
    apply mkSubtract_ok in E3 as (-> & _). inversion E; subst. destruct N as [Nl Nr].
    destruct (IHl _ Nl E1) as [A1 A2], (IHr _ Nr E2) as [B1 B2]. split; [split; assumption|assumption].
  - apply bind_ok in E as (l' & E1 & E). apply bind_ok in E as (r' & E2 & E). apply bind_ok in E as (x & E3 & E).
    apply mkUnion_ok in E3 as (-> & _). inversion E; subst. destruct N as [Nl Nr].
    destruct (IHl _ Nl E1) as [A1 A2], (IHr _ Nr E2) as [B1 B2]. split; [split; assumption|assumption].
Qed.

(** ** All rules *)
Theorem rewrite_total o : full o -> result (rewrite W) o.
Proof.
  intros F. unfold result, KeySetTotal.result, rewrite, rules. cbn [fold_left bind].
  destruct (project_across_total o F) as (o1 & E1 & S1). rewrite E1. cbn [bind].
  destruct (depth_first_total W D false _ (collapse_total false) o1 (proj1 S1)) as (o2 & E2 & S2); [discriminate|]. rewrite E2. cbn [bind].
  destruct (depth_first_total W D false _ (remove_noop_total false) o2 (proj1 S2)) as (o3 & E3 & S3); [discriminate|]. rewrite E3. cbn [bind].
  destruct (depth_first_total W D false _ (merge_total false) o3 (proj1 S3)) as (o4 & E4 & S4); [discriminate|]. rewrite E4. cbn [bind].
  destruct (depth_first_total W D false _ (extract_total false) o4 (proj1 S4)) as (o5 & E5 & S5); [discriminate|]. rewrite E5. cbn [bind].
  destruct (depth_first_total W D false _ (merge_total false) o5 (proj1 S5)) as (o6 & E6 & S6); [discriminate|]. rewrite E6. cbn [bind].
  destruct (depth_first_total W D false _ (order_total false) o6 (proj1 S6)) as (o7 & E7 & S7); [discriminate|]. rewrite E7. cbn [bind].
  destruct (depth_first_total W D true _ apply_in_memory_total o7 (proj1 S7)) as (o8 & E8 & S8).
  { intros _. apply (order_nz o6); [apply (merge_nz _ _ E6)|assumption]. }
  rewrite E8. cbn [bind].
  destruct (depth_first_total W D false _ (normalize_joins_total false) o8 (proj1 S8)) as (o9 & E9 & S9); [discriminate|]. rewrite E9. cbn [bind].
  destruct (depth_first_total W D false _ (normalize_subtracts_total false) o9 (proj1 S9)) as (o10 & E10 & S10); [discriminate|]. rewrite E10. cbn [bind].
  destruct (depth_first_total W D false _ (normalize_unions_total false) o10 (proj1 S10)) as (o11 & E11 & S11); [discriminate|].
  exists o11. split; [exact E11|].
  refine (ok_step_trans W D _ _ _ S1 (ok_step_trans W D _ _ _ S2 (ok_step_trans W D _ _ _ S3 (ok_step_trans W D _ _ _ S4
    (ok_step_trans W D _ _ _ S5 (ok_step_trans W D _ _ _ S6 (ok_step_trans W D _ _ _ S7 (ok_step_trans W D _ _ _ S8
    (ok_step_trans W D _ _ _ S9 (ok_step_trans W D _ _ _ S10 S11)))))))))).
Qed.

End Rules.
