(** Sizes, emptiness, decomposition and equality of KeySets. *)
From Coq Require Import String Bool Arith ZArith Lia List.
From Verif Require Import Prelude Value KeySet KeySetSem KeySetRules KeySetApi.
Import ListNotations.

Section More.
Variable W : world.
Variable D : oracle.
Notation den := (den W D).
Notation wf := (wf W).
Notation good := (good W D).

(** ** size() *)
Definition zprod (l : list Z) : Z := fold_right Z.mul 1%Z l.
Definition zlen (f : frame) : Z := Z.of_nat (length (frows f)).

Lemma fold_left_zmul l : forall a, fold_left Z.mul l a = (a * zprod l)%Z.
Proof. induction l as [|x l IH]; intros a; simpl; [lia|]. rewrite IH. lia. Qed.
Lemma reduce1_zmul l : l <> [] -> reduce1 Z.mul l = Some (zprod l).
Proof. destruct l as [|x l]; [congruence|]. intros _. simpl. rewrite fold_left_zmul. reflexivity. Qed.
Lemma all_some_map {A} (l : list A) : all_some (map Some l) = Some l.
Proof. induction l as [|x l IH]; simpl; [reflexivity|]. rewrite IH. reflexivity. Qed.

Lemma length_fold_fcross l : forall a, zlen (fold_left fcross l a) = (zlen a * zprod (map zlen l))%Z.
Proof.
  induction l as [|b l IH]; intros a; cbn [fold_left map zprod fold_right]; [lia|].
  rewrite IH. unfold zlen at 1. rewrite length_cross. unfold zlen. fold zlen.
  change (fold_right Z.mul 1%Z (map zlen l)) with (zprod (map zlen l)). unfold zlen in *. nia.
Qed.

Lemma length_product (r : list row) (acc : list row) :
  length (flat_map (fun r => map (fun s => r ++ s) acc) r) = (length r * length acc)%nat.
Proof.
  induction r as [|x r IH]; simpl; [reflexivity|]. rewrite app_length, map_length, IH. reflexivity.
Qed.

(** For a tree with columns, the size is the number of rows; without columns it is 1. *)
Lemma size_correct o : wf o -> is_plan o = false ->
  if is_nil (columns o) then size W false o = Ok (Some 1%Z)
  else exists f, dataframe W o = Ok f /\ size W false o = Ok (Some (zlen f)).
Proof.
  assert (SL : forall o, wf o -> is_plan o = false -> columns o <> [] ->
     exists f, dataframe W o = Ok f /\ (let* n := count W o in Ok (Some n)) = Ok (Some (zlen f))).
  { intros o0 H1 H2 H3. destruct (dataframe_correct W D o0 H1 H2 H3) as (f & Ef & _).
    exists f. split; [assumption|]. unfold count. rewrite Ef. reflexivity. }
  induction o as [t d|p d|c|im fs IH|l r IHl IHr|c cs IHc|c k IHc|l r IHl IHr|l r IHl IHr] using op_ind';
    intros Wf NP.
  - simpl. destruct d; simpl; [reflexivity|]. eexists; split; reflexivity.
  - destruct d as [|x d].
    + reflexivity.
    + cbn [size columns]. destruct (is_nil (dkeys (x :: d))) eqn:N; [discriminate|].
      apply (SL (FromDF p (x :: d))); auto; discriminate.
  - discriminate.
  - assert (Wf0 := Wf). destruct Wf as (NE & Wf & Dj & IM). rewrite wf_cross_forall in Wf.
    assert (NPf : forall f, In f fs -> is_plan f = false) by (apply (plan_cross im); assumption).
    rewrite Forall_forall in IH.
    destruct im.
    + (* in memory: all factors are tuples with columns *)
      assert (NC : columns (CrossJoin true fs) <> []).
      { destruct fs as [|f fs]; [congruence|]. destruct (IM eq_refl f (or_introl eq_refl)) as [_ H].
        eapply nonzero_sub; [exact H|]. intros c Hc. apply columns_cross. exists f. simpl; auto. }
      rewrite (proj2 (is_nil_false _) NC).
      destruct (in_memory_spec W D fs NE (IM eq_refl) Wf Dj) as (g & Eg & _).
      exists g. split; [exact Eg|]. cbn [size].
      assert (S : mapM (size W false) fs = Ok (map Some (map (fun f => Z.of_nat (length (tuples_of f))) fs))).
      { clear - IM. specialize (IM eq_refl). induction fs as [|f fs IH]; [reflexivity|].
        destruct (IM f (or_introl eq_refl)) as [(ts & d & ->) Nc]. cbn [mapM size].
        destruct (is_nil d) eqn:Nd; [destruct d; [simpl in Nc; congruence|discriminate]|].
        cbn [bind]. rewrite IH by (intros h Hh; apply IM; simpl; auto). reflexivity. }
      rewrite S. cbn [bind]. rewrite all_some_map, reduce1_zmul by (destruct fs; [congruence|discriminate]).
      f_equal. f_equal. unfold in_memory_product in Eg. apply bind_ok in Eg as (ds & _ & Eg).
      inversion Eg; subst g. unfold zlen. cbn [frows]. clear.
      induction fs as [|f fs IH]; [reflexivity|]. cbn [map zprod fold_right].
      rewrite length_product. change (fold_right Z.mul 1%Z ?l) with (zprod l). rewrite IH. lia.
    + cbn [dataframe size].
      set (g := fun f => if is_nil (columns f) then Ok None else let* d := dataframe W f in Ok (Some d)).
      set (somes := flat_map (fun x : option frame => match x with Some d => [d] | None => [] end)).
      assert (X : exists dfs ns, mapM g fs = Ok dfs /\ mapM (size W false) fs = Ok (map Some ns)
                  /\ zprod ns = zprod (map zlen (somes dfs)) /\ length ns = length fs
                  /\ (somes dfs = [] <-> forall f, In f fs -> columns f = [])).
      { clear NE NP IM Wf0 Dj. induction fs as [|f fs IHf].
        - exists [], []. repeat split; simpl; tauto.
        - destruct IHf as (dfs & ns & E1 & E2 & E3 & E4 & E5).
          { intros h Hh; apply IH; simpl; auto. } { intros h Hh; apply Wf; simpl; auto. }
          { intros h Hh; apply NPf; simpl; auto. }
          assert (Hf := IH f (or_introl eq_refl) (Wf f (or_introl eq_refl)) (NPf f (or_introl eq_refl))).
          cbn [mapM]. unfold g at 1. destruct (is_nil (columns f)) eqn:N.
          + exists (None :: dfs), (1%Z :: ns). rewrite E1, Hf. cbn [bind]. rewrite E2. cbn [bind].
            split; [reflexivity|]. split; [reflexivity|]. split; [|split].
            * change (zprod (1%Z :: ns)) with (1 * zprod ns)%Z. change (somes (None :: dfs)) with (somes dfs). lia.
            * simpl. congruence.
            * simpl. fold somes. rewrite E5. apply is_nil_true in N. split.
              -- intros H h [<-|Hh]; auto.
              -- intros H h Hh; auto.
          + destruct Hf as (d & Ed & Es). exists (Some d :: dfs), (zlen d :: ns).
            rewrite Ed, E1, Es. cbn [bind]. rewrite E2. cbn [bind].
            split; [reflexivity|]. split; [reflexivity|]. split; [|split].
            * change (zprod (zlen d :: ns)) with (zlen d * zprod ns)%Z. rewrite E3. reflexivity.
            * simpl. congruence.
            * simpl. split; [discriminate|]. intros H. rewrite H in N by auto. discriminate. }
      destruct X as (dfs & ns & E1 & E2 & E3 & E4 & E5). fold g somes. rewrite E1, E2. cbn [bind].
      rewrite all_some_map.
      rewrite reduce1_zmul by (destruct ns; [destruct fs; [congruence|discriminate]|discriminate]).
      destruct (is_nil (columns (CrossJoin false fs))) eqn:NC.
      * assert (Z0 : somes dfs = []).
        { apply E5. intros f Hf. destruct (columns f) as [|c cs] eqn:Ef; [reflexivity|].
          exfalso. apply is_nil_true in NC. assert (In c (columns (CrossJoin false fs))).
          { apply columns_cross. exists f. rewrite Ef. simpl; auto. } rewrite NC in H. destruct H. }
        rewrite E3, Z0. reflexivity.
      * destruct (somes dfs) as [|a l] eqn:Sd.
        -- exfalso. apply is_nil_false in NC. apply NC. destruct (columns (CrossJoin false fs)) as [|c cs] eqn:Ec; [reflexivity|].
           exfalso. assert (Hc : In c (columns (CrossJoin false fs))) by (rewrite Ec; simpl; auto).
           apply columns_cross in Hc as (f & Hf & Hc). rewrite (proj1 E5 eq_refl f Hf) in Hc. destruct Hc.
        -- cbn [reduce1]. eexists. split; [reflexivity|]. rewrite length_fold_fcross, E3. reflexivity.
  - assert (N : columns (Join l r) <> []).
    { destruct Wf as (_ & _ & c & Hc & _). intros Z. assert (In c (columns (Join l r))) by (simpl; apply union_cols_In; auto).
      rewrite Z in H. destruct H. }
    rewrite (proj2 (is_nil_false _) N). apply (SL (Join l r)); assumption.
  - assert (N : columns (Project c cs) <> []) by apply Wf.
    rewrite (proj2 (is_nil_false _) N). apply (SL (Project c cs)); assumption.
  - assert (N : columns (Filter c k) <> []) by apply Wf.
    rewrite (proj2 (is_nil_false _) N). apply (SL (Filter c k)); assumption.
  - assert (N : columns (Subtract l r) <> []).
    { destruct Wf as (_ & _ & _ & H & I). simpl. eapply nonzero_sub; eassumption. }
    rewrite (proj2 (is_nil_false _) N). apply (SL (Subtract l r)); assumption.
  - assert (N : columns (Union l r) <> []) by apply Wf.
    rewrite (proj2 (is_nil_false _) N). apply (SL (Union l r)); assumption.
Qed.

(** ** is_empty() *)
(** No columnless KeySet built from a dataframe (there is_empty() is wrong). *)
Fixpoint no_columnless_df (o : op) : Prop :=
  match o with
  | FromTuples _ _ | Detect _ => True
  | FromDF _ d => d <> []
  | CrossJoin _ fs => fold_right (fun f acc => no_columnless_df f /\ acc) True fs
  | Join l r | Subtract l r | Union l r => no_columnless_df l /\ no_columnless_df r
  | Project c _ | Filter c _ => no_columnless_df c
  end.

Definition empty_verdict (o : op) (b : bool) : Prop :=
  if b then forall rho, ~ den o rho else exists rho, den o rho.

Lemma df_is_empty_correct o : wf o -> is_plan o = false -> columns o <> [] ->
  exists b, df_is_empty W o = Ok b /\ empty_verdict o b.
Proof.
  intros Wf NP NC. destruct (dataframe_correct W D o Wf NP NC) as (f & Ef & (Wff & _ & _ & H)).
  unfold df_is_empty. rewrite Ef. cbn [bind]. eexists. split; [reflexivity|].
  destruct (frows f) as [|r rs] eqn:R; simpl.
  - intros rho Hd. apply H in Hd. unfold has in Hd. rewrite R in Hd. destruct Hd.
  - exists (rget (fcols f) r). apply H. apply has_row; [assumption|]. rewrite R; simpl; auto.
Qed.

Lemma is_empty_correct o : wf o -> is_plan o = false -> no_columnless_df o ->
  exists b, is_empty W o = Ok b /\ empty_verdict o b.
Proof.
  induction o as [t d|p d|c|im fs IH|l r IHl IHr|c cs IHc|c k IHc|l r IHl IHr|l r IHl IHr] using op_ind';
    intros Wf NP ND.
  - cbn [is_empty]. eexists. split; [reflexivity|]. destruct d as [|x d].
    + simpl. exists (fun _ => VNull). auto.
    + cbn [is_nil negb andb]. destruct t as [|r t]; cbn [is_nil empty_verdict].
      * simpl. intros rho [H|[]]; discriminate.
      * destruct Wf as (N1 & N2 & L). exists (rget (dkeys (x :: d)) r). right.
        rewrite map_rget; [simpl; auto|assumption|]. unfold dkeys. rewrite map_length. apply L; simpl; auto.
  - cbn [is_empty]. eexists. split; [reflexivity|]. simpl in ND. destruct Wf as (N1 & L).
    destruct (content W p) as [|r t] eqn:C; cbn [is_nil empty_verdict].
    + simpl. rewrite C. intros rho [H|[]]; auto.
    + exists (rget (dkeys d) r). right. rewrite C, map_rget; [simpl; auto|assumption|].
      unfold dkeys. rewrite map_length. apply L; simpl; auto.
  - discriminate.
  - destruct Wf as (NE & Wf & Dj & IM). rewrite wf_cross_forall in Wf.
    assert (NPf : forall f, In f fs -> is_plan f = false) by (apply (plan_cross im); assumption).
    rewrite Forall_forall in IH. cbn [is_empty].
    assert (NDf : forall f, In f fs -> no_columnless_df f).
    { simpl in ND. clear - ND. induction fs as [|g fs IH]; simpl in *; [tauto|]. intros f [<-|H]; [tauto|].
      apply IH; tauto. }
    assert (X : exists b, fold_right (fun f acc => let* b := is_empty W f in if b then Ok true else acc) (Ok false) fs = Ok b
                /\ if b then exists f, In f fs /\ forall rho, ~ den f rho else forall f, In f fs -> exists rho, den f rho).
    { clear NE Dj IM ND NP. induction fs as [|f fs IHf]; cbn [fold_right].
      - exists false. split; [reflexivity|intros ? []].
      - destruct (IH f (or_introl eq_refl)) as (b & Eb & Vb);
          [apply Wf; simpl; auto|apply NPf; simpl; auto|apply NDf; simpl; auto|].
        rewrite Eb. cbn [bind]. destruct b; simpl in Vb.
        + exists true. split; [reflexivity|]. exists f. simpl; auto.
        + destruct IHf as (b & Eb' & Vb').
          { intros h Hh; apply IH; simpl; auto. } { intros h Hh; apply Wf; simpl; auto. }
          { intros h Hh; apply NPf; simpl; auto. } { intros h Hh; apply NDf; simpl; auto. }
          exists b. split; [assumption|]. destruct b.
          * destruct Vb' as (h & Hh & Hn). exists h. simpl; auto.
          * intros h [<-|Hh]; auto. }
    destruct X as (b & Eb & Vb). exists b. split; [exact Eb|]. destruct b; cbn [empty_verdict].
    + destruct Vb as (f & Hf & Hn). intros rho H. rewrite den_cross in H. apply (Hn rho). auto.
    + destruct (glue W D [] (fun _ => VNull) fs) as (s & Hs); [assumption|assumption| |].
      * intros f Hf. destruct (Vb f Hf) as (s & Hs). exists s. split; [assumption|]. intros x _ [].
      * exists s. apply den_cross. intros f Hf. apply Hs; assumption.
  - apply (df_is_empty_correct (Join l r)); auto.
    destruct Wf as (_ & _ & c & Hc & _). intros Z.
    assert (In c (columns (Join l r))) by (simpl; apply union_cols_In; auto). rewrite Z in H. destruct H.
  - destruct Wf as (Wc & _). destruct (IHc Wc NP ND) as (b & Eb & Vb). exists b. split; [exact Eb|].
    destruct b; simpl in *.
    + intros rho (s & _ & H). eapply Vb; eassumption.
    + destruct Vb as (s & Hs). exists s, s. auto.
  - apply (df_is_empty_correct (Filter c k)); auto. apply Wf.
  - assert (NC : columns (Subtract l r) <> []).
    { destruct Wf as (_ & _ & _ & H & I). simpl. eapply nonzero_sub; eassumption. }
    destruct (df_is_empty_correct (Subtract l r) Wf NP NC) as (b2 & E2 & V2).
    destruct Wf as (Wl & Wr & _). simpl in NP, ND. destruct (IHl Wl NP (proj1 ND)) as (b & Eb & Vb).
    cbn [is_empty]. rewrite Eb. cbn [bind]. destruct b.
    + exists true. split; [reflexivity|]. simpl in *. intros rho [H _]. eapply Vb; eassumption.
    + exists b2. auto.
  - destruct Wf as (Wl & Wr & _). simpl in NP, ND. apply orb_false_iff in NP as [Pl Pr].
    destruct (IHl Wl Pl (proj1 ND)) as (b & Eb & Vb). cbn [is_empty]. rewrite Eb. cbn [bind]. destruct b.
    + destruct (IHr Wr Pr (proj2 ND)) as (b2 & E2 & V2). exists b2. split; [assumption|].
      destruct b2; simpl in *.
      * intros rho [H|H]; [eapply Vb|eapply V2]; eassumption.
      * destruct V2 as (s & Hs). exists s; auto.
    + exists false. split; [reflexivity|]. simpl in *. destruct Vb as (s & Hs). exists s; auto.
Qed.

(** ** decompose() *)
Definition decomposed (split : list string) (o : op) (fs ss : list op) : Prop :=
  (forall f, In f fs -> good f /\ is_plan f = false)
  /\ (forall s, In s ss -> good s /\ is_plan s = false /\ columns s <> []
                /\ forall c, In c (columns s) -> In c (columns o))
  /\ fs <> []
  /\ (forall c, In c (columns o) <-> exists f, In f fs /\ In c (columns f))
  /\ ForallOrdPairs (fun f g => forall c, In c (columns f) -> In c (columns g) -> In c split) fs
  /\ forall rho, den o rho <-> (forall f, In f fs -> den f rho) /\ (forall s, In s ss -> ~ den s rho).

Lemma decomposed_self split o : good o -> is_plan o = false -> decomposed split o [o] [].
Proof.
  intros G P. split; [intros f [<-|[]]; auto|]. split; [intros ? []|]. split; [discriminate|].
  split; [|split].
  - intros c; split; [intros H; exists o; simpl; auto|intros (f & [<-|[]] & H); assumption].
  - constructor; [constructor|constructor].
  - intros rho; split.
    + intros H; split; [intros f [<-|[]]; assumption|intros ? []].
    + intros [H _]; apply H; simpl; auto.
Qed.

Lemma ForallOrdPairs_app {A} (R : A -> A -> Prop) a b :
  ForallOrdPairs R (a ++ b) <->
  ForallOrdPairs R a /\ ForallOrdPairs R b /\ (forall x y, In x a -> In y b -> R x y).
Proof.
  induction a as [|x a IH]; simpl.
  - split; [intros H; repeat split; [constructor|assumption|intros ? ? []]|tauto].
  - split.
    + intros H. inversion H as [|? ? F1 F2]; subst. apply IH in F2 as (H1 & H2 & H3).
      rewrite Forall_forall in F1. split; [|split; [assumption|]].
      * constructor; [|assumption]. apply Forall_forall. intros y Hy. apply F1, in_or_app; auto.
      * intros u v [<-|Hu] Hv; [apply F1, in_or_app; auto|auto].
    + intros (H1 & H2 & H3). inversion H1 as [|? ? F1 F2]; subst. constructor.
      * rewrite Forall_forall in *. intros y Hy. apply in_app_iff in Hy as [Hy|Hy]; auto.
      * apply IH. auto.
Qed.

Lemma decompose_correct split o : good o -> is_plan o = false -> forall fs ss,
  decompose split o = Ok (fs, ss) -> decomposed split o fs ss.
Proof.
  induction o as [t d|p d|c|im gs IH|l r IHl IHr|c cs IHc|c k IHc|l r IHl IHr|l r IHl IHr] using op_ind';
    intros G NP fs ss E; cbn [decompose] in E;
    try (inversion E; subst; apply decomposed_self; assumption).
  - (* CrossJoin *)
    apply bind_ok in E as (ds & Ed & E). inversion E; subst fs ss. clear E.
    apply good_cross in G as (NE & G & Dj & _). apply mapM_ok_Forall2 in Ed.
    rewrite plan_cross in NP. rewrite Forall_forall in IH.
    assert (F : Forall2 (fun g d => decomposed split g (fst d) (snd d)) gs ds).
    { refine (Forall2_impl_In _ _ _ _ _ Ed). intros g [a b] Hg Hd. simpl in *. apply IH; auto. }
    clear Ed IH. split; [|split; [|split; [|split; [|split]]]].
    + intros f Hf. apply in_flat_map in Hf as (d & Hd & Hf). destruct (Forall2_In_r _ _ _ _ F Hd) as (g & Hg & H).
      apply H; assumption.
    + intros s Hs. apply in_flat_map in Hs as (d & Hd & Hs). destruct (Forall2_In_r _ _ _ _ F Hd) as (g & Hg & H).
      destruct H as (_ & K & _). destruct (K s Hs) as (H1 & H2 & H3 & H4). split; [assumption|].
      split; [assumption|]. split; [assumption|]. intros c Hc. apply columns_cross. eauto.
    + destruct F as [|g d gs ds H F]; [congruence|]. destruct H as (_ & _ & K & _). simpl.
      destruct (fst d); [congruence|discriminate].
    + intros c. rewrite columns_cross. split.
      * intros (g & Hg & Hc). destruct (Forall2_In_l _ _ _ _ F Hg) as (d & Hd & H).
        destruct H as (_ & _ & _ & K & _). destruct (proj1 (K c) Hc) as (f & Hf & Hc').
        exists f. split; [apply in_flat_map; exists d; split; assumption|assumption].
      * intros (f & Hf & Hc). apply in_flat_map in Hf as (d & Hd & Hf).
        destruct (Forall2_In_r _ _ _ _ F Hd) as (g & Hg & H). exists g. split; [assumption|].
        apply H. eauto.
    + clear NE NP G. induction F as [|g d gs ds H F IH]; simpl; [constructor|].
      inversion Dj as [|? ? D1 D2]; subst. apply ForallOrdPairs_app. split; [apply H|]. split; [auto|].
      intros x y Hx Hy c Hc Hc'. exfalso. apply in_flat_map in Hy as (d' & Hd' & Hy).
      destruct (Forall2_In_r _ _ _ _ F Hd') as (g' & Hg' & H').
      rewrite Forall_forall in D1. apply (D1 g' Hg' c).
      * apply H. eauto.
      * apply H'. eauto.
    + intros rho. rewrite den_cross. split.
      * intros H. split.
        -- intros f Hf. apply in_flat_map in Hf as (d & Hd & Hf). destruct (Forall2_In_r _ _ _ _ F Hd) as (g & Hg & K).
           destruct K as (_ & _ & _ & _ & _ & K). apply (proj1 (proj1 (K rho) (H g Hg))). assumption.
        -- intros s Hs. apply in_flat_map in Hs as (d & Hd & Hs). destruct (Forall2_In_r _ _ _ _ F Hd) as (g & Hg & K).
           destruct K as (_ & _ & _ & _ & _ & K). apply (proj2 (proj1 (K rho) (H g Hg))). assumption.
      * intros [H1 H2] g Hg. destruct (Forall2_In_l _ _ _ _ F Hg) as (d & Hd & K).
        destruct K as (_ & _ & _ & _ & _ & K). apply K. split.
        -- intros f Hf. apply H1, in_flat_map. eauto.
        -- intros s Hs. apply H2, in_flat_map. eauto.
  - (* Join *)
    destruct (subset (join_columns l r) split) eqn:S; [|inversion E; subst; apply decomposed_self; assumption].
    apply bind_ok in E as ([fl sl] & El & E). apply bind_ok in E as ([fr sr] & Er & E).
    inversion E; subst fs ss. clear E. cbn [fst snd].
    destruct (good_children_join _ _ _ _ G) as [Gl Gr]. simpl in NP. apply orb_false_iff in NP as [Pl Pr].
    destruct (IHl Gl Pl _ _ El) as (A1 & A2 & A3 & A4 & A5 & A6).
    destruct (IHr Gr Pr _ _ Er) as (B1 & B2 & B3 & B4 & B5 & B6). clear IHl IHr.
    rewrite subset_In in S.
    split; [|split; [|split; [|split; [|split]]]].
    + intros f Hf. apply in_app_iff in Hf as [Hf|Hf]; auto.
    + intros s Hs. simpl. apply in_app_iff in Hs as [Hs|Hs].
      * destruct (A2 s Hs) as (H1 & H2 & H3 & H4). repeat split; auto. apply H1. apply H1.
        intros c Hc. apply union_cols_In. auto.
      * destruct (B2 s Hs) as (H1 & H2 & H3 & H4). repeat split; auto. apply H1. apply H1.
        intros c Hc. apply union_cols_In. auto.
    + destruct fl; [congruence|discriminate].
    + intros c. simpl. rewrite union_cols_In, A4, B4. split.
      * intros [(f & Hf & Hc)|(f & Hf & Hc)]; exists f; rewrite in_app_iff; auto.
      * intros (f & Hf & Hc). apply in_app_iff in Hf as [Hf|Hf]; eauto.
    + apply ForallOrdPairs_app. split; [assumption|]. split; [assumption|].
      intros x y Hx Hy c Hc Hc'. apply S. apply common_In. split; [apply A4|apply B4]; eauto.
    + intros rho. simpl. rewrite A6, B6. split.
      * intros [[H1 H2] [H3 H4]]. split; intros x Hx; apply in_app_iff in Hx as [Hx|Hx]; auto.
      * intros [H1 H2]. split; split; intros x Hx; first [apply H1|apply H2]; apply in_or_app; auto.
  - (* Subtract *)
    apply bind_ok in E as ([fl sl] & El & E). cbn [fst snd] in E.
    destruct (good_children_subtract _ _ _ _ G) as [Gl Gr]. simpl in NP.
    destruct (IHl Gl NP _ _ El) as (A1 & A2 & A3 & A4 & A5 & A6). clear IHl IHr El.
    assert (NR : columns r <> []) by apply G. assert (PR : is_plan r = false) by apply G.
    assert (IR : forall x, In x (columns r) -> In x (columns l)) by apply G.
    set (absorbs := fun f => subset (columns r) (columns f)) in *.
    apply bind_ok in E as (fs' & Ef & E).
    assert (Efs : fs' = map (fun f => if absorbs f then Subtract f r else f) fl).
    { clear - Ef. revert fs' Ef. induction fl as [|f fl IH]; intros fs' E; cbn [mapM] in E.
      - inversion E; reflexivity.
      - apply bind_ok in E as (y & Ey & E). apply bind_ok in E as (ys & Eys & E). inversion E; subst.
        simpl. rewrite (IH _ Eys). f_equal. unfold absorbs. destruct (subset (columns r) (columns f)).
        + apply mkSubtract_ok in Ey as (-> & _). reflexivity.
        + congruence. }
    assert (CO : forall f, columns (if absorbs f then Subtract f r else f) = columns f).
    { intros f. destruct (absorbs f); reflexivity. }
    assert (FS : fs = fs' /\ ss = if existsb absorbs fl then sl else sl ++ [r]).
    { destruct (existsb absorbs fl); inversion E; auto. }
    destruct FS as [-> ->]. clear E Ef. rewrite Efs. clear Efs fs'.
    split; [|split; [|split; [|split; [|split]]]].
    + intros f' Hf'. apply in_map_iff in Hf' as (f & <- & Hf). destruct (A1 f Hf) as [Gf Pf].
      destruct (absorbs f) eqn:Ab; [|auto]. unfold absorbs in Ab. rewrite subset_In in Ab.
      split; [|assumption]. destruct Gf, Gr. split; simpl; auto.
    + intros s Hs. simpl. destruct (existsb absorbs fl); [apply A2; assumption|].
      apply in_app_iff in Hs as [Hs|[<-|[]]]; [apply A2; assumption|]. auto.
    + destruct fl; [congruence|discriminate].
    + intros c. simpl. rewrite A4. split.
      * intros (f & Hf & Hc). exists (if absorbs f then Subtract f r else f). split.
        -- apply (in_map (fun f => if absorbs f then Subtract f r else f)). assumption.
        -- rewrite CO. assumption.
      * intros (f' & Hf' & Hc). apply in_map_iff in Hf' as (f & <- & Hf). rewrite CO in Hc. eauto.
    + clear - A5 CO. induction A5 as [|f fl F1 F2 IH]; simpl; constructor; [|assumption].
      rewrite Forall_forall in *. intros g' Hg'. apply in_map_iff in Hg' as (g & <- & Hg). rewrite !CO. exact (F1 g Hg).
    + intros rho. cbn [KeySetSem.den]. rewrite A6. split.
      * intros [[H1 H2] H3]. split.
        -- intros f' Hf'. apply in_map_iff in Hf' as (f & <- & Hf). destruct (absorbs f); simpl; auto.
        -- intros s Hs. destruct (existsb absorbs fl); [auto|].
           apply in_app_iff in Hs as [Hs|[<-|[]]]; auto.
      * intros [H1 H2].
        assert (K : forall f, In f fl -> den (if absorbs f then Subtract f r else f) rho).
        { intros f Hf. apply H1. apply (in_map (fun f => if absorbs f then Subtract f r else f)). assumption. }
        split; [split|].
        -- intros f Hf. specialize (K f Hf). destruct (absorbs f); simpl in K; tauto.
        -- intros s Hs. apply H2. destruct (existsb absorbs fl); [assumption|apply in_or_app; auto].
        -- destruct (existsb absorbs fl) eqn:X.
           ++ apply existsb_exists in X as (f & Hf & Ab). specialize (K f Hf). rewrite Ab in K. simpl in K. tauto.
           ++ apply H2, in_or_app; simpl; auto.
Qed.

(** ** Equality *)
Lemma and_then_true a b : and_then a b = Ok true -> a = Ok true /\ b = Ok true.
Proof. unfold and_then. destruct a as [[]|]; simpl; intros H; try discriminate. auto. Qed.

Lemma dict_eqb_eq a b : dict_eqb a b = true <-> a = b.
Proof.
  unfold dict_eqb. apply list_eqb_eq. intros [c d] [c' d']. simpl.
  rewrite andb_true_iff, String.eqb_eq, coldesc_eqb_eq. split; [intros [-> ->]; reflexivity|].
  intros H; inversion H; auto.
Qed.
Lemma row_mem_In r l : row_mem r l = true <-> In r l.
Proof.
  unfold row_mem. rewrite existsb_exists. split.
  - intros (x & Hx & E). apply row_eqb_eq in E. subst; assumption.
  - intros H. exists r. split; [assumption|]. apply row_eqb_eq. reflexivity.
Qed.
Lemma rowset_eqb_In a b : rowset_eqb a b = true <-> forall r, In r a <-> In r b.
Proof.
  unfold rowset_eqb. rewrite andb_true_iff, !forallb_forall. split.
  - intros [H1 H2] r. split; intros H; apply row_mem_In; auto.
  - intros H; split; intros r Hr; apply row_mem_In, H, Hr.
Qed.

Definition go_eq := fix go (l l' : list op) : res bool :=
  match l, l' with
  | [], [] => Ok true
  | x :: r, y :: r' => and_then (op_eq x y) (go r r')
  | _, _ => Ok false
  end.

Lemma op_eq_cross i fs i' fs' :
  op_eq (CrossJoin i fs) (CrossJoin i' fs') = if Bool.eqb i i' then go_eq fs fs' else Ok false.
Proof. reflexivity. Qed.

Lemma go_eq_true l l' : go_eq l l' = Ok true <-> Forall2 (fun x y => op_eq x y = Ok true) l l'.
Proof.
  revert l'. induction l as [|x l IH]; intros [|y l']; cbn [go_eq]; split; intros H;
    try discriminate; try (inversion H; fail); try constructor.
  - apply and_then_true in H as [H _]. assumption.
  - apply and_then_true in H as [_ H]. apply IH; assumption.
  - inversion H; subst. rewrite H3. simpl. apply IH; assumption.
Qed.

(** Equal trees have the same columns and keys. *)
Lemma op_eq_same a : forall b, op_eq a b = Ok true ->
  (forall c, In c (columns a) <-> In c (columns b)) /\ forall rho, den a rho <-> den b rho.
Proof.
  induction a as [t d|p d|c|im fs IH|l r IHl IHr|c cs IHc|c k IHc|l r IHl IHr|l r IHl IHr] using op_ind';
    intros b E; destruct b as [t' d'|p' d'|c'|im' fs'|l' r'|c' cs'|c' k'|l' r'|l' r'];
    try discriminate.
  - cbn [op_eq] in E. inversion E as [E1]. apply andb_true_iff in E1 as [E1 E2].
    apply dict_eqb_eq in E2. subst d'. rewrite rowset_eqb_In in E1. simpl.
    split; [reflexivity|]. intros rho. rewrite E1. reflexivity.
  - cbn [op_eq] in E. inversion E as [E1]. apply andb_true_iff in E1 as [E1 E2].
    apply dict_eqb_eq in E1. apply Nat.eqb_eq in E2. subst. split; reflexivity.
  - cbn [op_eq] in E. inversion E as [E1]. rewrite set_eqb_In in E1. simpl. split; [assumption|].
    intros rho. apply found_ext; auto.
  - rewrite op_eq_cross in E. destruct (Bool.eqb im im'); [|discriminate].
    apply go_eq_true in E. rewrite Forall_forall in IH.
    assert (F : Forall2 (fun x y => (forall c, In c (columns x) <-> In c (columns y)) /\ forall rho, den x rho <-> den y rho) fs fs').
    { refine (Forall2_impl_In _ _ _ _ _ E). intros x y Hx Hxy. simpl in Hxy. apply IH; assumption. }
    split.
    + intros c. rewrite !columns_cross. split; intros (f & Hf & Hc).
      * destruct (Forall2_In_l _ _ _ _ F Hf) as (g & Hg & K & _). exists g. split; [assumption|]. apply K; assumption.
      * destruct (Forall2_In_r _ _ _ _ F Hf) as (g & Hg & K & _). exists g. split; [assumption|]. apply K; assumption.
    + intros rho. rewrite !den_cross. split; intros H f Hf.
      * destruct (Forall2_In_r _ _ _ _ F Hf) as (g & Hg & _ & K). apply K, H, Hg.
      * destruct (Forall2_In_l _ _ _ _ F Hf) as (g & Hg & _ & K). apply K, H, Hg.
  - cbn [op_eq] in E. apply and_then_true in E as [E1 E2].
    destruct (IHl _ E1) as [C1 D1], (IHr _ E2) as [C2 D2]. simpl. split.
    + intros c. rewrite !union_cols_In, C1, C2. reflexivity.
    + intros rho. rewrite D1, D2. reflexivity.
  - cbn [op_eq] in E. apply and_then_true in E as [E1 E2]. inversion E2 as [E3]. rewrite set_eqb_In in E3.
    destruct (IHc _ E1) as [C1 D1]. simpl. split; [assumption|].
    intros rho. split; intros (s & H1 & H2); exists s; (split; [|apply D1; assumption]); intros x Hx; apply H1, E3, Hx.
  - cbn [op_eq] in E. apply and_then_true in E as [E1 E2]. destruct (IHc _ E1) as [C1 D1].
    assert (k = k').
    { destruct k as [s|i], k' as [s'|i']; simpl in E2; try discriminate.
      - inversion E2 as [E3]. apply String.eqb_eq in E3. congruence.
      - destruct (Nat.eqb_spec i i'); [congruence|discriminate]. }
    subst k'. simpl. split; [assumption|]. intros rho. rewrite D1.
    rewrite (holds_ext W k _ _ (same_restrict _ _ rho C1)). reflexivity.
  - cbn [op_eq] in E. apply and_then_true in E as [E1 E2].
    destruct (IHl _ E1) as [C1 D1], (IHr _ E2) as [C2 D2]. simpl. split; [assumption|].
    intros rho. rewrite D1, D2. reflexivity.
  - cbn [op_eq] in E. apply and_then_true in E as [E1 E2].
    destruct (IHl _ E1) as [C1 D1], (IHr _ E2) as [C2 D2]. simpl. split; [assumption|].
    intros rho. rewrite D1, D2. reflexivity.
Qed.

Lemma op_eq_refl a : op_eq a a = Ok true.
Proof.
  induction a as [t d|p d|c|im fs IH|l r IHl IHr|c cs IHc|c k IHc|l r IHl IHr|l r IHl IHr] using op_ind'.
  - simpl. rewrite (proj2 (rowset_eqb_In t t)), (proj2 (dict_eqb_eq d d)); reflexivity.
  - simpl. rewrite (proj2 (dict_eqb_eq d d)), Nat.eqb_refl; reflexivity.
  - simpl. rewrite (proj2 (set_eqb_In c c)); reflexivity.
  - rewrite op_eq_cross, Bool.eqb_reflx. apply go_eq_true.
    induction IH as [|x l H F IH]; constructor; auto.
  - cbn [op_eq]. rewrite IHl, IHr. reflexivity.
  - cbn [op_eq]. rewrite IHc, (proj2 (set_eqb_In cs cs)); reflexivity.
  - cbn [op_eq]. rewrite IHc. destruct k as [s|i]; simpl.
    + rewrite String.eqb_refl. reflexivity.
    + rewrite Nat.eqb_refl. reflexivity.
  - cbn [op_eq]. rewrite IHl, IHr. reflexivity.
  - cbn [op_eq]. rewrite IHl, IHr. reflexivity.
Qed.

(** exceptAll on duplicate-free lists is set difference. *)
Lemma remove_one_In r l x : NoDup l -> In x (remove_one r l) <-> In x l /\ x <> r.
Proof.
  induction l as [|y l IH]; intros ND; simpl; [tauto|]. inversion ND as [|? ? N1 N2]; subst.
  destruct (row_eqb r y) eqn:E.
  - apply row_eqb_eq in E. subst y. split.
    + intros H. split; [auto|]. intros ->; auto.
    + intros [[<-|H] H']; [congruence|assumption].
  - simpl. rewrite IH by assumption. split.
    + intros [<-|[H H']]; [|auto]. split; [auto|]. intros ->. rewrite (proj2 (row_eqb_eq r r)) in E; [discriminate|reflexivity].
    + tauto.
Qed.
Lemma remove_one_NoDup r l : NoDup l -> NoDup (remove_one r l).
Proof.
  induction l as [|y l IH]; intros ND; simpl; [constructor|]. inversion ND as [|? ? N1 N2]; subst.
  destruct (row_eqb r y); [assumption|]. constructor; [|auto].
  intros H. apply remove_one_In in H; tauto.
Qed.
Lemma except_all_In b : forall a x, NoDup a -> In x (except_all a b) <-> In x a /\ ~ In x b.
Proof.
  unfold except_all. induction b as [|r b IH]; intros a x ND; simpl; [tauto|].
  rewrite IH by (apply remove_one_NoDup; assumption). rewrite remove_one_In by assumption. split.
  - intros [[H1 H2] H3]. split; [assumption|]. intros [H|H]; [congruence|auto].
  - intros [H1 H2]. split; [split; [assumption|]|]; auto.
Qed.
Lemma except_all_nil a b : NoDup a -> except_all a b = [] <-> forall x, In x a -> In x b.
Proof.
  intros ND. split.
  - intros E x Hx. destruct (in_dec row_eq_dec x b) as [H|H]; [assumption|].
    exfalso. assert (In x (except_all a b)) by (apply except_all_In; auto). rewrite E in H0. destruct H0.
  - intros H. destruct (except_all a b) as [|x l] eqn:E; [reflexivity|]. exfalso.
    assert (K : In x (except_all a b)) by (rewrite E; simpl; auto). apply except_all_In in K as [K1 K2]; auto.
Qed.

End More.
