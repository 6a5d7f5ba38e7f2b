(** Optimizing a KeySet does not fail, under explicit conditions. *)
From Coq Require Import String Bool Arith ZArith Lia List Permutation.
From Verif Require Import Prelude Value KeySet KeySetSem KeySetRules KeySetApi KeySetMore.
Import ListNotations.

(** Column [c] of the tree has type [t]. *)
Fixpoint T (o : op) (c : string) (t : ctype) : Prop :=
  match o with
  | FromTuples _ d | FromDF _ d => exists cd, In (c, cd) d /\ cd_type cd = t
  | Detect _ => False
  | CrossJoin _ fs => fold_right (fun f acc => T f c t \/ acc) False fs
  | Join l r => T l c t \/ T r c t
  | Project x cs => In c cs /\ T x c t
  | Filter x _ => T x c t
  | Subtract l _ => T l c t
  | Union l _ => T l c t
  end.

(** Every join leaf of the tree has column [c], however the rules flatten it. *)
Fixpoint hub (c : string) (o : op) : Prop :=
  match o with
  | FromTuples _ d | FromDF _ d => In c (dkeys d)
  | Detect cs => In c cs
  | CrossJoin _ fs => fold_right (fun f acc => hub c f \/ acc) False fs
  | Join l r => hub c l /\ hub c r
  | Project x cs => hub c x /\ In c cs
  | Filter x _ => In c (columns x)
  | Subtract l _ => hub c l
  | Union l _ => In c (columns l)
  end.

Fixpoint fine (o : op) : Prop :=
  match o with
  | FromTuples _ _ | FromDF _ _ | Detect _ => True
  | CrossJoin _ fs => fold_right (fun f acc => fine f /\ acc) True fs
  | Join l r => fine l /\ fine r /\ (forall c t t', T l c t -> T r c t' -> t = t')
                /\ exists c, hub c l /\ hub c r
  | Project x cs => fine x /\ ~ In EmptyString cs
  | Filter x k => fine x /\ exists s, k = CondStr s /\ s <> EmptyString
  | Subtract l r => fine l /\ fine r
  | Union l r => fine l /\ fine r /\ forall c t, T l c t <-> T r c t
  end.

(** No columnless factor in any cross join. *)
Fixpoint nz (o : op) : Prop :=
  match o with
  | FromTuples _ _ | FromDF _ _ | Detect _ => True
  | CrossJoin _ fs => (forall f, In f fs -> columns f <> []) /\ fold_right (fun f acc => nz f /\ acc) True fs
  | Join l r | Subtract l r | Union l r => nz l /\ nz r
  | Project x _ | Filter x _ => nz x
  end.

Definition TX (fs : list op) (c : string) (t : ctype) : Prop := exists f, In f fs /\ T f c t.
Definition HX (fs : list op) (c : string) : Prop := exists f, In f fs /\ hub c f.
Definition Dj (fs : list op) : Prop :=
  ForallOrdPairs (fun f g => forall c, In c (columns f) -> In c (columns g) -> False) fs.

Lemma T_cross im fs c t : T (CrossJoin im fs) c t <-> TX fs c t.
Proof.
  simpl. unfold TX. induction fs as [|f fs IH]; simpl; [split; [tauto|intros (? & [] & _)]|].
  rewrite IH. split.
  - intros [H|(g & Hg & H)]; eauto.
  - intros (g & [<-|Hg] & H); eauto.
Qed.
Lemma hub_cross im fs c : hub c (CrossJoin im fs) <-> HX fs c.
Proof.
  simpl. unfold HX. induction fs as [|f fs IH]; simpl; [split; [tauto|intros (? & [] & _)]|].
  rewrite IH. split.
  - intros [H|(g & Hg & H)]; eauto.
  - intros (g & [<-|Hg] & H); eauto.
Qed.
Lemma fine_cross im fs : fine (CrossJoin im fs) <-> forall f, In f fs -> fine f.
Proof.
  simpl. induction fs as [|f r IH]; simpl; [tauto|]. rewrite IH. split.
  - intros [H1 H2] g [->|H]; auto.
  - intros H; split; auto.
Qed.
Lemma nz_cross im fs : nz (CrossJoin im fs) <-> forall f, In f fs -> columns f <> [] /\ nz f.
Proof.
  simpl. assert (X : fold_right (fun f acc => nz f /\ acc) True fs <-> forall f, In f fs -> nz f).
  { induction fs as [|f r IH]; simpl; [tauto|]. rewrite IH. split.
    - intros [H1 H2] g [->|H]; auto.
    - intros H; split; auto. }
  rewrite X. split; [intros [H1 H2] f Hf; auto|]. intros H; split; intros f Hf; apply H, Hf.
Qed.

Lemma hub_columns c o : hub c o -> In c (columns o).
Proof.
  induction o as [t d|p d|cs|im fs IH|l r IHl IHr|x cs IHc|x k IHc|l r IHl IHr|l r IHl IHr] using op_ind';
    intros H; try assumption.
  - apply hub_cross in H as (f & Hf & H). rewrite Forall_forall in IH. apply columns_cross. eauto.
  - simpl in *. apply union_cols_In. left. apply IHl, H.
  - apply H.
  - simpl in *. auto.
Qed.

Lemma Dj_perm a b : Permutation a b -> Dj a -> Dj b.
Proof.
  intros P. induction P as [|x l l' P IH|x y l|l l' l'' P1 IH1 P2 IH2]; intros H; auto.
  - inversion H as [|? ? F1 F2]; subst. constructor; [|apply IH; assumption].
    rewrite Forall_forall in *. intros g Hg. apply F1. apply (Permutation_in _ (Permutation_sym P)); assumption.
  - inversion H as [|? ? F1 F2]; subst. inversion F2 as [|? ? F3 F4]; subst.
    inversion F1 as [|? ? F5 F6]; subst. constructor; [constructor|constructor]; auto.
    intros c H1 H2. apply (F5 c); assumption.
Qed.
Lemma Dj_app a b : Dj (a ++ b) <-> Dj a /\ Dj b /\ forall f g, In f a -> In g b -> forall c, In c (columns f) -> In c (columns g) -> False.
Proof. apply ForallOrdPairs_app. Qed.
Lemma Dj_cons f b : Dj (f :: b) <-> Dj b /\ forall g, In g b -> forall c, In c (columns f) -> In c (columns g) -> False.
Proof.
  split.
  - intros H; inversion H as [|? ? F1 F2]; subst. rewrite Forall_forall in F1. auto.
  - intros [H1 H2]. constructor; [apply Forall_forall|]; assumption.
Qed.
Lemma Dj_filter p fs : Dj fs -> Dj (filter p fs).
Proof. apply ForallOrdPairs_filter. Qed.
Lemma Dj_same f g fs c : Dj fs -> In f fs -> In g fs -> In c (columns f) -> In c (columns g) -> f = g.
Proof.
  induction fs as [|h fs IH]; intros D Hf Hg Cf Cg; [destruct Hf|]. apply Dj_cons in D as [D1 D2].
  destruct Hf as [<-|Hf], Hg as [<-|Hg]; auto.
  - exfalso; eauto.
  - exfalso; eauto.
Qed.

(** ** Schemas *)
Definition ty (s : dict coldesc) (c : string) : option ctype := option_map cd_type (dget c s).
Lemma ty_dset c d s x : ty (dset c d s) x = if String.eqb x c then Some (cd_type d) else ty s x.
Proof.
  unfold ty. rewrite dget_dset. destruct (String.eqb_spec x c); [subst; rewrite String.eqb_refl; reflexivity|].
  destruct (String.eqb_spec c x); [congruence|reflexivity].
Qed.
Lemma ty_None s c : ty s c = None <-> ~ In c (dkeys s).
Proof. unfold ty. rewrite <- dget_None. destruct (dget c s); simpl; split; congruence. Qed.
Lemma ty_In s c t : NoDup (dkeys s) -> ty s c = Some t <-> exists cd, In (c, cd) s /\ cd_type cd = t.
Proof.
  intros N. unfold ty. split.
  - destruct (dget c s) eqn:E; [|discriminate]. simpl. intros H; inversion H; subst.
    apply dget_In in E. eauto.
  - intros (cd & H & <-). apply In_dget in H; [|assumption]. rewrite H. reflexivity.
Qed.

Lemma join_schema_ty on right : forall left, NoDup (dkeys right) -> NoDup (dkeys left) ->
  (forall c, In c (dkeys right) -> (In c on <-> In c (dkeys left))) ->
  exists s, join_schema on left right = Ok s /\ NoDup (dkeys s)
  /\ forall c, ty s c = match ty left c with Some t => Some t | None => ty right c end.
Proof.
  unfold join_schema. induction right as [|[c d] r IH]; intros left Nr Nl H; cbn [fold_left].
  - exists left. split; [reflexivity|]. split; [assumption|]. intros c. destruct (ty left c); reflexivity.
  - inversion Nr as [|? ? Nc Nr']; subst. cbn [bind].
    assert (K : exists left', (if smem c on then let* d0 := dget_res c left in Ok (dset c (desc_and d0 d) left)
                               else Ok (dset c d left)) = Ok left'
                /\ NoDup (dkeys left') /\ (forall x, In x (dkeys left') <-> x = c \/ In x (dkeys left))
                /\ forall x, ty left' x = match ty left x with Some t => Some t | None => if String.eqb x c then Some (cd_type d) else None end).
    { assert (DK : forall v x, In x (dkeys (dset c v left)) <-> x = c \/ In x (dkeys left)).
      { intros v x. rewrite dkeys_dset. destruct (smem c (dkeys left)) eqn:M.
        - apply smem_In in M. split; [auto|]. intros [->|?]; assumption.
        - rewrite in_app_iff. simpl. split; [intros [?|[?|[]]]|intros [?|?]]; auto. }
      destruct (smem c on) eqn:M.
      - apply smem_In in M. apply H in M; [|simpl; auto]. unfold dget_res.
        destruct (dget c left) as [v|] eqn:E; [|apply dget_None in E; contradiction].
        cbn [bind]. eexists. split; [reflexivity|]. split; [apply NoDup_dset; assumption|]. split; [apply DK|].
        intros x. rewrite ty_dset. destruct (String.eqb_spec x c) as [->|n].
        + unfold ty. rewrite E. reflexivity.
        + destruct (ty left x); reflexivity.
      - apply smem_false in M. eexists. split; [reflexivity|]. split; [apply NoDup_dset; assumption|].
        split; [apply DK|]. intros x. rewrite ty_dset. destruct (String.eqb_spec x c) as [->|n].
        + assert (~ In c (dkeys left)) by (intros X; apply M, H; simpl; auto).
          apply ty_None in H0. rewrite H0. reflexivity.
        + destruct (ty left x); reflexivity. }
    destruct K as (left' & E & N' & K1 & K2). rewrite E.
    destruct (IH left' Nr' N') as (s & Es & Ns & Ts).
    { intros x Hx. rewrite K1, (H x (or_intror Hx)). split; [auto|].
      intros [->|?]; [contradiction|assumption]. }
    exists s. split; [exact Es|]. split; [assumption|]. intros x. rewrite Ts, K2.
    destruct (ty left x) eqn:TL; [reflexivity|]. unfold ty at 2. simpl. fold (ty r x).
    destruct (String.eqb_spec x c) as [->|n].
    + reflexivity.
    + reflexivity.
Qed.

Lemma ty_app a b c : ty (a ++ b) c = match ty a c with Some t => Some t | None => ty b c end.
Proof.
  unfold ty. induction a as [|[x d] a IH]; simpl; [reflexivity|]. destruct (c =? x)%string; [reflexivity|apply IH].
Qed.

Section Total.
Variable W : world.
Variable D : oracle.
Notation wf := (wf W).
Notation good := (good W D).
Notation same := (same W D).
Notation bag := (bag W D).
Notation sound := (sound W D).

Lemma T_dom o : wf o -> is_plan o = false -> forall c, In c (columns o) <-> exists t, T o c t.
Proof.
  assert (DK : forall (d : dict coldesc) c, In c (dkeys d) <-> exists t cd, In (c, cd) d /\ cd_type cd = t).
  { intros d c. unfold dkeys. rewrite in_map_iff. split.
    - intros ([x cd] & <- & H). simpl. eauto.
    - intros (t & cd & H & _). exists (c, cd). auto. }
  induction o as [ts d|p d|cs|im fs IH|l r IHl IHr|x cs IHc|x k IHc|l r IHl IHr|l r IHl IHr] using op_ind';
    intros Wf NP c.
  - apply DK.
  - apply DK.
  - discriminate.
  - destruct Wf as (_ & Wf & _). rewrite wf_cross_forall in Wf. rewrite plan_cross in NP.
    rewrite Forall_forall in IH. rewrite columns_cross. split.
    + intros (f & Hf & Hc). apply (IH f Hf (Wf f Hf) (NP f Hf)) in Hc as (t & Ht). exists t.
      apply T_cross. exists f; auto.
    + intros (t & Ht). apply T_cross in Ht as (f & Hf & Ht). exists f. split; [assumption|].
      apply IH; eauto.
  - destruct Wf as (Wl & Wr & _). simpl in *. apply orb_false_iff in NP as [Pl Pr].
    rewrite union_cols_In, (IHl Wl Pl), (IHr Wr Pr). split.
    + intros [(t & H)|(t & H)]; eauto.
    + intros (t & [H|H]); eauto.
  - destruct Wf as (Wc & _ & _ & I). simpl in *. specialize (IHc Wc NP). split.
    + intros H. destruct (proj1 (IHc c) (I c H)) as (t & Ht). eauto.
    + intros (t & H & _). assumption.
  - destruct Wf as (Wc & _). apply IHc; assumption.
  - destruct Wf as (Wc & _). apply IHl; assumption.
  - destruct Wf as (Wc & _). simpl in *. apply orb_false_iff in NP as [Pl Pr]. apply IHl; assumption.
Qed.

Lemma T_fun o : wf o -> is_plan o = false -> fine o -> forall c t t', T o c t -> T o c t' -> t = t'.
Proof.
  assert (DK : forall (d : dict coldesc) c t t', NoDup (dkeys d) ->
     (exists cd, In (c, cd) d /\ cd_type cd = t) -> (exists cd, In (c, cd) d /\ cd_type cd = t') -> t = t').
  { intros d c t t' N H1 H2. apply ty_In in H1, H2; [congruence|assumption..]. }
  induction o as [ts d|p d|cs|im fs IH|l r IHl IHr|x cs IHc|x k IHc|l r IHl IHr|l r IHl IHr] using op_ind';
    intros Wf NP Fo c t t' H1 H2.
  - destruct Wf as (N & _). eapply DK; eassumption.
  - destruct Wf as (N & _). eapply DK; eassumption.
  - discriminate.
  - destruct Wf as (_ & Wf & Dd & _). rewrite wf_cross_forall in Wf. rewrite plan_cross in NP.
    rewrite fine_cross in Fo. rewrite Forall_forall in IH.
    apply T_cross in H1 as (f & Hf & H1). apply T_cross in H2 as (g & Hg & H2).
    assert (f = g).
    { apply (Dj_same f g fs c Dd Hf Hg); apply T_dom; eauto. }
    subst g. apply (IH f Hf (Wf f Hf) (NP f Hf) (Fo f Hf) c); assumption.
  - destruct Wf as (Wl & Wr & _). simpl in *. apply orb_false_iff in NP as [Pl Pr].
    destruct Fo as (Fl & Fr & K & _). destruct H1 as [H1|H1], H2 as [H2|H2]; eauto. symmetry; eauto.
  - destruct Wf as (Wc & _). simpl in *. destruct Fo. eapply IHc; [assumption..|apply H1|apply H2].
  - destruct Wf as (Wc & _). destruct Fo. eapply IHc; eassumption.
  - destruct Wf as (Wc & _). destruct Fo. eapply IHl; eassumption.
  - destruct Wf as (Wc & _). simpl in *. apply orb_false_iff in NP as [Pl Pr]. destruct Fo. eapply IHl; eassumption.
Qed.

Lemma schema_ok o : wf o -> is_plan o = false -> fine o ->
  exists s, schema o = Ok s /\ NoDup (dkeys s) /\ forall c t, ty s c = Some t <-> T o c t.
Proof.
  induction o as [ts d|p d|cs|im fs IH|l r IHl IHr|x cs IHc|x k IHc|l r IHl IHr|l r IHl IHr] using op_ind';
    intros Wf NP Fo.
  - destruct Wf as (N & _). exists d. split; [reflexivity|]. split; [assumption|]. intros. apply ty_In; assumption.
  - destruct Wf as (N & _). exists d. split; [reflexivity|]. split; [assumption|]. intros. apply ty_In; assumption.
  - discriminate.
  - destruct Wf as (_ & Wf & Dd & _). rewrite wf_cross_forall in Wf. rewrite plan_cross in NP.
    rewrite fine_cross in Fo. cbn [schema].
    assert (X : exists ss, mapM schema fs = Ok ss /\ forall acc, NoDup (dkeys acc) ->
       (forall f, In f fs -> forall c, In c (columns f) -> ~ In c (dkeys acc)) ->
       NoDup (dkeys (fold_left dmerge ss acc))
       /\ forall c t, ty (fold_left dmerge ss acc) c = Some t <-> ty acc c = Some t \/ TX fs c t).
    { induction fs as [|f fs IHf].
      - exists []. split; [reflexivity|]. intros acc N _. split; [assumption|]. intros c t. simpl.
        unfold TX. split; [auto|]. intros [H|(? & [] & _)]; assumption.
      - inversion IH as [|? ? IH1 IH2]; subst. apply Dj_cons in Dd as [D1 D2].
        destruct (IH1 (Wf f (or_introl eq_refl)) (NP f (or_introl eq_refl)) (Fo f (or_introl eq_refl))) as (s & Es & Ns & Ts).
        destruct IHf as (ss & E & K); auto.
        { intros g Hg; apply Wf; simpl; auto. } { intros g Hg; apply NP; simpl; auto. }
        { intros g Hg; apply Fo; simpl; auto. }
        assert (Wff := Wf f (or_introl eq_refl)). assert (NPf := NP f (or_introl eq_refl)).
        assert (Cs : forall c, In c (dkeys s) <-> In c (columns f)).
        { intros c. rewrite (T_dom f Wff NPf). split.
          - intros H. destruct (ty s c) as [t|] eqn:E1; [|apply ty_None in E1; contradiction].
            exists t. apply Ts; assumption.
          - intros (t & Ht). apply Ts in Ht. destruct (in_dec string_dec c (dkeys s)) as [?|n]; [assumption|].
            apply ty_None in n. congruence. }
        exists (s :: ss). cbn [mapM]. rewrite Es. cbn [bind]. rewrite E. split; [reflexivity|].
        intros acc N H. cbn [fold_left]. rewrite dmerge_keys; [|assumption| |assumption].
        2:{ intros c Hc. apply (H f (or_introl eq_refl)). apply Cs; assumption. }
        destruct (K (acc ++ s)) as [K1 K2].
        { unfold dkeys in *. rewrite map_app. apply NoDup_app_disjoint; [assumption..|].
          intros c Hc Hc'. apply (H f (or_introl eq_refl) c); [apply Cs|]; assumption. }
        { intros g Hg c Hc Hc'. unfold dkeys in Hc'. rewrite map_app, in_app_iff in Hc'. destruct Hc' as [Hc'|Hc'].
          - apply (H g (or_intror Hg) c); assumption.
          - apply Cs in Hc'. apply (D2 g Hg c); assumption. }
        split; [exact K1|]. intros c t. rewrite K2, ty_app.
        split.
        + intros [Hx|(g & Hg & Hx)].
          * destruct (ty acc c) eqn:Ta; [left; congruence|]. apply Ts in Hx. right. exists f; simpl; auto.
          * right. exists g; simpl; auto.
        + intros [Hx|(g & [<-|Hg] & Hx)].
          * left. rewrite Hx. reflexivity.
          * left. assert (In c (columns f)) by (apply (T_dom f Wff NPf); eauto).
            apply (H f (or_introl eq_refl)) in H0. apply ty_None in H0. rewrite H0. apply Ts; assumption.
          * right. exists g; auto. }
    destruct X as (ss & E & K). rewrite E. cbn [bind]. eexists. split; [reflexivity|].
    destruct (K []) as [K1 K2]; [constructor|auto|]. split; [exact K1|]. intros c t.
    rewrite K2, T_cross. split; [intros [H|H]; [discriminate|assumption]|auto].
  - destruct Wf as (Wl & Wr & _). cbn [is_plan] in NP. apply orb_false_iff in NP as [Pl Pr].
    destruct Fo as (Fl & Fr & K & _).
    destruct (IHl Wl Pl Fl) as (sl & El & Nl & Tl). destruct (IHr Wr Pr Fr) as (sr & Er & Nr & Tr).
    cbn [schema]. rewrite El, Er. cbn [bind].
    assert (Cl : forall c, In c (dkeys sl) <-> In c (columns l)).
    { intros c. rewrite (T_dom l) by assumption. split.
      - intros H. destruct (ty sl c) as [t|] eqn:E1; [|apply ty_None in E1; contradiction]. exists t; apply Tl; assumption.
      - intros (t & Ht). apply Tl in Ht. destruct (in_dec string_dec c (dkeys sl)) as [?|n]; [assumption|].
        apply ty_None in n. congruence. }
    assert (Cr : forall c, In c (dkeys sr) <-> In c (columns r)).
    { intros c. rewrite (T_dom r) by assumption. split.
      - intros H. destruct (ty sr c) as [t|] eqn:E1; [|apply ty_None in E1; contradiction]. exists t; apply Tr; assumption.
      - intros (t & Ht). apply Tr in Ht. destruct (in_dec string_dec c (dkeys sr)) as [?|n]; [assumption|].
        apply ty_None in n. congruence. }
    destruct (join_schema_ty (join_columns l r) sr sl Nr Nl) as (s & Es & Ns & Ts).
    { intros c Hc. unfold join_columns. rewrite common_In, Cl. apply Cr in Hc. tauto. }
    exists s. split; [assumption|]. split; [assumption|]. intros c t. rewrite Ts. cbn [T].
    rewrite <- Tl, <- Tr. destruct (ty sl c) as [t0|] eqn:E0.
    + split; [auto|]. intros [H|H]; [assumption|]. f_equal. eapply K; [apply Tl|apply Tr]; eassumption.
    + split; [auto|]. intros [H|H]; [discriminate|assumption].
  - destruct Wf as (Wc & ND & NE & I). cbn [is_plan] in NP. destruct Fo as (Fc & _).
    destruct (IHc Wc NP Fc) as (s & Es & Ns & Ts). cbn [schema]. rewrite Es. cbn [bind].
    assert (X : exists ds, mapM (fun y => let* d := dget_res y s in Ok (y, d)) cs = Ok ds /\ map fst ds = cs
                 /\ forall c t, ty ds c = Some t <-> In c cs /\ ty s c = Some t).
    { clear NE ND. induction cs as [|y cs IH].
      - exists []. split; [reflexivity|]. split; [reflexivity|]. intros c t. simpl. split; [discriminate|tauto].
      - destruct IH as (ds & E & M & K); [intros z Hz; apply I; simpl; auto|].
        cbn [mapM]. assert (Hy : In y (columns x)) by (apply I; simpl; auto).
        apply (T_dom x Wc NP) in Hy as (t & Ht). apply Ts in Ht. unfold ty in Ht.
        unfold dget_res at 1. destruct (dget y s) as [d|] eqn:Ed; [|discriminate]. cbn [bind].
        rewrite E. cbn [bind]. eexists. split; [reflexivity|]. split; [simpl; congruence|].
        intros c t'. unfold ty at 1. simpl. destruct (String.eqb_spec c y) as [->|n].
        + unfold ty. rewrite Ed. simpl. tauto.
        + fold (ty ds c). rewrite K. split; [tauto|]. intros [[?|?] ?]; [congruence|auto]. }
    destruct X as (ds & E & M & K). rewrite E. cbn [bind].
    rewrite dict_of_NoDup by (rewrite M; assumption). eexists. split; [reflexivity|].
    split; [unfold dkeys; rewrite M; assumption|]. intros c t. rewrite K. simpl. rewrite Ts. reflexivity.
  - destruct Wf as (Wc & _). destruct Fo. apply IHc; assumption.
  - destruct Wf as (Wc & _). destruct Fo. apply IHl; assumption.
  - destruct Wf as (Wl & Wr & _). cbn [is_plan] in NP. apply orb_false_iff in NP as [Pl Pr].
    destruct Fo as (Fl & Fr & K).
    destruct (IHl Wl Pl Fl) as (sl & El & Nl & Tl). destruct (IHr Wr Pr Fr) as (sr & Er & Nr & Tr).
    cbn [schema]. rewrite El, Er. cbn [bind].
    assert (X : forall s0, (forall c, In c (dkeys s0) -> In c (dkeys sl)) ->
       exists ds, mapM (fun p => let* d := dget_res (fst p) sr in Ok (fst p, desc_or (snd p) d)) s0 = Ok ds
       /\ map fst ds = map fst s0 /\ forall c, ty ds c = ty s0 c).
    { induction s0 as [|[y d] s0 IH]; intros I.
      - exists []. repeat split.
      - destruct IH as (ds & E & M & KK); [intros c Hc; apply I; simpl; auto|].
        cbn [mapM fst snd]. assert (Hy : In y (dkeys sl)) by (apply I; simpl; auto).
        assert (Hr : exists t, ty sr y = Some t).
        { destruct (ty sl y) as [t|] eqn:E1; [|apply ty_None in E1; contradiction].
          exists t. apply Tr, K, Tl; assumption. }
        destruct Hr as (t & Hr). unfold ty in Hr. unfold dget_res at 1.
        destruct (dget y sr) as [d'|]; [|discriminate]. cbn [bind]. rewrite E. cbn [bind].
        eexists. split; [reflexivity|]. split; [simpl; congruence|]. intros c. unfold ty. simpl.
        destruct (c =? y)%string; [reflexivity|apply KK]. }
    destruct (X sl) as (ds & E & M & KK); [auto|]. rewrite E. cbn [bind].
    rewrite dict_of_NoDup by (rewrite M; assumption). eexists. split; [reflexivity|].
    split; [unfold dkeys; rewrite M; assumption|]. intros c t. rewrite KK. apply Tl.
Qed.

(** ** Constructors *)
Definition full (o : op) : Prop := good o /\ is_plan o = false /\ fine o.

Lemma types_match_true l r on : full l -> full r ->
  (forall c, In c on -> In c (columns l) /\ In c (columns r)) ->
  (forall c t t', T l c t -> T r c t' -> t = t') ->
  exists sl sr, schema l = Ok sl /\ schema r = Ok sr /\ types_match on sl sr = Ok true.
Proof.
  intros ([Wl _] & Pl & Fl) ([Wr _] & Pr & Fr) I K.
  destruct (schema_ok l Wl Pl Fl) as (sl & El & Nl & Tl). destruct (schema_ok r Wr Pr Fr) as (sr & Er & Nr & Tr).
  exists sl, sr. split; [assumption|]. split; [assumption|]. unfold types_match.
  assert (X : exists bs, mapM (fun c => let* a := dget_res c sl in let* b := dget_res c sr in
                            Ok (ctype_eqb (cd_type a) (cd_type b))) on = Ok bs /\ forallb (fun b => b) bs = true).
  { induction on as [|c on IH]; [exists []; auto|].
    destruct IH as (bs & E & H); [intros x Hx; apply I; simpl; auto|].
    destruct (I c (or_introl eq_refl)) as [Hl Hr].
    apply (T_dom l Wl Pl) in Hl as (t & Ht). apply (T_dom r Wr Pr) in Hr as (t' & Ht').
    assert (Ht0 := Ht). assert (Ht0' := Ht'). apply Tl in Ht. apply Tr in Ht'. unfold ty in Ht, Ht'.
    cbn [mapM]. unfold dget_res at 1 2. destruct (dget c sl) as [a|]; [|discriminate].
    destruct (dget c sr) as [b|]; [|discriminate]. cbn [bind]. rewrite E. cbn [bind].
    eexists. split; [reflexivity|]. cbn [forallb]. rewrite H, andb_true_r.
    simpl in Ht, Ht'. apply ctype_eqb_eq. inversion Ht; inversion Ht'; subst. eapply K; eassumption. }
  destruct X as (bs & E & H). rewrite E. cbn [bind]. rewrite H. reflexivity.
Qed.

Lemma mkJoin_total l r : full l -> full r ->
  (forall c t t', T l c t -> T r c t' -> t = t') -> (exists c, hub c l /\ hub c r) ->
  mkJoin l r = Ok (Join l r) /\ full (Join l r).
Proof.
  intros Fl Fr K (c & Hl & Hr).
  assert (C : common (columns l) (columns r) <> []).
  { apply common_not_nil. exists c. split; apply hub_columns; assumption. }
  assert (E : mkJoin l r = Ok (Join l r)).
  { unfold mkJoin. unfold join_columns at 1. rewrite (proj2 (is_nil_false _) C). cbn [raise_if bind is_plan].
    destruct Fl as (Gl & Pl & Fl), Fr as (Gr & Pr & Fr). rewrite Pl, Pr. cbn [orb].
    destruct (types_match_true l r (join_columns l r)) as (sl & sr & E1 & E2 & E3); [split; auto|split; auto| |assumption|].
    - intros x Hx. apply common_In. exact Hx.
    - rewrite E1, E2. cbn [bind]. rewrite E3. reflexivity. }
  split; [assumption|]. destruct Fl as ([Wl Ql] & Pl & Fl), Fr as ([Wr Qr] & Pr & Fr). split; [split|split].
  - simpl. split; [assumption|]. split; [assumption|]. apply common_not_nil; assumption.
  - simpl; auto.
  - simpl. rewrite Pl, Pr. reflexivity.
  - simpl. split; [assumption|]. split; [assumption|]. split; [assumption|]. eauto.
Qed.

Lemma mkUnion_total l r : full l -> full r ->
  (forall c, In c (columns l) <-> In c (columns r)) -> columns l <> [] ->
  (forall c t, T l c t <-> T r c t) ->
  mkUnion l r = Ok (Union l r) /\ full (Union l r).
Proof.
  intros Fl Fr C NE K.
  assert (E : mkUnion l r = Ok (Union l r)).
  { unfold mkUnion. rewrite (proj2 (set_eqb_In _ _) C). cbn [negb raise_if bind].
    assert (Fl' := Fl). assert (Fr' := Fr).
    destruct Fl as (Gl & Pl & Fl), Fr as (Gr & Pr & Fr). rewrite Pl, Pr. cbn [orb].
    destruct (types_match_true l r (columns l) Fl' Fr') as (sl & sr & E1 & E2 & E3).
    - intros x Hx. split; [|apply C]; assumption.
    - intros c t t' H1 H2. apply K in H2. destruct Gl as [Wl _]. eapply (T_fun l Wl Pl Fl); eassumption.
    - rewrite E1, E2. cbn [bind]. rewrite E3. reflexivity. }
  split; [assumption|]. destruct Fl as ([Wl Ql] & Pl & Fl), Fr as ([Wr Qr] & Pr & Fr). split; [split|split].
  - simpl. auto.
  - simpl; auto.
  - simpl. rewrite Pl, Pr. reflexivity.
  - simpl. auto.
Qed.

Lemma mkCrossJoin_total im fs : fs <> [] -> Dj fs -> (forall f, In f fs -> full f) ->
  (im = true -> forall f, In f fs -> is_tuples f /\ columns f <> []) ->
  mkCrossJoin im fs = Ok (CrossJoin im fs) /\ full (CrossJoin im fs).
Proof.
  intros NE Dd F IM. split.
  - unfold mkCrossJoin. rewrite (proj2 (is_nil_false _) NE). cbn [raise_if bind].
    rewrite (proj2 (overlapping_false fs) Dd). cbn [raise_if bind].
    destruct im; cbn [andb negb raise_if bind]; [|reflexivity].
    assert (X : forallb in_memory_factor fs = true).
    { apply forallb_forall. intros f Hf. destruct (IM eq_refl f Hf) as [(ts & d & ->) _]. reflexivity. }
    rewrite X. cbn [negb raise_if bind].
    assert (Y : existsb (fun f => is_nil (columns f)) fs = false).
    { destruct (existsb (fun f => is_nil (columns f)) fs) eqn:E; [|reflexivity].
      apply existsb_exists in E as (f & Hf & E). apply is_nil_true in E.
      destruct (IM eq_refl f Hf). contradiction. }
    rewrite Y. reflexivity.
  - split; [|split].
    + apply good_cross. split; [assumption|]. split; [intros f Hf; apply F, Hf|]. split; assumption.
    + apply plan_cross. intros f Hf; apply F, Hf.
    + apply fine_cross. intros f Hf; apply F, Hf.
Qed.

Lemma mkProject_total c cs : full c -> (exists rho, den W D c rho) -> NoDup cs -> cs <> [] ->
  (forall x, In x cs -> In x (columns c)) -> ~ In EmptyString cs ->
  mkProject c cs = Ok (Project c cs) /\ full (Project c cs).
Proof.
  intros ([Wc Pc] & Pl & Fc) Ex ND NE I N. split.
  - unfold mkProject, validate_column_names. apply smem_false in N. rewrite N. cbn [raise_if bind].
    rewrite (proj2 (is_nil_false _) NE). cbn [raise_if bind].
    rewrite (proj2 (is_nil_true _) (proj2 (diff_cols_nil _ _) I)). reflexivity.
  - split; [split|split]; simpl; auto.
Qed.

Lemma mkSubtract_total l r : full l -> full r -> columns r <> [] ->
  (forall x, In x (columns r) -> In x (columns l)) ->
  mkSubtract l r = Ok (Subtract l r) /\ full (Subtract l r).
Proof.
  intros ([Wl Ql] & Pl & Fl) ([Wr Qr] & Pr & Fr) NE I. split.
  - unfold mkSubtract. rewrite Pr. cbn [raise_if bind].
    rewrite (proj2 (is_nil_true _) (proj2 (diff_cols_nil _ _) I)). reflexivity.
  - split; [split|split]; simpl; auto.
Qed.

(** ** Traversals *)
Definition tsame (o o' : op) : Prop :=
  (forall c t, T o c t <-> T o' c t) /\ (forall c, hub c o -> hub c o').
Lemma tsame_refl o : tsame o o.
Proof. split; [reflexivity|auto]. Qed.
Lemma tsame_trans a b c : tsame a b -> tsame b c -> tsame a c.
Proof. intros [A1 A2] [B1 B2]. split; [intros; rewrite A1; apply B1|auto]. Qed.

Definition ready (flag : bool) (o : op) : Prop :=
  flag = true -> match o with CrossJoin _ fs => forall f, In f fs -> columns f <> [] | _ => True end.

Definition result (f : op -> res op) (o : op) : Prop :=
  exists o', f o = Ok o' /\ full o' /\ same o o' /\ tsame o o'.

Definition total (flag : bool) (f : op -> res op) : Prop :=
  forall o, full o -> ready flag o -> result f o.

(** an existence proof is enough, given soundness *)
Lemma result_intro f o : sound f -> full o ->
  (exists o', f o = Ok o' /\ fine o' /\ tsame o o') -> result f o.
Proof.
  intros S (G & P & F) (o' & E & F' & T'). destruct (S _ _ G E) as [G' S']. exists o'.
  split; [assumption|]. split; [|auto]. split; [assumption|]. split; [apply S'; assumption|assumption].
Qed.

Lemma full_join l r : full (Join l r) -> full l /\ full r /\ (forall c t t', T l c t -> T r c t' -> t = t') /\ exists c, hub c l /\ hub c r.
Proof.
  intros ([W0 Q0] & P & F). simpl in *. apply orb_false_iff in P as [Pl Pr].
  destruct W0 as (Wl & Wr & _), Q0, F as (Fl & Fr & K & HH).
  split; [repeat split; auto|]. split; [repeat split; auto|]. auto.
Qed.
Lemma full_union l r : full (Union l r) -> full l /\ full r /\ (forall c, In c (columns l) <-> In c (columns r))
   /\ columns l <> [] /\ (forall c t, T l c t <-> T r c t).
Proof.
  intros ([W0 Q0] & P & F). simpl in *. apply orb_false_iff in P as [Pl Pr].
  destruct W0 as (Wl & Wr & NE & C), Q0, F as (Fl & Fr & K).
  split; [repeat split; auto|]. split; [repeat split; auto|]. auto.
Qed.
Lemma full_subtract l r : full (Subtract l r) -> full l /\ full r /\ columns r <> [] /\ (forall c, In c (columns r) -> In c (columns l)).
Proof.
  intros ([W0 Q0] & P & F). simpl in *. destruct W0 as (Wl & Wr & Pr & NE & I), Q0, F as (Fl & Fr).
  split; [repeat split; auto|]. split; [repeat split; auto|]. auto.
Qed.
Lemma full_project c cs : full (Project c cs) -> full c /\ (exists rho, den W D c rho) /\ NoDup cs /\ cs <> []
  /\ (forall x, In x cs -> In x (columns c)) /\ ~ In EmptyString cs.
Proof.
  intros ([W0 Q0] & P & F). simpl in *. destruct W0 as (Wc & ND & NE & I), Q0 as (Ex & Qc), F as (Fc & N).
  split; [repeat split; auto|]. auto.
Qed.
Lemma full_filter c k : full (Filter c k) -> full c /\ columns c <> [] /\ exists s, k = CondStr s /\ s <> EmptyString.
Proof.
  intros ([W0 Q0] & P & F). simpl in *. destruct W0 as (Wc & NE), F as (Fc & N).
  split; [repeat split; auto|]. auto.
Qed.
Lemma full_cross im fs : full (CrossJoin im fs) -> fs <> [] /\ Dj fs /\ (forall f, In f fs -> full f)
  /\ (im = true -> forall f, In f fs -> is_tuples f /\ columns f <> []).
Proof.
  intros (G & P & F). apply good_cross in G as (NE & G & Dd & IM). rewrite plan_cross in P. rewrite fine_cross in F.
  split; [assumption|]. split; [assumption|]. split; [|assumption]. intros f Hf. split; [auto|]. split; auto.
Qed.

Definition ok_step (o o' : op) : Prop := full o' /\ same o o' /\ tsame o o'.

Lemma rebuild_join_total l r l' r' : full (Join l r) -> ok_step l l' -> ok_step r r' ->
  mkJoin l' r' = Ok (Join l' r') /\ ok_step (Join l r) (Join l' r').
Proof.
  intros F (Fl & Sl & Tl) (Fr & Sr & Tr). apply full_join in F as (Fl0 & Fr0 & K & c & H1 & H2).
  destruct (mkJoin_total l' r') as [E F']; [assumption|assumption| | |].
  - intros x t t' Hx Hx'. apply Tl in Hx. apply Tr in Hx'. eauto.
  - exists c. split; [apply Tl|apply Tr]; assumption.
  - split; [assumption|]. split; [assumption|]. split.
    + refine (proj2 (rebuild_join W D l r _ _ _ _ _ _ _ E)); auto; [apply Fl|apply Fr].
    + split.
      * intros x t. simpl. rewrite (proj1 Tl), (proj1 Tr). reflexivity.
      * intros x [Hx Hx']. split; [apply Tl|apply Tr]; assumption.
Qed.

Lemma rebuild_union_total l r l' r' : full (Union l r) -> ok_step l l' -> ok_step r r' ->
  mkUnion l' r' = Ok (Union l' r') /\ ok_step (Union l r) (Union l' r').
Proof.
  intros F (Fl & Sl & Tl) (Fr & Sr & Tr). assert (F0 := F). apply full_union in F as (Fl0 & Fr0 & C & NE & K).
  assert (Cl := proj1 Sl). assert (Cr := proj1 Sr).
  destruct (mkUnion_total l' r') as [E F']; [assumption|assumption| | | |].
  - intros x. rewrite <- Cl, <- Cr. apply C.
  - eapply nonempty_same; [exact Cl|exact NE].
  - intros x t. rewrite <- (proj1 Tl), <- (proj1 Tr). apply K.
  - split; [assumption|]. split; [assumption|]. split.
    + refine (proj2 (rebuild_union W D l r _ _ _ _ _ _ _ _ E)); auto; [apply F0|apply Fl|apply Fr].
    + split.
      * intros x t. simpl. apply Tl.
      * intros x. simpl. apply Cl.
Qed.

Lemma rebuild_subtract_total l r l' r' : full (Subtract l r) -> ok_step l l' -> ok_step r r' ->
  mkSubtract l' r' = Ok (Subtract l' r') /\ ok_step (Subtract l r) (Subtract l' r').
Proof.
  intros F (Fl & Sl & Tl) (Fr & Sr & Tr). assert (F0 := F). apply full_subtract in F as (Fl0 & Fr0 & NE & I).
  assert (Cl := proj1 Sl). assert (Cr := proj1 Sr).
  destruct (mkSubtract_total l' r') as [E F']; [assumption|assumption| | |].
  - eapply nonempty_same; [exact Cr|exact NE].
  - intros x Hx. apply Cl, I, Cr, Hx.
  - split; [assumption|]. split; [assumption|]. split.
    + refine (proj2 (rebuild_subtract W D l r _ _ _ _ _ _ _ _ E)); auto; [apply F0|apply Fl|apply Fr].
    + split; [intros x t; apply Tl|intros x; apply Tl].
Qed.

Lemma rebuild_project_total c c' cs : full (Project c cs) -> ok_step c c' ->
  mkProject c' cs = Ok (Project c' cs) /\ ok_step (Project c cs) (Project c' cs).
Proof.
  intros F (Fc & Sc & Tc). assert (F0 := F). apply full_project in F as (Fc0 & (rho & Hr) & ND & NE & I & N).
  assert (Cc := proj1 Sc).
  destruct (mkProject_total c' cs) as [E F']; [assumption| |assumption|assumption| |assumption|].
  - exists rho. apply (proj1 (proj2 Sc)); assumption.
  - intros x Hx. apply Cc, I, Hx.
  - split; [assumption|]. split; [assumption|]. split.
    + refine (proj2 (rebuild_project W D c _ _ _ _ _ _ E)); auto; [apply F0|apply Fc].
    + split.
      * intros x t. simpl. rewrite (proj1 Tc). reflexivity.
      * intros x [H1 H2]. split; [apply Tc|]; assumption.
Qed.

Lemma rebuild_filter_total c c' k : full (Filter c k) -> ok_step c c' ->
  mkFilter c' k = Ok (Filter c' k) /\ ok_step (Filter c k) (Filter c' k).
Proof.
  intros F (Fc & Sc & Tc). assert (F0 := F). apply full_filter in F as (Fc0 & NE & s & -> & Ns).
  assert (Cc := proj1 Sc).
  assert (E : mkFilter c' (CondStr s) = Ok (Filter c' (CondStr s))).
  { unfold mkFilter. destruct s; [congruence|reflexivity]. }
  split; [assumption|].
  destruct (rebuild_filter W D c c' (CondStr s) _ (proj1 F0) (proj1 Fc) Sc E) as [G' S'].
  split; [|split; [assumption|]].
  - destruct Fc as (Gc & Pc & Fc). split; [assumption|]. split; [assumption|]. simpl. eauto.
  - split; [intros x t; apply Tc|intros x; apply Cc].
Qed.

Lemma rebuild_cross_total im fs fs' : full (CrossJoin im fs) -> Forall2 ok_step fs fs' ->
  mkCrossJoin im fs' = Ok (CrossJoin im fs') /\ ok_step (CrossJoin im fs) (CrossJoin im fs').
Proof.
  intros F F2. assert (F0 := F). apply full_cross in F as (NE & Dd & Ff & IM).
  destruct (mkCrossJoin_total im fs') as [E F'].
  - inversion F2; subst; [congruence|discriminate].
  - refine (Forall2_ForallOrdPairs _ _ _ _ _ _ F2 Dd).
    intros a b a' b' (_ & Sa & _) (_ & Sb & _) H c Hc Hc'.
    apply (H c); [apply (proj1 Sa)|apply (proj1 Sb)]; assumption.
  - intros f' Hf'. destruct (Forall2_In_r _ _ _ _ F2 Hf') as (f & _ & H). apply H.
  - intros -> f' Hf'. destruct (Forall2_In_r _ _ _ _ F2 Hf') as (f & Hf & (_ & S & _)).
    destruct (IM eq_refl f Hf) as [Ht Hn]. destruct S as (_ & _ & _ & S). rewrite (S Ht). auto.
  - split; [assumption|]. split; [assumption|]. split.
    + refine (proj2 (rebuild_cross W D im fs fs' _ (proj1 F0) _ E)).
      refine (Forall2_impl_In _ _ _ _ _ F2). intros a b _ (Fb & Sb & _). split; [apply Fb|assumption].
    + split.
      * intros c t. rewrite !T_cross. split; intros (f & Hf & Ht).
        -- destruct (Forall2_In_l _ _ _ _ F2 Hf) as (g & Hg & (_ & _ & K)). exists g. split; [assumption|]. apply K; assumption.
        -- destruct (Forall2_In_r _ _ _ _ F2 Hf) as (g & Hg & (_ & _ & K)). exists g. split; [assumption|]. apply K; assumption.
      * intros c. rewrite !hub_cross. intros (f & Hf & Ht).
        destruct (Forall2_In_l _ _ _ _ F2 Hf) as (g & Hg & (_ & _ & K)). exists g. split; [assumption|]. apply K; assumption.
Qed.

Lemma ok_step_trans a b c : ok_step a b -> ok_step b c -> ok_step a c.
Proof.
  intros (F1 & S1 & T1) (F2 & S2 & T2). split; [assumption|].
  split; [eapply same_trans; eassumption|eapply tsame_trans; eassumption].
Qed.
Lemma ok_step_refl a : full a -> ok_step a a.
Proof. intros F. split; [assumption|]. split; [apply same_refl|apply tsame_refl]. Qed.

Lemma mapM_total (f : op -> res op) fs : (forall x, In x fs -> result f x) ->
  exists fs', mapM f fs = Ok fs' /\ Forall2 ok_step fs fs'.
Proof.
  induction fs as [|x fs IH]; intros H; [exists []; split; [reflexivity|constructor]|].
  destruct IH as (fs' & E & F); [intros y Hy; apply H; simpl; auto|].
  destruct (H x (or_introl eq_refl)) as (x' & Ex & K). exists (x' :: fs'). cbn [mapM]. rewrite Ex. cbn [bind].
  rewrite E. split; [reflexivity|]. constructor; assumption.
Qed.

Lemma depth_first_total flag f : total flag f -> forall o, full o -> (flag = true -> nz o) -> result (depth_first f) o.
Proof.
  intros TF. induction o as [ts d|p d|cs|im fs IH|l r IHl IHr|c cs IHc|c k IHc|l r IHl IHr|l r IHl IHr] using op_ind';
    intros F N; cbn [depth_first].
  - apply TF; [assumption|]. intros _. exact I.
  - apply TF; [assumption|]. intros _. exact I.
  - apply TF; [assumption|]. intros _. exact I.
  - assert (F0 := F). apply full_cross in F0 as (_ & _ & Ff & _). rewrite Forall_forall in IH.
    destruct (mapM_total (depth_first f) fs) as (fs' & E & F2).
    { intros x Hx. apply IH; auto. intros Fl. specialize (N Fl). rewrite nz_cross in N. apply N, Hx. }
    destruct (rebuild_cross_total im fs fs' F F2) as [E' S].
    destruct (TF (CrossJoin im fs')) as (o' & Eo & K).
    { apply S. } { intros Fl f' Hf'. specialize (N Fl). rewrite nz_cross in N.
      destruct (Forall2_In_r _ _ _ _ F2 Hf') as (g & Hg & (_ & Sg & _)).
      eapply nonempty_same; [apply (proj1 Sg)|apply N, Hg]. }
    exists o'. cbn [depth_first]. rewrite E. cbn [bind]. rewrite E'. split; [exact Eo|].
    eapply ok_step_trans; [exact S|exact K].
  - assert (F0 := F). apply full_join in F0 as (Fl & Fr & _).
    destruct IHl as (l' & El & Sl); [assumption|intros X; apply N, X|].
    destruct IHr as (r' & Er & Sr); [assumption|intros X; apply N, X|].
    destruct (rebuild_join_total l r l' r' F Sl Sr) as [E' S].
    destruct (TF (Join l' r')) as (o' & Eo & K); [apply S|intros _; exact I|].
    exists o'. cbn [depth_first]. rewrite El. cbn [bind]. rewrite Er. cbn [bind]. rewrite E'. split; [exact Eo|].
    eapply ok_step_trans; [exact S|exact K].
  - assert (F0 := F). apply full_project in F0 as (Fc & _).
    destruct IHc as (c' & Ec & Sc); [assumption|intros X; apply N, X|].
    destruct (rebuild_project_total c c' cs F Sc) as [E' S].
    destruct (TF (Project c' cs)) as (o' & Eo & K); [apply S|intros _; exact I|].
    exists o'. cbn [depth_first]. rewrite Ec. cbn [bind]. rewrite E'. split; [exact Eo|].
    eapply ok_step_trans; [exact S|exact K].
  - assert (F0 := F). apply full_filter in F0 as (Fc & _).
    destruct IHc as (c' & Ec & Sc); [assumption|intros X; apply N, X|].
    destruct (rebuild_filter_total c c' k F Sc) as [E' S].
    destruct (TF (Filter c' k)) as (o' & Eo & K); [apply S|intros _; exact I|].
    exists o'. cbn [depth_first]. rewrite Ec. cbn [bind]. rewrite E'. split; [exact Eo|].
    eapply ok_step_trans; [exact S|exact K].
  - assert (F0 := F). apply full_subtract in F0 as (Fl & Fr & _).
    destruct IHl as (l' & El & Sl); [assumption|intros X; apply N, X|].
    destruct IHr as (r' & Er & Sr); [assumption|intros X; apply N, X|].
    destruct (rebuild_subtract_total l r l' r' F Sl Sr) as [E' S].
    destruct (TF (Subtract l' r')) as (o' & Eo & K); [apply S|intros _; exact I|].
    exists o'. cbn [depth_first]. rewrite El. cbn [bind]. rewrite Er. cbn [bind]. rewrite E'. split; [exact Eo|].
    eapply ok_step_trans; [exact S|exact K].
  - assert (F0 := F). apply full_union in F0 as (Fl & Fr & _).
    destruct IHl as (l' & El & Sl); [assumption|intros X; apply N, X|].
    destruct IHr as (r' & Er & Sr); [assumption|intros X; apply N, X|].
    destruct (rebuild_union_total l r l' r' F Sl Sr) as [E' S].
    destruct (TF (Union l' r')) as (o' & Eo & K); [apply S|intros _; exact I|].
    exists o'. cbn [depth_first]. rewrite El. cbn [bind]. rewrite Er. cbn [bind]. rewrite E'. split; [exact Eo|].
    eapply ok_step_trans; [exact S|exact K].
Qed.

(** ** breadth_first: the fuel suffices *)
Lemma weight_pos o : (1 <= weight o)%nat.
Proof.
  induction o using op_ind'; cbn [weight]; lia.
Qed.

(** A step that makes progress, and always applies or reports "unchanged". *)
Definition progress (step : op -> res (option op)) : Prop :=
  forall o, full o -> step o = Ok None \/ exists o', step o = Ok (Some o') /\ ok_step o o' /\ (weight o' < weight o)%nat.

Lemma weight_factor f fs : In f fs -> (weight f <= fold_right (fun f acc => weight f + acc) 0 fs)%nat.
Proof. induction fs as [|g fs IH]; simpl; [tauto|]. intros [<-|H]; [lia|]. specialize (IH H). lia. Qed.

Lemma breadth_first_fuel step : progress step -> forall n o, full o -> (weight o < n)%nat ->
  result (breadth_first step n) o.
Proof.
  intros P. induction n as [|n IH]; intros o F L; [lia|]. unfold result. cbn [breadth_first].
  destruct (P o F) as [E|(o' & E & S & L')]; rewrite E; cbn [bind].
  2:{ destruct (IH o') as (o2 & E2 & S2); [apply S|lia|]. exists o2. split; [exact E2|].
      eapply ok_step_trans; [exact S|exact S2]. }
  destruct o as [ts d|p d|cs|im fs|l r|c cs|c k|l r|l r]; cbn [weight] in L.
  - eexists. split; [reflexivity|]. apply ok_step_refl; assumption.
  - eexists. split; [reflexivity|]. apply ok_step_refl; assumption.
  - eexists. split; [reflexivity|]. apply ok_step_refl; assumption.
  - assert (F0 := F). apply full_cross in F0 as (_ & _ & Ff & _).
    destruct (mapM_total (breadth_first step n) fs) as (fs' & E1 & F2).
    { intros x Hx. apply IH; [auto|]. apply weight_factor in Hx. lia. }
    destruct (rebuild_cross_total im fs fs' F F2) as [E' S].
    rewrite E1. cbn [bind]. rewrite E'. eexists; split; [reflexivity|exact S].
  - assert (F0 := F). apply full_join in F0 as (Fl & Fr & _).
    destruct (IH l Fl) as (l' & El & Sl); [lia|]. destruct (IH r Fr) as (r' & Er & Sr); [lia|].
    destruct (rebuild_join_total l r l' r' F Sl Sr) as [E' S].
    rewrite El. cbn [bind]. rewrite Er. cbn [bind]. rewrite E'. eexists; split; [reflexivity|exact S].
  - assert (F0 := F). apply full_project in F0 as (Fc & _). assert (WP := weight_pos c).
    destruct (IH c Fc) as (c' & Ec & Sc); [lia|].
    destruct (rebuild_project_total c c' cs F Sc) as [E' S].
    rewrite Ec. cbn [bind]. rewrite E'. eexists; split; [reflexivity|exact S].
  - assert (F0 := F). apply full_filter in F0 as (Fc & _).
    destruct (IH c Fc) as (c' & Ec & Sc); [lia|].
    destruct (rebuild_filter_total c c' k F Sc) as [E' S].
    rewrite Ec. cbn [bind]. rewrite E'. eexists; split; [reflexivity|exact S].
  - assert (F0 := F). apply full_subtract in F0 as (Fl & Fr & _).
    destruct (IH l Fl) as (l' & El & Sl); [lia|]. destruct (IH r Fr) as (r' & Er & Sr); [lia|].
    destruct (rebuild_subtract_total l r l' r' F Sl Sr) as [E' S].
    rewrite El. cbn [bind]. rewrite Er. cbn [bind]. rewrite E'. eexists; split; [reflexivity|exact S].
  - assert (F0 := F). apply full_union in F0 as (Fl & Fr & _).
    destruct (IH l Fl) as (l' & El & Sl); [lia|]. destruct (IH r Fr) as (r' & Er & Sr); [lia|].
    destruct (rebuild_union_total l r l' r' F Sl Sr) as [E' S].
    rewrite El. cbn [bind]. rewrite Er. cbn [bind]. rewrite E'. eexists; split; [reflexivity|exact S].
Qed.

End Total.
