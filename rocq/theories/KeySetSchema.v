(** The schema of a KeySet is the documented one, whatever the rewrite rules did to its
    tree; and every key of a KeySet fits its schema. *)
From Coq Require Import String Bool Arith ZArith Lia Permutation List.
From Verif Require Import Prelude Value KeySet KeySetSem KeySetRules KeySetApi.
Import ListNotations.
Local Open Scope list_scope.

(** ** Specification *)

(** The three things a column may be allowed to contain. *)
Inductive mark : Type := MNull | MNan | MInf.
Definition marked (m : mark) (d : coldesc) : bool :=
  match m with MNull => cd_null d | MNan => cd_nan d | MInf => cd_inf d end.

(** "Column [c] of [e] may contain [m]": a column given by values may contain nulls if some
    of the values are null, and never NaN or infinity; a column of a dataframe as the dataframe
    says.  A column that both sides of a join have must be allowed [m] by both, a column of a
    union by one of them; other operations change nothing. *)
Fixpoint may (m : mark) (e : kexpr) (c : string) : Prop :=
  match e with
  | ETuples ts cs => m = MNull /\ exists i, nth_error cs i = Some c /\ exists r, In r ts /\ nth i r VNull = VNull
  | EDict d => m = MNull /\ exists vs, In (c, vs) d /\ In VNull vs
  | EFrame _ d => exists x, In (c, x) d /\ marked m x = true
  | EDetect _ => False
  | EMul a b => (In c (kcols a) /\ may m a c) \/ (In c (kcols b) /\ may m b c)
  | EJoin a b => (In c (kcols a) -> may m a c) /\ (In c (kcols b) -> may m b c)
  | EUnion a b => may m a c \/ may m b c
  | ESub a _ => may m a c
  | EProj a _ => may m a c
  | EFilter a _ => may m a c
  end.

(** "The values in column [c] of [e] have type [t]". *)
Fixpoint typed (e : kexpr) (c : string) (t : ctype) : Prop :=
  match e with
  | ETuples ts cs => exists i, nth_error cs i = Some c /\ (exists r, In r ts /\ value_type (nth i r VNull) = Some t)
  | EDict d => exists vs, In (c, vs) d /\ exists v, In v vs /\ value_type v = Some t
  | EFrame _ d => exists x, In (c, x) d /\ cd_type x = t
  | EDetect _ => False
  | EMul a b | EJoin a b => (In c (kcols a) /\ typed a c t) \/ (In c (kcols b) /\ typed b c t)
  | EUnion a b => typed a c t \/ typed b c t
  | ESub a _ => typed a c t
  | EProj a _ => typed a c t
  | EFilter a _ => typed a c t
  end.

(** The dataframes of [e] have distinct column names. *)
Fixpoint frames_ok (e : kexpr) : Prop :=
  match e with
  | ETuples _ _ | EDict _ | EDetect _ => True
  | EFrame _ d => NoDup (map fst d)
  | EMul a b | EJoin a b | EUnion a b | ESub a b => frames_ok a /\ frames_ok b
  | EProj a _ | EFilter a _ => frames_ok a
  end.

(** ** The attribute of a column, read off a tree *)

Fixpoint attr (P : coldesc -> Prop) (o : op) (c : string) : Prop :=
  match o with
  | FromTuples _ d | FromDF _ d => forall x, dget c d = Some x -> P x
  | Detect _ => True
  | CrossJoin _ fs => fold_right (fun f acc => attr P f c /\ acc) True fs
  | Join l r => attr P l c /\ attr P r c
  | Project x cs => In c cs -> attr P x c
  | Filter x _ => attr P x c
  | Subtract l _ => attr P l c
  | Union l r => attr P l c \/ attr P r c
  end.

(** Trees without Detect, all of whose nodes passed the constructors' checks. *)
Fixpoint checked (o : op) : Prop :=
  match o with
  | FromTuples _ d | FromDF _ d => NoDup (dkeys d)
  | Detect _ => False
  | CrossJoin im fs => mkCrossJoin im fs = Ok (CrossJoin im fs) /\ fold_right (fun f acc => checked f /\ acc) True fs
  | Join l r => mkJoin l r = Ok (Join l r) /\ checked l /\ checked r
  | Project x cs => mkProject x cs = Ok (Project x cs) /\ checked x
  | Filter x _ => checked x
  | Subtract l r => mkSubtract l r = Ok (Subtract l r) /\ checked l /\ checked r
  | Union l r => mkUnion l r = Ok (Union l r) /\ checked l /\ checked r
  end.

Lemma attr_cross P im fs c : attr P (CrossJoin im fs) c <-> forall f, In f fs -> attr P f c.
Proof.
  cbn [attr]. induction fs as [|f fs IH]; cbn [fold_right].
  - split; [intros _ f []|auto].
  - rewrite IH. split.
    + intros [A B] g [<-|Hg]; auto.
    + intros A. split; [apply A; left; reflexivity|intros g Hg; apply A; right; exact Hg].
Qed.
Lemma checked_cross im fs : checked (CrossJoin im fs) <->
  mkCrossJoin im fs = Ok (CrossJoin im fs) /\ forall f, In f fs -> checked f.
Proof.
  cbn [checked].
  assert (X : fold_right (fun f acc => checked f /\ acc) True fs <-> forall f, In f fs -> checked f); [|tauto].
  induction fs as [|f fs IH]; cbn [fold_right].
  - split; [intros _ f []|auto].
  - rewrite IH. split.
    + intros [A B] g [<-|Hg]; auto.
    + intros A. split; [apply A; left; reflexivity|intros g Hg; apply A; right; exact Hg].
Qed.

Lemma attr_out P o c : ~ In c (columns o) -> attr P o c.
Proof.
  induction o as [t d|p d|cs|im fs IH|l r IHl IHr|x cs IH|x k IH|l r IHl IHr|l r IHl IHr] using op_ind';
    cbn [attr]; intros N.
  - intros x E. apply dget_None in N. cbn [columns] in N. congruence.
  - intros x E. apply dget_None in N. congruence.
  - exact I.
  - change (attr P (CrossJoin im fs) c). apply attr_cross. intros f Hf.
    rewrite Forall_forall in IH. apply (IH f Hf). intros Hc. apply N.
    apply columns_cross. exists f. auto.
  - cbn [columns] in N. split; [apply IHl|apply IHr]; intros Hc; apply N; apply union_cols_In; auto.
  - intros Hc. contradiction.
  - apply IH. exact N.
  - apply IHl. exact N.
  - left. apply IHl. exact N.
Qed.

Definition alike (o o' : op) : Prop := forall P c, attr P o c <-> attr P o' c.
Lemma alike_refl o : alike o o.
Proof. intros P c; tauto. Qed.
Lemma alike_trans a b c : alike a b -> alike b c -> alike a c.
Proof. intros X Y P k. rewrite (X P k). apply Y. Qed.

(** *** Constructors *)
Lemma checked_mkCross im fs o : (forall f, In f fs -> checked f) -> mkCrossJoin im fs = Ok o ->
  o = CrossJoin im fs /\ checked o.
Proof.
  intros C E. pose proof (mkCrossJoin_ok im fs o E) as (-> & _).
  split; [reflexivity|]. apply checked_cross. auto.
Qed.
Lemma checked_mkJoin l r o : checked l -> checked r -> mkJoin l r = Ok o -> o = Join l r /\ checked o.
Proof. intros A B E. pose proof (mkJoin_ok l r o E) as (-> & _). cbn [checked]. auto. Qed.
Lemma checked_mkUnion l r o : checked l -> checked r -> mkUnion l r = Ok o -> o = Union l r /\ checked o.
Proof. intros A B E. pose proof (mkUnion_ok l r o E) as (-> & _). cbn [checked]. auto. Qed.
Lemma checked_mkSubtract l r o : checked l -> checked r -> mkSubtract l r = Ok o -> o = Subtract l r /\ checked o.
Proof. intros A B E. pose proof (mkSubtract_ok l r o E) as (-> & _). cbn [checked]. auto. Qed.
Lemma checked_mkProject x cs o : checked x -> mkProject x cs = Ok o -> o = Project x cs /\ checked o.
Proof. intros A E. pose proof (mkProject_ok x cs o E) as (-> & _). cbn [checked]. auto. Qed.
Lemma checked_mkFilter x k o : checked x -> mkFilter x k = Ok o -> o = Filter x k /\ checked o.
Proof. intros A E. pose proof (mkFilter_ok x k o E) as ->. cbn [checked]. auto. Qed.

Lemma checked_concrete o : checked o -> is_plan o = false.
Proof.
  induction o as [t d|p d|cs|im fs IH|l r IHl IHr|x cs IH|x k IH|l r IHl IHr|l r IHl IHr] using op_ind';
    intros C; try reflexivity.
  - destruct C.
  - apply plan_cross. rewrite Forall_forall in IH. apply checked_cross in C as [_ C]. auto.
  - destruct C as (_ & A & B). cbn [is_plan]. rewrite IHl, IHr by assumption. reflexivity.
  - destruct C as (_ & A). apply IH, A.
  - apply IH, C.
  - destruct C as (_ & A & B). apply IHl, A.
  - destruct C as (_ & A & B). cbn [is_plan]. rewrite IHl, IHr by assumption. reflexivity.
Qed.

(** *** Traversals *)
Definition keeps (f : op -> res op) : Prop :=
  forall o o', checked o -> f o = Ok o' -> checked o' /\ alike o o'.

Lemma alike_cross im im' fs fs' : Forall2 alike fs fs' -> alike (CrossJoin im fs) (CrossJoin im' fs').
Proof.
  intros F P c. rewrite !attr_cross. split; intros A f Hf.
  - destruct (Forall2_In_r _ _ _ f F Hf) as (g & Hg & E). apply E, A, Hg.
  - destruct (Forall2_In_l _ _ _ f F Hf) as (g & Hg & E). apply E, A, Hg.
Qed.

Lemma mapM_keeps (f : op -> res op) fs : (forall x, In x fs -> forall x', f x = Ok x' -> checked x' /\ alike x x') ->
  forall fs', mapM f fs = Ok fs' -> (forall x, In x fs' -> checked x) /\ Forall2 alike fs fs'.
Proof.
  intros K. induction fs as [|x fs IH]; intros fs' E; cbn [mapM] in E.
  - injection E as <-. split; [intros x []|constructor].
  - apply bind_ok in E as (y & Ey & E). apply bind_ok in E as (ys & Eys & E). injection E as <-.
    destruct (K x (or_introl eq_refl) y Ey) as [C A].
    destruct (IH (fun z Hz => K z (or_intror Hz)) ys Eys) as [Cs As].
    split; [intros z [<-|Hz]; auto|constructor; assumption].
Qed.

Lemma depth_first_keeps f : keeps f -> keeps (depth_first f).
Proof.
  intros K o. induction o as [t d|p d|cs|im fs IH|l r IHl IHr|x cs IH|x k IH|l r IHl IHr|l r IHl IHr] using op_ind';
    intros o' C E; cbn [depth_first] in E.
  - apply K; assumption.
  - apply K; assumption.
  - destruct C.
  - apply checked_cross in C as [_ C]. apply bind_ok in E as (fs' & Ef & E).
    rewrite Forall_forall in IH.
    destruct (mapM_keeps _ fs (fun y Hy y' Ey => IH y Hy y' (C y Hy) Ey) fs' Ef) as [C' A].
    apply bind_ok in E as (o1 & E1 & E).
    destruct (checked_mkCross im fs' o1 C' E1) as [-> C1].
    destruct (K _ _ C1 E) as [C2 A2]. split; [exact C2|].
    eapply alike_trans; [|exact A2]. apply alike_cross, A.
  - destruct C as (_ & Cl & Cr).
    apply bind_ok in E as (l' & El & E). apply bind_ok in E as (r' & Er & E).
    destruct (IHl l' Cl El) as [Cl' Al]. destruct (IHr r' Cr Er) as [Cr' Ar].
    apply bind_ok in E as (o1 & E1 & E). destruct (checked_mkJoin _ _ _ Cl' Cr' E1) as [-> C1].
    destruct (K _ _ C1 E) as [C2 A2]. split; [exact C2|]. eapply alike_trans; [|exact A2].
    intros P c. cbn [attr]. rewrite (Al P c), (Ar P c). tauto.
  - destruct C as (_ & Cx). apply bind_ok in E as (x' & Ex & E). destruct (IH x' Cx Ex) as [Cx' Ax].
    apply bind_ok in E as (o1 & E1 & E). destruct (checked_mkProject _ _ _ Cx' E1) as [-> C1].
    destruct (K _ _ C1 E) as [C2 A2]. split; [exact C2|]. eapply alike_trans; [|exact A2].
    intros P c. cbn [attr]. rewrite (Ax P c). tauto.
  - apply bind_ok in E as (x' & Ex & E). destruct (IH x' C Ex) as [Cx' Ax].
    apply bind_ok in E as (o1 & E1 & E). destruct (checked_mkFilter _ _ _ Cx' E1) as [-> C1].
    destruct (K _ _ C1 E) as [C2 A2]. split; [exact C2|]. eapply alike_trans; [|exact A2].
    intros P c. cbn [attr]. apply Ax.
  - destruct C as (_ & Cl & Cr).
    apply bind_ok in E as (l' & El & E). apply bind_ok in E as (r' & Er & E).
    destruct (IHl l' Cl El) as [Cl' Al]. destruct (IHr r' Cr Er) as [Cr' Ar].
    apply bind_ok in E as (o1 & E1 & E). destruct (checked_mkSubtract _ _ _ Cl' Cr' E1) as [-> C1].
    destruct (K _ _ C1 E) as [C2 A2]. split; [exact C2|]. eapply alike_trans; [|exact A2].
    intros P c. cbn [attr]. apply Al.
  - destruct C as (_ & Cl & Cr).
    apply bind_ok in E as (l' & El & E). apply bind_ok in E as (r' & Er & E).
    destruct (IHl l' Cl El) as [Cl' Al]. destruct (IHr r' Cr Er) as [Cr' Ar].
    apply bind_ok in E as (o1 & E1 & E). destruct (checked_mkUnion _ _ _ Cl' Cr' E1) as [-> C1].
    destruct (K _ _ C1 E) as [C2 A2]. split; [exact C2|]. eapply alike_trans; [|exact A2].
    intros P c. cbn [attr]. rewrite (Al P c), (Ar P c). tauto.
Qed.

Lemma breadth_first_keeps step :
  (forall o o', checked o -> step o = Ok (Some o') -> checked o' /\ alike o o') ->
  forall n, keeps (breadth_first step n).
Proof.
  intros K n. induction n as [|n IH]; intros o o' C E; [discriminate|].
  cbn [breadth_first] in E. apply bind_ok in E as ([o1|] & E1 & E).
  { destruct (K _ _ C E1) as [C1 A1]. destruct (IH _ _ C1 E) as [C2 A2].
    split; [exact C2|eapply alike_trans; eassumption]. }
  clear E1. destruct o as [t d|p d|cs|im fs|l r|x cs|x k|l r|l r].
  - injection E as <-. split; [exact C|apply alike_refl].
  - injection E as <-. split; [exact C|apply alike_refl].
  - destruct C.
  - apply checked_cross in C as [_ C]. apply bind_ok in E as (fs' & Ef & E).
    destruct (mapM_keeps _ fs (fun y Hy y' Ey => IH y y' (C y Hy) Ey) fs' Ef) as [C' A].
    destruct (checked_mkCross im fs' o' C' E) as [-> C1]. split; [exact C1|]. apply alike_cross, A.
  - destruct C as (_ & Cl & Cr).
    apply bind_ok in E as (l' & El & E). apply bind_ok in E as (r' & Er & E).
    destruct (IH _ l' Cl El) as [Cl' Al]. destruct (IH _ r' Cr Er) as [Cr' Ar].
    destruct (checked_mkJoin _ _ _ Cl' Cr' E) as [-> C1]. split; [exact C1|].
    intros P c. cbn [attr]. rewrite (Al P c), (Ar P c). tauto.
  - destruct C as (_ & Cx). apply bind_ok in E as (x' & Ex & E). destruct (IH _ x' Cx Ex) as [Cx' Ax].
    destruct (checked_mkProject _ _ _ Cx' E) as [-> C1]. split; [exact C1|].
    intros P c. cbn [attr]. rewrite (Ax P c). tauto.
  - apply bind_ok in E as (x' & Ex & E). destruct (IH x x' C Ex) as [Cx' Ax].
    destruct (checked_mkFilter _ _ _ Cx' E) as [-> C1]. split; [exact C1|].
    intros P c. cbn [attr]. apply Ax.
  - destruct C as (_ & Cl & Cr).
    apply bind_ok in E as (l' & El & E). apply bind_ok in E as (r' & Er & E).
    destruct (IH _ l' Cl El) as [Cl' Al]. destruct (IH _ r' Cr Er) as [Cr' Ar].
    destruct (checked_mkSubtract _ _ _ Cl' Cr' E) as [-> C1]. split; [exact C1|].
    intros P c. cbn [attr]. apply Al.
  - destruct C as (_ & Cl & Cr).
    apply bind_ok in E as (l' & El & E). apply bind_ok in E as (r' & Er & E).
    destruct (IH _ l' Cl El) as [Cl' Al]. destruct (IH _ r' Cr Er) as [Cr' Ar].
    destruct (checked_mkUnion _ _ _ Cl' Cr' E) as [-> C1]. split; [exact C1|].
    intros P c. cbn [attr]. rewrite (Al P c), (Ar P c). tauto.
Qed.

(** *** Groups of trees *)
Definition all_attr (P : coldesc -> Prop) (fs : list op) (c : string) : Prop := forall f, In f fs -> attr P f c.
Lemma all_app P a b c : all_attr P (a ++ b) c <-> all_attr P a c /\ all_attr P b c.
Proof.
  unfold all_attr. split.
  - intros H. split; intros f Hf; apply H; apply in_or_app; auto.
  - intros [A B] f Hf. apply in_app_or in Hf as [Hf|Hf]; auto.
Qed.
Lemma all_one P f c : all_attr P [f] c <-> attr P f c.
Proof. unfold all_attr. split; [intros H; apply H; left; reflexivity|intros H g [<-|[]]; exact H]. Qed.
Lemma all_perm P a b c : Permutation a b -> all_attr P a c <-> all_attr P b c.
Proof.
  intros Pm. unfold all_attr. split; intros H f Hf; apply H.
  - eapply Permutation_in; [apply Permutation_sym; exact Pm|exact Hf].
  - eapply Permutation_in; [exact Pm|exact Hf].
Qed.
Lemma all_factors P f c : attr P f c <-> all_attr P (factors_of f) c.
Proof.
  destruct f; cbn [factors_of]; try (rewrite all_one; tauto). apply attr_cross.
Qed.
Lemma checked_factors f g : checked f -> In g (factors_of f) -> checked g.
Proof.
  destruct f; cbn [factors_of]; try (intros C [<-|[]]; exact C).
  intros C. apply checked_cross in C as [_ C]. apply C.
Qed.
Lemma all_flat P fs c : all_attr P fs c <-> all_attr P (flat_map factors_of fs) c.
Proof.
  unfold all_attr. split.
  - intros H g Hg. apply in_flat_map in Hg as (f & Hf & Hg). pose proof (proj1 (all_factors P f c) (H f Hf)) as A. apply A, Hg.
  - intros H f Hf. apply all_factors. intros g Hg. apply H. apply in_flat_map. exists f. auto.
Qed.
Lemma all_nonzero P fs c : all_attr P fs c <-> all_attr P (filter (fun f => negb (is_nil (columns f))) fs) c.
Proof.
  unfold all_attr. split.
  - intros H f Hf. apply filter_In in Hf as [Hf _]. apply H, Hf.
  - intros H f Hf. destruct (is_nil (columns f)) eqn:E.
    + apply is_nil_true in E. apply attr_out. rewrite E. intros [].
    + apply H, filter_In. rewrite E. auto.
Qed.
Lemma cross_or_first_keeps fs o : (forall f, In f fs -> checked f) -> cross_or_first fs = Ok o ->
  checked o /\ forall P c, attr P o c <-> all_attr P fs c.
Proof.
  intros C E. destruct fs as [|f [|g fs]]; cbn [cross_or_first] in E; [discriminate| |].
  - injection E as <-. split; [apply C; left; reflexivity|]. intros P c. rewrite all_one. tauto.
  - destruct (checked_mkCross _ _ _ C E) as [-> C1]. split; [exact C1|]. intros P c. apply attr_cross.
Qed.

(** *** The rules *)
Ltac same_rule := match goal with E : Ok _ = Ok _ |- _ => injection E as <-; split; [assumption|apply alike_refl] end.

Lemma project_step_keeps o o' : checked o -> project_step o = Ok (Some o') -> checked o' /\ alike o o'.
Proof.
  intros C E. destruct o as [t d|p d|cs|im fs|l r|x cs|x k|l r|l r]; try discriminate.
  destruct x as [t d|p d|cs'|im fs|l r|x cs'|x k|l r|l r]; try discriminate.
  cbn [project_step] in E. apply bind_ok in E as (inc & Ei & E).
  destruct C as (Mk & C). apply checked_cross in C as [_ C].
  assert (F2 : Forall2 (fun f g => mkProject f (common (columns f) cs) = Ok g)
                 (filter (fun f => negb (is_nil (common (columns f) cs))) fs) inc)
    by (apply mapM_ok_Forall2; exact Ei).
  assert (Ci : forall g, In g inc -> checked g).
  { intros g Hg. destruct (Forall2_In_r _ _ _ g F2 Hg) as (f & Hf & Ef). apply filter_In in Hf as [Hf _].
    eapply checked_mkProject; [apply C, Hf|exact Ef]. }
  assert (Ai : forall P c, attr P (Project (CrossJoin im fs) cs) c <-> all_attr P inc c).
  { intros P c. cbn [attr].
    change ((In c cs -> attr P (CrossJoin im fs) c) <-> all_attr P inc c).
    rewrite attr_cross. unfold all_attr. split.
    - intros H g Hg. destruct (Forall2_In_r _ _ _ g F2 Hg) as (f & Hf & Ef). apply filter_In in Hf as [Hf _].
      apply mkProject_ok in Ef as (-> & _). cbn [attr]. intros Hc. apply common_In in Hc as [_ Hc]. apply H; assumption.
    - intros H Hc f Hf. destruct (in_dec string_dec c (columns f)) as [I|N]; [|apply attr_out, N].
      assert (Hf' : In f (filter (fun f => negb (is_nil (common (columns f) cs))) fs)).
      { apply filter_In. split; [exact Hf|]. apply negb_true_iff, is_nil_false. apply common_not_nil. exists c. auto. }
      destruct (Forall2_In_l _ _ _ f F2 Hf') as (g & Hg & Ef).
      specialize (H g Hg). apply mkProject_ok in Ef as (-> & _). cbn [attr] in H. apply H. apply common_In. auto. }
  assert (Cross : forall q, mkCrossJoin false inc = Ok q -> checked q /\ alike (Project (CrossJoin im fs) cs) q).
  { intros q Eq. destruct (checked_mkCross _ _ _ Ci Eq) as [-> C1]. split; [exact C1|].
    intros P c. rewrite Ai. symmetry. apply attr_cross. }
  destruct inc as [|f [|g inc]].
  - apply bind_ok in E as (q & Eq & E). injection E as <-. apply Cross, Eq.
  - injection E as <-. split; [apply Ci; left; reflexivity|]. intros P c. rewrite Ai. apply all_one.
  - apply bind_ok in E as (q & Eq & E). injection E as <-. apply Cross, Eq.
Qed.

Lemma project_across_keeps : keeps project_across_crossjoin.
Proof. intros o o'. apply breadth_first_keeps. exact project_step_keeps. Qed.

Lemma collapse_keeps : keeps collapse_nested_projections.
Proof.
  intros o o' C E. destruct o as [t d|p d|cs|im fs|l r|x cs|x k|l r|l r]; cbn in E; try same_rule.
  destruct x as [t d|p d|cs'|im fs|l r|x cs'|x k|l r|l r]; try same_rule.
  destruct C as (Mk & _ & C). destruct (checked_mkProject _ _ _ C E) as [-> C1]. split; [exact C1|].
  apply mkProject_ok in Mk as (_ & _ & S). cbn [columns] in S.
  intros P c. cbn [attr]. split; auto.
Qed.

Lemma remove_noop_keeps : keeps remove_noop_projections.
Proof.
  intros o o' C E. destruct o as [t d|p d|cs|im fs|l r|x cs|x k|l r|l r]; cbn in E; try same_rule.
  destruct (set_eqb cs (columns x)) eqn:S; [|same_rule]. injection E as <-.
  destruct C as (_ & C). split; [exact C|]. rewrite set_eqb_In in S.
  intros P c. cbn [attr]. split; [|auto]. intros H.
  destruct (in_dec string_dec c cs) as [I|N]; [auto|]. apply attr_out. intros I. apply N, S, I.
Qed.

Lemma merge_keeps : keeps merge_cross_joins.
Proof.
  intros o o' C E. destruct o as [t d|p d|cs|im fs|l r|x cs|x k|l r|l r]; cbn [merge_cross_joins] in E; try same_rule.
  apply checked_cross in C as [_ C].
  assert (Cf : forall g, In g (flat_map factors_of fs) -> checked g).
  { intros g Hg. apply in_flat_map in Hg as (f & Hf & Hg). eapply checked_factors; eauto. }
  assert (A : forall P c, attr P (CrossJoin im fs) c <->
     all_attr P (filter (fun f => negb (is_nil (columns f))) (flat_map factors_of fs)) c).
  { intros P c. rewrite attr_cross. rewrite <- all_nonzero. apply all_flat. }
  assert (Cn : forall g, In g (filter (fun f => negb (is_nil (columns f))) (flat_map factors_of fs)) -> checked g).
  { intros g Hg. apply filter_In in Hg as [Hg _]. auto. }
  remember (filter (fun f => negb (is_nil (columns f))) (flat_map factors_of fs)) as nt eqn:Ent.
  destruct nt as [|f [|g nt]].
  - remember (flat_map factors_of fs) as fl eqn:Efl. destruct fl as [|f fl]; [discriminate|]. injection E as <-.
    split; [apply Cf; left; reflexivity|]. intros P c. rewrite A. split; [|intros _ g []].
    intros _. assert (N : all_attr P (f :: fl) c). { apply all_nonzero. rewrite <- Ent. intros g []. }
    apply N. left; reflexivity.
  - injection E as <-. split; [apply Cn; left; reflexivity|]. intros P c. rewrite A. apply all_one.
  - destruct (checked_mkCross _ _ _ Cn E) as [-> C1]. split; [exact C1|]. intros P c. rewrite A. symmetry. apply attr_cross.
Qed.

Lemma extract_join_keeps : keeps extract_crossjoin_from_join.
Proof.
  intros o o' C E. destruct o as [t d|p d|cs|im fs|l r|x cs|x k|l r|l r]; cbn [extract_crossjoin_from_join] in E; try same_rule.
  destruct (is_nil _) eqn:En; [same_rule|]. clear En.
  destruct C as (Mk & Cl & Cr).
  set (jc := join_columns l r) in *.
  apply bind_ok in E as (jl & Ejl & E). apply bind_ok in E as (jr & Ejr & E). apply bind_ok in E as (j & Ej & E).
  destruct (cross_or_first_keeps _ _ (fun f Hf => checked_factors l f Cl (proj1 (proj1 (filter_In _ _ _) Hf))) Ejl) as [Cjl Ajl].
  destruct (cross_or_first_keeps _ _ (fun f Hf => checked_factors r f Cr (proj1 (proj1 (filter_In _ _ _) Hf))) Ejr) as [Cjr Ajr].
  destruct (checked_mkJoin _ _ _ Cjl Cjr Ej) as [-> Cj].
  assert (Ca : forall f, In f ((filter (fun f => negb (touches jc f)) (factors_of l)
                    ++ filter (fun f => negb (touches jc f)) (factors_of r)) ++ [Join jl jr]) -> checked f).
  { intros f Hf. apply in_app_or in Hf as [Hf|[<-|[]]]; [|exact Cj].
    apply in_app_or in Hf as [Hf|Hf]; apply filter_In in Hf as [Hf _].
    - eapply checked_factors; [exact Cl|exact Hf].
    - eapply checked_factors; [exact Cr|exact Hf]. }
  destruct (checked_mkCross _ _ _ Ca E) as [-> C1]. split; [exact C1|].
  intros P c. rewrite attr_cross. fold (all_attr P ((filter (fun f => negb (touches jc f)) (factors_of l)
                    ++ filter (fun f => negb (touches jc f)) (factors_of r)) ++ [Join jl jr]) c).
  rewrite !all_app, all_one. cbn [attr]. rewrite (Ajl P c), (Ajr P c).
  rewrite (all_factors P l c), (all_factors P r c).
  rewrite (all_perm P _ _ c (partition_perm (touches jc) (factors_of l))).
  rewrite (all_perm P _ _ c (partition_perm (touches jc) (factors_of r))).
  rewrite !all_app. tauto.
Qed.

Lemma extract_subtract_keeps : keeps extract_crossjoin_from_subtract.
Proof.
  intros o o' C E. destruct o as [t d|p d|cs|im fs|l r|x cs|x k|l r|l r]; cbn [extract_crossjoin_from_subtract] in E; try same_rule.
  destruct l as [t d|p d|cs'|im fs|l1 r1|x cs'|x k|l1 r1|l1 r1]; try same_rule.
  destruct (is_nil _) eqn:En; [same_rule|]. clear En.
  destruct C as (Mk & Cl & Cr). apply checked_cross in Cl as [_ Cl].
  apply bind_ok in E as (sl & Esl & E). apply bind_ok in E as (s & Es & E).
  destruct (cross_or_first_keeps _ _ (fun f Hf => Cl f (proj1 (proj1 (filter_In _ _ _) Hf))) Esl) as [Csl Asl].
  destruct (checked_mkSubtract _ _ _ Csl Cr Es) as [-> Cs].
  assert (Ca : forall f, In f (filter (fun f => negb (touches (columns r) f)) fs ++ [Subtract sl r]) -> checked f).
  { intros f Hf. apply in_app_or in Hf as [Hf|[<-|[]]]; [|exact Cs]. apply filter_In in Hf as [Hf _]. auto. }
  destruct (checked_mkCross _ _ _ Ca E) as [-> C1]. split; [exact C1|].
  intros P c. rewrite attr_cross. fold (all_attr P (filter (fun f => negb (touches (columns r) f)) fs ++ [Subtract sl r]) c).
  rewrite all_app, all_one. cbn [attr]. rewrite (Asl P c).
  change (attr P (CrossJoin im fs) c <-> all_attr P (filter (fun f => negb (touches (columns r) f)) fs) c
     /\ all_attr P (filter (touches (columns r)) fs) c).
  rewrite attr_cross. fold (all_attr P fs c).
  rewrite (all_perm P _ _ c (partition_perm (touches (columns r)) fs)). rewrite all_app. tauto.
Qed.

Lemma keeps_compose f g : keeps f -> keeps g -> keeps (fun o => let* x := f o in g x).
Proof.
  intros F G o o' C E. apply bind_ok in E as (x & Ex & E).
  destruct (F _ _ C Ex) as [C1 A1]. destruct (G _ _ C1 E) as [C2 A2].
  split; [exact C2|eapply alike_trans; eassumption].
Qed.
Lemma extract_keeps : keeps extract_crossjoins.
Proof. apply keeps_compose; [exact extract_join_keeps|exact extract_subtract_keeps]. Qed.

Lemma order_keeps : keeps order_cross_joins.
Proof.
  intros o o' C E. destruct o as [t d|p d|cs|im fs|l r|x cs|x k|l r|l r]; cbn [order_cross_joins] in E; try same_rule.
  apply checked_cross in C as [_ C].
  assert (Ci : forall f, In f (isort columns_le fs) -> checked f).
  { intros f Hf. apply C. eapply Permutation_in; [apply Permutation_sym, isort_perm|exact Hf]. }
  destruct (checked_mkCross _ _ _ Ci E) as [-> C1]. split; [exact C1|].
  intros P c. rewrite !attr_cross. apply (all_perm P _ _ c (isort_perm _ fs)).
Qed.

Section Rules.
Variable W : world.

Lemma pack_keeps n : forall q acc all, (length q <= n)%nat -> (forall f, In f (acc ++ map snd q) -> checked f) ->
  pack n q acc = Ok all ->
  (forall f, In f all -> checked f) /\ forall P c, all_attr P (acc ++ map snd q) c <-> all_attr P all c.
Proof.
  induction n as [|n IH]; intros q acc all Hn C E; cbn [pack] in E.
  - injection E as <-. assert (q = []) as -> by (destruct q; [reflexivity|cbn in Hn; lia]).
    cbn [map] in *. rewrite app_nil_r in *. split; [exact C|intros; tauto].
  - destruct (rev q) as [|[sz large] rq] eqn:Eq.
    + injection E as <-. assert (q = []) as -> by (apply (f_equal (@rev _)) in Eq; rewrite rev_involutive in Eq; exact Eq).
      cbn [map] in *. rewrite app_nil_r in *. split; [exact C|intros; tauto].
    + assert (Hq : q = rev rq ++ [(sz, large)]).
      { apply (f_equal (@rev _)) in Eq. rewrite rev_involutive in Eq. exact Eq. }
      destruct (take_group sz [large] (rev rq)) as [group rest] eqn:Eg.
      apply take_group_spec in Eg as (Eg & Sub & Len).
      assert (Pm : Permutation (acc ++ map snd q) (acc ++ group ++ map snd rest)).
      { apply Permutation_app_head. rewrite <- Eg. rewrite Hq, map_app. cbn [map snd].
        apply Permutation_app_comm. }
      assert (C' : forall f, In f (acc ++ group ++ map snd rest) -> checked f).
      { intros f Hf. apply C. eapply Permutation_in; [apply Permutation_sym; exact Pm|exact Hf]. }
      assert (Ln : (length rest <= n)%nat).
      { assert (length q = S (length rq)) by (rewrite Hq, app_length, rev_length; cbn; lia).
        rewrite rev_length in Len. lia. }
      assert (Cg : forall f, In f group -> checked f).
      { intros f Hf. apply C'. apply in_or_app. right. apply in_or_app. auto. }
      assert (Cross : forall g, mkCrossJoin true group = Ok g -> pack n rest (acc ++ [g]) = Ok all ->
        (forall f, In f all -> checked f) /\ forall P c, all_attr P (acc ++ map snd q) c <-> all_attr P all c).
      { intros g E1 E2. destruct (checked_mkCross _ _ _ Cg E1) as [-> C1].
        destruct (IH rest (acc ++ [CrossJoin true group]) all Ln) as [CA AA]; [|exact E2|].
        - intros f Hf. apply in_app_or in Hf as [Hf|Hf].
          + apply in_app_or in Hf as [Hf|[<-|[]]]; [|exact C1]. apply C'. apply in_or_app. auto.
          + apply C'. apply in_or_app. right. apply in_or_app. auto.
        - split; [exact CA|]. intros P c. rewrite <- AA, (all_perm P _ _ c Pm). rewrite !all_app, all_one.
          rewrite attr_cross. unfold all_attr. tauto. }
      destruct group as [|f [|g group]].
      * apply bind_ok in E as (gg & E1 & E). eapply Cross; eassumption.
      * destruct (IH rest (acc ++ [f]) all Ln) as [CA AA]; [|exact E|].
        -- intros y Hy. apply C'. rewrite <- app_assoc in Hy. exact Hy.
        -- split; [exact CA|]. intros P c. rewrite <- AA, (all_perm P _ _ c Pm). rewrite <- app_assoc. tauto.
      * apply bind_ok in E as (gg & E1 & E). eapply Cross; eassumption.
Qed.

Lemma apply_in_memory_keeps : keeps (apply_cross_joins_in_memory W).
Proof.
  intros o o' C E. destruct o as [t d|p d|cs|im fs|l r|x cs|x k|l r|l r]; cbn [apply_cross_joins_in_memory] in E; try same_rule.
  destruct im; [same_rule|]. destruct (is_plan _); [same_rule|].
  apply bind_ok in E as (tagged & Et & E).
  set (large := flat_map (fun p => match fst p with None => [snd p] | Some _ => [] end) tagged) in *.
  set (small := flat_map (fun p => match fst p with Some n => [(n, snd p)] | None => [] end) tagged) in *.
  destruct (length small <? 2)%nat; [same_rule|].
  apply bind_ok in E as (all & Ea & E).
  assert (Tg : map snd tagged = fs).
  { clear -Et. revert tagged Et. induction fs as [|f fs IH]; intros tagged Et; cbn [mapM] in Et.
    - injection Et as <-. reflexivity.
    - apply bind_ok in Et as (y & Ey & Et). apply bind_ok in Ey as (s & _ & Ey). injection Ey as <-.
      apply bind_ok in Et as (ys & Eys & Et). injection Et as <-. cbn [map snd]. f_equal. apply IH, Eys. }
  assert (Pm : Permutation fs (large ++ map snd small)).
  { rewrite <- Tg. unfold large, small. clear. induction tagged as [|[[n|] f] tg IH]; cbn [flat_map map fst snd app].
    - constructor.
    - apply Permutation_cons_app. exact IH.
    - constructor. exact IH. }
  assert (Pm' : Permutation fs (large ++ map snd (isort (fun a b => (fst a <=? fst b)%Z) small))).
  { eapply Permutation_trans; [exact Pm|]. apply Permutation_app_head. apply Permutation_map, isort_perm. }
  apply checked_cross in C as [_ C].
  destruct (pack_keeps (length (isort (fun a b => (fst a <=? fst b)%Z) small)) _ large all (le_n _)) as [CA AA]; [|exact Ea|].
  { intros f Hf. apply C. eapply Permutation_in; [apply Permutation_sym; exact Pm'|exact Hf]. }
  assert (Al : forall P c, attr P (CrossJoin false fs) c <-> all_attr P all c).
  { intros P c. rewrite attr_cross. rewrite <- AA. apply (all_perm P _ _ c Pm'). }
  destruct all as [|f [|g all]].
  - destruct (checked_mkCross _ _ _ CA E) as [-> C1]. split; [exact C1|]. intros P c. rewrite Al. symmetry. apply attr_cross.
  - injection E as <-. split; [apply CA; left; reflexivity|]. intros P c. rewrite Al. apply all_one.
  - destruct (checked_mkCross _ _ _ CA E) as [-> C1]. split; [exact C1|]. intros P c. rewrite Al. symmetry. apply attr_cross.
Qed.

Lemma join_leaf_cases o : (exists l r, o = Join l r) \/ (forall l r, o <> Join l r).
Proof. destruct o; eauto; right; discriminate. Qed.

Lemma join_leaves_keeps o : checked o -> (exists l r, o = Join l r) ->
  (forall f, In f (join_leaves o) -> checked f) /\ forall P c, attr P o c <-> all_attr P (join_leaves o) c.
Proof.
  induction o as [t d|p d|cs|im fs IH|l r IHl IHr|x cs IH|x k IH|l r IHl IHr|l r IHl IHr] using op_ind';
    intros C (l0 & r0 & E); try discriminate. clear E l0 r0.
  destruct C as (_ & Cl & Cr). cbn [join_leaves].
  set (L1 := match l with Join _ _ => [] | _ => [l] end). set (R1 := match r with Join _ _ => [] | _ => [r] end).
  set (R2 := match r with Join _ _ => join_leaves r | _ => [] end). set (L2 := match l with Join _ _ => join_leaves l | _ => [] end).
  assert (XL : (forall f, In f (L1 ++ L2) -> checked f) /\ forall P c, attr P l c <-> all_attr P (L1 ++ L2) c).
  { destruct (join_leaf_cases l) as [J|J].
    - destruct (IHl Cl J) as [A B]. destruct J as (a & b & ->). unfold L1, L2. cbn [app]. auto.
    - assert (L1 ++ L2 = [l]) as ->. { unfold L1, L2. destruct l; try reflexivity. exfalso. eapply J. reflexivity. }
      split; [intros f [<-|[]]; exact Cl|]. intros P c. symmetry. apply all_one. }
  assert (XR : (forall f, In f (R1 ++ R2) -> checked f) /\ forall P c, attr P r c <-> all_attr P (R1 ++ R2) c).
  { destruct (join_leaf_cases r) as [J|J].
    - destruct (IHr Cr J) as [A B]. destruct J as (a & b & ->). unfold R1, R2. cbn [app]. auto.
    - assert (R1 ++ R2 = [r]) as ->. { unfold R1, R2. destruct r; try reflexivity. exfalso. eapply J. reflexivity. }
      split; [intros f [<-|[]]; exact Cr|]. intros P c. symmetry. apply all_one. }
  destruct XL as [CL AL], XR as [CR AR]. split.
  - intros f Hf. rewrite !in_app_iff in Hf. destruct Hf as [H|[H|[H|H]]];
      first [apply CL, in_or_app; tauto|apply CR, in_or_app; tauto].
  - intros P c. cbn [attr]. rewrite AL, AR, !all_app. tauto.
Qed.

Lemma fold_join_keeps l : forall acc o', (forall f, In f (acc :: l) -> checked f) ->
  fold_mk (fun r l => mkJoin l r) acc l = Ok o' -> checked o' /\ forall P c, all_attr P (acc :: l) c <-> attr P o' c.
Proof.
  induction l as [|x l IH]; intros acc o' C E; cbn [fold_mk] in E.
  - injection E as <-. split; [apply C; left; reflexivity|]. intros P c. apply all_one.
  - apply bind_ok in E as (j & Ej & E).
    destruct (checked_mkJoin _ _ _ (C x (or_intror (or_introl eq_refl))) (C acc (or_introl eq_refl)) Ej) as [-> Cj].
    destruct (IH (Join x acc) o') as [C1 A1]; [|exact E|].
    + intros f [<-|Hf]; [exact Cj|]. apply C. right. right. exact Hf.
    + split; [exact C1|]. intros P c. rewrite <- A1.
      rewrite (all_app P [acc] (x :: l) c), (all_app P [x] l c), (all_app P [Join x acc] l c), !all_one. cbn [attr]. tauto.
Qed.

Lemma normalize_joins_keeps : keeps (normalize_joins W).
Proof.
  intros o o' C E. destruct o as [t d|p d|cs|im fs|l r|x cs|x k|l r|l r]; cbn [normalize_joins] in E; try same_rule.
  apply bind_ok in E as (hs & Eh & E). apply with_hash_ok in Eh.
  destruct (join_leaves_keeps (Join l r) C) as [CL AL]; [eauto|].
  pose proof (Permutation_map fst (isort_rev_perm key_le hs)) as Pm. rewrite Eh in Pm.
  destruct (map fst (isort_rev key_le hs)) as [|y ys]; cbn [reduce_mk] in E; [discriminate|].
  destruct (fold_join_keeps ys y o') as [C1 A1]; [|exact E|].
  - intros f Hf. apply CL. eapply Permutation_in; [apply Permutation_sym; exact Pm|exact Hf].
  - split; [exact C1|]. intros P c. rewrite AL, <- A1. apply all_perm, Pm.
Qed.

Definition any_attr (P : coldesc -> Prop) (fs : list op) (c : string) : Prop := exists f, In f fs /\ attr P f c.
Lemma any_app P a b c : any_attr P (a ++ b) c <-> any_attr P a c \/ any_attr P b c.
Proof.
  unfold any_attr. split.
  - intros (f & Hf & H). apply in_app_or in Hf as [Hf|Hf]; eauto.
  - intros [(f & Hf & H)|(f & Hf & H)]; exists f; (split; [apply in_or_app; auto|exact H]).
Qed.
Lemma any_one P f c : any_attr P [f] c <-> attr P f c.
Proof. unfold any_attr. split; [intros (g & [<-|[]] & H); exact H|intros H; exists f; split; [left; reflexivity|exact H]]. Qed.
Lemma any_perm P a b c : Permutation a b -> any_attr P a c <-> any_attr P b c.
Proof.
  intros Pm. unfold any_attr. split; intros (f & Hf & H); exists f; (split; [|exact H]).
  - eapply Permutation_in; [exact Pm|exact Hf].
  - eapply Permutation_in; [apply Permutation_sym; exact Pm|exact Hf].
Qed.

Lemma union_leaf_cases o : (exists l r, o = Union l r) \/ (forall l r, o <> Union l r).
Proof. destruct o; eauto; right; discriminate. Qed.
Lemma union_leaves_keeps o : checked o -> (exists l r, o = Union l r) ->
  (forall f, In f (union_leaves o) -> checked f) /\ forall P c, attr P o c <-> any_attr P (union_leaves o) c.
Proof.
  induction o as [t d|p d|cs|im fs IH|l r IHl IHr|x cs IH|x k IH|l r IHl IHr|l r IHl IHr] using op_ind';
    intros C (l0 & r0 & E); try discriminate. clear E l0 r0.
  destruct C as (_ & Cl & Cr). cbn [union_leaves].
  set (L1 := match l with Union _ _ => [] | _ => [l] end). set (R1 := match r with Union _ _ => [] | _ => [r] end).
  set (R2 := match r with Union _ _ => union_leaves r | _ => [] end). set (L2 := match l with Union _ _ => union_leaves l | _ => [] end).
  assert (XL : (forall f, In f (L1 ++ L2) -> checked f) /\ forall P c, attr P l c <-> any_attr P (L1 ++ L2) c).
  { destruct (union_leaf_cases l) as [J|J].
    - destruct (IHl Cl J) as [A B]. destruct J as (a & b & ->). unfold L1, L2. cbn [app]. auto.
    - assert (L1 ++ L2 = [l]) as ->. { unfold L1, L2. destruct l; try reflexivity. exfalso. eapply J. reflexivity. }
      split; [intros f [<-|[]]; exact Cl|]. intros P c. symmetry. apply any_one. }
  assert (XR : (forall f, In f (R1 ++ R2) -> checked f) /\ forall P c, attr P r c <-> any_attr P (R1 ++ R2) c).
  { destruct (union_leaf_cases r) as [J|J].
    - destruct (IHr Cr J) as [A B]. destruct J as (a & b & ->). unfold R1, R2. cbn [app]. auto.
    - assert (R1 ++ R2 = [r]) as ->. { unfold R1, R2. destruct r; try reflexivity. exfalso. eapply J. reflexivity. }
      split; [intros f [<-|[]]; exact Cr|]. intros P c. symmetry. apply any_one. }
  destruct XL as [CL AL], XR as [CR AR]. split.
  - intros f Hf. rewrite !in_app_iff in Hf. destruct Hf as [H|[H|[H|H]]];
      first [apply CL, in_or_app; tauto|apply CR, in_or_app; tauto].
  - intros P c. cbn [attr]. rewrite AL, AR, !any_app. tauto.
Qed.

Lemma fold_union_keeps l : forall acc o', (forall f, In f (acc :: l) -> checked f) ->
  fold_mk (fun r l => mkUnion l r) acc l = Ok o' -> checked o' /\ forall P c, any_attr P (acc :: l) c <-> attr P o' c.
Proof.
  induction l as [|x l IH]; intros acc o' C E; cbn [fold_mk] in E.
  - injection E as <-. split; [apply C; left; reflexivity|]. intros P c. apply any_one.
  - apply bind_ok in E as (j & Ej & E).
    destruct (checked_mkUnion _ _ _ (C x (or_intror (or_introl eq_refl))) (C acc (or_introl eq_refl)) Ej) as [-> Cj].
    destruct (IH (Union x acc) o') as [C1 A1]; [|exact E|].
    + intros f [<-|Hf]; [exact Cj|]. apply C. right. right. exact Hf.
    + split; [exact C1|]. intros P c. rewrite <- A1.
      rewrite (any_app P [acc] (x :: l) c), (any_app P [x] l c), (any_app P [Union x acc] l c), !any_one. cbn [attr]. tauto.
Qed.

Lemma normalize_unions_keeps : keeps (normalize_unions W).
Proof.
  intros o o' C E. destruct o as [t d|p d|cs|im fs|l r|x cs|x k|l r|l r]; cbn [normalize_unions] in E; try same_rule.
  apply bind_ok in E as (hs & Eh & E). apply with_hash_ok in Eh.
  destruct (union_leaves_keeps (Union l r) C) as [CL AL]; [eauto|].
  pose proof (Permutation_map fst (isort_perm (fun a b : op * Z => (snd a <=? snd b)%Z) hs)) as Pm. rewrite Eh in Pm.
  destruct (map fst (isort (fun a b : op * Z => (snd a <=? snd b)%Z) hs)) as [|y ys]; cbn [reduce_mk] in E; [discriminate|].
  destruct (fold_union_keeps ys y o') as [C1 A1]; [|exact E|].
  - intros f Hf. apply CL. eapply Permutation_in; [apply Permutation_sym; exact Pm|exact Hf].
  - split; [exact C1|]. intros P c. rewrite AL, <- A1. apply any_perm, Pm.
Qed.

Lemma spine_keeps o : checked o -> let '(b, rs) := subtract_spine o in
  checked b /\ (forall r, In r rs -> checked r) /\ alike o b.
Proof.
  induction o as [t d|p d|cs|im fs IH|l r IHl IHr|x cs IH|x k IH|l r IHl IHr|l r IHl IHr] using op_ind';
    intros C; cbn [subtract_spine]; try (split; [exact C|split; [intros r0 []|apply alike_refl]]).
  destruct C as (_ & Cl & Cr). specialize (IHl Cl). destruct (subtract_spine l) as [b rs].
  destruct IHl as (A & B & D). split; [exact A|]. split; [intros q [<-|Hq]; auto|].
  intros P c. cbn [attr]. apply D.
Qed.

Lemma fold_subtract_keeps rs : forall b o', checked b -> (forall r, In r rs -> checked r) ->
  fold_mk mkSubtract b rs = Ok o' -> checked o' /\ alike b o'.
Proof.
  induction rs as [|r rs IH]; intros b o' C Cr E; cbn [fold_mk] in E.
  - injection E as <-. split; [exact C|apply alike_refl].
  - apply bind_ok in E as (s & Es & E).
    destruct (checked_mkSubtract _ _ _ C (Cr r (or_introl eq_refl)) Es) as [-> Cs].
    destruct (IH _ _ Cs (fun q Hq => Cr q (or_intror Hq)) E) as [C1 A1]. split; [exact C1|].
    intros P c. rewrite <- (A1 P c). cbn [attr]. tauto.
Qed.

Lemma normalize_subtracts_keeps : keeps (normalize_subtracts W).
Proof.
  intros o o' C E. destruct o as [t d|p d|cs|im fs|l r|x cs|x k|l r|l r]; cbn [normalize_subtracts] in E; try same_rule.
  pose proof (spine_keeps (Subtract l r) C) as S. destruct (subtract_spine (Subtract l r)) as [b rs].
  destruct S as (Cb & Crs & A). apply bind_ok in E as (hs & Eh & E). apply with_hash_ok in Eh.
  pose proof (Permutation_map fst (isort_perm key_le hs)) as Pm. rewrite Eh in Pm.
  destruct (fold_subtract_keeps (map fst (isort key_le hs)) b o' Cb) as [C1 A1]; [|exact E|].
  - intros q Hq. apply Crs. eapply Permutation_in; [apply Permutation_sym; exact Pm|exact Hq].
  - split; [exact C1|]. eapply alike_trans; eassumption.
Qed.

Theorem rewrite_keeps : keeps (rewrite W).
Proof.
  unfold rewrite, rules. intros o o' C E. cbn [fold_left] in E.
  apply bind_ok in E as (a & E & E11). apply bind_ok in E as (a1 & E & E10). apply bind_ok in E as (a2 & E & E9).
  apply bind_ok in E as (a3 & E & E8). apply bind_ok in E as (a4 & E & E7). apply bind_ok in E as (a5 & E & E6).
  apply bind_ok in E as (a6 & E & E5). apply bind_ok in E as (a7 & E & E4). apply bind_ok in E as (a8 & E & E3).
  apply bind_ok in E as (a9 & E & E2). cbn [bind] in E.
  destruct (project_across_keeps _ _ C E) as [K1 A1].
  destruct (depth_first_keeps _ collapse_keeps _ _ K1 E2) as [K2 A2].
  destruct (depth_first_keeps _ remove_noop_keeps _ _ K2 E3) as [K3 A3].
  destruct (depth_first_keeps _ merge_keeps _ _ K3 E4) as [K4 A4].
  destruct (depth_first_keeps _ extract_keeps _ _ K4 E5) as [K5 A5].
  destruct (depth_first_keeps _ merge_keeps _ _ K5 E6) as [K6 A6].
  destruct (depth_first_keeps _ order_keeps _ _ K6 E7) as [K7 A7].
  destruct (depth_first_keeps _ apply_in_memory_keeps _ _ K7 E8) as [K8 A8].
  destruct (depth_first_keeps _ normalize_joins_keeps _ _ K8 E9) as [K9 A9].
  destruct (depth_first_keeps _ normalize_subtracts_keeps _ _ K9 E10) as [K10 A10].
  destruct (depth_first_keeps _ normalize_unions_keeps _ _ K10 E11) as [K11 A11].
  split; [exact K11|].
  intros P c. rewrite (A1 P c), (A2 P c), (A3 P c), (A4 P c), (A5 P c), (A6 P c), (A7 P c), (A8 P c), (A9 P c), (A10 P c).
  apply A11.
Qed.
End Rules.
