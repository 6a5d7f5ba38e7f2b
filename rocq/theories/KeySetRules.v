(** Soundness of the KeySet rewrite rules: same columns, same keys. *)
From Coq Require Import String Bool Arith ZArith Lia List Permutation.
From Verif Require Import Prelude Value KeySet KeySetSem.
Import ListNotations.

Section Rules.
Variable W : world.
Variable D : oracle.
Notation den := (den W D).
Notation wf := (wf W).

(** Every projection is taken from a KeySet that has at least one key. *)
Fixpoint pne (o : op) : Prop :=
  match o with
  | FromTuples _ _ | FromDF _ _ | Detect _ => True
  | CrossJoin _ fs => fold_right (fun f acc => pne f /\ acc) True fs
  | Join l r => pne l /\ pne r
  | Project c _ => (exists rho, den c rho) /\ pne c
  | Filter c _ => pne c
  | Subtract l r => pne l /\ pne r
  | Union l r => pne l /\ pne r
  end.

Definition good (o : op) : Prop := wf o /\ pne o.

Definition is_tuples (o : op) : Prop := exists ts d, o = FromTuples ts d.

Definition same (o o' : op) : Prop :=
  (forall c, In c (columns o) <-> In c (columns o'))
  /\ (forall rho, den o rho <-> den o' rho)
  /\ (is_plan o = false -> is_plan o' = false)
  /\ (is_tuples o -> o' = o).

Lemma same_refl o : same o o.
Proof. repeat split; auto. Qed.
Lemma same_trans a b c : same a b -> same b c -> same a c.
Proof.
  intros (A1 & A2 & A3 & A4) (B1 & B2 & B3 & B4).
  split; [intros x; rewrite A1; apply B1|]. split; [intros x; rewrite A2; apply B2|].
  split; [auto|]. intros T. rewrite B4; [apply A4, T|]. rewrite A4; assumption.
Qed.

Definition sound (f : op -> res op) : Prop :=
  forall o o', good o -> f o = Ok o' -> good o' /\ same o o'.

Lemma pne_cross im fs : pne (CrossJoin im fs) <-> forall f, In f fs -> pne f.
Proof.
  simpl. induction fs as [|f r IH]; simpl; [tauto|]. rewrite IH. split.
  - intros [H1 H2] g [->|H]; auto.
  - intros H; split; auto.
Qed.

Lemma good_cross im fs :
  good (CrossJoin im fs) <->
  fs <> [] /\ (forall f, In f fs -> good f)
  /\ ForallOrdPairs (fun f g => forall c, In c (columns f) -> In c (columns g) -> False) fs
  /\ (im = true -> forall f, In f fs -> is_tuples f /\ columns f <> []).
Proof.
  unfold good. rewrite pne_cross. cbn [KeySetSem.wf]. rewrite wf_cross_forall. unfold is_tuples. split.
  - intros ((H1 & H2 & H3 & H4) & H5). split; [assumption|]. split; [|split; assumption].
    intros f Hf; auto.
  - intros (H1 & H2 & H3 & H4). split; [split; [assumption|]|].
    + split; [intros f Hf; apply H2, Hf|]. split; assumption.
    + intros f Hf; apply H2, Hf.
Qed.

Lemma plan_cross im fs : is_plan (CrossJoin im fs) = false <-> forall f, In f fs -> is_plan f = false.
Proof.
  simpl. split.
  - intros H f Hf. destruct (is_plan f) eqn:E; [|reflexivity].
    assert (existsb is_plan fs = true) by (apply existsb_exists; eauto). congruence.
  - intros H. destruct (existsb is_plan fs) eqn:E; [|reflexivity].
    apply existsb_exists in E as (f & Hf & E). rewrite H in E; [discriminate|assumption].
Qed.

Lemma overlapping_false fs : overlapping fs = false <->
  ForallOrdPairs (fun f g => forall c, In c (columns f) -> In c (columns g) -> False) fs.
Proof.
  induction fs as [|f r IH]; simpl.
  - split; [constructor|reflexivity].
  - rewrite orb_false_iff, IH. split.
    + intros [H1 H2]. constructor; [|assumption]. apply Forall_forall. intros g Hg c Hc Hc'.
      assert (existsb (fun g => negb (is_nil (common (columns f) (columns g)))) r = true); [|congruence].
      apply existsb_exists. exists g. split; [assumption|]. apply negb_true_iff, is_nil_false, common_not_nil.
      eauto.
    + intros H. inversion H as [|? ? F1 F2]; subst. split; [|assumption].
      destruct (existsb _ r) eqn:E; [|reflexivity]. apply existsb_exists in E as (g & Hg & E).
      apply negb_true_iff, is_nil_false, common_not_nil in E as (c & H1 & H2).
      rewrite Forall_forall in F1. exfalso. eapply F1; eassumption.
Qed.

(** ** What the constructors guarantee *)
Lemma mkCrossJoin_ok im fs o : mkCrossJoin im fs = Ok o ->
  o = CrossJoin im fs /\ fs <> []
  /\ ForallOrdPairs (fun f g => forall c, In c (columns f) -> In c (columns g) -> False) fs
  /\ (im = true -> forall f, In f fs -> in_memory_factor f = true /\ columns f <> []).
Proof.
  unfold mkCrossJoin. destruct (is_nil fs) eqn:E1; [discriminate|].
  destruct (overlapping fs) eqn:E2; [discriminate|]. cbn [raise_if bind].
  destruct (im && negb (forallb in_memory_factor fs)) eqn:E3; [discriminate|].
  destruct (im && existsb (fun f => is_nil (columns f)) fs) eqn:E4; [discriminate|].
  cbn [raise_if bind]. intros H. inversion H; subst. split; [reflexivity|].
  split; [apply is_nil_false; assumption|]. split; [apply overlapping_false; assumption|].
  intros -> f Hf. simpl in E3, E4. apply negb_false_iff in E3. rewrite forallb_forall in E3.
  split; [auto|]. apply is_nil_false. destruct (is_nil (columns f)) eqn:N; [|reflexivity].
  assert (existsb (fun f => is_nil (columns f)) fs = true) by (apply existsb_exists; eauto). congruence.
Qed.

Lemma mkJoin_ok l r o : mkJoin l r = Ok o ->
  o = Join l r /\ exists c, In c (columns l) /\ In c (columns r).
Proof.
  unfold mkJoin. destruct (is_nil (join_columns l r)) eqn:E1; [discriminate|]. cbn [raise_if bind].
  apply is_nil_false, common_not_nil in E1. intros H. split; [|assumption].
  destruct (is_plan (Join l r)); [congruence|].
  apply bind_ok in H as (sl & _ & H). apply bind_ok in H as (sr & _ & H).
  apply bind_ok in H as (b & _ & H). apply bind_ok in H as ([] & _ & H). congruence.
Qed.

Lemma mkProject_ok c cs o : mkProject c cs = Ok o ->
  o = Project c cs /\ cs <> [] /\ forall x, In x cs -> In x (columns c).
Proof.
  unfold mkProject. intros H. apply bind_ok in H as (? & _ & H).
  destruct (is_nil cs) eqn:E1; [discriminate|]. cbn [raise_if bind] in H.
  destruct (is_nil (diff_cols cs (columns c))) eqn:E2; [|discriminate]. simpl in H.
  inversion H. split; [reflexivity|]. split; [apply is_nil_false; assumption|].
  apply diff_cols_nil, is_nil_true; assumption.
Qed.

Lemma mkFilter_ok c k o : mkFilter c k = Ok o -> o = Filter c k.
Proof. unfold mkFilter. intros H. apply bind_ok in H as (? & _ & H). congruence. Qed.

Lemma mkSubtract_ok l r o : mkSubtract l r = Ok o ->
  o = Subtract l r /\ is_plan r = false /\ forall x, In x (columns r) -> In x (columns l).
Proof.
  unfold mkSubtract. destruct (is_plan r) eqn:P; [discriminate|]. cbn [raise_if bind].
  destruct (is_nil (diff_cols (columns r) (columns l))) eqn:E2; [|discriminate]. simpl.
  intros H. inversion H. split; [reflexivity|]. split; [reflexivity|].
  apply diff_cols_nil, is_nil_true; assumption.
Qed.

Lemma mkUnion_ok l r o : mkUnion l r = Ok o ->
  o = Union l r /\ forall x, In x (columns l) <-> In x (columns r).
Proof.
  unfold mkUnion. destruct (set_eqb (columns l) (columns r)) eqn:E; [|discriminate]. simpl.
  intros H. split; [|apply set_eqb_In; assumption].
  destruct (is_plan l || is_plan r); [congruence|].
  apply bind_ok in H as (sl & _ & H). apply bind_ok in H as (sr & _ & H).
  apply bind_ok in H as (b & _ & H). apply bind_ok in H as ([] & _ & H). congruence.
Qed.

(** ** Rebuilding a node from rewritten children *)
Lemma nonempty_same (a b : list string) : (forall c, In c a <-> In c b) -> a <> [] -> b <> [].
Proof. intros H N. apply (nonzero_sub a); [assumption|]. intros c; apply H. Qed.

Lemma same_restrict a b rho : (forall c, In c a <-> In c b) ->
  forall x, restrict a rho x = restrict b rho x.
Proof.
  intros H x. unfold restrict. destruct (smem x a) eqn:M1, (smem x b) eqn:M2; try reflexivity.
  - apply smem_In, H, smem_In in M1. congruence.
  - apply smem_In, H, smem_In in M2. congruence.
Qed.

Lemma rebuild_cross im fs fs' o' :
  good (CrossJoin im fs) -> Forall2 (fun f f' => good f' /\ same f f') fs fs' ->
  mkCrossJoin im fs' = Ok o' -> good o' /\ same (CrossJoin im fs) o'.
Proof.
  intros G F E. apply good_cross in G as (N & G & Dj & IM).
  apply mkCrossJoin_ok in E as (-> & N' & Dj' & IM'). split.
  - apply good_cross. split; [assumption|]. split.
    + intros f' Hf'. destruct (Forall2_In_r _ _ _ _ F Hf') as (f & _ & H & _). exact H.
    + split; [assumption|]. intros -> f' Hf'. destruct (Forall2_In_r _ _ _ _ F Hf') as (f & Hf & _ & S).
      destruct (IM eq_refl f Hf) as [T C]. destruct S as (_ & _ & _ & S). rewrite (S T). auto.
  - split; [|split; [|split]].
    + intros c. rewrite !columns_cross. split; intros (f & Hf & Hc).
      * destruct (Forall2_In_l _ _ _ _ F Hf) as (f' & Hf' & _ & S). exists f'. split; [assumption|]. apply (proj1 S), Hc.
      * destruct (Forall2_In_r _ _ _ _ F Hf) as (f' & Hf' & _ & S). exists f'. split; [assumption|]. apply (proj1 S), Hc.
    + intros rho. rewrite !den_cross. split; intros H f Hf.
      * destruct (Forall2_In_r _ _ _ _ F Hf) as (f' & Hf' & _ & S). apply (proj1 (proj2 S)), H, Hf'.
      * destruct (Forall2_In_l _ _ _ _ F Hf) as (f' & Hf' & _ & S). apply (proj1 (proj2 S)), H, Hf'.
    + rewrite !plan_cross. intros H f Hf.
      destruct (Forall2_In_r _ _ _ _ F Hf) as (f' & Hf' & _ & S). apply (proj1 (proj2 (proj2 S))), H, Hf'.
    + intros (? & ? & ?). discriminate.
Qed.

Lemma rebuild_join l r l' r' o' :
  good l' -> good r' -> same l l' -> same r r' -> mkJoin l' r' = Ok o' ->
  good o' /\ same (Join l r) o'.
Proof.
  intros [Wl Pl] [Wr Pr] (A1 & A2 & A3 & _) (B1 & B2 & B3 & _) E. apply mkJoin_ok in E as (-> & c & Hc).
  split; [split; simpl; eauto|]. split; [|split; [|split]].
  - intros x. simpl. rewrite !union_cols_In, A1, B1. reflexivity.
  - intros rho. simpl. rewrite A2, B2. reflexivity.
  - simpl. rewrite !orb_false_iff. tauto.
  - intros (? & ? & ?). discriminate.
Qed.

Lemma rebuild_project c c' cs o' :
  good (Project c cs) -> good c' -> same c c' -> mkProject c' cs = Ok o' ->
  good o' /\ same (Project c cs) o'.
Proof.
  intros [(Wc & ND & _) [[rho0 I] _]] [Wc' Pc'] (A1 & A2 & A3 & _) E.
  apply mkProject_ok in E as (-> & N & I'). split; [|split; [|split; [|split]]].
  - split; simpl; [auto|]. split; [exists rho0; apply A2, I|assumption].
  - simpl. tauto.
  - intros rho. simpl. split; intros (s & H1 & H2); exists s; split; auto; apply A2; assumption.
  - simpl. assumption.
  - intros (? & ? & ?). discriminate.
Qed.

Lemma rebuild_filter c c' k o' :
  good (Filter c k) -> good c' -> same c c' -> mkFilter c' k = Ok o' ->
  good o' /\ same (Filter c k) o'.
Proof.
  intros [(Wc & N) _] [Wc' Pc'] (A1 & A2 & A3 & _) E. apply mkFilter_ok in E as ->.
  split; [|split; [|split; [|split]]].
  - split; simpl; [|assumption]. split; [assumption|]. eapply nonempty_same; eauto.
  - simpl. assumption.
  - intros rho. simpl. rewrite A2. rewrite (holds_ext W k _ _ (same_restrict _ _ rho A1)). reflexivity.
  - simpl. assumption.
  - intros (? & ? & ?). discriminate.
Qed.

Lemma rebuild_subtract l r l' r' o' :
  good (Subtract l r) -> good l' -> good r' -> same l l' -> same r r' -> mkSubtract l' r' = Ok o' ->
  good o' /\ same (Subtract l r) o'.
Proof.
  intros [(_ & _ & _ & N & _) _] [Wl Pl] [Wr Pr] (A1 & A2 & A3 & _) (B1 & B2 & B3 & _) E.
  apply mkSubtract_ok in E as (-> & P & I). split; [|split; [|split; [|split]]].
  - split; simpl; [|auto]. repeat split; auto. eapply nonempty_same; eauto.
  - simpl. assumption.
  - intros rho. simpl. rewrite A2, B2. reflexivity.
  - simpl. assumption.
  - intros (? & ? & ?). discriminate.
Qed.

Lemma rebuild_union l r l' r' o' :
  good (Union l r) -> good l' -> good r' -> same l l' -> same r r' -> mkUnion l' r' = Ok o' ->
  good o' /\ same (Union l r) o'.
Proof.
  intros [(_ & _ & N & _) _] [Wl Pl] [Wr Pr] (A1 & A2 & A3 & _) (B1 & B2 & B3 & _) E.
  apply mkUnion_ok in E as (-> & I). split; [|split; [|split; [|split]]].
  - split; simpl; [|auto]. split; [assumption|]. split; [assumption|]. split; [|assumption].
    eapply nonempty_same; eauto.
  - simpl. assumption.
  - intros rho. simpl. rewrite A2, B2. reflexivity.
  - simpl. rewrite !orb_false_iff. tauto.
  - intros (? & ? & ?). discriminate.
Qed.

Lemma good_children_join l r : good (Join l r) -> good l /\ good r.
Proof. intros [(? & ? & _) (? & ?)]. split; split; assumption. Qed.
Lemma good_children_project c cs : good (Project c cs) -> good c.
Proof. intros [(? & ? & _) (? & ?)]. split; assumption. Qed.
Lemma good_children_filter c k : good (Filter c k) -> good c.
Proof. intros [(? & ?) ?]. split; assumption. Qed.
Lemma good_children_subtract l r : good (Subtract l r) -> good l /\ good r.
Proof. intros [(? & ? & _) (? & ?)]. split; split; assumption. Qed.
Lemma good_children_union l r : good (Union l r) -> good l /\ good r.
Proof. intros [(? & ? & _) (? & ?)]. split; split; assumption. Qed.

Lemma Forall2_impl_In {A B} (P Q : A -> B -> Prop) l l' :
  (forall a b, In a l -> P a b -> Q a b) -> Forall2 P l l' -> Forall2 Q l l'.
Proof.
  intros H F. induction F as [|a b l l' Hab F IH]; constructor.
  - apply H; simpl; auto.
  - apply IH. intros x y Hx. apply H; simpl; auto.
Qed.

Lemma depth_first_sound f : sound f -> sound (depth_first f).
Proof.
  intros S.
  assert (T : forall a b c, good b /\ same a b -> f b = Ok c -> good c /\ same a c).
  { intros a b c [G Sm] E. destruct (S _ _ G E) as [G' Sm']. split; [assumption|].
    eapply same_trans; eassumption. }
  intros o. induction o as [t d|p d|c|im fs IH|l r IHl IHr|c cs IHc|c k IHc|l r IHl IHr|l r IHl IHr] using op_ind';
    intros o' G E; cbn [depth_first] in E.
  - apply S; assumption.
  - apply S; assumption.
  - apply S; assumption.
  - apply bind_ok in E as (fs' & E1 & E). apply bind_ok in E as (o1 & E2 & E).
    refine (T _ _ _ _ E). refine (rebuild_cross _ _ _ _ G _ E2).
    apply good_cross in G as (_ & G & _). rewrite Forall_forall in IH.
    apply mapM_ok_Forall2 in E1. refine (Forall2_impl_In _ _ _ _ _ E1).
    intros a b Ha Hab. simpl in Hab. apply IH; auto.
  - apply good_children_join in G as [Gl Gr].
    apply bind_ok in E as (l' & E1 & E). apply bind_ok in E as (r' & E2 & E).
    apply bind_ok in E as (o1 & E3 & E). refine (T _ _ _ _ E).
    destruct (IHl _ Gl E1), (IHr _ Gr E2). refine (rebuild_join _ _ _ _ _ _ _ _ _ E3); assumption.
  - apply bind_ok in E as (c' & E1 & E). apply bind_ok in E as (o1 & E3 & E). refine (T _ _ _ _ E).
    destruct (IHc _ (good_children_project _ _ G) E1). refine (rebuild_project _ _ _ _ _ _ _ E3); assumption.
  - apply bind_ok in E as (c' & E1 & E). apply bind_ok in E as (o1 & E3 & E). refine (T _ _ _ _ E).
    destruct (IHc _ (good_children_filter _ _ G) E1). refine (rebuild_filter _ _ _ _ _ _ _ E3); assumption.
  - destruct (good_children_subtract _ _ G) as [Gl Gr].
    apply bind_ok in E as (l' & E1 & E). apply bind_ok in E as (r' & E2 & E).
    apply bind_ok in E as (o1 & E3 & E). refine (T _ _ _ _ E).
    destruct (IHl _ Gl E1), (IHr _ Gr E2). refine (rebuild_subtract _ _ _ _ _ _ _ _ _ _ E3); assumption.
  - destruct (good_children_union _ _ G) as [Gl Gr].
    apply bind_ok in E as (l' & E1 & E). apply bind_ok in E as (r' & E2 & E).
    apply bind_ok in E as (o1 & E3 & E). refine (T _ _ _ _ E).
    destruct (IHl _ Gl E1), (IHr _ Gr E2). refine (rebuild_union _ _ _ _ _ _ _ _ _ _ E3); assumption.
Qed.

Lemma breadth_first_sound step :
  (forall o o', good o -> step o = Ok (Some o') -> good o' /\ same o o') ->
  forall n, sound (breadth_first step n).
Proof.
  intros S. induction n as [|n IH]; intros o o' G E; cbn [breadth_first] in E; [discriminate|].
  apply bind_ok in E as ([o1|] & E1 & E).
  - destruct (S _ _ G E1) as [G1 S1]. destruct (IH _ _ G1 E) as [G2 S2]. split; [assumption|].
    eapply same_trans; eassumption.
  - clear E1. destruct o as [t d|p d|c|im fs|l r|c cs|c k|l r|l r].
    + inversion E; subst. split; [assumption|apply same_refl].
    + inversion E; subst. split; [assumption|apply same_refl].
    + inversion E; subst. split; [assumption|apply same_refl].
    + apply bind_ok in E as (fs' & E1 & E). refine (rebuild_cross _ _ _ _ G _ E).
      apply good_cross in G as (_ & G & _). apply mapM_ok_Forall2 in E1.
      refine (Forall2_impl_In _ _ _ _ _ E1). intros a b Ha Hab. simpl in Hab. apply IH; auto.
    + apply good_children_join in G as [Gl Gr].
      apply bind_ok in E as (l' & E1 & E). apply bind_ok in E as (r' & E2 & E).
      destruct (IH _ _ Gl E1), (IH _ _ Gr E2). refine (rebuild_join _ _ _ _ _ _ _ _ _ E); assumption.
    + apply bind_ok in E as (c' & E1 & E).
      destruct (IH _ _ (good_children_project _ _ G) E1). refine (rebuild_project _ _ _ _ _ _ _ E); assumption.
    + apply bind_ok in E as (c' & E1 & E).
      destruct (IH _ _ (good_children_filter _ _ G) E1). refine (rebuild_filter _ _ _ _ _ _ _ E); assumption.
    + destruct (good_children_subtract _ _ G) as [Gl Gr].
      apply bind_ok in E as (l' & E1 & E). apply bind_ok in E as (r' & E2 & E).
      destruct (IH _ _ Gl E1), (IH _ _ Gr E2). refine (rebuild_subtract _ _ _ _ _ _ _ _ _ _ E); assumption.
    + destruct (good_children_union _ _ G) as [Gl Gr].
      apply bind_ok in E as (l' & E1 & E). apply bind_ok in E as (r' & E2 & E).
      destruct (IH _ _ Gl E1), (IH _ _ Gr E2). refine (rebuild_union _ _ _ _ _ _ _ _ _ _ E); assumption.
Qed.

(** ** Bags of trees, read conjunctively *)
Definition bag (fs fs' : list op) : Prop :=
  (forall f, In f fs -> good f) ->
  (forall f, In f fs' -> good f)
  /\ (forall c, (exists f, In f fs /\ In c (columns f)) <-> (exists f, In f fs' /\ In c (columns f)))
  /\ (forall rho, (forall f, In f fs -> den f rho) <-> (forall f, In f fs' -> den f rho))
  /\ ((forall f, In f fs -> is_plan f = false) -> (forall f, In f fs' -> is_plan f = false)).

Lemma bag_refl fs : bag fs fs.
Proof. intros G. split; [assumption|]. split; [reflexivity|]. split; [reflexivity|auto]. Qed.
Lemma bag_trans a b c : bag a b -> bag b c -> bag a c.
Proof.
  intros H1 H2 G. destruct (H1 G) as (G1 & C1 & D1 & P1). destruct (H2 G1) as (G2 & C2 & D2 & P2).
  split; [assumption|]. split; [intros x; rewrite C1; apply C2|].
  split; [intros x; rewrite D1; apply D2|auto].
Qed.
Lemma bag_equiv a b : (forall f, In f a <-> In f b) -> bag a b.
Proof.
  intros H G. split; [intros f Hf; apply G, H, Hf|]. split; [|split].
  - intros c; split; intros (f & Hf & Hc); exists f; split; auto; apply H; assumption.
  - intros rho; split; intros X f Hf; apply X, H, Hf.
  - intros X f Hf; apply X, H, Hf.
Qed.
Lemma bag_perm a b : Permutation a b -> bag a b.
Proof.
  intros P. apply bag_equiv. intros f. split; apply Permutation_in; [|symmetry]; assumption.
Qed.
Lemma bag_app a a' b b' : bag a a' -> bag b b' -> bag (a ++ b) (a' ++ b').
Proof.
  intros H1 H2 G. destruct H1 as (G1 & C1 & D1 & P1); [intros f Hf; apply G, in_or_app; auto|].
  destruct H2 as (G2 & C2 & D2 & P2); [intros f Hf; apply G, in_or_app; auto|].
  split; [intros f Hf; apply in_app_iff in Hf as [Hf|Hf]; auto|]. split; [|split].
  - intros c. specialize (C1 c). specialize (C2 c). split; intros (f & Hf & Hc);
      apply in_app_iff in Hf as [Hf|Hf].
    + destruct (proj1 C1 (ex_intro _ f (conj Hf Hc))) as (g & Hg & Hgc). exists g. rewrite in_app_iff; auto.
    + destruct (proj1 C2 (ex_intro _ f (conj Hf Hc))) as (g & Hg & Hgc). exists g. rewrite in_app_iff; auto.
    + destruct (proj2 C1 (ex_intro _ f (conj Hf Hc))) as (g & Hg & Hgc). exists g. rewrite in_app_iff; auto.
    + destruct (proj2 C2 (ex_intro _ f (conj Hf Hc))) as (g & Hg & Hgc). exists g. rewrite in_app_iff; auto.
  - intros rho. specialize (D1 rho). specialize (D2 rho). split; intros H f Hf;
      apply in_app_iff in Hf as [Hf|Hf].
    + refine (proj1 D1 _ f Hf). intros g Hg; apply H, in_or_app; auto.
    + refine (proj1 D2 _ f Hf). intros g Hg; apply H, in_or_app; auto.
    + refine (proj2 D1 _ f Hf). intros g Hg; apply H, in_or_app; auto.
    + refine (proj2 D2 _ f Hf). intros g Hg; apply H, in_or_app; auto.
  - intros H f Hf. apply in_app_iff in Hf as [Hf|Hf].
    + apply P1; [|assumption]. intros g Hg; apply H, in_or_app; auto.
    + apply P2; [|assumption]. intros g Hg; apply H, in_or_app; auto.
Qed.

Lemma bag_cross_out im fs : bag [CrossJoin im fs] fs.
Proof.
  intros G. assert (G0 := G _ (or_introl eq_refl)). apply good_cross in G0 as (_ & G0 & _).
  split; [assumption|]. split; [|split].
  - intros c. split.
    + intros (f & [<-|[]] & Hc). apply columns_cross in Hc. exact Hc.
    + intros H. exists (CrossJoin im fs). split; [simpl; auto|]. apply columns_cross; assumption.
  - intros rho. split.
    + intros H. apply (den_cross W D im). apply H. simpl; auto.
    + intros H f [<-|[]]. apply den_cross. assumption.
  - intros H. apply (plan_cross im). apply H; simpl; auto.
Qed.

Lemma bag_cross_in im fs o : mkCrossJoin im fs = Ok o ->
  (im = true -> forall f, In f fs -> is_tuples f) -> bag fs [o].
Proof.
  intros E T G. apply mkCrossJoin_ok in E as (-> & N & Dj & IM).
  assert (G1 : good (CrossJoin im fs)).
  { apply good_cross. split; [assumption|]. split; [assumption|]. split; [assumption|].
    intros -> f Hf. split; [auto|]. apply IM; auto. }
  split; [intros f [<-|[]]; assumption|].
  destruct (bag_cross_out im fs) as (_ & C & Dn & P); [intros f [<-|[]]; assumption|].
  split; [intros c; symmetry; apply C|]. split; [intros rho; symmetry; apply Dn|].
  intros H f [<-|[]]. apply plan_cross. assumption.
Qed.

Lemma bag_cross_in_false fs o : mkCrossJoin false fs = Ok o -> bag fs [o].
Proof. intros E. eapply bag_cross_in; [exact E|discriminate]. Qed.

Lemma bag_cross_or_first fs o : cross_or_first fs = Ok o -> bag fs [o].
Proof.
  unfold cross_or_first. destruct fs as [|f [|g r]]; intros E; try discriminate.
  - inversion E; subst. apply bag_refl.
  - apply bag_cross_in_false; assumption.
Qed.

Lemma bag_factors f : bag [f] (factors_of f).
Proof. destruct f; try apply bag_refl. apply bag_cross_out. Qed.

Lemma bag_flat fs : bag fs (flat_map factors_of fs).
Proof.
  induction fs as [|f r IH]; [apply bag_refl|]. simpl.
  change (f :: r) with ([f] ++ r). apply bag_app; [apply bag_factors|assumption].
Qed.

Lemma bag_nonzero fs : bag fs (filter (fun f => negb (is_nil (columns f))) fs).
Proof.
  intros G. split; [intros f Hf; apply filter_In in Hf as [Hf _]; auto|]. split; [|split].
  - intros c. split; intros (f & Hf & Hc).
    + exists f. split; [|assumption]. apply filter_In. split; [assumption|].
      destruct (columns f); [destruct Hc|reflexivity].
    + apply filter_In in Hf as [Hf _]. eauto.
  - intros rho. split; intros H f Hf.
    + apply filter_In in Hf as [Hf _]. auto.
    + destruct (is_nil (columns f)) eqn:N.
      * apply is_nil_true in N. apply den_total; [apply G, Hf|assumption].
      * apply H, filter_In. rewrite N. auto.
  - intros H f Hf. apply filter_In in Hf as [Hf _]. auto.
Qed.

Lemma bag_join_out l r : bag [Join l r] [l; r].
Proof.
  intros G. assert (G0 := G _ (or_introl eq_refl)). apply good_children_join in G0 as [Gl Gr].
  split; [intros f [<-|[<-|[]]]; assumption|]. split; [|split].
  - intros c. split.
    + intros (f & [<-|[]] & Hc). simpl in Hc. apply union_cols_In in Hc as [Hc|Hc]; [exists l|exists r]; simpl; auto.
    + intros (f & [<-|[<-|[]]] & Hc); exists (Join l r); simpl; rewrite union_cols_In; auto.
  - intros rho. split.
    + intros H. specialize (H _ (or_introl eq_refl)). simpl in H. intros f [<-|[<-|[]]]; tauto.
    + intros H f [<-|[]]. simpl. split; apply H; simpl; auto.
  - intros H. specialize (H _ (or_introl eq_refl)). simpl in H. apply orb_false_iff in H.
    intros f [<-|[<-|[]]]; tauto.
Qed.
Lemma bag_join_in l r o : mkJoin l r = Ok o -> bag [l; r] [o].
Proof.
  intros E G. apply mkJoin_ok in E as (-> & E).
  assert (G1 : good (Join l r)).
  { destruct (G l) as [? ?]; [simpl; auto|]. destruct (G r) as [? ?]; [simpl; auto|].
    split; simpl; auto. }
  split; [intros f [<-|[]]; assumption|].
  destruct (bag_join_out l r) as (_ & C & Dn & P); [intros f [<-|[]]; assumption|].
  split; [intros c; symmetry; apply C|]. split; [intros rho; symmetry; apply Dn|].
  intros H f [<-|[]]. simpl. rewrite !H; simpl; auto.
Qed.

Lemma bag_same o o' : bag [o] [o'] -> ~ is_tuples o -> good o -> good o' /\ same o o'.
Proof.
  intros B T G. destruct B as (G1 & C & Dn & P); [intros f [<-|[]]; assumption|].
  split; [apply G1; simpl; auto|]. split; [|split; [|split]].
  - intros c. specialize (C c). split; intros Hc.
    + destruct (proj1 C) as (f & [<-|[]] & H); [exists o; simpl; auto|assumption].
    + destruct (proj2 C) as (f & [<-|[]] & H); [exists o'; simpl; auto|assumption].
  - intros rho. specialize (Dn rho). split; intros H.
    + apply (proj1 Dn); [intros f [<-|[]]; assumption|simpl; auto].
    + apply (proj2 Dn); [intros f [<-|[]]; assumption|simpl; auto].
  - intros H. apply P; [intros f [<-|[]]; assumption|simpl; auto].
  - tauto.
Qed.

Ltac not_tuples := intros (? & ? & ?); discriminate.
Ltac id_rule := match goal with E : Ok _ = Ok _ |- _ => inversion E; subst; split; [assumption|apply same_refl] end.

(** ** The rules *)
Lemma glue cs rho fs :
  (forall f, In f fs -> wf f) ->
  ForallOrdPairs (fun f g => forall c, In c (columns f) -> In c (columns g) -> False) fs ->
  (forall f, In f fs -> exists s, den f s /\ forall x, In x (columns f) -> In x cs -> rho x = s x) ->
  exists s, forall f, In f fs -> den f s /\ forall x, In x (columns f) -> In x cs -> rho x = s x.
Proof.
  intros Wf Dj. induction Dj as [|f r F1 F2 IH]; intros H; [exists rho; intros ? []|].
  destruct IH as (sr & Hr); [intros g Hg; apply Wf; simpl; auto|intros g Hg; apply H; simpl; auto|].
  destruct (H f (or_introl eq_refl)) as (sf & Hf1 & Hf2).
  exists (fun x => if smem x (columns f) then sf x else sr x).
  intros g [<-|Hg].
  - split.
    + apply (den_ext W D f (Wf _ (or_introl eq_refl)) sf); [|assumption].
      intros c Hc. apply smem_In in Hc. rewrite Hc. reflexivity.
    + intros x Hx Hxc. apply smem_In in Hx. rewrite Hx. apply Hf2; [apply smem_In|]; assumption.
  - rewrite Forall_forall in F1.
    assert (X : forall x, In x (columns g) -> (if smem x (columns f) then sf x else sr x) = sr x).
    { intros x Hx. destruct (smem x (columns f)) eqn:M; [|reflexivity].
      apply smem_In in M. exfalso. eapply F1; eassumption. }
    destruct (Hr g Hg) as [Hr1 Hr2]. split.
    + apply (den_ext W D g (Wf _ (or_intror Hg)) sr); [|assumption]. intros c Hc. rewrite X; auto.
    + intros x Hx Hxc. rewrite X by assumption. auto.
Qed.

Lemma common_NoDup a b : NoDup a -> NoDup (common a b).
Proof. apply List.NoDup_filter. Qed.

Lemma project_step_sound o o' : good o -> project_step o = Ok (Some o') -> good o' /\ same o o'.
Proof.
  intros G E. destruct o as [| | | | |c cs| | |]; try discriminate.
  destruct c as [| | |im fs| | | | |]; try discriminate.
  cbn [project_step] in E. apply bind_ok in E as (inc & E1 & E).
  set (kept := filter (fun f => negb (is_nil (common (columns f) cs))) fs) in *.
  assert (Einc : inc = map (fun f => Project f (common (columns f) cs)) kept).
  { clear - E1. revert inc E1. induction kept as [|f r IH]; intros inc E; cbn [mapM] in E.
    - inversion E; reflexivity.
    - apply bind_ok in E as (y & Ey & E). apply bind_ok in E as (ys & Eys & E).
      apply mkProject_ok in Ey as (-> & _). inversion E; subst. rewrite (IH _ Eys). reflexivity. }
  assert (K : forall f, In f kept <-> In f fs /\ exists x, In x (columns f) /\ In x cs).
  { intros f. unfold kept. rewrite filter_In, negb_true_iff, is_nil_false, common_not_nil. reflexivity. }
  assert (G0 := good_children_project _ _ G). apply good_cross in G0 as (NE & Gf & Dj & IM).
  destruct G as [(Wc & ND & NC & I) [[rho0 H0] _]]. rewrite den_cross in H0.
  assert (B : bag [Project (CrossJoin im fs) cs] inc).
  { intros _. split; [|split; [|split]].
    - intros p Hp. rewrite Einc in Hp. apply in_map_iff in Hp as (f & <- & Hf).
      apply K in Hf as [Hf Hx]. destruct (Gf f Hf) as [Wf Pf]. split; simpl.
      + split; [assumption|]. split; [apply common_NoDup, columns_NoDup with (1 := Wf)|].
        split; [apply common_not_nil; assumption|]. intros x Hx'. apply common_In in Hx' as [? _]. assumption.
      + split; [exists rho0; auto|assumption].
    - intros c. rewrite Einc. split.
      + intros (f & [<-|[]] & Hc). simpl in Hc. assert (Hc' := I _ Hc).
        apply columns_cross in Hc' as (f & Hf & Hcf).
        exists (Project f (common (columns f) cs)). split.
        * apply (in_map (fun f => Project f (common (columns f) cs))). apply K. eauto.
        * simpl. apply common_In. auto.
      + intros (p & Hp & Hc). apply in_map_iff in Hp as (f & <- & Hf). simpl in Hc.
        apply common_In in Hc as [_ Hc]. exists (Project (CrossJoin im fs) cs). split; simpl; auto.
    - intros rho. rewrite Einc. split.
      + intros H p Hp. specialize (H _ (or_introl eq_refl)). cbn [KeySetSem.den] in H.
        destruct H as (s & Hs & Hd). rewrite den_cross_forall in Hd.
        apply in_map_iff in Hp as (f & <- & Hf). apply K in Hf as [Hf _]. simpl. exists s.
        split; [|auto]. intros x Hx. apply common_In in Hx as [_ Hx]. auto.
      + intros H p [<-|[]]. cbn [KeySetSem.den].
        destruct (glue cs rho fs) as (s & Hs).
        * intros f Hf; apply Gf, Hf.
        * assumption.
        * intros f Hf. destruct (is_nil (common (columns f) cs)) eqn:N.
          -- exists rho0. split; [auto|]. apply is_nil_true in N. rewrite common_nil in N.
             intros x H1 H2. exfalso; eauto.
          -- apply is_nil_false, common_not_nil in N.
             assert (Hk : In f kept) by (apply K; auto).
             specialize (H _ (in_map (fun f => Project f (common (columns f) cs)) _ _ Hk)).
             simpl in H. destruct H as (s & H1 & H2). exists s. split; [assumption|].
             intros x Hx Hxc. apply H1, common_In. auto.
        * exists s. split.
          -- intros x Hx. destruct (proj1 (columns_cross im fs x) (I x Hx)) as (f & Hf & Hxf).
             apply (Hs f Hf); assumption.
          -- apply den_cross_forall. intros f Hf. apply Hs; assumption.
    - intros H p Hp. rewrite Einc in Hp. apply in_map_iff in Hp as (f & <- & Hf). apply K in Hf as [Hf _].
      specialize (H _ (or_introl eq_refl)). change (is_plan (CrossJoin im fs) = false) in H.
      simpl. revert f Hf. apply (plan_cross im fs). assumption. }
  apply bag_same; [|not_tuples|].
  - refine (bag_trans _ _ _ B _). clear - E.
    destruct inc as [|f [|g r]].
    + simpl in E. discriminate.
    + inversion E; subst. apply bag_refl.
    + apply bind_ok in E as (x & Ex & E). inversion E; subst. apply bag_cross_in_false; assumption.
  - split; simpl; auto. split.
    + exists rho0. apply den_cross_forall. assumption.
    + apply (pne_cross im). intros f Hf. apply Gf, Hf.
Qed.

Lemma project_across_crossjoin_sound : sound project_across_crossjoin.
Proof.
  intros o o' G E. unfold project_across_crossjoin in E.
  eapply breadth_first_sound; [apply project_step_sound|eassumption|eassumption].
Qed.

Lemma collapse_sound : sound collapse_nested_projections.
Proof.
  intros o o' G E. destruct o; cbn [collapse_nested_projections] in E; try (id_rule; fail).
  destruct o; cbn [collapse_nested_projections] in E; try (id_rule; fail).
  destruct G as [((Wc & ND1 & N1 & I1) & ND & N & I) [_ [In1 P]]].
  apply mkProject_ok in E as (-> & _ & I2). split; [|split; [|split; [|split]]].
  - split; simpl; auto.
  - simpl; tauto.
  - intros rho. simpl. split.
    + intros (s & H1 & s' & H2 & H3). exists s'. split; [|assumption]. intros x Hx.
      rewrite H1 by assumption. apply H2. apply I; assumption.
    + intros (s & H1 & H2). exists s. split; [assumption|]. exists s. auto.
  - simpl; auto.
  - not_tuples.
Qed.

Lemma remove_noop_sound : sound remove_noop_projections.
Proof.
  intros o o' G E. destruct o; cbn [remove_noop_projections] in E; try (id_rule; fail).
  destruct (set_eqb cols (columns o)) eqn:S; [|id_rule].
  rewrite set_eqb_In in S. inversion E; subst o'. assert (Gc := good_children_project _ _ G).
  split; [assumption|]. split; [|split; [|split]].
  - simpl. assumption.
  - intros rho. simpl. split.
    + intros (s & H1 & H2). apply (den_ext W D o (proj1 Gc) s); [|assumption].
      intros c Hc. symmetry. apply H1, S, Hc.
    + intros H. exists rho. auto.
  - simpl; auto.
  - not_tuples.
Qed.

Lemma merge_sound : sound merge_cross_joins.
Proof.
  intros o o' G E. destruct o; cbn [merge_cross_joins] in E; try (id_rule; fail).
  apply bag_same; [|not_tuples|assumption].
  refine (bag_trans _ _ _ (bag_cross_out _ _) _).
  refine (bag_trans _ _ _ (bag_flat _) _).
  set (fs := flat_map factors_of factors) in *.
  destruct (filter (fun f => negb (is_nil (columns f))) fs) as [|f [|g r]] eqn:F.
  - assert (B := bag_nonzero fs). rewrite F in B.
    destruct fs as [|f fs]; [discriminate|]. inversion E; subst f.
    intros Gf. destruct (B Gf) as (_ & C & Dn & P).
    split; [intros f [<-|[]]; apply Gf; simpl; auto|].
    split; [|split].
    + intros c. split; intros (f & Hf & Hc).
      * destruct (proj1 (C c)) as (h & [] & _). eauto.
      * destruct Hf as [<-|[]]. exists o'. simpl; auto.
    + intros rho. split; intros H f Hf.
      * destruct Hf as [<-|[]]. apply H; simpl; auto.
      * apply (proj2 (Dn rho)); [intros ? []|assumption].
    + intros H f [<-|[]]. apply H; simpl; auto.
  - inversion E; subst f. rewrite <- F. apply bag_nonzero.
  - refine (bag_trans _ _ _ (bag_nonzero _) _). rewrite F. apply bag_cross_in_false; assumption.
Qed.

Lemma partition_perm {A} (p : A -> bool) l :
  Permutation l (filter p l ++ filter (fun x => negb (p x)) l).
Proof.
  induction l as [|x l IH]; simpl; [constructor|]. destruct (p x); simpl.
  - constructor; assumption.
  - rewrite IH at 1. apply Permutation_middle.
Qed.

Lemma extract_join_sound : sound extract_crossjoin_from_join.
Proof.
  intros o o' G E. destruct o; cbn [extract_crossjoin_from_join] in E; try (id_rule; fail).
  destruct (is_nil _) eqn:N in E; [id_rule|].
  set (jc := join_columns o1 o2) in *.
  apply bind_ok in E as (jl & E1 & E). apply bind_ok in E as (jr & E2 & E).
  apply bind_ok in E as (j & E3 & E).
  apply bag_same; [|not_tuples|assumption].
  refine (bag_trans _ _ _ (bag_join_out _ _) _).
  refine (bag_trans _ _ _ (bag_app [_] _ [_] _ (bag_factors o1) (bag_factors o2)) _).
  set (lf := factors_of o1) in *. set (rf := factors_of o2) in *.
  refine (bag_trans _ ((filter (touches jc) lf ++ filter (fun f => negb (touches jc f)) lf)
                    ++ (filter (touches jc) rf ++ filter (fun f => negb (touches jc f)) rf)) _ _ _).
  { apply bag_perm. apply Permutation_app; apply partition_perm. }
  refine (bag_trans _ ((filter (fun f => negb (touches jc f)) lf ++ filter (fun f => negb (touches jc f)) rf)
                       ++ (filter (touches jc) lf ++ filter (touches jc) rf)) _ _ _).
  { apply bag_equiv. intros f. rewrite !in_app_iff. tauto. }
  refine (bag_trans _ _ _ (bag_app _ _ _ [j] (bag_refl _) _) _).
  - refine (bag_trans _ _ _ (bag_app _ [jl] _ [jr] _ _) _).
    + apply bag_cross_or_first; assumption.
    + apply bag_cross_or_first; assumption.
    + apply bag_join_in; assumption.
  - apply bag_cross_in_false; assumption.
Qed.

Lemma extract_subtract_sound : sound extract_crossjoin_from_subtract.
Proof.
  intros o o' G E. destruct o; cbn [extract_crossjoin_from_subtract] in E; try (id_rule; fail).
  destruct o1; try (id_rule; fail).
  destruct (is_nil _) eqn:N in E; [id_rule|].
  apply bind_ok in E as (sl & E1 & E). apply bind_ok in E as (s & E2 & E).
  destruct (good_children_subtract _ _ G) as [Gl Gr].
  assert (NR : columns o2 <> []) by apply G.
  apply mkSubtract_ok in E2 as (-> & P & I).
  set (touch := filter (touches (columns o2)) factors) in *.
  set (rest := filter (fun f => negb (touches (columns o2) f)) factors) in *.
  assert (Gf := Gl). apply good_cross in Gf as (_ & Gf & _).
  assert (Pm : Permutation factors (touch ++ rest)) by apply partition_perm.
  assert (B1 : bag touch [sl]) by (apply bag_cross_or_first; assumption).
  destruct B1 as (Gs & C1 & D1 & P1).
  { intros f Hf. apply Gf. unfold touch in Hf. apply filter_In in Hf; tauto. }
  specialize (Gs sl (or_introl eq_refl)).
  assert (B2 : bag (rest ++ [Subtract sl o2]) [o']) by (apply bag_cross_in_false; assumption).
  destruct B2 as (G2 & C2 & D2 & P2).
  { intros f Hf. apply in_app_iff in Hf as [Hf|[<-|[]]].
    - apply Gf. unfold rest in Hf. apply filter_In in Hf; tauto.
    - destruct Gs, Gr. split; simpl; auto. }
  split; [apply G2; simpl; auto|]. split; [|split; [|split]].
  - intros c. cbn [columns]. rewrite (columns_cross in_memory factors). split.
    + intros (f & Hf & Hc). destruct (proj1 (C2 c)) as (h & [<-|[]] & Hh); [|assumption].
      apply (Permutation_in _ Pm), in_app_iff in Hf as [Hf|Hf].
      * exists (Subtract sl o2). split; [apply in_or_app; simpl; auto|]. simpl.
        destruct (proj1 (C1 c)) as (h & [<-|[]] & Hh); eauto.
      * exists f. split; [apply in_or_app; auto|assumption].
    + intros Hc. destruct (proj2 (C2 c)) as (h & Hh & Hhc); [exists o'; simpl; auto|].
      apply in_app_iff in Hh as [Hh|[<-|[]]].
      * exists h. unfold rest in Hh. apply filter_In in Hh. tauto.
      * simpl in Hhc. destruct (proj2 (C1 c)) as (f & Hf & Hfc); [exists sl; simpl; auto|].
        exists f. unfold touch in Hf. apply filter_In in Hf. tauto.
  - intros rho. cbn [KeySetSem.den]. rewrite den_cross_forall. split.
    + intros [H1 H2]. apply (proj1 (D2 rho)); [|simpl; auto].
      intros f Hf. apply in_app_iff in Hf as [Hf|[<-|[]]].
      * apply H1. unfold rest in Hf. apply filter_In in Hf. tauto.
      * simpl. split; [|assumption]. apply (proj1 (D1 rho)); [|simpl; auto].
        intros f Hf. apply H1. unfold touch in Hf. apply filter_In in Hf. tauto.
    + intros H. assert (X : forall f, In f (rest ++ [Subtract sl o2]) -> den f rho).
      { apply (proj2 (D2 rho)). intros f [<-|[]]. assumption. }
      assert (Y : den (Subtract sl o2) rho) by (apply X, in_or_app; simpl; auto).
      simpl in Y. split; [|tauto]. intros f Hf.
      apply (Permutation_in _ Pm), in_app_iff in Hf as [Hf|Hf].
      * apply (proj2 (D1 rho)); [intros g [<-|[]]; tauto|assumption].
      * apply X, in_or_app; auto.
  - intros H. change (is_plan (CrossJoin in_memory factors) = false) in H. rewrite plan_cross in H.
    apply P2; [|simpl; auto]. intros f Hf. apply in_app_iff in Hf as [Hf|[<-|[]]].
    + apply H. unfold rest in Hf. apply filter_In in Hf. tauto.
    + simpl. apply P1; [|simpl; auto]. intros g Hg. apply H. unfold touch in Hg. apply filter_In in Hg. tauto.
  - not_tuples.
Qed.

Lemma sound_compose f g : sound f -> sound g -> sound (fun o => let* x := f o in g x).
Proof.
  intros Sf Sg o o' G E. apply bind_ok in E as (x & E1 & E2).
  destruct (Sf _ _ G E1) as [G1 S1]. destruct (Sg _ _ G1 E2) as [G2 S2].
  split; [assumption|]. eapply same_trans; eassumption.
Qed.

Lemma extract_sound : sound extract_crossjoins.
Proof. apply sound_compose; [apply extract_join_sound|apply extract_subtract_sound]. Qed.

Lemma insert_perm {A} (le : A -> A -> bool) x l : Permutation (x :: l) (insert le x l).
Proof.
  induction l as [|y r IH]; simpl; [reflexivity|]. destruct (le x y); [reflexivity|].
  rewrite perm_swap. constructor. assumption.
Qed.
Lemma isort_perm {A} (le : A -> A -> bool) l : Permutation l (isort le l).
Proof.
  induction l as [|x r IH]; simpl; [constructor|]. rewrite IH at 1. apply insert_perm.
Qed.
Lemma isort_rev_perm {A} (le : A -> A -> bool) l : Permutation l (isort_rev le l).
Proof.
  unfold isort_rev. rewrite <- Permutation_rev, <- isort_perm. apply Permutation_rev.
Qed.

Lemma order_sound : sound order_cross_joins.
Proof.
  intros o o' G E. destruct o; cbn [order_cross_joins] in E; try (id_rule; fail).
  apply bag_same; [|not_tuples|assumption].
  refine (bag_trans _ _ _ (bag_cross_out _ _) _).
  refine (bag_trans _ _ _ (bag_perm _ _ (isort_perm columns_le _)) _).
  eapply bag_cross_in; [exact E|]. intros -> f Hf.
  apply good_cross in G as (_ & _ & _ & IM). apply IM; [reflexivity|].
  apply (Permutation_in _ (Permutation_sym (isort_perm columns_le factors))). assumption.
Qed.

Lemma take_group_spec q : forall sz g g' q', take_group sz g q = (g', q') ->
  g ++ map snd q = g' ++ map snd q' /\ (forall p, In p q' -> In p q) /\ (length q' <= length q)%nat.
Proof.
  induction q as [|[n f] r IH]; intros sz g g' q' E; cbn [take_group] in E.
  - inversion E; subst. auto.
  - destruct (n * sz <? threshold)%Z.
    + destruct (IH _ _ _ _ E) as (H1 & H2 & H3). split; [|split].
      * rewrite <- H1. rewrite <- app_assoc. reflexivity.
      * simpl; auto.
      * simpl; lia.
    + inversion E; subst. auto.
Qed.

Lemma pack_sound n : forall q acc all, (length q <= n)%nat -> (forall p, In p q -> is_tuples (snd p)) ->
  pack n q acc = Ok all -> bag (acc ++ map snd q) all.
Proof.
  induction n as [|n IH]; intros q acc all L T E; cbn [pack] in E.
  - destruct q; [|simpl in L; lia]. inversion E; subst. simpl. rewrite app_nil_r. apply bag_refl.
  - destruct (rev q) as [|[sz large] rq] eqn:R.
    + inversion E; subst. apply (f_equal (@rev _)) in R. rewrite rev_involutive in R. subst q.
      simpl. rewrite app_nil_r. apply bag_refl.
    + assert (Q : q = rev rq ++ [(sz, large)]).
      { apply (f_equal (@rev _)) in R. rewrite rev_involutive in R. exact R. }
      destruct (take_group sz [large] (rev rq)) as [g rest] eqn:TG.
      destruct (take_group_spec _ _ _ _ _ TG) as (H1 & H2 & H3).
      assert (L' : (length rest <= n)%nat).
      { rewrite Q, app_length in L. simpl in L. lia. }
      assert (T' : forall p, In p rest -> is_tuples (snd p)).
      { intros p Hp. apply T. rewrite Q. apply in_or_app. auto. }
      assert (Tg : forall f, In f g -> is_tuples f).
      { intros f Hf. assert (Hf' : In f ([large] ++ map snd (rev rq))).
        { rewrite H1. apply in_or_app; auto. }
        apply in_app_iff in Hf' as [[<-|[]]|Hf'].
        - apply (T (sz, large)). rewrite Q. apply in_or_app; simpl; auto.
        - apply in_map_iff in Hf' as (p & <- & Hp). apply T. rewrite Q. apply in_or_app; auto. }
      assert (B : bag (acc ++ map snd q) (acc ++ g ++ map snd rest)).
      { apply bag_app; [apply bag_refl|]. rewrite <- H1, Q. apply bag_equiv. intros f.
        rewrite map_app, !in_app_iff. simpl. tauto. }
      refine (bag_trans _ _ _ B _). rewrite app_assoc.
      destruct g as [|f [|f' g]].
      * apply bind_ok in E as (x & Ex & E). simpl in Ex. discriminate.
      * apply IH; assumption.
      * apply bind_ok in E as (x & Ex & E).
        refine (bag_trans _ _ _ _ (IH _ _ _ L' T' E)).
        apply bag_app; [|apply bag_refl]. apply bag_app; [apply bag_refl|].
        eapply bag_cross_in; [exact Ex|]. auto.
Qed.

Lemma apply_in_memory_sound : sound (apply_cross_joins_in_memory W).
Proof.
  intros o o' G E. destruct o; cbn [apply_cross_joins_in_memory] in E; try (id_rule; fail).
  destruct in_memory; [id_rule|].
  destruct (is_plan (CrossJoin false factors)); [id_rule|].
  apply bind_ok in E as (tagged & Et & E).
  set (large := flat_map (fun p : option Z * op => match fst p with None => [snd p] | Some _ => [] end) tagged) in *.
  set (small := flat_map (fun p : option Z * op => match fst p with Some n => [(n, snd p)] | None => [] end) tagged) in *.
  destruct (length small <? 2)%nat; [id_rule|].
  set (q := isort (fun a b : Z * op => (fst a <=? fst b)%Z) small) in *.
  apply bind_ok in E as (all & Ep & E).
  assert (TS : map snd tagged = factors /\ forall n f, In (Some n, f) tagged -> is_tuples f).
  { clear - Et. revert tagged Et. induction factors as [|f r IH]; intros tagged E; cbn [mapM] in E.
    - inversion E; subst. split; [reflexivity|intros ? ? []].
    - apply bind_ok in E as (y & Ey & E). apply bind_ok in E as (ys & Eys & E). inversion E; subst.
      apply bind_ok in Ey as (s & Es & Ey). inversion Ey; subst y.
      destruct (IH _ Eys) as [H1 H2]. split; [simpl; rewrite H1; reflexivity|].
      intros n g [Hg|Hg]; [|eapply H2; eassumption]. inversion Hg; subst.
      unfold small_factor in Es. apply bind_ok in Es as (z & _ & Es).
      destruct g; simpl in Es; try discriminate. exists tuples, descs. reflexivity. }
  destruct TS as [T1 T2].
  apply bag_same; [|not_tuples|assumption].
  refine (bag_trans _ _ _ (bag_cross_out _ _) _).
  refine (bag_trans _ (large ++ map snd q) _ _ _).
  { apply bag_equiv. intros f. rewrite <- T1.
    assert (Q : In f (map snd q) <-> In f (map snd small)).
    { split; apply Permutation_in, Permutation_map; [symmetry|]; apply isort_perm. }
    rewrite in_app_iff, Q. unfold large, small. rewrite in_flat_map, !in_map_iff. split.
    - intros ([s f'] & <- & Hp). destruct s as [z|].
      + right. exists (z, f'). split; [reflexivity|]. apply in_flat_map. exists (Some z, f'). simpl; auto.
      + left. exists (None, f'). simpl; auto.
    - intros [(p & Hp & Hf)|(p & <- & Hp)].
      + destruct (fst p) eqn:F; [destruct Hf|]. destruct Hf as [<-|[]]. eauto.
      + apply in_flat_map in Hp as (p' & Hp' & Hp). destruct (fst p') eqn:F; [|destruct Hp].
        destruct Hp as [<-|[]]. simpl. eauto. }
  refine (bag_trans _ _ _ (pack_sound _ _ _ _ (le_n _) _ Ep) _).
  { intros p Hp. apply (Permutation_in _ (Permutation_sym (isort_perm _ _))) in Hp.
    unfold small in Hp. apply in_flat_map in Hp as ([s f] & Hp' & Hp). simpl in Hp.
    destruct s; [|destruct Hp]. destruct Hp as [<-|[]]. simpl. eapply T2; eassumption. }
  destruct all as [|f [|f' r]].
  - simpl in E. discriminate.
  - inversion E; subst. apply bag_refl.
  - apply bag_cross_in_false; assumption.
Qed.

Lemma with_hash_ok l hs : with_hash W l = Ok hs -> map fst hs = l.
Proof.
  unfold with_hash. revert hs. induction l as [|f r IH]; intros hs E; cbn [mapM] in E.
  - inversion E; reflexivity.
  - apply bind_ok in E as (y & Ey & E). apply bind_ok in E as (ys & Eys & E). inversion E; subst.
    apply bind_ok in Ey as (h & _ & Ey). inversion Ey; subst. simpl. rewrite (IH _ Eys). reflexivity.
Qed.

Lemma bag_join_leaves o : (exists l r, o = Join l r) -> bag [o] (join_leaves o).
Proof.
  induction o using op_ind'; intros (a & b & E); inversion E; subst a b; clear E.
  cbn [join_leaves]. refine (bag_trans _ _ _ (bag_join_out _ _) _).
  assert (X : forall x, ((exists l r, x = Join l r) -> bag [x] (join_leaves x)) ->
              bag [x] ((match x with Join _ _ => [] | _ => [x] end) ++ (match x with Join _ _ => join_leaves x | _ => [] end))).
  { intros x Hx. destruct x; try (rewrite app_nil_r; apply bag_refl).
    rewrite app_nil_l. apply Hx; eauto. }
  refine (bag_trans _ _ _ (bag_app [_] _ [_] _ (X _ IHo1) (X _ IHo2)) _).
  apply bag_equiv. intros f. rewrite !in_app_iff. tauto.
Qed.

Lemma fold_join_bag l : forall acc o', fold_mk (fun r l => mkJoin l r) acc l = Ok o' -> bag (acc :: l) [o'].
Proof.
  induction l as [|x r IH]; intros acc o' E; cbn [fold_mk] in E.
  - inversion E; subst. apply bag_refl.
  - apply bind_ok in E as (a & Ea & E). refine (bag_trans _ _ _ _ (IH _ _ E)).
    change (acc :: x :: r) with ([acc; x] ++ r). change (a :: r) with ([a] ++ r).
    apply bag_app; [|apply bag_refl].
    refine (bag_trans _ _ _ (bag_perm _ _ (perm_swap _ _ _)) _). apply bag_join_in; assumption.
Qed.

Lemma normalize_joins_sound : sound (normalize_joins W).
Proof.
  intros o o' G E. destruct o; cbn [normalize_joins] in E; try (id_rule; fail).
  apply bind_ok in E as (hs & Eh & E). apply bag_same; [|not_tuples|assumption].
  refine (bag_trans _ _ _ (bag_join_leaves _ _) _); [eauto|].
  rewrite <- (with_hash_ok _ _ Eh).
  refine (bag_trans _ _ _ (bag_perm _ _ (Permutation_map fst (isort_rev_perm key_le hs))) _).
  unfold reduce_mk in E. destruct (map fst (isort_rev key_le hs)) as [|x r]; [discriminate|].
  apply fold_join_bag; assumption.
Qed.

(** Unions, read disjunctively. *)
Definition unions (fs : list op) (o : op) : Prop :=
  (forall rho, den o rho <-> exists f, In f fs /\ den f rho)
  /\ (forall f, In f fs -> forall c, In c (columns f) <-> In c (columns o))
  /\ (is_plan o = false <-> forall f, In f fs -> is_plan f = false)
  /\ (forall f, In f fs -> good f) /\ columns o <> [] /\ fs <> [].

Lemma unions_leaf o : good o -> columns o <> [] -> unions [o] o.
Proof.
  intros G N. split; [|split; [|split; [|split; [|split]]]].
  - intros rho. split; [intros H; exists o; simpl; auto|intros (f & [<-|[]] & H); assumption].
  - intros f [<-|[]] c. reflexivity.
  - split; [intros H f [<-|[]]; assumption|intros H; apply H; simpl; auto].
  - intros f [<-|[]]. assumption.
  - assumption.
  - discriminate.
Qed.
Lemma unions_app a b l r : unions a l -> unions b r -> good (Union l r) ->
  unions (a ++ b) (Union l r).
Proof.
  intros (A1 & A2 & A3 & A4 & A5 & A6) (B1 & B2 & B3 & B4 & B5 & B6) G.
  destruct G as [(_ & _ & _ & I) _].
  split; [|split; [|split; [|split; [|split]]]].
  - intros rho. simpl. rewrite A1, B1. split.
    + intros [(f & Hf & Hd)|(f & Hf & Hd)]; exists f; rewrite in_app_iff; auto.
    + intros (f & Hf & Hd). apply in_app_iff in Hf as [Hf|Hf]; eauto.
  - intros f Hf c. simpl. apply in_app_iff in Hf as [Hf|Hf].
    + apply A2; assumption.
    + rewrite (I c). apply B2; assumption.
  - simpl. rewrite orb_false_iff, A3, B3. split.
    + intros [H1 H2] f Hf. apply in_app_iff in Hf as [Hf|Hf]; auto.
    + intros H; split; intros f Hf; apply H, in_or_app; auto.
  - intros f Hf. apply in_app_iff in Hf as [Hf|Hf]; auto.
  - assumption.
  - destruct a; [congruence|discriminate].
Qed.
Lemma unions_equiv a b o : (forall f, In f a <-> In f b) -> unions a o -> unions b o.
Proof.
  intros H (A1 & A2 & A3 & A4 & A5 & A6). split; [|split; [|split; [|split; [|split]]]].
  - intros rho. rewrite A1. split; intros (f & Hf & Hd); exists f; split; auto; apply H; assumption.
  - intros f Hf. apply A2, H, Hf.
  - rewrite A3. split; intros X f Hf; apply X, H, Hf.
  - intros f Hf. apply A4, H, Hf.
  - assumption.
  - destruct a as [|x a]; [congruence|]. intros ->. apply (H x). simpl; auto.
Qed.

Lemma unions_leaves o : (exists l r, o = Union l r) -> good o -> unions (union_leaves o) o.
Proof.
  induction o using op_ind'; intros (a & b & E) G; inversion E; subst a b; clear E.
  cbn [union_leaves]. destruct (good_children_union _ _ G) as [Gl Gr].
  assert (N1 : columns o1 <> []) by apply G.
  assert (N2 : columns o2 <> []).
  { destruct G as [(_ & _ & _ & I) _]. eapply nonempty_same; [|exact N1]. exact I. }
  assert (X : forall x, good x -> columns x <> [] -> ((exists l r, x = Union l r) -> good x -> unions (union_leaves x) x) ->
              unions ((match x with Union _ _ => [] | _ => [x] end) ++ (match x with Union _ _ => union_leaves x | _ => [] end)) x).
  { intros x Gx Nx Hx. destruct x; try (rewrite app_nil_r; apply unions_leaf; assumption).
    rewrite app_nil_l. apply Hx; eauto. }
  refine (unions_equiv _ _ _ _ (unions_app _ _ _ _ (X _ Gl N1 IHo1) (X _ Gr N2 IHo2) G)).
  intros f. rewrite !in_app_iff. tauto.
Qed.

Lemma unions_fold l : forall acc o', (forall f, In f (acc :: l) -> good f) -> columns acc <> [] ->
  fold_mk (fun r l => mkUnion l r) acc l = Ok o' -> good o' /\ unions (acc :: l) o'.
Proof.
  induction l as [|x r IH]; intros acc o' G N E; cbn [fold_mk] in E.
  - inversion E; subst. assert (Ga := G _ (or_introl eq_refl)). split; [assumption|]. apply unions_leaf; assumption.
  - apply bind_ok in E as (a & Ea & E). apply mkUnion_ok in Ea as (-> & I).
    destruct (G acc) as [W1 P1]; [simpl; auto|]. destruct (G x) as [W2 P2]; [simpl; auto|].
    assert (Nx : columns x <> []).
    { eapply nonempty_same; [|exact N]. intros c; symmetry; apply I. }
    assert (Gu : good (Union x acc)).
    { split; simpl; auto. }
    destruct (IH _ _ (fun f Hf => match Hf with or_introl e => eq_ind _ good Gu _ e
                                  | or_intror h => G f (or_intror (or_intror h)) end) Nx E) as [G' U].
    split; [assumption|]. destruct U as (A1 & A2 & A3 & A4 & A5 & A6).
    assert (Ax := A2 _ (or_introl eq_refl)). simpl in Ax.
    split; [|split; [|split; [|split; [|split]]]].
    + intros rho. rewrite A1. split.
      * intros (f & [<-|Hf] & Hd); [|exists f; simpl; auto]. simpl in Hd. destruct Hd; [exists x|exists acc]; simpl; auto.
      * intros (f & [<-|[<-|Hf]] & Hd).
        -- exists (Union x acc). simpl; auto.
        -- exists (Union x acc). simpl; auto.
        -- exists f; simpl; auto.
    + intros f [<-|[<-|Hf]] c.
      * rewrite <- (I c). apply Ax.
      * apply Ax.
      * apply A2. simpl; auto.
    + rewrite A3. split.
      * intros H f Hf. assert (Hu := H _ (or_introl eq_refl)). simpl in Hu. apply orb_false_iff in Hu.
        destruct Hf as [<-|[<-|Hf]]; try tauto. apply H; simpl; auto.
      * intros H f [<-|Hf]; [|apply H; simpl; auto]. simpl. rewrite !H; simpl; auto.
    + assumption.
    + assumption.
    + discriminate.
Qed.

Lemma unions_same a o o' : unions a o -> unions a o' -> ~ is_tuples o -> same o o'.
Proof.
  intros (A1 & A2 & A3 & A4 & A5 & A6) (B1 & B2 & B3 & _) T. split; [|split; [|split]].
  - intros c. destruct a as [|f a]; [congruence|]. rewrite <- (A2 f), <- (B2 f) by (simpl; auto). reflexivity.
  - intros rho. rewrite A1, B1. reflexivity.
  - rewrite A3, B3. auto.
  - tauto.
Qed.

Lemma normalize_unions_sound : sound (normalize_unions W).
Proof.
  intros o o' G E. destruct o; cbn [normalize_unions] in E; try (id_rule; fail).
  apply bind_ok in E as (hs & Eh & E).
  assert (U := unions_leaves (Union o1 o2) (ex_intro _ o1 (ex_intro _ o2 eq_refl)) G).
  rewrite <- (with_hash_ok _ _ Eh) in U.
  set (le := fun a b : op * Z => (snd a <=? snd b)%Z) in *.
  assert (P := Permutation_map fst (isort_perm le hs)).
  assert (U' : unions (map fst (isort le hs)) (Union o1 o2)).
  { refine (unions_equiv _ _ _ _ U). intros f. split; apply Permutation_in; [|symmetry]; assumption. }
  unfold reduce_mk in E. destruct (map fst (isort le hs)) as [|x r]; [discriminate|].
  destruct U' as (A1 & A2 & A3 & A4 & A5 & A6).
  destruct (unions_fold r x o') as [G' U2]; [assumption| |assumption|].
  - eapply nonempty_same; [|exact A5]. intros c. symmetry. apply A2. simpl; auto.
  - split; [assumption|]. eapply unions_same; [|exact U2|not_tuples].
    exact (conj A1 (conj A2 (conj A3 (conj A4 (conj A5 A6))))).
Qed.

(** Subtractions: a base and subtrahends. *)
Lemma spine_spec o : good o -> let '(b, rs) := subtract_spine o in
  good b /\ (forall r, In r rs -> good r /\ columns r <> []) /\ columns b = columns o
  /\ is_plan b = is_plan o
  /\ forall rho, den o rho <-> den b rho /\ forall r, In r rs -> ~ den r rho.
Proof.
  induction o using op_ind'; intros G; cbn [subtract_spine];
    try (split; [assumption|]; split; [intros ? []|]; split; [reflexivity|]; split; [reflexivity|];
         intros rho; split; [intros ?; split; [assumption|intros ? []]|tauto]).
  clear IHo2. destruct (good_children_subtract _ _ G) as [Gl Gr]. specialize (IHo1 Gl).
  destruct (subtract_spine o1) as [b rs]. destruct IHo1 as (H1 & H2 & H3 & H4 & H5).
  split; [assumption|]. split; [|split; [|split]].
  - intros r [<-|Hr]; [|auto]. split; [assumption|]. apply G.
  - assumption.
  - assumption.
  - intros rho. cbn [KeySetSem.den]. rewrite H5. split.
    + intros [[Hb Hr] Hn]. split; [assumption|]. intros r [<-|Hr']; auto.
    + intros [Hb Hr]. split; [split; [assumption|]|]; intros; apply Hr; simpl; auto.
Qed.

Lemma fold_subtract_spec rs : forall b o', good b -> (forall r, In r rs -> good r /\ columns r <> []) ->
  fold_mk mkSubtract b rs = Ok o' ->
  good o' /\ columns o' = columns b /\ is_plan o' = is_plan b
  /\ forall rho, den o' rho <-> den b rho /\ forall r, In r rs -> ~ den r rho.
Proof.
  induction rs as [|r rs IH]; intros b o' G H E; cbn [fold_mk] in E.
  - inversion E; subst. split; [assumption|]. split; [reflexivity|]. split; [reflexivity|].
    intros rho; split; [intros; split; [assumption|intros ? []]|tauto].
  - apply bind_ok in E as (a & Ea & E). apply mkSubtract_ok in Ea as (-> & P & I).
    destruct (H r (or_introl eq_refl)) as [[Wr Pr] Nr]. destruct G as [Wb Pb].
    destruct (IH (Subtract b r) o') as (G' & C & Pl & Dn); [split; simpl; auto| |assumption|].
    { intros x Hx. apply H; simpl; auto. }
    split; [assumption|]. split; [assumption|]. split; [assumption|].
    intros rho. rewrite Dn. cbn [KeySetSem.den]. split.
    + intros [[Hb Hn] Hr]. split; [assumption|]. intros x [<-|Hx]; auto.
    + intros [Hb Hr]. split; [split; [assumption|]|]; intros; apply Hr; simpl; auto.
Qed.

Lemma normalize_subtracts_sound : sound (normalize_subtracts W).
Proof.
  intros o o' G E. destruct o; cbn [normalize_subtracts] in E; try (id_rule; fail).
  assert (S := spine_spec _ G). destruct (subtract_spine (Subtract o1 o2)) as [b rs].
  destruct S as (H1 & H2 & H3 & H4 & H5).
  apply bind_ok in E as (hs & Eh & E). apply with_hash_ok in Eh.
  assert (P := Permutation_map fst (isort_perm key_le hs)). rewrite Eh in P.
  destruct (fold_subtract_spec (map fst (isort key_le hs)) b o') as (G' & C & Pl & Dn); [assumption| |assumption|].
  { intros r Hr. apply H2. eapply Permutation_in; [symmetry; exact P|assumption]. }
  split; [assumption|]. split; [|split; [|split]].
  - intros c. rewrite C, H3. reflexivity.
  - intros rho. rewrite H5, Dn. split; intros [X Y]; (split; [assumption|]); intros r Hr; apply Y.
    + eapply Permutation_in; [symmetry; exact P|assumption].
    + eapply Permutation_in; [exact P|assumption].
  - rewrite Pl, H4. auto.
  - not_tuples.
Qed.

(** ** The whole rewrite *)
Theorem rewrite_sound : sound (rewrite W).
Proof.
  unfold rewrite. set (rs := rules W).
  assert (S : forall r, In r rs -> sound r).
  { unfold rs, rules. intros r Hr. simpl in Hr.
    repeat (destruct Hr as [<-|Hr];
      [first [apply project_across_crossjoin_sound
             |apply depth_first_sound; first [apply collapse_sound|apply remove_noop_sound|apply merge_sound
               |apply extract_sound|apply order_sound|apply apply_in_memory_sound|apply normalize_joins_sound
               |apply normalize_subtracts_sound|apply normalize_unions_sound]]|]).
    destruct Hr. }
  clearbody rs. intros o o' G. revert o G.
  induction rs as [|r rs IH]; cbn [fold_left]; intros o G E.
  - inversion E; subst. split; [assumption|apply same_refl].
  - cbn [bind] in E. destruct (r o) as [o1|e] eqn:E1.
    + destruct (S r (or_introl eq_refl) _ _ G E1) as [G1 S1].
      destruct (IH (fun x Hx => S x (or_intror Hx)) _ G1 E) as [G2 S2].
      split; [assumption|]. eapply same_trans; eassumption.
    + exfalso. clear - E. induction rs as [|r' rs IH]; cbn [fold_left] in E; [discriminate|]. auto.
Qed.

End Rules.
