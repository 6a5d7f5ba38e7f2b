(** What a KeySet means, and proof that materializing computes it. *)
From Coq Require Import String Bool Arith ZArith Lia List.
From Verif Require Import Prelude Value KeySet.
Import ListNotations.

(** ** Specification: the set of keys of an operation tree.

    A key is a valuation of the tree's columns.  [D cs rho] says what a Detect node
    finds; it is arbitrary. *)
Record oracle : Type := {
  found : list string -> valuation -> Prop;
  found_ext : forall cs cs' rho rho',
    (forall c, In c cs <-> In c cs') -> (forall c, In c cs -> rho c = rho' c) ->
    found cs rho <-> found cs' rho'
}.

Definition restrict (cs : list string) (rho : valuation) : valuation :=
  fun c => if smem c cs then rho c else VNull.

Section Den.
Variable W : world.
Variable D : oracle.

(** A KeySet without columns stands for one key, the empty one (total aggregation). *)
Fixpoint den (o : op) (rho : valuation) : Prop :=
  match o with
  | FromTuples ts d => d = [] \/ In (map rho (dkeys d)) ts
  | FromDF p d => d = [] \/ In (map rho (dkeys d)) (content W p)
  | Detect cs => found D cs rho
  | CrossJoin _ fs => fold_right (fun f acc => den f rho /\ acc) True fs
  | Join l r => den l rho /\ den r rho
  | Project c cs => exists rho', (forall x, In x cs -> rho x = rho' x) /\ den c rho'
  | Filter c k => den c rho /\ holds W k (restrict (columns c) rho) = true
  | Subtract l r => den l rho /\ ~ den r rho
  | Union l r => den l rho \/ den r rho
  end.

(** Trees that pass the constructors' checks, on well-formed data, and in which the
    columnless KeySet is used only as a cross-join factor. *)
Fixpoint wf (o : op) : Prop :=
  match o with
  | FromTuples ts d =>
      NoDup (dkeys d) /\ NoDup ts /\ (forall r, In r ts -> length r = length d)
  | FromDF p d => NoDup (dkeys d) /\ (forall r, In r (content W p) -> length r = length d)
  | Detect cs => NoDup cs /\ cs <> []
  | CrossJoin im fs =>
      fs <> [] /\ fold_right (fun f acc => wf f /\ acc) True fs
      /\ ForallOrdPairs (fun f g => forall c, In c (columns f) -> In c (columns g) -> False) fs
      /\ (im = true -> forall f, In f fs -> (exists ts d, f = FromTuples ts d) /\ columns f <> [])
  | Join l r => wf l /\ wf r /\ exists c, In c (columns l) /\ In c (columns r)
  | Project c cs => wf c /\ NoDup cs /\ cs <> [] /\ forall x, In x cs -> In x (columns c)
  | Filter c _ => wf c /\ columns c <> []
  | Subtract l r =>
      wf l /\ wf r /\ is_plan r = false /\ columns r <> []
      /\ forall x, In x (columns r) -> In x (columns l)
  | Union l r => wf l /\ wf r /\ columns l <> [] /\ forall x, In x (columns l) <-> In x (columns r)
  end.

(** ** Induction over trees *)
Lemma op_ind' (P : op -> Prop) :
  (forall t d, P (FromTuples t d)) -> (forall p d, P (FromDF p d)) -> (forall c, P (Detect c)) ->
  (forall im fs, Forall P fs -> P (CrossJoin im fs)) ->
  (forall l r, P l -> P r -> P (Join l r)) ->
  (forall c cs, P c -> P (Project c cs)) -> (forall c k, P c -> P (Filter c k)) ->
  (forall l r, P l -> P r -> P (Subtract l r)) -> (forall l r, P l -> P r -> P (Union l r)) ->
  forall o, P o.
Proof.
  intros H1 H2 H3 H4 H5 H6 H7 H8 H9. fix IH 1. intros o. destruct o.
  - apply H1.
  - apply H2.
  - apply H3.
  - apply H4. induction factors as [|f fs IHf]; constructor; [apply IH|exact IHf].
  - apply H5; apply IH.
  - apply H6; apply IH.
  - apply H7; apply IH.
  - apply H8; apply IH.
  - apply H9; apply IH.
Qed.

(** ** Sets of columns *)
Lemma is_nil_true {A} (l : list A) : is_nil l = true <-> l = [].
Proof. destruct l; simpl; split; congruence. Qed.
Lemma is_nil_false {A} (l : list A) : is_nil l = false <-> l <> [].
Proof. destruct l; simpl; split; congruence. Qed.
Lemma subset_In a b : subset a b = true <-> forall c, In c a -> In c b.
Proof.
  unfold subset. rewrite forallb_forall. split; intros H c Hc.
  - apply smem_In; auto.
  - apply smem_In; auto.
Qed.
Lemma set_eqb_In a b : set_eqb a b = true <-> forall c, In c a <-> In c b.
Proof.
  unfold set_eqb. rewrite andb_true_iff, !subset_In. split.
  - intros [H1 H2] c; split; auto.
  - intros H; split; intros c; apply H.
Qed.
Lemma union_cols_In a b c : In c (union_cols a b) <-> In c a \/ In c b.
Proof.
  unfold union_cols. rewrite in_app_iff, filter_In, negb_true_iff, smem_false.
  split; [tauto|]. intros [H|H]; [auto|].
  destruct (smem c a) eqn:M; [apply smem_In in M; auto|apply smem_false in M; auto].
Qed.
Lemma union_cols_NoDup a b : NoDup a -> NoDup b -> NoDup (union_cols a b).
Proof.
  intros Na Nb. apply NoDup_app_disjoint; [assumption|apply List.NoDup_filter; assumption|].
  intros c H1 H2. apply filter_In in H2 as [_ H2]. apply negb_true_iff, smem_false in H2. auto.
Qed.
Lemma diff_cols_nil a b : diff_cols a b = [] <-> forall c, In c a -> In c b.
Proof.
  unfold diff_cols. split.
  - intros H c Hc. destruct (smem c b) eqn:M; [apply smem_In; assumption|].
    assert (X : In c (filter (fun c => negb (smem c b)) a)) by (apply filter_In; rewrite M; auto).
    rewrite H in X. destruct X.
  - intros H. destruct (filter (fun c => negb (smem c b)) a) as [|x t] eqn:E; [reflexivity|].
    assert (X : In x (filter (fun c => negb (smem c b)) a)) by (rewrite E; simpl; auto).
    apply filter_In in X as [X1 X2]. apply H, smem_In in X1. rewrite X1 in X2. discriminate.
Qed.
Lemma common_nil a b : common a b = [] <-> forall c, In c a -> In c b -> False.
Proof.
  split.
  - intros H c Ha Hb. assert (X : In c (common a b)) by (apply common_In; auto).
    rewrite H in X. destruct X.
  - intros H. destruct (common a b) as [|x t] eqn:E; [reflexivity|].
    assert (X : In x (common a b)) by (rewrite E; simpl; auto).
    apply common_In in X as [X1 X2]. exfalso; eauto.
Qed.
Lemma common_not_nil a b : common a b <> [] <-> exists c, In c a /\ In c b.
Proof.
  split.
  - intros H. destruct (common a b) as [|x t] eqn:E; [congruence|].
    exists x. apply common_In. rewrite E; simpl; auto.
  - intros (c & Ha & Hb) H. rewrite common_nil in H. eauto.
Qed.

Lemma columns_cross im fs c :
  In c (columns (CrossJoin im fs)) <-> exists f, In f fs /\ In c (columns f).
Proof.
  clear. simpl. induction fs as [|f r IH]; simpl; [split; [intros []|intros (f & [] & _)]|].
  rewrite union_cols_In, IH. split.
  - intros [H|(g & H1 & H2)]; eauto.
  - intros (g & [->|H1] & H2); eauto.
Qed.

Lemma wf_cross_forall fs : fold_right (fun f acc => wf f /\ acc) True fs <-> forall f, In f fs -> wf f.
Proof.
  induction fs as [|f r IH]; simpl; [tauto|]. rewrite IH. split.
  - intros [H1 H2] g [->|H]; auto.
  - intros H; split; auto.
Qed.
Lemma den_cross_forall fs rho :
  fold_right (fun f acc => den f rho /\ acc) True fs <-> forall f, In f fs -> den f rho.
Proof.
  induction fs as [|f r IH]; simpl; [tauto|]. rewrite IH. split.
  - intros [H1 H2] g [->|H]; auto.
  - intros H; split; auto.
Qed.
Lemma den_cross im fs rho : den (CrossJoin im fs) rho <-> forall f, In f fs -> den f rho.
Proof. apply den_cross_forall. Qed.

Lemma columns_NoDup o : wf o -> NoDup (columns o).
Proof.
  induction o as [t d|p d|c|im fs IH|l r IHl IHr|c cs IHc|c k IHc|l r IHl IHr|l r IHl IHr] using op_ind';
    simpl; intros H; try tauto.
  - destruct H as (_ & H & _). rewrite wf_cross_forall in H.
    induction fs as [|f r IHf]; simpl; [constructor|].
    inversion IH; subst. apply union_cols_NoDup.
    + apply H2, H; simpl; auto.
    + apply IHf; auto. intros g Hg; apply H; simpl; auto.
  - apply union_cols_NoDup; tauto.
Qed.

(** ** Only the tree's columns matter *)
Lemma restrict_ext cs rho rho' : (forall c, In c cs -> rho c = rho' c) ->
  forall x, restrict cs rho x = restrict cs rho' x.
Proof.
  intros H x. unfold restrict. destruct (smem x cs) eqn:M; [|reflexivity].
  apply H, smem_In, M.
Qed.

Lemma den_ext o : wf o -> forall rho rho', (forall c, In c (columns o) -> rho c = rho' c) ->
  den o rho <-> den o rho'.
Proof.
  induction o as [t d|p d|c|im fs IH|l r IHl IHr|c cs IHc|c k IHc|l r IHl IHr|l r IHl IHr] using op_ind';
    intros Wf rho rho' E.
  - simpl in *. replace (map rho' (dkeys d)) with (map rho (dkeys d)); [tauto|].
    apply map_ext_in. auto.
  - simpl in *. replace (map rho' (dkeys d)) with (map rho (dkeys d)); [tauto|].
    apply map_ext_in. auto.
  - simpl in *. apply found_ext; [tauto|assumption].
  - rewrite !den_cross. destruct Wf as (_ & Wf & _). rewrite wf_cross_forall in Wf.
    rewrite Forall_forall in IH.
    assert (G : forall f, In f fs -> den f rho <-> den f rho').
    { intros f Hf. apply IH; auto. intros c Hc. apply E. apply columns_cross. eauto. }
    split; intros H f Hf; apply (G f Hf), H, Hf.
  - simpl in *. destruct Wf as (Wl & Wr & _).
    rewrite (IHl Wl rho rho'), (IHr Wr rho rho'); [tauto| |];
      intros c Hc; apply E; apply union_cols_In; auto.
  - simpl in *. split; intros (s & H1 & H2); exists s; (split; [|assumption]).
    + intros x Hx. rewrite <- E by assumption. auto.
    + intros x Hx. rewrite E by assumption. auto.
  - simpl in *. destruct Wf as (Wc & _). rewrite (IHc Wc rho rho' E).
    rewrite (holds_ext W k _ _ (restrict_ext _ _ _ E)). tauto.
  - simpl in *. destruct Wf as (Wl & Wr & _ & _ & I).
    rewrite (IHl Wl rho rho' E), (IHr Wr rho rho'); [tauto|]. auto.
  - simpl in *. destruct Wf as (Wl & Wr & _ & I).
    rewrite (IHl Wl rho rho' E), (IHr Wr rho rho'); [tauto|]. intros c Hc. apply E, I, Hc.
Qed.

(** A columnless tree denotes the one empty key. *)
Lemma den_total o : wf o -> columns o = [] -> forall rho, den o rho.
Proof.
  induction o as [t d|p d|c|im fs IH|l r IHl IHr|c cs IHc|c k IHc|l r IHl IHr|l r IHl IHr] using op_ind';
    intros Wf C rho.
  - simpl in *. left. destruct d; [reflexivity|discriminate].
  - simpl in *. left. destruct d; [reflexivity|discriminate].
  - simpl in *. tauto.
  - apply den_cross. intros f Hf. rewrite Forall_forall in IH. destruct Wf as (_ & Wf & _).
    rewrite wf_cross_forall in Wf. apply IH; auto.
    destruct (columns f) as [|c t] eqn:Ef; [reflexivity|]. exfalso.
    assert (X : In c (columns (CrossJoin im fs))).
    { apply columns_cross. exists f. rewrite Ef. simpl; auto. }
    rewrite C in X. destruct X.
  - simpl in *. destruct Wf as (_ & _ & c & H1 & H2). exfalso.
    assert (X : In c (union_cols (columns l) (columns r))) by (apply union_cols_In; auto).
    rewrite C in X. destruct X.
  - simpl in *. tauto.
  - simpl in *. tauto.
  - simpl in *. destruct Wf as (_ & _ & _ & H & I). exfalso. apply H.
    destruct (columns r) as [|c t]; [reflexivity|]. exfalso.
    assert (X : In c (columns l)) by (apply I; simpl; auto). rewrite C in X. destruct X.
  - simpl in *. tauto.
Qed.

(** ** Materializing computes the denotation *)
Definition represents (f : frame) (o : op) : Prop :=
  wf_frame f /\ NoDup (frows f) /\ (forall c, In c (fcols f) <-> In c (columns o))
  /\ forall rho, has f rho <-> den o rho.

(** columns of dmerge *)
Lemma dmerge_keys {V} (a b : dict V) : NoDup (dkeys a) ->
  (forall c, In c (dkeys b) -> ~ In c (dkeys a)) -> NoDup (dkeys b) ->
  dmerge a b = a ++ b.
Proof.
  intros Na Dj Nb. unfold dmerge. apply dict_of_aux_NoDup.
  apply NoDup_app_disjoint; [assumption|exact Nb|]. intros x Hx Hx'. apply (Dj x); auto.
Qed.

Definition tuple_frame (f : op) : frame :=
  {| fcols := columns f; frows := tuples_of f |}.

(** the rows of an in-memory product, as nested crosses *)
Fixpoint cross_right (l : list frame) : frame :=
  match l with
  | [] => {| fcols := []; frows := [[]] |}
  | f :: r => fcross f (cross_right r)
  end.

Lemma cross_right_rows fs :
  frows (cross_right (map tuple_frame fs)) =
  fold_right (fun f acc => flat_map (fun r => map (fun s => r ++ s) acc) (tuples_of f)) [[]] fs.
Proof. induction fs as [|f r IH]; simpl; [reflexivity|]. rewrite IH. reflexivity. Qed.

Lemma cross_right_cols l : fcols (cross_right l) = flat_map fcols l.
Proof. induction l as [|f r IH]; simpl; [reflexivity|]. rewrite IH. reflexivity. Qed.

(** A list of frames with pairwise disjoint columns. *)
Definition disjoint_frames (l : list frame) : Prop :=
  ForallOrdPairs (fun f g => forall c, In c (fcols f) -> In c (fcols g) -> False) l.

Lemma cross_right_spec l : (forall f, In f l -> wf_frame f /\ NoDup (frows f)) -> disjoint_frames l ->
  wf_frame (cross_right l) /\ NoDup (frows (cross_right l))
  /\ forall rho, has (cross_right l) rho <-> forall f, In f l -> has f rho.
Proof.
  induction l as [|f r IH]; simpl; intros H Dj.
  - split; [split; [constructor|]; simpl; intros r [<-|[]]; reflexivity|].
    split; [constructor; [simpl; tauto|constructor]|].
    intros rho. unfold has; simpl. split; [tauto|auto].
  - inversion Dj; subst. destruct (IH (fun g Hg => H g (or_intror Hg)) H3) as (W1 & N1 & S1).
    destruct (H f (or_introl eq_refl)) as [Wf Nf].
    assert (DC : forall c, In c (fcols f) -> In c (fcols (cross_right r)) -> False).
    { intros c Hc Hc'. rewrite cross_right_cols in Hc'. apply in_flat_map in Hc' as (g & Hg & Hc').
      rewrite Forall_forall in H2. apply (H2 g Hg c); assumption. }
    split; [apply wf_cross; assumption|]. split; [apply NoDup_cross; assumption|].
    intros rho. rewrite has_cross by assumption. rewrite S1. split.
    + intros [Ha Hb] g [<-|Hg]; auto.
    + intros G; split; auto.
Qed.

Lemma fold_fcross_spec l : forall a, (forall f, In f (a :: l) -> wf_frame f /\ NoDup (frows f)) ->
  disjoint_frames (a :: l) ->
  wf_frame (fold_left fcross l a) /\ NoDup (frows (fold_left fcross l a))
  /\ (forall c, In c (fcols (fold_left fcross l a)) <-> exists f, In f (a :: l) /\ In c (fcols f))
  /\ forall rho, has (fold_left fcross l a) rho <-> forall f, In f (a :: l) -> has f rho.
Proof.
  induction l as [|b l IH]; intros a H Dj; cbn [fold_left].
  - destruct (H a (or_introl eq_refl)) as [Wa Na]. repeat split; auto; try apply Wa.
    + intros Hc; exists a; simpl; auto.
    + intros (f & [->|[]] & Hc); assumption.
    + intros Ha f [<-|[]]; assumption.
    + intros G; apply G; simpl; auto.
  - inversion Dj as [|? ? F1 F2]; subst. inversion F2 as [|? ? F3 F4]; subst.
    inversion F1 as [|? ? Fab F1']; subst.
    destruct (H a (or_introl eq_refl)) as [Wa Na].
    destruct (H b (or_intror (or_introl eq_refl))) as [Wb Nb].
    destruct (IH (fcross a b)) as (W1 & N1 & C1 & S1).
    + intros f [<-|Hf].
      * split; [apply wf_cross; assumption|apply NoDup_cross; assumption].
      * apply H; simpl; auto.
    + constructor; [|assumption]. rewrite Forall_forall in *. intros g Hg c Hc Hc'.
      simpl in Hc. apply in_app_iff in Hc as [Hc|Hc]; [apply (F1' g Hg c)|apply (F3 g Hg c)]; auto.
    + split; [assumption|]. split; [assumption|]. split.
      * intros c. rewrite C1. split.
        -- intros (f & [<-|Hf] & Hc).
           ++ simpl in Hc. apply in_app_iff in Hc as [Hc|Hc]; [exists a|exists b]; simpl; auto.
           ++ exists f; simpl; auto.
        -- intros (f & [<-|[<-|Hf]] & Hc).
           ++ exists (fcross a b). simpl. rewrite in_app_iff; auto.
           ++ exists (fcross a b). simpl. rewrite in_app_iff; auto.
           ++ exists f; simpl; auto.
      * intros rho. rewrite S1. split.
        -- intros G. assert (Gab : has (fcross a b) rho) by (apply G; simpl; auto).
           rewrite has_cross in Gab by assumption. intros f [<-|[<-|Hf]]; try tauto.
           apply G; simpl; auto.
        -- intros G f [<-|Hf].
           ++ rewrite has_cross by assumption. split; apply G; simpl; auto.
           ++ apply G; simpl; auto.
Qed.

Lemma ForallOrdPairs_filter {A} (R : A -> A -> Prop) p l :
  ForallOrdPairs R l -> ForallOrdPairs R (filter p l).
Proof.
  induction 1 as [|a l F1 F2 IH]; simpl; [constructor|].
  destruct (p a); [|assumption]. constructor; [|assumption].
  rewrite Forall_forall in *. intros x Hx. apply filter_In in Hx as [Hx _]. auto.
Qed.

Lemma Forall2_ForallOrdPairs {A B} (R : A -> A -> Prop) (S : B -> B -> Prop) (Q : A -> B -> Prop) l l' :
  (forall a b a' b', Q a b -> Q a' b' -> R a a' -> S b b') ->
  Forall2 Q l l' -> ForallOrdPairs R l -> ForallOrdPairs S l'.
Proof.
  intros H F. induction F as [|a b l l' Hab F IH]; intros P; [constructor|].
  inversion P as [|? ? P1 P2]; subst. constructor; [|auto].
  clear IH P. induction F as [|a' b' l l' Hab' F IH]; [constructor|].
  inversion P1; subst. inversion P2; subst. constructor; eauto.
Qed.

Lemma Forall2_In_r {A B} (Q : A -> B -> Prop) l l' b : Forall2 Q l l' -> In b l' ->
  exists a, In a l /\ Q a b.
Proof.
  induction 1 as [|x y l l' Hxy F IH]; simpl; [tauto|]. intros [<-|H]; eauto.
  destruct (IH H) as (a & Ha & Hq). eauto.
Qed.
Lemma Forall2_In_l {A B} (Q : A -> B -> Prop) l l' a : Forall2 Q l l' -> In a l ->
  exists b, In b l' /\ Q a b.
Proof.
  induction 1 as [|x y l l' Hxy F IH]; simpl; [tauto|]. intros [<-|H]; eauto.
  destruct (IH H) as (b & Hb & Hq). eauto.
Qed.

(** The in-memory product. *)
Lemma in_memory_spec fs :
  fs <> [] -> (forall f, In f fs -> (exists ts d, f = FromTuples ts d) /\ columns f <> []) ->
  (forall f, In f fs -> wf f) ->
  ForallOrdPairs (fun f g => forall c, In c (columns f) -> In c (columns g) -> False) fs ->
  exists g, in_memory_product fs = Ok g /\ represents g (CrossJoin true fs).
Proof.
  intros NE T Wf Dj. unfold in_memory_product.
  assert (DS : exists ds, mapM descs_of fs = Ok ds /\ map dkeys ds = map columns fs).
  { clear NE Dj Wf. induction fs as [|f r IH]; [exists []; auto|].
    destruct (T f (or_introl eq_refl)) as [(ts & d & ->) _].
    destruct IH as (ds & E1 & E2); [intros g Hg; apply T; simpl; auto|].
    exists (d :: ds). cbn [mapM descs_of bind]. rewrite E1. simpl. rewrite E2. auto. }
  destruct DS as (ds & E1 & E2). rewrite E1. cbn [bind]. eexists. split; [reflexivity|].
  assert (K : dkeys (fold_left dmerge ds []) = flat_map columns fs).
  { assert (G : forall l (ds : list (dict coldesc)) acc, map dkeys ds = map columns l -> (forall f, In f l -> NoDup (columns f)) ->
        NoDup (dkeys acc) -> (forall f c, In f l -> In c (columns f) -> ~ In c (dkeys acc)) ->
        ForallOrdPairs (fun f g => forall c, In c (columns f) -> In c (columns g) -> False) l ->
        dkeys (fold_left dmerge ds acc) = dkeys acc ++ flat_map columns l).
    { clear. induction l as [|f r IH]; intros [|d ds] acc E ND NA DA DJ; simpl in E; try discriminate.
      - simpl. rewrite app_nil_r. reflexivity.
      - inversion E as [[E1 E2]]. inversion DJ as [|? ? F1 F2]; subst. cbn [fold_left flat_map].
        assert (NDd : NoDup (dkeys d)) by (rewrite E1; apply ND; simpl; auto).
        rewrite dmerge_keys; [|assumption| |assumption].
        2:{ intros c Hc. rewrite E1 in Hc. apply (DA f c); simpl; auto. }
        rewrite IH; auto.
        + unfold dkeys at 1. rewrite map_app. fold (dkeys acc) (dkeys d). rewrite E1, app_assoc. reflexivity.
        + intros g Hg; apply ND; simpl; auto.
        + unfold dkeys. rewrite map_app. fold (dkeys acc) (dkeys d).
          apply NoDup_app_disjoint; auto. intros c Hc Hc'. rewrite E1 in Hc'.
          apply (DA f c); simpl; auto.
        + intros g c Hg Hc. unfold dkeys. rewrite map_app, in_app_iff. fold (dkeys acc) (dkeys d).
          intros [H|H].
          * apply (DA g c); simpl; auto.
          * rewrite E1 in H. rewrite Forall_forall in F1. apply (F1 g Hg c); assumption. }
    rewrite (G fs ds []); auto.
    - intros f Hf. apply columns_NoDup; auto.
    - constructor. }
  pose (l := map tuple_frame fs).
  assert (FL : flat_map fcols l = flat_map columns fs).
  { unfold l. clear. induction fs as [|f r IH]; simpl; [reflexivity|]. rewrite IH; reflexivity. }
  assert (Hl : forall f, In f l -> wf_frame f /\ NoDup (frows f)).
  { intros g Hg. unfold l in Hg. apply in_map_iff in Hg as (f & <- & Hf).
    destruct (T f Hf) as [(ts & d & ->) _]. specialize (Wf _ Hf). simpl in Wf.
    destruct Wf as (N1 & N2 & L). split; [split|]; simpl; auto.
    intros r Hr. unfold dkeys. rewrite map_length. auto. }
  assert (Hd : disjoint_frames l).
  { unfold l. clear - Dj. induction Dj as [|f r F1 F2 IH]; simpl; constructor; [|assumption].
    rewrite Forall_forall in *. intros g Hg. apply in_map_iff in Hg as (f' & <- & Hf').
    simpl. apply F1; assumption. }
  destruct (cross_right_spec l Hl Hd) as (W1 & N1 & S1).
  assert (EQ : cross_right l = {| fcols := dkeys (fold_left dmerge ds []);
     frows := fold_right (fun f acc => flat_map (fun r => map (fun s => r ++ s) acc) (tuples_of f)) [[]] fs |}).
  { rewrite K, <- FL, <- cross_right_cols, <- cross_right_rows. unfold l. destruct (cross_right (map tuple_frame fs)); reflexivity. }
  rewrite <- EQ. split; [assumption|]. split; [assumption|]. split.
  - intros c. rewrite cross_right_cols, FL, columns_cross, in_flat_map. reflexivity.
  - intros rho. rewrite S1, den_cross. split.
    + intros G f Hf. destruct (T f Hf) as [(ts & d & ->) NC]. simpl. right.
      apply (G (tuple_frame (FromTuples ts d))). unfold l. apply in_map; assumption.
    + intros G g Hg. unfold l in Hg. apply in_map_iff in Hg as (f & <- & Hf).
      destruct (T f Hf) as [(ts & d & ->) NC]. specialize (G _ Hf). simpl in G.
      destruct G as [->|G]; [simpl in NC; congruence|exact G].
Qed.

Lemma nonzero_sub a b : a <> [] -> (forall c, In c a -> In c b) -> b <> ([] : list string).
Proof. destruct a as [|x t]; [congruence|]. intros _ H E. specialize (H x (or_introl eq_refl)). rewrite E in H. destruct H. Qed.

Theorem dataframe_correct o : wf o -> is_plan o = false -> columns o <> [] ->
  exists f, dataframe W o = Ok f /\ represents f o.
Proof.
  induction o as [t d|p d|c|im fs IH|l r IHl IHr|c cs IHc|c k IHc|l r IHl IHr|l r IHl IHr] using op_ind';
    intros Wf NP NC.
  - simpl in *. destruct Wf as (N1 & N2 & L). eexists. split; [reflexivity|].
    split; [split; simpl; auto; intros r Hr; unfold dkeys; rewrite map_length; auto|].
    split; [assumption|]. split; [simpl; tauto|].
    intros rho. unfold has. simpl. split; [auto|]. intros [->|H]; [simpl in NC; congruence|assumption].
  - simpl in *. destruct Wf as (N1 & L). eexists. split; [reflexivity|].
    split; [apply wf_distinct; split; simpl; auto; intros r Hr; unfold dkeys; rewrite map_length; auto|].
    split; [apply NoDup_distinct|]. split; [simpl; tauto|].
    intros rho. rewrite has_distinct. unfold has. simpl. split; [auto|].
    intros [->|H]; [simpl in NC; congruence|assumption].
  - discriminate.
  - destruct Wf as (NE & Wf & Dj & IM). rewrite wf_cross_forall in Wf.
    destruct im.
    + apply in_memory_spec; auto.
    + simpl in NP. cbn [dataframe].
      set (g := fun f => if is_nil (columns f) then Ok None else let* d := dataframe W f in Ok (Some d)).
      rewrite Forall_forall in IH.
      assert (NPf : forall f, In f fs -> is_plan f = false).
      { intros f Hf. destruct (is_plan f) eqn:Pf; [|reflexivity].
        assert (existsb is_plan fs = true) by (apply existsb_exists; eauto). congruence. }
      (* the frames of the factors that have columns *)
      assert (G : exists dfs ds, mapM g fs = Ok dfs
         /\ flat_map (fun x => match x with Some d => [d] | None => [] end) dfs = ds
         /\ Forall2 (fun f d => represents d f) (filter (fun f => negb (is_nil (columns f))) fs) ds).
      { clear NE NC Dj NP IM. induction fs as [|f r IHr].
        - exists [], []. repeat split; constructor.
        - destruct IHr as (dfs & ds & E1 & E2 & E3).
          + intros h Hh. apply IH; simpl; auto.
          + intros h Hh. apply Wf; simpl; auto.
          + intros h Hh. apply NPf; simpl; auto.
          + cbn [mapM filter]. unfold g at 1. destruct (is_nil (columns f)) eqn:Nf.
            * exists (None :: dfs), ds. rewrite E1. simpl. repeat split; auto.
            * destruct (IH f (or_introl eq_refl)) as (h & Eh & Rh).
              -- apply Wf; simpl; auto.
              -- apply NPf; simpl; auto.
              -- apply is_nil_false; assumption.
              -- exists (Some h :: dfs), (h :: ds). rewrite Eh, E1. simpl. rewrite E2.
                 repeat split; auto. }
      destruct G as (dfs & ds & E1 & E2 & E3). rewrite E1. cbn [bind]. rewrite E2.
      assert (NZ : filter (fun f => negb (is_nil (columns f))) fs <> []).
      { intros Z. apply NC. destruct (columns (CrossJoin false fs)) as [|c t] eqn:Ec; [reflexivity|].
        exfalso. assert (X : In c (columns (CrossJoin false fs))) by (rewrite Ec; simpl; auto).
        apply columns_cross in X as (f & Hf & Hc).
        assert (Y : In f (filter (fun f => negb (is_nil (columns f))) fs)).
        { apply filter_In. split; [assumption|]. destruct (columns f); [destruct Hc|reflexivity]. }
        rewrite Z in Y. destruct Y. }
      destruct ds as [|a ds]; [inversion E3; congruence|].
      cbn [reduce1]. eexists. split; [reflexivity|].
      destruct (fold_fcross_spec ds a) as (W1 & N1 & C1 & S1).
      * intros f Hf. destruct (Forall2_In_r _ _ _ _ E3 Hf) as (o & _ & R). destruct R as (Ra & Rb & _). auto.
      * apply (Forall2_ForallOrdPairs
           (fun f g => forall c, In c (columns f) -> In c (columns g) -> False) _ _ _ _
           (fun f d f' d' R R' H c Hc Hc' =>
              H c (proj1 (proj1 (proj2 (proj2 R)) c) Hc) (proj1 (proj1 (proj2 (proj2 R')) c) Hc')) E3).
        apply ForallOrdPairs_filter; assumption.
      * split; [assumption|]. split; [assumption|]. split.
        -- intros c. rewrite C1, columns_cross. split.
           ++ intros (d & Hd & Hc). destruct (Forall2_In_r _ _ _ _ E3 Hd) as (f & Hf & R).
              apply filter_In in Hf as [Hf _]. exists f. split; [assumption|].
              apply R; assumption.
           ++ intros (f & Hf & Hc).
              assert (Y : In f (filter (fun f => negb (is_nil (columns f))) fs)).
              { apply filter_In. split; [assumption|]. destruct (columns f); [destruct Hc|reflexivity]. }
              destruct (Forall2_In_l _ _ _ _ E3 Y) as (d & Hd & R). exists d. split; [assumption|].
              apply R; assumption.
        -- intros rho. rewrite S1, den_cross. split.
           ++ intros H f Hf. destruct (is_nil (columns f)) eqn:Z.
              ** apply is_nil_true in Z. apply den_total; auto.
              ** assert (Y : In f (filter (fun f => negb (is_nil (columns f))) fs)).
                 { apply filter_In. rewrite Z. auto. }
                 destruct (Forall2_In_l _ _ _ _ E3 Y) as (d & Hd & R). apply R. auto.
           ++ intros H d Hd. destruct (Forall2_In_r _ _ _ _ E3 Hd) as (f & Hf & R).
              apply filter_In in Hf as [Hf _]. apply R. auto.
  - simpl in NP. apply orb_false_iff in NP as [Pl Pr]. destruct Wf as (Wl & Wr & c & Hl & Hr).
    destruct IHl as (fl & El & Rl); [assumption..| |].
    { intros Z; rewrite Z in Hl; destruct Hl. }
    destruct IHr as (fr & Er & Rr); [assumption..| |].
    { intros Z; rewrite Z in Hr; destruct Hr. }
    cbn [dataframe]. rewrite El, Er. cbn [bind]. eexists. split; [reflexivity|].
    destruct Rl as (W1 & N1 & C1 & S1). destruct Rr as (W2 & N2 & C2 & S2).
    assert (O : forall x, In x (join_columns l r) <-> In x (fcols fl) /\ In x (fcols fr)).
    { intros x. unfold join_columns. rewrite common_In, C1, C2. tauto. }
    split; [apply wf_join; assumption|]. split; [apply NoDup_join; assumption|]. split.
    + intros x. cbn [columns]. rewrite union_cols_In, <- C1, <- C2. cbn [fjoin fcols].
      rewrite in_app_iff, filter_In, negb_true_iff, smem_false. split; [tauto|].
      intros [H|H]; [auto|]. destruct (smem x (join_columns l r)) eqn:M.
      * apply smem_In, O in M. tauto.
      * apply smem_false in M. tauto.
    + intros rho. rewrite has_join by assumption. rewrite S1, S2. simpl. tauto.
  - destruct Wf as (Wc & N & NE & I). simpl in NP.
    destruct IHc as (f & Ef & R); [assumption..| |].
    { apply (nonzero_sub cs); assumption. }
    cbn [dataframe]. rewrite Ef. cbn [bind]. eexists. split; [reflexivity|].
    destruct R as (W1 & N1 & C1 & S1).
    split; [apply wf_distinct, wf_select; assumption|]. split; [apply NoDup_distinct|].
    split; [simpl; tauto|].
    intros rho. rewrite has_distinct, has_select; [|assumption|intros x Hx; apply C1, I, Hx].
    simpl. split; intros (s & H1 & H2); exists s; split; try assumption; apply S1; assumption.
  - destruct Wf as (Wc & NE). simpl in NP.
    destruct IHc as (f & Ef & R); [assumption..|].
    cbn [dataframe]. rewrite Ef. cbn [bind]. eexists. split; [reflexivity|].
    destruct R as (W1 & N1 & C1 & S1).
    split; [apply wf_filter; assumption|]. split; [apply NoDup_filter; assumption|].
    split; [exact C1|].
    intros rho. rewrite has_filter; [|assumption|apply holds_ext]. rewrite S1. simpl.
    rewrite (holds_ext W k (fun c0 => if smem c0 (fcols f) then rho c0 else VNull) (restrict (columns c) rho)).
    + tauto.
    + intros x. unfold restrict. destruct (smem x (fcols f)) eqn:M1, (smem x (columns c)) eqn:M2; try reflexivity.
      * apply smem_In, C1, smem_In in M1. congruence.
      * apply smem_In, C1, smem_In in M2. congruence.
  - destruct Wf as (Wl & Wr & Pr & NE & I). simpl in NP.
    destruct IHl as (fl & El & Rl); [assumption..|].
    destruct IHr as (fr & Er & Rr); [assumption..|].
    cbn [dataframe]. rewrite El, Er. cbn [bind]. rewrite (proj2 (is_nil_false _) NE). cbn [bind raise_if].
    eexists. split; [reflexivity|].
    destruct Rl as (W1 & N1 & C1 & S1). destruct Rr as (W2 & N2 & C2 & S2).
    split; [apply wf_anti; assumption|]. split; [apply NoDup_anti; assumption|].
    split; [exact C1|].
    intros rho. rewrite has_anti; [|assumption|assumption| |].
    + rewrite S1, S2. simpl. tauto.
    + intros x Hx. apply C1, I, Hx.
    + intros x. symmetry; apply C2.
  - destruct Wf as (Wl & Wr & NE & I). simpl in NP. apply orb_false_iff in NP as [Pl Pr].
    destruct IHl as (fl & El & Rl); [assumption..|].
    destruct IHr as (fr & Er & Rr); [assumption..| |].
    { apply (nonzero_sub (columns l)); [assumption|]. apply I. }
    cbn [dataframe]. rewrite El, Er. cbn [bind]. eexists. split; [reflexivity|].
    destruct Rl as (W1 & N1 & C1 & S1). destruct Rr as (W2 & N2 & C2 & S2).
    split; [apply wf_distinct, wf_union; assumption|]. split; [apply NoDup_distinct|].
    split; [exact C1|].
    intros rho. rewrite has_distinct, has_union; [|assumption|assumption|].
    + rewrite S1, S2. simpl. tauto.
    + intros x. rewrite C1, C2. apply I.
Qed.

End Den.
