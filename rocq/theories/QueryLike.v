(** Queries that differ only in how their parts are represented, tables that differ only in
    the order of their rows: evaluation does not tell them apart. *)
From Coq Require Import String Bool Arith ZArith QArith Qcanon Lia Permutation List.
From Verif Require Import Prelude Value Rows Constraints ConstraintsProofs Schema Query Transform.
Import ListNotations.
Local Open Scope string_scope.
Local Open Scope nat_scope.

(** ** Specification *)

(** The same columns in the same order, the same rows in any order. *)
Definition frame_like (f g : sframe) : Prop :=
  sd_fields f = sd_fields g /\ Permutation (sd_rows f) (sd_rows g).
Definition pub_like (p p' : pubtable) : Prop :=
  match p, p' with
  | PubName n, PubName n' => n = n'
  | PubFrame f, PubFrame g => frame_like f g
  | _, _ => False
  end.
(** The same number, as int or float. *)
Definition num_like (x y : pynum) : Prop := to_float x = to_float y.
(** The same columns with the same types, and the same keys, in any order. *)
Definition keys_like (k k' : gkeys) : Prop :=
  match k, k' with
  | KCols l, KCols l' => l = l'
  | KSet c r, KSet c' r' =>
      (forall n, option_map cd_type (dget n c) = option_map cd_type (dget n c'))
      /\ forall key : string -> value,
           (exists x, In x r /\ forall n, In n (dkeys c) -> getv n x = key n)
           <-> (exists x, In x r' /\ forall n, In n (dkeys c') -> getv n x = key n)
  | _, _ => False
  end.

(** The same query: functions that return the same on every argument, and otherwise the same
    in every parameter. *)
Inductive like : query -> query -> Prop :=
| l_source s : like (PrivateSource s) (PrivateSource s)
| l_groups c c' l : like c c' -> like (GetGroups c l) (GetGroups c' l)
| l_bounds c c' k k' m a b : like c c' -> keys_like k k' -> like (GetBounds c k m a b) (GetBounds c' k' m a b)
| l_rename c c' m : like c c' -> like (Rename c m) (Rename c' m)
| l_filter c c' s : like c c' -> like (Filter c s) (Filter c' s)
| l_select c c' l : like c c' -> like (Select c l) (Select c' l)
| l_map c c' f g n a : like c c' -> (forall r, f r = g r) -> like (MapQ c f n a) (MapQ c' g n a)
| l_flat_map c c' f g n a mr : like c c' -> (forall r, f r = g r) -> like (FlatMap c f n a mr) (FlatMap c' g n a mr)
| l_by_id c c' f g n : like c c' -> (forall l, f l = g l) -> like (FlatMapByID c f n) (FlatMapByID c' g n)
| l_join_private c c' d d' tl tr on : like c c' -> like d d' -> like (JoinPrivate c d tl tr on) (JoinPrivate c' d' tl tr on)
| l_join_public c c' p p' on how : like c c' -> pub_like p p' -> like (JoinPublic c p on how) (JoinPublic c' p' on how)
| l_nulls c c' rw : like c c' -> like (ReplaceNullAndNan c rw) (ReplaceNullAndNan c' rw)
| l_infs c c' rw : like c c' -> like (ReplaceInfinity c rw) (ReplaceInfinity c' rw)
| l_drop_nulls c c' l : like c c' -> like (DropNullAndNan c l) (DropNullAndNan c' l)
| l_drop_infs c c' l : like c c' -> like (DropInfinity c l) (DropInfinity c' l)
| l_enforce c c' k : like c c' -> like (EnforceConstraint c k) (EnforceConstraint c' k)
| l_count c c' k k' o m co : like c c' -> keys_like k k' -> like (GroupByCount c k o m co) (GroupByCount c' k' o m co)
| l_distinct c c' k k' l o m co : like c c' -> keys_like k k' ->
    like (GroupByCountDistinct c k l o m co) (GroupByCountDistinct c' k' l o m co)
| l_quantile c c' k k' m q lo hi lo' hi' o : like c c' -> keys_like k k' -> num_like lo lo' -> num_like hi hi' ->
    like (GroupByQuantile c k m q lo hi o) (GroupByQuantile c' k' m q lo' hi' o)
| l_bounded kd c c' k k' m lo hi lo' hi' o me co : like c c' -> keys_like k k' -> num_like lo lo' -> num_like hi hi' ->
    like (GroupByBounded kd c k m lo hi o me co) (GroupByBounded kd c' k' m lo' hi' o me co)
| l_suppress c c' l t t' : like c c' -> num_like t t' -> like (SuppressAggregates c l t) (SuppressAggregates c' l t').

(** Nothing but transformations. *)
Fixpoint transformation (q : query) : Prop :=
  match q with
  | PrivateSource _ => True
  | Rename c _ | Filter c _ | Select c _ | MapQ c _ _ _ | FlatMap c _ _ _ _ | FlatMapByID c _ _ | JoinPublic c _ _ _
  | ReplaceNullAndNan c _ | ReplaceInfinity c _ | DropNullAndNan c _ | DropInfinity c _ | EnforceConstraint c _ => transformation c
  | JoinPrivate l r _ _ _ => transformation l /\ transformation r
  | GetGroups _ _ | GetBounds _ _ _ _ _ | GroupByCount _ _ _ _ _ | GroupByCountDistinct _ _ _ _ _ _
  | GroupByQuantile _ _ _ _ _ _ _ | GroupByBounded _ _ _ _ _ _ _ _ _ | SuppressAggregates _ _ _ => False
  end.

(** Tables and outcomes up to the order of rows: the same domain, place and rows; the same
    constraints; the same exception. *)
Definition tab_like (t t' : vtab) : Prop :=
  v_dom t = v_dom t' /\ v_coll t = v_coll t' /\ v_place t = v_place t' /\ Permutation (v_rows t) (v_rows t').
Definition outcome_like (x y : res (vtab * list constraint)) : Prop :=
  match x, y with
  | Ok (t, cs), Ok (t', cs') => tab_like t t' /\ cs = cs'
  | Err e, Err e' => e = e'
  | _, _ => False
  end.
Definition data_like (d d' : dict vtab) : Prop :=
  forall s, match dget s d, dget s d' with
            | Some t, Some t' => tab_like t t' | None, None => True | _, _ => False end.
(** Catalogs: only the order of the rows of public tables may differ. *)
Definition catalog_like (c c' : catalog) : Prop :=
  cat_private c = cat_private c'
  /\ forall s, match dget s (cat_public c), dget s (cat_public c') with
               | Some (x, f), Some (x', f') => x = x' /\ frame_like f f' | None, None => True | _, _ => False end.

(** ** Proofs *)

Lemma oc_bind {A} (r : res A) f f' : (forall a, outcome_like (f a) (f' a)) -> outcome_like (bind r f) (bind r f').
Proof. intros H. destruct r as [a|e]; [apply H|reflexivity]. Qed.
Lemma oc_bind2 x y f f' : outcome_like x y -> (forall t t' cs, tab_like t t' -> outcome_like (f (t, cs)) (f' (t', cs))) ->
  outcome_like (bind x f) (bind y f').
Proof.
  destruct x as [[t cs]|e], y as [[t' cs']|e']; cbn [outcome_like bind]; intros H F; try contradiction; [|exact H].
  destruct H as [H ->]. apply F, H.
Qed.
Lemma oc_ok d c p r r' cs : Permutation r r' ->
  outcome_like (Ok ({| v_dom := d; v_coll := c; v_place := p; v_rows := r |}, cs))
               (Ok ({| v_dom := d; v_coll := c; v_place := p; v_rows := r' |}, cs)).
Proof. intros H. repeat split. exact H. Qed.

Lemma perm_flat_map {A B} (f g : A -> list B) l l' : (forall x, Permutation (f x) (g x)) -> Permutation l l' ->
  Permutation (flat_map f l) (flat_map g l').
Proof.
  intros H P. induction P as [|x l l' P IH|x y l|l l' l'' P1 IH1 P2 IH2]; cbn [flat_map].
  - constructor.
  - apply Permutation_app; [apply H|exact IH].
  - rewrite !app_assoc. apply Permutation_app.
    + etransitivity; [apply Permutation_app_comm|]. apply Permutation_app; apply H.
    + clear - H. induction l as [|z l IH]; [constructor|]. cbn [flat_map]. apply Permutation_app; [apply H|exact IH].
  - transitivity (flat_map g l'); [exact IH1|]. transitivity (flat_map f l'); [|exact IH2].
    clear - H. induction l' as [|z l IH]; [constructor|]. cbn [flat_map]. apply Permutation_app; [symmetry; apply H|exact IH].
Qed.
Lemma perm_map {A B} (f g : A -> B) l l' : (forall x, f x = g x) -> Permutation l l' -> Permutation (map f l) (map g l').
Proof. intros H P. rewrite (map_ext f g H). apply Permutation_map, P. Qed.
Lemma perm_nodup {A} (ea : forall x y : A, {x = y} + {x <> y}) l l' : Permutation l l' -> Permutation (nodup ea l) (nodup ea l').
Proof.
  intros P. apply NoDup_Permutation; [apply NoDup_nodup..|]. intros x. rewrite !nodup_In.
  split; apply Permutation_in; [exact P|symmetry; exact P].
Qed.
Lemma perm_length_filter {A} (p : A -> bool) l l' : Permutation l l' -> length (filter p l) = length (filter p l').
Proof. intros P. apply Permutation_length, Permutation_filter, P. Qed.
Lemma perm_filter_ext {A} (p q : A -> bool) l l' : (forall x, p x = q x) -> Permutation l l' -> Permutation (filter p l) (filter q l').
Proof. intros H P. rewrite (filter_ext p q H). apply Permutation_filter, P. Qed.
Lemma perm_list_max l l' : Permutation l l' -> list_max l = list_max l'.
Proof.
  intros P. induction P as [|x l l' P IH|x y l|l l' l'' P1 IH1 P2 IH2]; [reflexivity| | |congruence].
  - change (Nat.max x (list_max l) = Nat.max x (list_max l')). lia.
  - change (Nat.max y (Nat.max x (list_max l)) = Nat.max x (Nat.max y (list_max l))). lia.
Qed.

Lemma truncate_side_like O s on t t' : Permutation t t' -> Permutation (truncate_side O s on t) (truncate_side O s on t').
Proof.
  intros P. destruct s as [n|]; cbn [truncate_side].
  - rewrite (isort_same O t t' P). reflexivity.
  - apply perm_filter_ext; [|exact P]. intros r. rewrite (perm_length_filter _ t t' P). reflexivity.
Qed.
Lemma inner_join_like on lc rc l l' r r' : Permutation l l' -> Permutation r r' ->
  Permutation (inner_join on lc rc l r) (inner_join on lc rc l' r').
Proof.
  intros P Q. apply perm_flat_map; [|exact P]. intros x. apply Permutation_map, Permutation_filter, Q.
Qed.
Lemma left_join_like on lc rc l l' r r' : Permutation l l' -> Permutation r r' ->
  Permutation (left_join on lc rc l r) (left_join on lc rc l' r').
Proof.
  intros P Q. apply perm_flat_map; [|exact P]. intros x. assert (F := Permutation_filter (matches on x) r r' Q).
  destruct (filter (matches on x) r) as [|y ys], (filter (matches on x) r') as [|z zs].
  - reflexivity.
  - apply Permutation_nil in F. discriminate.
  - symmetry in F. apply Permutation_nil in F. discriminate.
  - apply (Permutation_map (fun y => join_row on lc rc x (Some y))) in F. exact F.
Qed.
Lemma by_id_like O i f g new t t' : (forall l, f l = g l) -> Permutation t t' ->
  Permutation (flat_map_by_id_rows O i f new t) (flat_map_by_id_rows O i g new t').
Proof.
  intros H P. unfold flat_map_by_id_rows. apply perm_flat_map.
  - intros v. rewrite (isort_same O _ _ (Permutation_filter _ _ _ P)), H. reflexivity.
  - apply perm_nodup, Permutation_map, P.
Qed.
Lemma public_stability_like cols p p' : Permutation p p' -> public_stability cols p = public_stability cols p'.
Proof.
  intros P. unfold public_stability. apply perm_list_max. apply perm_map; [|exact P].
  intros r. apply perm_length_filter, P.
Qed.

Section Proofs.
Variables (W : world) (l2 : bool) (cat cat' : catalog) (data data' : dict vtab).
Hypothesis (CL : catalog_like cat cat') (DL : data_like data data').

(** Makes the two tables share everything but their rows. *)
Ltac same t t' H := destruct t as [vd vc vp vr], t' as [vd' vc' vp' vr']; destruct H as (H1 & H2 & H3 & P);
  cbn [v_dom v_coll v_place v_rows] in H1, H2, H3, P; subst vd' vc' vp'; cbn [v_dom v_coll v_place v_rows].
Ltac step := apply oc_bind; intros ?.

Lemma source_like s : outcome_like (visit_source cat data s) (visit_source cat' data' s).
Proof.
  unfold visit_source. specialize (DL s). rewrite (proj1 CL).
  destruct (dget s data) as [t|], (dget s data') as [t'|]; try contradiction; [|reflexivity].
  destruct (dget s (cat_private cat')) as [[x cs]|]; [|reflexivity]. split; [exact DL|reflexivity].
Qed.
Lemma frame_rows_like f g : frame_like f g -> Permutation (frame_rows f) (frame_rows g).
Proof. intros [E P]. unfold frame_rows. rewrite E. apply Permutation_map, P. Qed.
Lemma public_frame_like p p' : pub_like p p' ->
  match public_frame cat p, public_frame cat' p' with
  | Ok f, Ok g => frame_like f g | Err e, Err e' => e = e' | _, _ => False end.
Proof.
  destruct p as [n|f], p' as [n'|g]; cbn [pub_like public_frame]; intros H; try contradiction; [|exact H]. subst n'.
  destruct CL as [_ C]. specialize (C n).
  destruct (dget n (cat_public cat)) as [[x f]|], (dget n (cat_public cat')) as [[x' f']|]; try contradiction; [|reflexivity].
  apply C.
Qed.

Lemma op_join_public p p' on how t t' cs : pub_like p p' -> tab_like t t' ->
  outcome_like (visit_join_public cat p on how (t, cs)) (visit_join_public cat' p' on how (t', cs)).
Proof.
  intros PL H. same t t' H. unfold visit_join_public. cbn [v_dom v_coll v_place v_rows].
  assert (F := public_frame_like p p' PL).
  destruct (public_frame cat p) as [f|e], (public_frame cat' p') as [g|e']; try contradiction; cbn [bind]; [|exact F].
  destruct F as [F1 F2]. assert (FR := frame_rows_like f g (conj F1 F2)). rewrite F1. step. step. step. step.
  unfold propagate_join_public. rewrite (public_stability_like _ _ _ FR).
  apply oc_ok. destruct (negb (in_collection vp) && String.eqb how "left"); [apply left_join_like|apply inner_join_like]; assumption.
Qed.
Lemma op_join_private tl tr on x x' y y' cs ds : tab_like x x' -> tab_like y y' ->
  outcome_like (visit_join_private W tl tr on (x, cs) (y, ds)) (visit_join_private W tl tr on (x', cs) (y', ds)).
Proof.
  intros H H'. destruct x as [d c p r], x' as [d' c' p' r'], y as [e f q s], y' as [e' f' q' s'].
  destruct H as (H1 & H2 & H3 & P), H' as (H1' & H2' & H3' & P'). cbn [v_dom v_coll v_place v_rows] in *. subst.
  unfold visit_join_private. cbn [v_dom v_coll v_place v_rows]. step.
  destruct p' as [i| |g b i|g b], q' as [j| |g' b' j|g' b']; cbn [bind]; try reflexivity.
  - destruct (negb (String.eqb i j)); cbn [raise_if bind]; [reflexivity|].
    destruct (negb (smem i (join_columns on d' e'))); cbn [raise_if bind]; [reflexivity|]. step.
    apply oc_ok, inner_join_like; assumption.
  - destruct tl as [sl|]; [|reflexivity]. destruct tr as [sr|]; [|reflexivity]. cbn [bind]. step.
    apply oc_ok, inner_join_like; apply truncate_side_like; assumption.
Qed.

Theorem visit_like q q' : like q q' -> outcome_like (visit W l2 cat data q) (visit W l2 cat' data' q').
Proof.
  induction 1; cbn [visit]; try reflexivity; [apply source_like|..];
    try (apply oc_bind2; [assumption|]; intros t t' cs T).
  - same t t' T. unfold visit_rename. cbn [v_dom v_coll v_place v_rows]. step. apply oc_ok, Permutation_map, P.
  - same t t' T. unfold visit_filter. cbn [v_dom v_coll v_place v_rows]. apply oc_ok, Permutation_filter, P.
  - same t t' T. unfold visit_select. cbn [v_dom v_coll v_place v_rows]. step. step. apply oc_ok, Permutation_map, P.
  - same t t' T. unfold visit_map. cbn [v_dom v_coll v_place v_rows]. step. step. apply oc_ok, perm_map; [|exact P].
    intros x. unfold map_row. rewrite H0. reflexivity.
  - same t t' T. unfold visit_flat_map. cbn [v_dom v_coll v_place v_rows]. step. step. apply oc_ok, perm_flat_map; [|exact P].
    intros x. unfold flat_map_row. rewrite H0. reflexivity.
  - same t t' T. unfold visit_flat_map_by_id. cbn [v_dom v_coll v_place v_rows]. destruct vp; try reflexivity.
    destruct (dget idc vd); [|reflexivity]. step. apply oc_ok, by_id_like; assumption.
  - apply oc_bind2; [assumption|]. intros u u' ds U. apply op_join_private; assumption.
  - apply op_join_public; assumption.
  - same t t' T. unfold visit_replace_null. cbn [v_dom v_coll v_place v_rows]. step. step. step. apply oc_ok, Permutation_map, P.
  - same t t' T. unfold visit_replace_inf. cbn [v_dom v_coll v_place v_rows]. step. step. step. apply oc_ok, Permutation_map, P.
  - same t t' T. unfold visit_drop_null. cbn [v_dom v_coll v_place v_rows]. step. step. step. step. apply oc_ok.
    unfold drop_rows. apply Permutation_filter, Permutation_filter, P.
  - same t t' T. unfold visit_drop_inf. cbn [v_dom v_coll v_place v_rows]. step. step. step. apply oc_ok.
    unfold drop_rows. apply Permutation_filter, P.
  - same t t' T. unfold visit_enforce. cbn [v_dom v_coll v_place v_rows].
    destruct vp as [i| |g b i|g b]; destruct k as [m|g' m|g' m]; cbn [enforce t_place t_rows bind]; try reflexivity; apply oc_ok.
    + exact (enforce_rows_same (w_row_order W) (w_key_order W) i (MaxRowsPerID m) vr vr' P).
    + exact (enforce_rows_same (w_row_order W) (w_key_order W) i (MaxGroupsPerID g' m) vr vr' P).
    + exact (enforce_rows_same (w_row_order W) (w_key_order W) i (MaxRowsPerGroupPerID g' m) vr vr' P).
Qed.

(** Schemas of transformations. *)
Lemma public_schema_like p p' : pub_like p p' -> public_schema cat p = public_schema cat' p'.
Proof.
  destruct p as [n|f], p' as [n'|g]; cbn [pub_like public_schema]; intros H; try contradiction.
  - subst n'. destruct CL as [_ C]. specialize (C n).
    destruct (dget n (cat_public cat)) as [[x f]|], (dget n (cat_public cat')) as [[x' f']|]; try contradiction; [|reflexivity].
    destruct C as [-> _]. reflexivity.
  - rewrite (proj1 H). reflexivity.
Qed.
Lemma public_names n : dmem n (cat_public cat) = dmem n (cat_public cat').
Proof.
  destruct CL as [_ C]. specialize (C n). unfold dmem.
  destruct (dget n (cat_public cat)) as [[x f]|], (dget n (cat_public cat')) as [[x' f']|]; try contradiction; reflexivity.
Qed.
Theorem schema_like cond_ok q q' : like q q' -> transformation q -> schema_of cond_ok cat q = schema_of cond_ok cat' q'.
Proof.
  induction 1; cbn [schema_of transformation]; intros T; try contradiction; try (rewrite IHlike by exact T; reflexivity).
  - unfold source_schema. rewrite public_names, (proj1 CL). reflexivity.
  - destruct T as [T1 T2]. rewrite IHlike1, IHlike2 by assumption. reflexivity.
  - rewrite IHlike by exact T. destruct (schema_of cond_ok cat' c') as [s|e]; cbn [bind]; [|reflexivity].
    unfold join_public_schema. rewrite (public_schema_like p p' H0). reflexivity.
Qed.
Theorem build_transformation_like q q' : like q q' -> transformation q ->
  outcome_like (build_transformation W l2 cat data q) (build_transformation W l2 cat' data' q').
Proof.
  intros L T. unfold build_transformation. rewrite (schema_like _ q q' L T). apply oc_bind. intros s.
  apply oc_bind2; [apply visit_like, L|]. intros t t' cs TL. cbn [fst].
  assert (validate l2 s t = validate l2 s t') as ->.
  { unfold validate. destruct TL as (-> & _ & -> & _). reflexivity. }
  apply oc_bind. intros _. split; [exact TL|reflexivity].
Qed.
End Proofs.
Lemma keys_like_refl k : keys_like k k.
Proof. destruct k; cbn [keys_like]; [split; [reflexivity|]; intros; reflexivity|reflexivity]. Qed.
Lemma frame_like_refl f : frame_like f f.
Proof. split; reflexivity. Qed.
Lemma like_refl q : like q q.
Proof.
  induction q; constructor; auto using keys_like_refl; try reflexivity.
  destruct public; cbn [pub_like]; [reflexivity|apply frame_like_refl].
Qed.
Lemma catalog_like_refl c : catalog_like c c.
Proof.
  split; [reflexivity|]. intros s. destruct (dget s (cat_public c)) as [[x f]|]; [|exact I]. split; [reflexivity|apply frame_like_refl].
Qed.
