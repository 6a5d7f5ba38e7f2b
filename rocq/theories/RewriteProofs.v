(** Proofs about query rewriting. *)
From Coq Require Import String Bool Arith ZArith QArith Qcanon Lia Permutation List.
From Verif Require Import Prelude Value Rows Constraints ConstraintsSpec ConstraintsProofs Schema SchemaProofs
  Query Transform TransformSpec TransformConform TransformVisit TransformAgree TransformIds QueryProofs
  Rewrite RewriteSpec.
Import ListNotations.
Local Open Scope string_scope.
Local Open Scope nat_scope.

Lemma below_children q : below q = children q.
Proof. destruct q; reflexivity. Qed.
Lemma query_below_ind (P : query -> Prop) : (forall q, (forall c, In c (below q) -> P c) -> P q) -> forall q, P q.
Proof.
  intros H q. induction q; apply H; cbn [below]; intros x Hx;
    repeat (destruct Hx as [<-|Hx]; [assumption|]); destruct Hx.
Qed.
Lemma everywhere_iff P q : everywhere P q <-> P q /\ forall c, In c (below q) -> everywhere P c.
Proof. split; [intros [q' A B]; auto|intros [A B]; constructor; assumption]. Qed.

(** *** Schemas are made by the Schema class *)
Lemma made_mk cols g i sp s : mk_schema cols g i sp = Ok s -> made s.
Proof. intros H. unfold made. pose proof (proj1 (mk_schema_ok _ _ _ _ _) H) as (_ & _ & _ & ->). exact H. Qed.

Section Proofs.
Variable auto : bool.
Variable cond_ok : string -> list sfield -> bool.
Variable mu : measure.
Variable cat : catalog.
Hypothesis CAT : catalog_made cat.
Notation sch := (schema_of cond_ok cat).
Notation handle := (handle_special_values auto cond_ok cat).
Notation noise := (select_noise auto cond_ok mu cat).
Notation df := (depth_first auto).

Lemma groupby_made k m outs s s' : groupby_schema k m outs s = Ok s' -> made s'.
Proof.
  unfold groupby_schema, schema_for_groupby. intros H. inv_ok H. inv_ok H. exact (made_mk _ _ _ _ _ H).
Qed.
Ltac step H := first [ inv_ok H | match type of H with
   | (if ?b then _ else _) = Ok _ => destruct b
   | match ?x with _ => _ end = Ok _ => destruct x eqn:?; try discriminate H end ].
Ltac schema_defs H := unfold source_schema, get_groups_schema, rename_schema, filter_schema, select_schema, map_schema,
  flat_map_schema, flat_map_by_id_schema, join_private_schema, join_public_schema, replace_null_schema,
  replace_inf_schema, drop_null_schema, drop_inf_schema, enforce_schema, schema_for_join, rebuild, no_infinity in H.
Lemma sch_made q : forall s, sch q = Ok s -> made s.
Proof.
  induction q; cbn [schema_of]; intros s' H;
    try (apply bind_ok in H as (s1 & H1 & H); pose proof (IHq _ H1) as M);
    try exact (groupby_made _ _ _ _ _ H); try (exact (IHq _ H)).
  all: schema_defs H.
  all: repeat (step H).
  all: try (exact (made_mk _ _ _ _ _ H)).
  all: try (injection H as <-; try assumption).
  all: match goal with E : dget _ (cat_private cat) = Some _ |- _ => exact (CAT _ _ _ E) end.
Qed.

(** *** Replacing the children of a node *)
Definition with_below (q : query) (l : list query) : query :=
  match q, l with
  | GetGroups _ x, [c] => GetGroups c x
  | GetBounds _ k m a b, [c] => GetBounds c k m a b
  | Rename _ m, [c] => Rename c m
  | Filter _ s, [c] => Filter c s
  | Select _ x, [c] => Select c x
  | MapQ _ f n a, [c] => MapQ c f n a
  | FlatMap _ f n a mr, [c] => FlatMap c f n a mr
  | FlatMapByID _ f n, [c] => FlatMapByID c f n
  | JoinPublic _ p on how, [c] => JoinPublic c p on how
  | ReplaceNullAndNan _ rw, [c] => ReplaceNullAndNan c rw
  | ReplaceInfinity _ rw, [c] => ReplaceInfinity c rw
  | DropNullAndNan _ x, [c] => DropNullAndNan c x
  | DropInfinity _ x, [c] => DropInfinity c x
  | EnforceConstraint _ k, [c] => EnforceConstraint c k
  | GroupByCount _ k o m co, [c] => GroupByCount c k o m co
  | GroupByCountDistinct _ k x o m co, [c] => GroupByCountDistinct c k x o m co
  | GroupByQuantile _ k m qu a b o, [c] => GroupByQuantile c k m qu a b o
  | GroupByBounded kd _ k m a b o me co, [c] => GroupByBounded kd c k m a b o me co
  | SuppressAggregates _ x t, [c] => SuppressAggregates c x t
  | JoinPrivate _ _ tl tr on, [l; r] => JoinPrivate l r tl tr on
  | _, _ => q
  end.
Definition count_below (q : query) (l : list query) : Prop :=
  match q with SuppressAggregates _ _ _ => forallb is_groupby_count l = true | _ => True end.

Lemma Forall2_one {A B} (R : A -> B -> Prop) a l : Forall2 R [a] l -> exists b, l = [b] /\ R a b.
Proof. intros H. inversion H as [|? b ? l' H1 H2]; subst. inversion H2; subst. eauto. Qed.
Lemma Forall2_two {A B} (R : A -> B -> Prop) a a' l : Forall2 R [a; a'] l -> exists b b', l = [b; b'] /\ R a b /\ R a' b'.
Proof.
  intros H. inversion H as [|? b ? l' H1 H2]; subst. apply Forall2_one in H2 as (b' & -> & H2). eauto 6.
Qed.
Ltac shapes H :=
  first [ apply Forall2_two in H as (? & ? & -> & ? & ?) | apply Forall2_one in H as (? & -> & ?)
        | inversion H; subst; clear H ].

Lemma with_below_post q l (R : query -> query -> Prop) : post_init auto q = Ok q -> Forall2 R (below q) l -> count_below q l ->
  post_init auto (with_below q l) = Ok (with_below q l).
Proof.
  intros H F C. destruct q; cbn [below] in F; shapes F; cbn [with_below]; cbn [post_init] in H |- *; try exact H;
    try (repeat (inv_ok H; rewrite ?E, ?E0; cbn [bind raise_if]);
         repeat match goal with E : ?a = _ |- context [?a] => rewrite E; cbn [bind raise_if] end; try reflexivity).
  all: try (injection H; intros; subst; congruence).
  cbn [count_below forallb] in C. rewrite andb_true_r in C. rewrite C. reflexivity.
Qed.

Lemma below_with_below q l (R : query -> query -> Prop) : Forall2 R (below q) l -> below (with_below q l) = l.
Proof. intros F. destruct q; cbn [below] in F; shapes F; reflexivity. Qed.
Lemma with_below_same q : with_below q (below q) = q.
Proof. destruct q; reflexivity. Qed.
Lemma count_below_self q : post_init auto q = Ok q -> count_below q (below q).
Proof.
  destruct q; cbn [post_init count_below below]; trivial. intros H. inv_ok H.
  cbn [forallb]. rewrite andb_true_r. destruct (is_groupby_count q); [reflexivity|discriminate].
Qed.

Lemma depth_first_step func q : built auto q ->
  df func q = let* l := mapM (df func) (below q) in
              let* _ := raise_if (match q with SuppressAggregates _ _ _ => negb (forallb is_groupby_count l) | _ => false end) InternalError in
              let* q1 := post_init auto (with_below q l) in func q1.
Proof.
  intros B. apply built_unfold in B as [P _].
  destruct q; cbn [depth_first below mapM with_below];
    repeat match goal with |- context [df func ?c] => destruct (df func c); cbn [bind raise_if]; try reflexivity end.
  - rewrite P. reflexivity.
  - cbn [forallb]. rewrite andb_true_r. reflexivity.
Qed.

Lemma depth_first_ind func (R : query -> query -> Prop) :
  (forall q l q', built auto q -> Forall2 R (below q) l -> count_below q l ->
     post_init auto (with_below q l) = Ok (with_below q l) -> func (with_below q l) = Ok q' -> R q q') ->
  forall q q', built auto q -> df func q = Ok q' -> R q q'.
Proof.
  intros H. induction q as [q IH] using query_below_ind. intros q' B D.
  rewrite (depth_first_step func q B) in D. inv_ok D. inv_ok D. inv_ok D. rename x into l.
  pose proof (proj1 (built_unfold auto q) B) as [P BC]. rewrite <- below_children in BC.
  assert (F : Forall2 R (below q) l).
  { apply mapM_ok_Forall2 in E. rewrite Forall_forall in BC. clear - E IH BC.
    induction E as [|a b la lb E1 E2 IHE]; constructor.
    - apply IH; [now left|apply BC; now left|exact E1].
    - apply IHE; intros; [apply IH|apply BC]; auto; now right. }
  assert (C : count_below q l).
  { destruct q; try exact I. cbn [count_below]. apply negb_false_iff. exact E0. }
  pose proof (with_below_post q l R P F C) as W. rewrite W in E1. injection E1 as <-.
  exact (H q l q' B F C W D).
Qed.

(** A rule that changes no node below a query leaves the query alone. *)
Lemma depth_first_id func q : built auto q -> everywhere (fun n => func n = Ok n) q -> df func q = Ok q.
Proof.
  induction q as [q IH] using query_below_ind. intros B D. rewrite (depth_first_step func q B).
  apply everywhere_iff in D as [D1 D2].
  pose proof (proj1 (built_unfold auto q) B) as [P BC]. rewrite <- below_children in BC. rewrite Forall_forall in BC.
  assert (E : mapM (df func) (below q) = Ok (below q)).
  { apply mapM_ok_Forall2. assert (G : forall l, incl l (below q) -> Forall2 (fun x y => df func x = Ok y) l l).
    { induction l as [|a l IHl]; intros I; constructor.
      - apply IH; [|apply BC|apply D2]; apply I; now left.
      - apply IHl. intros x Hx. apply I. now right. }
    apply G, incl_refl. }
  rewrite E. cbn [bind]. pose proof (count_below_self q P) as C.
  replace (match q with SuppressAggregates _ _ _ => negb (forallb is_groupby_count (below q)) | _ => false end) with false
    by (destruct q; try reflexivity; cbn [count_below] in C; now rewrite C).
  cbn [raise_if bind]. rewrite with_below_same, P. exact D1.
Qed.

(** *** Schemas depend on the schemas of the children *)
Lemma sch_below q s : sch q = Ok s -> forall c, In c (below q) -> exists s', sch c = Ok s'.
Proof.
  intros H. destruct q; cbn [schema_of] in H; cbn [below]; intros x Hx;
    repeat (destruct Hx as [<-|Hx]; [|]); try destruct Hx;
    try (apply bind_ok in H as (s1 & E & H)); try (apply bind_ok in H as (s2 & E2 & H)); eauto.
Qed.
Lemma sch_with_below q l : Forall2 (fun c c' => sch c' = sch c) (below q) l -> sch (with_below q l) = sch q.
Proof.
  intros F. destruct q; cbn [below] in F; shapes F; cbn [with_below schema_of];
    repeat match goal with E : sch _ = _ |- _ => rewrite E; clear E end; reflexivity.
Qed.

(** *** Changing the descriptor of one column *)
Definition touch (m : string) (g : coldesc -> coldesc) (d : dict coldesc) : dict coldesc :=
  map (fun p => (fst p, if String.eqb (fst p) m then g (snd p) else snd p)) d.
Definition touched (m : string) (g : coldesc -> coldesc) (s s' : schema) : Prop :=
  sc_cols s' = touch m g (sc_cols s) /\ sc_group s' = sc_group s /\ sc_id s' = sc_id s /\ sc_space s' = sc_space s.
Lemma dget_touch m g d c : dget c (touch m g d) = if String.eqb c m then option_map g (dget c d) else dget c d.
Proof.
  induction d as [|[k v] d IH]; cbn [touch map dget fst snd]; [destruct (String.eqb c m); reflexivity|].
  destruct (String.eqb_spec c k) as [->|N].
  - destruct (String.eqb k m); reflexivity.
  - exact IH.
Qed.
Lemma dkeys_touch m g d : dkeys (touch m g d) = dkeys d.
Proof. unfold touch, dkeys. rewrite map_map. reflexivity. Qed.
Lemma touch_mk m g s : made s -> exists s',
  mk_schema (touch m g (sc_cols s)) (sc_group s) (sc_id s) (sc_space s) = Ok s' /\ touched m g s s'.
Proof.
  intros M. pose proof (proj1 (mk_schema_ok _ _ _ _ _) M) as (A & B & C & D).
  eexists. split; [apply mk_schema_ok; rewrite dkeys_touch; repeat split; eassumption|repeat split].
Qed.
Lemma touched_trans m g h s1 s2 s3 : touched m g s1 s2 -> touched m h s2 s3 -> touched m (fun d => h (g d)) s1 s3.
Proof.
  intros (A & B & C & D) (A' & B' & C' & D'). repeat split; try congruence.
  rewrite A', A. unfold touch. rewrite map_map. apply map_ext. intros [k v]. cbn [fst snd].
  destruct (String.eqb k m); reflexivity.
Qed.
Lemma touched_id m s : touched m (fun d => d) s s.
Proof.
  repeat split. unfold touch. rewrite <- (map_id (sc_cols s)) at 1. apply map_ext. intros [k v]; cbn [fst snd].
  destruct (String.eqb k m); reflexivity.
Qed.
Lemma rebuild_touch f m g s : (forall c d, f c d = if String.eqb c m then g d else d) ->
  rebuild f s = mk_schema (touch m g (sc_cols s)) (sc_group s) (sc_id s) (sc_space s).
Proof.
  intros H. unfold rebuild, touch. f_equal. apply map_ext. intros [k v]. cbn [fst snd]. now rewrite H.
Qed.

Lemma mapM_ext {A B} (f g : A -> res B) l : (forall x, In x l -> f x = g x) -> mapM f l = mapM g l.
Proof.
  induction l as [|a l IH]; intros H; cbn [mapM]; [reflexivity|]. rewrite (H a) by now left. rewrite IH; [reflexivity|].
  intros x Hx. apply H. now right.
Qed.
Lemma lookup_touch m g d c : c <> m -> lookup_col (touch m g d) c = lookup_col d c.
Proof. intros N. unfold lookup_col. rewrite dget_touch. apply String.eqb_neq in N. now rewrite N. Qed.
Lemma pick_touch m g d l : ~ In m l -> pick (touch m g d) l = pick d l.
Proof.
  intros N. unfold pick. f_equal. apply mapM_ext. intros c Hc.
  rewrite lookup_touch; [reflexivity|]. intros ->. exact (N Hc).
Qed.
Lemma missing_touch m g d l : missing l (touch m g d) = missing l d.
Proof.
  unfold missing. induction l as [|c l IH]; cbn [existsb]; [reflexivity|]. rewrite IH. f_equal. f_equal.
  unfold dmem. rewrite dget_touch. destruct (String.eqb c m), (dget c d); reflexivity.
Qed.
(** A schema changed only in the kind of special values the measure may hold is as good
    for the aggregation. *)
Lemma groupby_touch k m outs g s s' : touched m g s s' -> (forall d, cd_type (g d) = cd_type d) ->
  ~ In m (keys_columns k) -> groupby_schema k (Some m) outs s' = groupby_schema k (Some m) outs s.
Proof.
  intros (A & B & C & D) T N. unfold groupby_schema.
  assert (V : validate_groupby k (Some m) s' = validate_groupby k (Some m) s).
  { unfold validate_groupby. rewrite A, B, C. rewrite dget_touch, String.eqb_refl.
    assert (X : match k with
            | KSet cols _ =>
                let* _ := mapM (fun p => let* d := lookup_col (touch m g (sc_cols s)) (fst p) in
                                 raise_if (negb (ctype_eqb (cd_type (snd p)) (cd_type d))) ValueError) cols in Ok tt
            | KCols l => raise_if (missing l (touch m g (sc_cols s))) ValueError
            end = match k with
            | KSet cols _ =>
                let* _ := mapM (fun p => let* d := lookup_col (sc_cols s) (fst p) in
                                 raise_if (negb (ctype_eqb (cd_type (snd p)) (cd_type d))) ValueError) cols in Ok tt
            | KCols l => raise_if (missing l (sc_cols s)) ValueError
            end).
    { destruct k as [cols v|l]; [|now rewrite missing_touch]. f_equal. apply mapM_ext. intros p Hp.
      rewrite lookup_touch; [reflexivity|]. intros E. apply N. cbn [keys_columns]. rewrite <- E. now apply in_map. }
    rewrite X. destruct (dget m (sc_cols s)) as [d|]; cbn [option_map]; [|reflexivity].
    unfold is_decimal. rewrite T. reflexivity. }
  rewrite V. unfold schema_for_groupby. rewrite A. rewrite dget_touch, String.eqb_refl, pick_touch by exact N.
  destruct (dget m (sc_cols s)) as [d|]; cbn [option_map]; [rewrite T|]; reflexivity.
Qed.
Lemma groupby_measure k m outs s s' : groupby_schema k (Some m) outs s = Ok s' ->
  ~ In m (keys_columns k) /\ sc_group s <> Some m /\ sc_id s <> Some m
  /\ exists d, dget m (sc_cols s) = Some d /\ (cd_type d = INTEGER \/ cd_type d = DECIMAL).
Proof.
  unfold groupby_schema, validate_groupby. intros H. inv_ok H. clear H. inv_ok E. clear E0. inv_ok E. inv_ok E.
  apply smem_false in E1. destruct (dget m (sc_cols s)) as [d|] eqn:D; [|discriminate E]. inv_ok E. destruct x.
  apply raise_if_ok in E.
  split; [exact E1|]. split.
  - intros G. rewrite G in E0. cbn [is_some opt_in] in E0. apply negb_false_iff, smem_In in E0. exact (E1 E0).
  - split.
    + intros G. rewrite G in E. cbn [is_col] in E. rewrite String.eqb_refl in E. discriminate E.
    + exists d. split; [reflexivity|]. apply negb_false_iff, orb_true_iff in E2 as [E2|E2]; [left|right].
      * destruct (cd_type d); try discriminate E2; reflexivity.
      * unfold is_decimal in E2. destruct (cd_type d); try discriminate E2; reflexivity.
Qed.

Definition not_missing (d : coldesc) : coldesc :=
  {| cd_type := cd_type d; cd_null := false; cd_nan := false; cd_inf := cd_inf d |}.
Definition not_infinite (d : coldesc) : coldesc :=
  {| cd_type := cd_type d; cd_null := cd_null d; cd_nan := cd_nan d; cd_inf := false |}.
Lemma opt_in_one o m : o <> Some m -> opt_in o [m] = false.
Proof.
  destruct o as [c|]; [|reflexivity]. intros N. cbn [opt_in smem existsb]. rewrite orb_false_r.
  apply String.eqb_neq. congruence.
Qed.
Lemma smem_one c m : smem c [m] = String.eqb c m.
Proof. cbn [smem existsb]. apply orb_false_r. Qed.

Lemma drop_null_one m s d : made s -> sc_group s <> Some m -> sc_id s <> Some m -> dget m (sc_cols s) = Some d ->
  exists s', drop_null_schema [m] s = Ok s' /\ touched m not_missing s s'.
Proof.
  intros M G I D. unfold drop_null_schema. rewrite !opt_in_one by assumption. cbn [raise_if bind].
  cbn [missing existsb]. unfold dmem. rewrite D. cbn [negb orb raise_if bind].
  rewrite (rebuild_touch _ m not_missing); [apply touch_mk; exact M|].
  intros c [t n x i]. rewrite smem_one. destruct (String.eqb c m); cbn [negb cd_type cd_null cd_nan cd_inf not_missing].
  - now rewrite !andb_false_r.
  - now rewrite !andb_true_r.
Qed.
Lemma no_infinity_one m s : made s -> exists s', no_infinity [m] s = Ok s' /\ touched m not_infinite s s'.
Proof.
  intros M. unfold no_infinity. rewrite (rebuild_touch _ m not_infinite); [apply touch_mk; exact M|].
  intros c [t n x i]. rewrite smem_one. destruct (String.eqb c m); cbn [negb cd_type cd_null cd_nan cd_inf not_infinite].
  - now rewrite !andb_false_r.
  - now rewrite !andb_true_r.
Qed.
Lemma check_decimal_one m s d : dget m (sc_cols s) = Some d -> cd_type d = DECIMAL -> check_decimal [m] s = Ok tt.
Proof. intros D T. unfold check_decimal. cbn [mapM]. rewrite D. unfold is_decimal. rewrite T. reflexivity. Qed.

Lemma without_inf_schema m b c s d : sch c = Ok s -> made s -> sc_group s <> Some m -> sc_id s <> Some m ->
  dget m (sc_cols s) = Some d -> cd_type d = DECIMAL ->
  exists s', sch (without_infinities m b c) = Ok s' /\ touched m not_infinite s s'.
Proof.
  intros H M G I D T. destruct (no_infinity_one m s M) as (s' & E & X). exists s'. split; [|exact X].
  destruct b as [[lo hi]|]; cbn [without_infinities schema_of]; rewrite H; cbn [bind];
    unfold replace_inf_schema, drop_inf_schema; cbn [dkeys map fst]; rewrite !opt_in_one by assumption; cbn [raise_if bind];
    rewrite (check_decimal_one m s d D T); cbn [bind]; exact E.
Qed.

Lemma cleaned_schema m b c c' s d : cleaned cond_ok cat m b c c' -> sch c = Ok s -> sc_group s <> Some m -> sc_id s <> Some m ->
  dget m (sc_cols s) = Some d ->
  exists s' g, sch c' = Ok s' /\ touched m g s s' /\ (forall x, cd_type (g x) = cd_type x)
    /\ ~ may_be_missing (g d) /\ ~ may_be_infinite (g d).
Proof.
  intros (s0 & d0 & c1 & Hs & Hd & H1 & H2) S G I D. assert (s0 = s) as -> by congruence. assert (d0 = d) as -> by congruence.
  pose proof (sch_made _ _ S) as M.
  assert (A : exists s1 g, sch c1 = Ok s1 /\ touched m g s s1 /\ (forall x, cd_type (g x) = cd_type x)
            /\ (forall x, cd_inf (g x) = cd_inf x) /\ ~ may_be_missing (g d)).
  { destruct H1 as [[P ->]|[P ->]].
    - destruct (drop_null_one m s d M G I D) as (s1 & E & X). exists s1, not_missing. cbn [schema_of]. rewrite S. cbn [bind].
      repeat split; try exact E; try apply X. intros [Y|[_ Y]]; cbn in Y; discriminate Y.
    - exists s, (fun x => x). repeat split; try assumption. apply touched_id. }
  destruct A as (s1 & g & S1 & X1 & T1 & F1 & N1). pose proof X1 as (C1 & G1 & I1 & _).
  pose proof (sch_made _ _ S1) as M1.
  assert (D1 : dget m (sc_cols s1) = Some (g d)).
  { rewrite C1, dget_touch, String.eqb_refl, D. reflexivity. }
  destruct H2 as [[P ->]|[P ->]].
  - destruct P as [P P'].
    destruct (without_inf_schema m b c1 s1 (g d) S1 M1) as (s2 & S2 & X2); try congruence.
    exists s2, (fun x => not_infinite (g x)). split; [exact S2|]. split; [eapply touched_trans; eassumption|].
    split; [intros x; cbn [cd_type not_infinite]; apply T1|]. split.
    + intros Y. apply N1. destruct Y as [Y|[Y1 Y2]]; [left; exact Y|right; split; [exact Y1|exact Y2]].
    + intros [_ Y]. cbn in Y. discriminate Y.
  - exists s1, g. repeat split; try assumption; try apply X1. intros [Y1 Y2]. apply P. split.
    + rewrite <- T1. exact Y1.
    + rewrite <- F1. exact Y2.
Qed.

(** *** First pass: special values *)
Lemma measured_of q : measure_of q = match measured q with Some (c, m, _) => Some (c, m) | None => None end.
Proof. destruct q; reflexivity. Qed.
Lemma missing_spec d : cd_null d || (is_decimal d && cd_nan d) = true <-> may_be_missing d.
Proof.
  unfold may_be_missing, is_decimal. rewrite orb_true_iff, andb_true_iff.
  assert (T : ctype_eqb (cd_type d) DECIMAL = true <-> cd_type d = DECIMAL) by (destruct (cd_type d); split; intros X; try discriminate X; reflexivity).
  tauto.
Qed.
Lemma infinite_spec d : is_decimal d && cd_inf d = true <-> may_be_infinite d.
Proof.
  unfold may_be_infinite, is_decimal. rewrite andb_true_iff.
  assert (T : ctype_eqb (cd_type d) DECIMAL = true <-> cd_type d = DECIMAL) by (destruct (cd_type d); split; intros X; try discriminate X; reflexivity).
  tauto.
Qed.
Lemma with_child_twice q c c' : measured q <> None -> with_child (with_child q c) c' = with_child q c'.
Proof. destruct q; try reflexivity; intros H; contradiction H; reflexivity. Qed.
Lemma with_child_post q c c' m b : measured q = Some (c, m, b) -> post_init auto q = Ok q ->
  post_init auto (with_child q c') = Ok (with_child q c').
Proof.
  intros M P. assert (E : with_child q c' = with_below q [c']) by (destruct q; try discriminate M; reflexivity).
  rewrite E. apply (with_below_post q [c'] (fun _ _ => True) P).
  - destruct q; try discriminate M; repeat constructor.
  - destruct q; try discriminate M; exact I.
Qed.
Lemma post_wrap1 c m : post_init auto (DropNullAndNan c [m]) = Ok (DropNullAndNan c [m]).
Proof. reflexivity. Qed.

Lemma handle_spec q q' : post_init auto q = Ok q -> (forall c, In c (below q) -> built auto c) -> handle q = Ok q' ->
  (measured q = None /\ q' = q)
  \/ exists c m b c', measured q = Some (c, m, b) /\ cleaned cond_ok cat m b c c' /\ q' = with_child q c' /\ built auto c'
       /\ post_init auto q' = Ok q'.
Proof.
  intros P BC H. unfold handle_special_values in H. destruct (measured q) as [[[c m] b]|] eqn:M.
  2:{ injection H as <-. left. split; reflexivity. }
  right. inv_ok H. rename x into s. inv_ok H. rename x into d.
  assert (B : built auto c) by (apply BC; destruct q; try discriminate M; injection M as <- _ _; now left).
  unfold lookup_col in E0. destruct (dget m (sc_cols s)) as [d'|] eqn:D; [|discriminate E0]. injection E0 as ->.
  cbn zeta in H.
  set (drop := cd_null d || (is_decimal d && cd_nan d)) in *.
  set (c1 := if drop then DropNullAndNan c [m] else c) in *.
  assert (Hc1 : may_be_missing d /\ c1 = DropNullAndNan c [m] \/ ~ may_be_missing d /\ c1 = c).
  { pose proof (missing_spec d) as X. fold drop in X. unfold c1. destruct drop; [left|right]; (split; [|reflexivity]).
    - now apply X.
    - intros Y. apply X in Y. discriminate Y. }
  inv_ok H.
  assert (x = with_child q c1) as ->.
  { unfold c1. destruct drop.
    - cbn [post_init bind] in E0. rewrite (with_child_post q c _ m b M P) in E0. congruence.
    - injection E0 as <-. destruct q; try discriminate M; injection M as <- _ _; reflexivity. }
  assert (B1 : built auto c1).
  { unfold c1. destruct drop; [|exact B]. cbn [built]. split; [reflexivity|exact B]. }
  destruct (is_decimal d && cd_inf d) eqn:IF.
  - inv_ok H.
    assert (x = without_infinities m b c1 /\ built auto x) as [-> B2].
    { unfold without_infinities. destruct b as [[lo hi]|].
      - cbn [post_init] in E1. inv_ok E1. injection E1 as <-. split; [reflexivity|]. cbn [built post_init]. rewrite E2.
        split; [reflexivity|exact B1].
      - injection E1 as <-. split; [reflexivity|]. cbn [built]. split; [reflexivity|exact B1]. }
    rewrite with_child_twice in H by congruence. rewrite (with_child_post q c _ m b M P) in H. injection H as <-.
    exists c, m, b, (without_infinities m b c1). split; [reflexivity|]. split.
    { exists s, d, c1. repeat split; try assumption. left. split; [now apply infinite_spec|reflexivity]. }
    split; [reflexivity|]. split; [exact B2|]. exact (with_child_post q c _ m b M P).
  - injection H as <-. exists c, m, b, c1. split; [reflexivity|]. split.
    { exists s, d, c1. repeat split; try assumption. right. split; [|reflexivity]. intros Y. apply infinite_spec in Y. congruence. }
    split; [reflexivity|]. split; [exact B1|]. exact (with_child_post q c _ m b M P).
Qed.

Lemma measured_schema q c m b s : measured q = Some (c, m, b) -> sch q = Ok s ->
  exists k outs sc, sch c = Ok sc /\ groupby_schema k (Some m) outs sc = Ok s
    /\ forall c', sch (with_child q c') = let* s := sch c' in groupby_schema k (Some m) outs s.
Proof.
  intros M S. destruct q; try discriminate M; injection M as <- <- _; cbn [schema_of] in S; inv_ok S;
    do 3 eexists; (split; [exact E|]); (split; [exact S|]); intros c'; reflexivity.
Qed.

Lemma handle_schema q c m b c' s : measured q = Some (c, m, b) -> cleaned cond_ok cat m b c c' -> sch q = Ok s ->
  sch (with_child q c') = Ok s /\ clean_measure cond_ok cat (with_child q c').
Proof.
  intros M C S. destruct (measured_schema q c m b s M S) as (k & outs & sc & Sc & G & W).
  destruct (groupby_measure _ _ _ _ _ G) as (NK & NG & NI & d & D & _).
  destruct (cleaned_schema m b c c' sc d C Sc NG NI D) as (s' & g & S' & T & TY & N1 & N2).
  split.
  - rewrite W, S'. cbn [bind]. rewrite (groupby_touch k m outs g sc s' T TY NK). exact G.
  - intros c2 m2 M2. assert (c2 = c' /\ m2 = m) as [-> ->].
    { destruct q; try discriminate M; injection M as _ <- _; cbn [with_child measure_of] in M2; injection M2; auto. }
    exists s', (g d). destruct T as (T & _). rewrite T, dget_touch, String.eqb_refl, D. auto.
Qed.

(** The schema of a wrapped child, and nodes below. *)
Lemma cleaned_below P m b c c' : cleaned cond_ok cat m b c c' -> everywhere P c ->
  (forall x, measure_of x = None -> P x) -> everywhere P c'.
Proof.
  intros (s & d & c1 & _ & _ & H1 & H2) E N.
  assert (E1 : everywhere P c1).
  { destruct H1 as [[_ ->]|[_ ->]]; [|exact E]. apply everywhere_iff. split; [apply N; reflexivity|].
    intros x [<-|[]]. exact E. }
  destruct H2 as [[_ ->]|[_ ->]]; [|exact E1].
  destruct b as [[lo hi]|]; apply everywhere_iff; (split; [apply N; reflexivity|]); intros x [<-|[]]; exact E1.
Qed.

Lemma rewritten_same_shape q l : Forall2 (rewritten cond_ok cat) (below q) l -> measured q = None ->
  rewritten cond_ok cat q (with_below q l).
Proof.
  intros F M. destruct q; try discriminate M; cbn [below] in F; shapes F; cbn [with_below]; constructor; assumption.
Qed.
Lemma measured_with_below q c c' m b : measured q = Some (c, m, b) ->
  below q = [c] /\ measured (with_below q [c']) = Some (c', m, b)
  /\ forall c2, with_child (with_below q [c']) c2 = with_below q [c2] .
Proof. intros M. destruct q; try discriminate M; injection M as <- <- <-; repeat split. Qed.

Lemma Forall2_weaken {A B} (R S : A -> B -> Prop) l l' : (forall a b, In a l -> R a b -> S a b) -> Forall2 R l l' -> Forall2 S l l'.
Proof.
  intros H F. induction F as [|a b la lb F1 F2 IH]; constructor; [apply H; [now left|assumption]|].
  apply IH. intros x y Hx. apply H. now right.
Qed.

Definition first_pass (q q' : query) : Prop := forall s, sch q = Ok s ->
  built auto q' /\ sch q' = Ok s /\ rewritten cond_ok cat q q' /\ everywhere (clean_measure cond_ok cat) q'.

Lemma first_pass_ok q q' : built auto q -> df handle q = Ok q' -> first_pass q q'.
Proof.
  apply depth_first_ind. clear q q'. intros q l q' B F C P H s S.
  pose proof (sch_below q s S) as SB.
  assert (F' : Forall2 (fun c c' => built auto c' /\ sch c' = sch c /\ rewritten cond_ok cat c c'
                         /\ everywhere (clean_measure cond_ok cat) c') (below q) l).
  { revert F. apply Forall2_weaken. intros a b Ha R. destruct (SB a Ha) as (sa & Sa). destruct (R sa Sa) as (X1 & X2 & X3 & X4).
    split; [exact X1|]. split; [rewrite X2, Sa; reflexivity|]. split; [exact X3|exact X4]. }
  assert (BL : forall c, In c (below (with_below q l)) -> built auto c /\ everywhere (clean_measure cond_ok cat) c).
  { rewrite (below_with_below q l _ F'). clear - F'. induction F' as [|a b la lb (X1 & X2 & X3 & X4) F2 IH]; intros c Hc.
    - destruct Hc.
    - destruct Hc as [<-|Hc]; [split; assumption|exact (IH c Hc)]. }
  assert (Sl : sch (with_below q l) = Ok s).
  { rewrite sch_with_below; [exact S|]. revert F'. apply Forall2_weaken. intros a b _ (_ & X & _). exact X. }
  destruct (handle_spec (with_below q l) q' P (fun c Hc => proj1 (BL c Hc)) H) as [[M ->]|(c & m & b & c2 & M & CL & -> & B2 & P2)].
  - split; [|split; [exact Sl|split]].
    + apply built_unfold. split; [exact P|]. rewrite <- below_children. apply Forall_forall. intros x Hx. now apply BL.
    + apply rewritten_same_shape.
      * revert F'. apply Forall2_weaken. tauto.
      * destruct q; cbn [below] in F'; shapes F'; cbn [with_below] in M; try discriminate M; reflexivity.
    + apply everywhere_iff. split; [|intros x Hx; now apply BL].
      intros x y Hx. rewrite measured_of, M in Hx. discriminate Hx.
  - destruct (handle_schema _ _ _ _ _ s M CL Sl) as [S2 CM].
    split; [|split; [exact S2|split]].
    + apply built_unfold. split; [exact P2|]. rewrite <- below_children.
      destruct (with_below q l); try discriminate M; cbn [with_child below]; constructor; auto.
    + destruct q; cbn [below] in F'; shapes F'; cbn [with_below] in *; try discriminate M; injection M as <- <- <-;
        cbn [with_child];
        match goal with X : _ /\ _ /\ rewritten _ _ _ _ /\ _ |- _ => destruct X as (_ & _ & X & _) end;
        econstructor; eassumption.
    + apply everywhere_iff. split; [exact CM|].
      assert (E : everywhere (clean_measure cond_ok cat) c).
      { apply BL. destruct (with_below q l); try discriminate M; injection M as <- _ _; now left. }
      assert (X : below (with_child (with_below q l) c2) = [c2]) by (destruct (with_below q l); try discriminate M; reflexivity).
      rewrite X. intros x [<-|[]]. apply (cleaned_below _ m b c c2 CL E). intros y Hy z1 z2 Hz. congruence.
Qed.

(** *** Second pass: mechanisms *)
(** The query without its concrete mechanisms. *)
Fixpoint strip (q : query) : query :=
  match q with
  | PrivateSource n => PrivateSource n
  | GetGroups c l => GetGroups (strip c) l
  | GetBounds c k m a b => GetBounds (strip c) k m a b
  | Rename c m => Rename (strip c) m
  | Filter c s => Filter (strip c) s
  | Select c l => Select (strip c) l
  | MapQ c f n a => MapQ (strip c) f n a
  | FlatMap c f n a mr => FlatMap (strip c) f n a mr
  | FlatMapByID c f n => FlatMapByID (strip c) f n
  | JoinPrivate l r tl tr on => JoinPrivate (strip l) (strip r) tl tr on
  | JoinPublic c p on how => JoinPublic (strip c) p on how
  | ReplaceNullAndNan c rw => ReplaceNullAndNan (strip c) rw
  | ReplaceInfinity c rw => ReplaceInfinity (strip c) rw
  | DropNullAndNan c l => DropNullAndNan (strip c) l
  | DropInfinity c l => DropInfinity (strip c) l
  | EnforceConstraint c k => EnforceConstraint (strip c) k
  | GroupByCount c k o m _ => GroupByCount (strip c) k o m None
  | GroupByCountDistinct c k l o m _ => GroupByCountDistinct (strip c) k l o m None
  | GroupByQuantile c k m qu a b o => GroupByQuantile (strip c) k m qu a b o
  | GroupByBounded kd c k m a b o me _ => GroupByBounded kd (strip c) k m a b o me None
  | SuppressAggregates c l t => SuppressAggregates (strip c) l t
  end.
Lemma sch_strip q : sch (strip q) = sch q.
Proof. induction q; cbn [strip schema_of]; rewrite ?IHq, ?IHq1, ?IHq2; reflexivity. Qed.
Lemma sch_stripped q q' : strip q = strip q' -> sch q = sch q'.
Proof. intros E. rewrite <- (sch_strip q), <- (sch_strip q'). now rewrite E. Qed.
Lemma strip_with_below q l : Forall2 (fun c c' => strip c' = strip c) (below q) l -> strip (with_below q l) = strip q.
Proof.
  intros F. destruct q; cbn [below] in F; shapes F; cbn [with_below strip]; congruence.
Qed.
Lemma cleaned_strip m b c c2 c2' : cleaned cond_ok cat m b c c2 -> strip c2 = strip c2' ->
  exists c', strip c = strip c' /\ cleaned cond_ok cat m b c' c2'.
Proof.
  intros (s & d & c1 & S & D & H1 & H2) E.
  assert (A : exists c1', strip c1 = strip c1' /\ (may_be_infinite d /\ c2' = without_infinities m b c1' \/ ~ may_be_infinite d /\ c2' = c1')).
  { destruct H2 as [[P ->]|[P ->]].
    - destruct b as [[lo hi]|]; cbn [without_infinities strip] in E; destruct c2'; cbn [strip] in E; try discriminate E;
        injection E as E <-; exists c2'; (split; [exact E|]); left; (split; [exact P|]); reflexivity.
    - exists c2'. split; [exact E|]. now right. }
  destruct A as (c1' & E1 & A).
  assert (Bx : exists c', strip c = strip c' /\ (may_be_missing d /\ c1' = DropNullAndNan c' [m] \/ ~ may_be_missing d /\ c1' = c')).
  { destruct H1 as [[P ->]|[P ->]].
    - destruct c1'; cbn [strip] in E1; try discriminate E1. injection E1 as E1 <-. exists c1'. split; [exact E1|]. now left.
    - exists c1'. split; [exact E1|]. now right. }
  destruct Bx as (c' & E2 & Bx). exists c'. split; [exact E2|]. exists s, d, c1'.
  rewrite <- (sch_stripped c c' E2). auto.
Qed.
Lemma rewritten_strip q q1 : rewritten cond_ok cat q q1 -> forall q2, strip q1 = strip q2 -> rewritten cond_ok cat q q2.
Proof.
  induction 1; intros q2 E; destruct q2; cbn [strip] in E; try discriminate E; try (injection E; intros; subst).
  all: try (injection E as E; subst; constructor; auto; fail).
  all: try (constructor; auto; fail).
  all: destruct (cleaned_strip _ _ _ _ _ H0 ltac:(eassumption)) as (cx & Ex & CL);
       econstructor; [apply IHrewritten; exact Ex|exact CL].
Qed.
Lemma clean_strip q : everywhere (clean_measure cond_ok cat) q -> forall q', strip q = strip q' -> everywhere (clean_measure cond_ok cat) q'.
Proof.
  induction q as [q IH] using query_below_ind. intros Q q' E. apply everywhere_iff in Q as [Q1 Q2]. apply everywhere_iff. split.
  - intros c m M. assert (exists c0, measure_of q = Some (c0, m) /\ strip c0 = strip c) as (c0 & M0 & E0).
    { destruct q'; try discriminate M; injection M as <- <-; destruct q; cbn [strip] in E; try discriminate E;
        injection E; intros; subst; eexists; split; try reflexivity; assumption. }
    rewrite <- (sch_stripped c0 c E0). exact (Q1 c0 m M0).
  - intros c Hc. assert (exists c0, In c0 (below q) /\ strip c0 = strip c) as (c0 & H0 & E0).
    { destruct q'; cbn [below] in Hc; destruct q; cbn [strip] in E; try discriminate E;
        injection E; intros; subst; repeat (destruct Hc as [<-|Hc]; [eexists; split; [|eassumption]; cbn [below In]; auto|]); destruct Hc. }
    exact (IH c0 H0 (Q2 c0 H0) c E0).
Qed.

Lemma count_noise_ok m x : count_noise mu m = Ok x -> right_noise mu m True x.
Proof.
  unfold count_noise, right_noise, integer_noise, gaussian_noise. intros H.
  destruct m, mu; cbn in H; try discriminate H; injection H as <-; repeat split; intros; intuition congruence.
Qed.
Lemma other_noise_ok m t x : t = INTEGER \/ t = DECIMAL -> other_noise mu m t = Ok x -> right_noise mu m (t = INTEGER) x.
Proof.
  unfold other_noise, right_noise, integer_noise, gaussian_noise. intros T H.
  destruct T as [-> | ->], m, mu; cbn in H; try discriminate H; injection H as <-; repeat split; intros; intuition congruence.
Qed.

Lemma noise_spec q q' : post_init auto q = Ok q -> noise q = Ok q' ->
  strip q' = strip q /\ below q' = below q /\ post_init auto q' = Ok q'
  /\ forall s, sch q = Ok s -> right_mechanism cond_ok mu cat q'.
Proof.
  intros P H. destruct q; cbn [select_noise] in H;
    try (injection H as <-; repeat split; try assumption; intros; exact I).
  - inv_ok H. cbn [post_init] in P, H. inv_ok P. rewrite E0 in H. cbn [bind] in H. injection H as <-.
    cbn [post_init strip below]. rewrite E0. repeat split. intros s S. exists x. split; [reflexivity|]. now apply count_noise_ok.
  - inv_ok H. cbn [post_init] in P, H. inv_ok P. rewrite E0 in H. cbn [bind] in H. injection H as <-.
    cbn [post_init strip below]. rewrite E0. repeat split. intros s S. exists x. split; [reflexivity|]. now apply count_noise_ok.
  - inv_ok H. inv_ok H. inv_ok H. inv_ok H. rename x0 into sc, x1 into d, x2 into y. cbn [post_init] in P, H. inv_ok P. inv_ok P.
    rewrite E3, E4 in H. cbn [bind] in H. injection H as <-. injection P as P1 P2. rewrite P1, P2.
    cbn [post_init strip below]. rewrite E3, E4. cbn [bind]. rewrite P1, P2. repeat split. intros s S.
    cbn [schema_of] in S. rewrite E0 in S. cbn [bind] in S.
    destruct (groupby_measure _ _ _ _ _ S) as (_ & _ & _ & d' & D & T).
    unfold lookup_col in E1. rewrite D in E1. injection E1 as ->.
    exists y, sc, d. repeat split; try assumption; apply (other_noise_ok m (cd_type d) y T E2).
Qed.

Definition second_pass (q q' : query) : Prop := forall s, sch q = Ok s ->
  strip q' = strip q /\ built auto q' /\ everywhere (right_mechanism cond_ok mu cat) q'.
Lemma second_pass_ok q q' : built auto q -> df noise q = Ok q' -> second_pass q q'.
Proof.
  apply depth_first_ind. clear q q'. intros q l q' B F C P H s S.
  pose proof (sch_below q s S) as SB.
  assert (F' : Forall2 (fun c c' => strip c' = strip c /\ built auto c' /\ everywhere (right_mechanism cond_ok mu cat) c') (below q) l).
  { revert F. apply Forall2_weaken. intros a b Ha R. destruct (SB a Ha) as (sa & Sa). exact (R sa Sa). }
  assert (BL : forall c, In c l -> built auto c /\ everywhere (right_mechanism cond_ok mu cat) c).
  { clear - F'. induction F' as [|a b la lb X F2 IH]; intros c Hc; [destruct Hc|]. destruct Hc as [<-|Hc]; [tauto|exact (IH c Hc)]. }
  assert (E : strip (with_below q l) = strip q).
  { apply strip_with_below. revert F'. apply Forall2_weaken. tauto. }
  assert (Sl : sch (with_below q l) = Ok s) by (rewrite (sch_stripped _ _ E); exact S).
  destruct (noise_spec _ _ P H) as (X1 & X2 & X3 & X4). rewrite (below_with_below q l _ F') in X2.
  split; [congruence|]. split.
  - apply built_unfold. split; [exact X3|]. rewrite <- below_children, X2. apply Forall_forall. intros c Hc. now apply BL.
  - apply everywhere_iff. split; [exact (X4 s Sl)|]. rewrite X2. intros c Hc. now apply BL.
Qed.

(** *** Rewriting *)
Lemma rewrite_ok q q' s : built auto q -> sch q = Ok s -> rewrite auto cond_ok mu cat q = Ok q' ->
  built auto q' /\ sch q' = Ok s /\ rewritten cond_ok cat q q'
  /\ everywhere (clean_measure cond_ok cat) q' /\ everywhere (right_mechanism cond_ok mu cat) q'.
Proof.
  intros B S H. unfold rewrite in H. inv_ok H. rename x into q1.
  destruct (first_pass_ok q q1 B E s S) as (B1 & S1 & R1 & C1).
  destruct (second_pass_ok q1 q' B1 H s S1) as (E2 & B2 & M2). symmetry in E2.
  split; [exact B2|]. split; [|split; [|split; [|exact M2]]].
  - rewrite <- (sch_stripped _ _ E2). exact S1.
  - exact (rewritten_strip q q1 R1 q' E2).
  - exact (clean_strip q1 C1 q' E2).
Qed.

(** Nothing to do, nothing done. *)
Lemma handle_id q : clean_measure cond_ok cat q -> handle q = Ok q.
Proof.
  intros C. unfold handle_special_values. destruct (measured q) as [[[c m] b]|] eqn:M; [|reflexivity].
  destruct (C c m) as (s & d & S & D & N1 & N2); [now rewrite measured_of, M|].
  rewrite S. cbn [bind]. unfold lookup_col. rewrite D. cbn [bind].
  destruct (cd_null d || is_decimal d && cd_nan d) eqn:X1; [apply missing_spec in X1; contradiction|].
  destruct (is_decimal d && cd_inf d) eqn:X2; [apply infinite_spec in X2; contradiction|]. reflexivity.
Qed.
Lemma right_count m x : right_noise mu m True x -> count_noise mu m = Ok x.
Proof.
  unfold count_noise, right_noise, integer_noise, gaussian_noise. intros (A & B & C).
  destruct m, mu, x; intuition congruence.
Qed.
Lemma right_other m t x : t = INTEGER \/ t = DECIMAL -> right_noise mu m (t = INTEGER) x -> other_noise mu m t = Ok x.
Proof.
  unfold other_noise, right_noise, integer_noise, gaussian_noise. intros T (A & B & C).
  destruct T as [-> | ->]; destruct m, mu, x; cbn; intuition congruence.
Qed.
Lemma noise_id q s : post_init auto q = Ok q -> sch q = Ok s -> right_mechanism cond_ok mu cat q -> noise q = Ok q.
Proof.
  intros P S R. destruct q; cbn [select_noise]; try reflexivity; cbn [right_mechanism] in R.
  - destruct R as (x & -> & R). rewrite (right_count _ _ R). cbn [bind]. exact P.
  - destruct R as (x & -> & R). rewrite (right_count _ _ R). cbn [bind]. exact P.
  - destruct R as (x & sc & d & -> & Sc & D & R). cbn [schema_of] in S. rewrite Sc in S. cbn [bind] in S.
    destruct (groupby_measure _ _ _ _ _ S) as (_ & _ & _ & d' & D' & T). rewrite D in D'. injection D' as <-.
    pose proof (right_other m (cd_type d) x T R) as O.
    assert (exists y, other_noise mu m INTEGER = Ok y) as (y & ->).
    { unfold other_noise in O |- *. destruct m, mu; try discriminate O; eexists; reflexivity. }
    cbn [bind]. rewrite Sc. cbn [bind]. unfold lookup_col. rewrite D. cbn [bind]. rewrite O. cbn [bind]. exact P.
Qed.
Lemma rewrite_id q s : built auto q -> sch q = Ok s ->
  everywhere (clean_measure cond_ok cat) q -> everywhere (right_mechanism cond_ok mu cat) q ->
  rewrite auto cond_ok mu cat q = Ok q.
Proof.
  intros B S C R. unfold rewrite.
  assert (H1 : everywhere (fun n => handle n = Ok n) q).
  { clear - C. induction q as [q IH] using query_below_ind. apply everywhere_iff in C as [C1 C2]. apply everywhere_iff.
    split; [now apply handle_id|]. intros c Hc. apply IH; auto. }
  rewrite (depth_first_id _ q B H1). cbn [bind].
  apply (depth_first_id _ q B). revert s B S R. clear.
  induction q as [q IH] using query_below_ind. intros s B S R. apply everywhere_iff in R as [R1 R2].
  apply built_unfold in B as [P BC]. rewrite <- below_children, Forall_forall in BC.
  apply everywhere_iff. split; [exact (noise_id q s P S R1)|]. intros c Hc.
  destruct (sch_below q s S c Hc) as (sc & Sc). exact (IH c Hc sc (BC c Hc) Sc (R2 c Hc)).
Qed.
Lemma rewrite_idem q q' s : built auto q -> sch q = Ok s -> rewrite auto cond_ok mu cat q = Ok q' ->
  rewrite auto cond_ok mu cat q' = Ok q'.
Proof.
  intros B S H. destruct (rewrite_ok q q' s B S H) as (B' & S' & _ & C & R). exact (rewrite_id q' s B' S' C R).
Qed.

(** *** When rewriting succeeds *)
Lemma finite_to_float x : finite_f (to_float x) = true <-> finite_number x.
Proof.
  destruct x as [z|f]; cbn [to_float finite_number].
  - unfold z_to_f. split; trivial.
  - destruct f; cbn; split; intros H; try discriminate H; try (destruct H as (v & H); discriminate H); try reflexivity. eauto.
Qed.
Lemma handle_total q s : post_init auto q = Ok q -> sch q = Ok s ->
  clampable cond_ok cat q <-> exists q', handle q = Ok q'.
Proof.
  intros P S. unfold handle_special_values. destruct (measured q) as [[[c m] b]|] eqn:M.
  2:{ split; [eexists; reflexivity|]. intros _ c m s' d lo hi X. rewrite measured_of, M in X. discriminate X. }
  destruct (measured_schema q c m b s M S) as (k & outs & sc & Sc & G & W).
  destruct (groupby_measure _ _ _ _ _ G) as (_ & _ & _ & d & D & _).
  rewrite Sc. cbn [bind]. unfold lookup_col. rewrite D. cbn [bind].
  set (drop := cd_null d || is_decimal d && cd_nan d).
  assert (X : exists q1, (if drop then let* c1 := post_init auto (DropNullAndNan c [m]) in post_init auto (with_child q c1) else Ok q) = Ok q1
              /\ measured q1 = Some (if drop then DropNullAndNan c [m] else c, m, b) /\ post_init auto q1 = Ok q1).
  { destruct drop.
    - cbn [post_init bind]. exists (with_child q (DropNullAndNan c [m])). pose proof (with_child_post q c (DropNullAndNan c [m]) m b M P) as Y.
      split; [exact Y|]. split; [|exact Y]. destruct q; try discriminate M; injection M as _ <- <-; reflexivity.
    - exists q. auto. }
  destruct X as (q1 & -> & M1 & P1). cbn [bind].
  assert (BD : b = bounds_of q) by (destruct q; try discriminate M; injection M as _ _ <-; reflexivity).
  destruct (is_decimal d && cd_inf d) eqn:IF.
  - apply infinite_spec in IF. destruct b as [[lo hi]|]; cbn [post_init].
    + cbn [existsb fst snd]. rewrite orb_false_r. split.
      * intros C. destruct (C c m sc d lo hi) as [F1 F2]; try assumption; [now rewrite measured_of, M|symmetry; exact BD|].
        apply finite_to_float in F1. apply finite_to_float in F2. rewrite F1, F2. cbn [andb negb raise_if bind].
        eexists. exact (with_child_post q1 _ _ m _ M1 P1).
      * intros (q' & H). inv_ok H. inv_ok E. apply negb_false_iff, andb_true_iff in E0 as [F1 F2].
        intros c' m' s' d' lo' hi' A B' _ _ _. rewrite <- BD in B'. injection B' as <- <-. now rewrite <- !finite_to_float.
    + cbn [bind]. split.
      * intros _. eexists. exact (with_child_post q1 _ _ m _ M1 P1).
      * intros _ c' m' s' d' lo' hi' A B'. congruence.
  - split; [intros _; eexists; reflexivity|]. intros _ c' m' s' d' lo' hi' A B' S' D' I'.
    rewrite measured_of, M in A. injection A as <- <-. assert (s' = sc) as -> by congruence. assert (d' = d) as -> by congruence.
    apply infinite_spec in I'. congruence.
Qed.
Lemma noise_total q s : post_init auto q = Ok q -> sch q = Ok s -> noise_available mu q <-> exists q', noise q = Ok q'.
Proof.
  intros P S. unfold noise_available. destruct q; cbn [asked_mechanism select_noise]; try (split; [eexists; reflexivity|discriminate]).
  - cbn [post_init] in P |- *. inv_ok P. unfold count_noise. rewrite E.
    destruct m, mu; cbn; split; intros H; try (eexists; reflexivity); try (now intuition congruence); destruct H as (? & H); discriminate H.
  - cbn [post_init] in P |- *. inv_ok P. unfold count_noise. rewrite E.
    destruct m, mu; cbn; split; intros H; try (eexists; reflexivity); try (now intuition congruence); destruct H as (? & H); discriminate H.
  - cbn [post_init] in P |- *. inv_ok P. inv_ok P. rewrite E, E0. cbn [schema_of] in S. inv_ok S.
    destruct (groupby_measure _ _ _ _ _ S) as (_ & _ & _ & d & D & T). rewrite E1. unfold lookup_col. cbn [bind]. rewrite D. cbn [bind].
    unfold other_noise.
    destruct m, mu; cbn; split; intros H; try (eexists; reflexivity); try (now intuition congruence); destruct H as (? & H); discriminate H.
Qed.

Lemma clampable_with_below q l : Forall2 (fun c c' => sch c' = sch c) (below q) l ->
  clampable cond_ok cat (with_below q l) <-> clampable cond_ok cat q.
Proof.
  intros F. unfold clampable. destruct q; cbn [below] in F; shapes F; cbn [with_below measure_of bounds_of]; try tauto;
    (split; intros C c' m' s' d' lo' hi' A B' S' D' I'; [|];
     injection A as <- <-; (eapply C; [reflexivity|eassumption| |eassumption|assumption]); congruence).
Qed.
Lemma noise_available_with_below q l (R : query -> query -> Prop) : Forall2 R (below q) l ->
  noise_available mu (with_below q l) <-> noise_available mu q.
Proof. intros F. unfold noise_available. destruct q; cbn [below] in F; shapes F; cbn [with_below asked_mechanism]; tauto. Qed.

(** A pass succeeds exactly when its rule can be applied at every node. *)
Lemma pass_total func (Q : query -> Prop) :
  (forall q s, post_init auto q = Ok q -> sch q = Ok s -> Q q <-> exists q', func q = Ok q') ->
  (forall q l, Forall2 (fun c c' => sch c' = sch c) (below q) l -> Q (with_below q l) <-> Q q) ->
  (forall q q' s, built auto q -> sch q = Ok s -> df func q = Ok q' -> sch q' = sch q /\ is_groupby_count q' = is_groupby_count q) ->
  forall q s, built auto q -> sch q = Ok s -> everywhere Q q <-> exists q', df func q = Ok q'.
Proof.
  intros HF HB HS. induction q as [q IH] using query_below_ind. intros s B S.
  pose proof (proj1 (built_unfold auto q) B) as [P BC]. rewrite <- below_children, Forall_forall in BC.
  pose proof (sch_below q s S) as SB. rewrite everywhere_iff, (depth_first_step func q B).
  assert (IH' : forall c, In c (below q) -> everywhere Q c <-> exists c', df func c = Ok c').
  { intros c Hc. destruct (SB c Hc) as (sc & Sc). exact (IH c Hc sc (BC c Hc) Sc). }
  assert (FL : forall l, mapM (df func) (below q) = Ok l -> Forall2 (fun c c' => sch c' = sch c) (below q) l /\ count_below q l).
  { intros l El. apply mapM_ok_Forall2 in El.
    assert (F : Forall2 (fun c c' => sch c' = sch c /\ is_groupby_count c' = is_groupby_count c) (below q) l).
    { revert El. apply Forall2_weaken. intros c c' Hc E. destruct (SB c Hc) as (sc & Sc). exact (HS c c' sc (BC c Hc) Sc E). }
    split; [revert F; apply Forall2_weaken; tauto|].
    pose proof (count_below_self q P) as C. destruct q; try exact I. cbn [below] in F. shapes F. cbn [count_below below forallb] in C |- *.
    destruct H as [_ ->]. exact C. }
  assert (ML : (forall c, In c (below q) -> everywhere Q c) <-> exists l, mapM (df func) (below q) = Ok l).
  { clear - IH'. revert IH'. generalize (below q). induction l as [|c l IHl]; intros H.
    - split; [eexists; reflexivity|]. intros _ c [].
    - cbn [mapM]. split.
      + intros A. destruct (proj1 (H c (or_introl eq_refl)) (A c (or_introl eq_refl))) as (c' & E1).
        destruct (proj1 (IHl (fun x Hx => H x (or_intror Hx))) (fun x Hx => A x (or_intror Hx))) as (l' & E2).
        rewrite E1, E2. eexists. reflexivity.
      + intros (l' & E) x Hx. inv_ok E. inv_ok E. destruct Hx as [<-|Hx].
        * apply H; [now left|eauto].
        * apply (proj2 (IHl (fun x Hx => H x (or_intror Hx)))); [eauto|exact Hx]. }
  rewrite ML. split.
  - intros (Q1 & l & E). destruct (FL l E) as [F C]. rewrite E. cbn [bind].
    replace (match q with SuppressAggregates _ _ _ => negb (forallb is_groupby_count l) | _ => false end) with false
      by (destruct q; try reflexivity; cbn [count_below] in C; now rewrite C).
    cbn [raise_if bind]. pose proof (with_below_post q l _ P F C) as PW. rewrite PW. cbn [bind].
    apply (HF (with_below q l) s PW).
    + rewrite (sch_with_below q l F). exact S.
    + apply (HB q l F). exact Q1.
  - intros (q' & H). inv_ok H. inv_ok H. inv_ok H. split; [|eauto]. destruct (FL x E) as [F C].
    pose proof (with_below_post q x _ P F C) as PW. rewrite PW in E1. injection E1 as <-.
    apply (HB q x F). apply (HF (with_below q x) s PW); [|eauto]. rewrite (sch_with_below q x F). exact S.
Qed.

Lemma rewritten_count q q' : rewritten cond_ok cat q q' -> is_groupby_count q' = is_groupby_count q.
Proof. destruct 1; reflexivity. Qed.
Lemma strip_count q : is_groupby_count (strip q) = is_groupby_count q.
Proof. destruct q; reflexivity. Qed.

Lemma cleaned_available m b c c' : cleaned cond_ok cat m b c c' ->
  everywhere (noise_available mu) c' <-> everywhere (noise_available mu) c.
Proof.
  intros (s & d & c1 & _ & _ & H1 & H2).
  assert (A : everywhere (noise_available mu) c1 <-> everywhere (noise_available mu) c).
  { destruct H1 as [[_ ->]|[_ ->]]; [|reflexivity]. rewrite everywhere_iff. split.
    - intros [_ H]. apply H. now left.
    - intros H. split; [intros X; discriminate X|]. intros x [<-|[]]. exact H. }
  rewrite <- A. destruct H2 as [[_ ->]|[_ ->]]; [|reflexivity].
  destruct b as [[lo hi]|]; cbn [without_infinities]; rewrite everywhere_iff; (split; [intros [_ H]; apply H; now left|
    intros H; split; [intros X; discriminate X|]; intros x [<-|[]]; exact H]).
Qed.
Lemma rewritten_available q q' : rewritten cond_ok cat q q' -> everywhere (noise_available mu) q' <-> everywhere (noise_available mu) q.
Proof.
  induction 1; [reflexivity|..]; rewrite !everywhere_iff; cbn [below].
  all: unfold noise_available at 1; unfold noise_available at 2; cbn [asked_mechanism].
  all: split; intros [A B]; (split; [exact A|]); intros x Hx;
       repeat (destruct Hx as [<-|Hx]; [|]); try destruct Hx;
       try (apply (cleaned_available _ _ _ _ H0)); first [apply IHrewritten|apply IHrewritten1|apply IHrewritten2];
       try (apply (cleaned_available _ _ _ _ H0)); apply B; cbn [In]; auto.
Qed.

Lemma rewrite_total q s : built auto q -> sch q = Ok s ->
  (everywhere (clampable cond_ok cat) q /\ everywhere (noise_available mu) q) <-> exists q', rewrite auto cond_ok mu cat q = Ok q'.
Proof.
  intros B S. unfold rewrite.
  assert (T1 : everywhere (clampable cond_ok cat) q <-> exists q', df handle q = Ok q').
  { apply (pass_total handle (clampable cond_ok cat)) with (s := s); try assumption.
    - intros. now apply handle_total with (s := s0).
    - apply clampable_with_below.
    - intros q0 q' s0 B0 S0 D0. destruct (first_pass_ok q0 q' B0 D0 s0 S0) as (_ & X & R & _).
      split; [congruence|]. exact (rewritten_count _ _ R). }
  assert (T2 : forall q1 s1, built auto q1 -> sch q1 = Ok s1 -> everywhere (noise_available mu) q1 <-> exists q', df noise q1 = Ok q').
  { apply (pass_total noise (noise_available mu)).
    - intros. now apply noise_total with (s := s0).
    - intros q0 l F. exact (noise_available_with_below q0 l _ F).
    - intros q0 q' s0 B0 S0 D0. destruct (second_pass_ok q0 q' B0 D0 s0 S0) as (X & _).
      split; [exact (sch_stripped _ _ X)|]. rewrite <- (strip_count q0), <- (strip_count q'). now rewrite X. }
  split.
  - intros [C N]. destruct (proj1 T1 C) as (q1 & E1). rewrite E1. cbn [bind].
    destruct (first_pass_ok q q1 B E1 s S) as (B1 & S1 & R1 & _). apply (T2 q1 s B1 S1). now apply (rewritten_available q q1 R1).
  - intros (q' & H). inv_ok H. destruct (first_pass_ok q x B E s S) as (B1 & S1 & R1 & _). split; [apply T1; eauto|].
    apply (rewritten_available q x R1). apply (T2 x s B1 S1). eauto.
Qed.
End Proofs.
