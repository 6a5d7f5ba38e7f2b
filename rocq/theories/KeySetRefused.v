(** What KeySets require: everything that was built met the documented requirements. *)
From Coq Require Import String Bool Arith ZArith Lia Permutation List.
From Verif Require Import Prelude Value KeySet KeySetSem KeySetRules KeySetApi KeySetTotal KeySetTotalApi KeySetSchema KeySetSchemaApi.
Import ListNotations.
Local Open Scope list_scope.

(** ** Specification *)

(** The requirements documented for each operation, for all parts of [e]:
    - names of columns are not empty and not repeated, tuples have one value for each column, each
      column has values of one type, one of which is not null, and the type is a key type;
    - factors of a product have no common column; joined KeySets have one, and common columns
      have the same type on both sides; the sides of a union have the same columns, with the same
      types; what is removed has no columns that the other side lacks;
    - a selection names at least one column, none twice, and only columns of the KeySet;
    - a condition given as a string is not empty. *)
Fixpoint required (W : world) (e : kexpr) : Prop :=
  match e with
  | ETuples ts cs =>
      NoDup cs /\ ~ In EmptyString cs /\ (forall r, In r ts -> length r = length cs) /\ (cs = [] -> ts = [])
      /\ forall i, (i < length cs)%nat -> exists t, key_type t /\ uniform (map (fun r => nth i r VNull) ts) t
  | EDict d =>
      NoDup (map fst d) /\ ~ In EmptyString (map fst d)
      /\ forall c vs, In (c, vs) d -> exists t, key_type t /\ uniform vs t
  | EFrame p d =>
      NoDup (map fst d) /\ ~ In EmptyString (map fst d) /\ (d = [] -> content W p = [])
      /\ forall c cd, In (c, cd) d -> key_type (cd_type cd)
  | EDetect _ => True
  | EMul a b => required W a /\ required W b /\ forall c, In c (kcols a) -> ~ In c (kcols b)
  | EJoin a b => required W a /\ required W b /\ (exists c, In c (kcols a) /\ In c (kcols b))
      /\ forall c t, In c (kcols a) -> In c (kcols b) -> (typed a c t <-> typed b c t)
  | EUnion a b => required W a /\ required W b /\ (forall c, In c (kcols a) <-> In c (kcols b))
      /\ forall c t, In c (kcols a) -> (typed a c t <-> typed b c t)
  | ESub a b => required W a /\ required W b /\ forall c, In c (kcols b) -> In c (kcols a)
  | EProj a cs => required W a /\ NoDup cs /\ cs <> [] /\ forall c, In c cs -> In c (kcols a)
  | EFilter a k => required W a /\ k <> CondStr EmptyString
  end.

(** ** Proof *)
Lemma raise_ok {A} b (x : exn) (k : res A) r : (let* _ := raise_if b x in k) = Ok r -> b = false /\ k = Ok r.
Proof. destruct b; [discriminate|]. auto. Qed.

Lemma validated d u : validate_schema d = Ok u -> ~ In EmptyString (dkeys d) /\ forall c cd, In (c, cd) d -> key_type (cd_type cd).
Proof.
  unfold validate_schema, validate_column_names. intros E. apply raise_ok in E as [E1 E]. split; [apply smem_false, E1|].
  intros c cd H. destruct (existsb _ d) eqn:X; [discriminate|]. apply keyset_type_key.
  destruct (keyset_type (cd_type cd)) eqn:K; [reflexivity|]. exfalso.
  assert (Y : existsb (fun p => negb (keyset_type (cd_type (snd p)))) d = true); [|congruence].
  apply existsb_exists. exists (c, cd). split; [exact H|]. cbn [snd]. rewrite K. reflexivity.
Qed.

Lemma infer_uniform vs d : infer_column vs = Ok d -> uniform vs (cd_type d).
Proof.
  intros E. destruct (infer_spec vs d E) as [T _]. split; [apply T; reflexivity|].
  intros v Hv. destruct (value_type v) as [t|] eqn:V.
  - right. f_equal. symmetry. apply T. eauto.
  - left. destruct v; try discriminate. reflexivity.
Qed.

Lemma infer_at ts (cs : list string) : forall n ds,
  mapM (fun p => let* d := infer_column (column_at (fst p) ts) in Ok (snd p, d)) (combine (seq n (length cs)) cs) = Ok ds ->
  forall i, (i < length cs)%nat -> exists c d, In (c, d) ds /\ infer_column (column_at (n + i) ts) = Ok d.
Proof.
  induction cs as [|c0 cs IH]; intros n ds E i Hi; cbn [length seq combine mapM] in *; [lia|].
  apply bind_ok in E as (y & Ey & E). apply bind_ok in Ey as (d0 & Ed & Ey). injection Ey as <-.
  apply bind_ok in E as (ys & Eys & E). injection E as <-. cbn [fst snd] in *.
  destruct i as [|i].
  - exists c0, d0. rewrite Nat.add_0_r. split; [left; reflexivity|exact Ed].
  - destruct (IH (S n) ys Eys i) as (c & d & H & E); [lia|]. exists c, d. split; [right; exact H|].
    replace (n + S i)%nat with (S n + i)%nat by lia. exact E.
Qed.

Lemma from_tuples_required W ts cs k : from_tuples W ts cs = Ok k -> required W (ETuples ts cs).
Proof.
  intros E. pose proof (from_tuples_described W ts cs k E) as (_ & _ & N & _). cbn [required].
  unfold from_tuples in E. apply raise_ok in E as [L E]. apply bind_ok in E as (ds & Ed & E).
  apply bind_ok in E as (o & Eo & _). pose proof (infer_names _ _ _ Ed) as Nm.
  assert (Dd : dict_of ds = ds) by (apply dict_of_NoDup; rewrite Nm; exact N). rewrite Dd in Eo.
  unfold mkFromTuples in Eo. apply bind_ok in Eo as (u & Ev & Eo). apply raise_ok in Eo as [Z Eo].
  destruct (validated _ _ Ev) as [Ne Kt]. unfold dkeys in Ne. rewrite Nm in Ne.
  split; [exact N|]. split; [exact Ne|]. split; [|split].
  - intros r Hr. apply negb_false_iff in L. rewrite forallb_forall in L. apply Nat.eqb_eq, L, nodup_In, Hr.
  - intros ->. destruct ds as [|d ds]; [|discriminate Nm]. cbn [is_nil andb] in Z.
    destruct ts as [|r ts]; [reflexivity|]. exfalso.
    assert (H : In r (nodup row_eq_dec (r :: ts))) by (apply nodup_In; left; reflexivity).
    destruct (nodup row_eq_dec (r :: ts)); [exact H|discriminate].
  - intros i Hi. destruct (infer_at _ _ 0%nat ds Ed i Hi) as (c & d & Hd & Ei). cbn [Nat.add] in Ei.
    exists (cd_type d). split; [apply (Kt c), Hd|]. apply infer_uniform in Ei as [(v & Hv & V) A].
    assert (M : forall v, In v (column_at i (nodup row_eq_dec ts)) <-> In v (map (fun r => nth i r VNull) ts)).
    { intros x. unfold column_at. rewrite !in_map_iff. split; intros (r & R1 & R2); exists r; (split; [exact R1|]); [apply nodup_In in R2; exact R2|apply nodup_In, R2]. }
    split; [exists v; split; [apply M, Hv|exact V]|]. intros x Hx. apply A, M, Hx.
Qed.

Lemma single_required W c vs k : from_tuples W (map (fun v => [v]) vs) [c] = Ok k ->
  c <> EmptyString /\ exists t, key_type t /\ uniform vs t.
Proof.
  intros E. apply from_tuples_required in E as (_ & Ne & _ & _ & U). split; [intros ->; apply Ne; left; reflexivity|].
  destruct (U 0%nat) as (t & K & H); [cbn; lia|]. exists t. split; [exact K|].
  rewrite map_map in H. cbn [nth] in H. rewrite map_id in H. exact H.
Qed.

Lemma mul_all_required W l : forall acc k,
  mul_all W acc (map (fun p => from_tuples W (map (fun v => [v]) (snd p)) [fst p]) l) = Ok k ->
  forall c vs, In (c, vs) l -> c <> EmptyString /\ exists t, key_type t /\ uniform vs t.
Proof.
  induction l as [|[c0 vs0] l IH]; intros acc k E c vs H; [destruct H|]. cbn [map mul_all fst snd] in E.
  apply bind_ok in E as (k1 & E1 & E). apply bind_ok in E as (k2 & _ & E).
  destruct H as [H|H]; [injection H as <- <-; apply (single_required _ _ _ _ E1)|eapply IH; eassumption].
Qed.

Theorem eval_required W e : concrete e = true -> frames_ok e -> forall k, eval W e = Ok k -> required W e.
Proof.
  induction e as [ts cs|d|p d|cs|a IHa b IHb|a IHa b IHb|a IHa b IHb|a IHa b IHb|a IHa cs|a IHa cnd];
    intros Cn Fo k E; cbn [concrete frames_ok eval] in *; try discriminate;
    try (apply andb_true_iff in Cn as [Cna Cnb]; destruct Fo as [Foa Fob];
         apply bind_ok in E as (x & Ex & E); apply bind_ok in E as (y & Ey & E);
         pose proof (eval_described W a Cna Foa x Ex) as (Ca & _ & _ & Ka & Aa);
         pose proof (eval_described W b Cnb Fob y Ey) as (Cb & _ & _ & Kb & Ab);
         specialize (IHa Cna Foa x Ex); specialize (IHb Cnb Fob y Ey);
         cbn [required]; split; [exact IHa|]; split; [exact IHb|]);
    try (apply bind_ok in E as (x & Ex & E);
         pose proof (eval_described W a Cn Fo x Ex) as (Ca & _ & _ & Ka & Aa);
         specialize (IHa Cn Fo x Ex); cbn [required]; split; [exact IHa|]).
  - eapply from_tuples_required, E.
  - pose proof (from_dict_described W d k E) as (_ & _ & N & _). cbn [required]. split; [exact N|].
    assert (X : forall c vs, In (c, vs) d -> c <> EmptyString /\ exists t, key_type t /\ uniform vs t).
    { unfold from_dict in E. destruct d as [|[c0 vs0] d]; [intros c vs []|]. cbn [map fst snd] in E.
      apply bind_ok in E as (k1 & E1 & E). intros c vs [H|H].
      - injection H as <- <-. apply (single_required _ _ _ _ E1).
      - eapply mul_all_required; eassumption. }
    split; [|intros c vs H; apply (X c vs H)]. intros H. apply in_map_iff in H as ([c vs] & H1 & H2).
    cbn [fst] in H1. destruct (X c vs H2) as [X1 _]. contradiction.
  - cbn [required]. split; [exact Fo|]. unfold from_dataframe in E. apply bind_ok in E as (o & Eo & _). unfold mkFromDF in Eo.
    apply bind_ok in Eo as (u & Ev & Eo). apply raise_ok in Eo as [Z _]. destruct (validated _ _ Ev) as [Ne Kt].
    split; [exact Ne|]. split; [|exact Kt]. intros ->. cbn [is_nil andb] in Z. destruct (content W p); [reflexivity|discriminate].
  - unfold ks_mul in E. apply bind_ok in E as (o & Eo & _). apply mkCrossJoin_ok in Eo as (_ & _ & DJ & _).
    intros c H1 H2. inversion DJ as [|? ? F _]; subst. rewrite Forall_forall in F.
    eapply (F (ks_tree y)); [left; reflexivity|apply Ka; exact H1|apply Kb; exact H2].
  - unfold ks_join in E. apply bind_ok in E as (o & Eo & _).
    destruct (checked_mkJoin _ _ _ Ca Cb Eo) as [-> Co]. apply mkJoin_ok in Eo as (_ & c & Hc).
    destruct Hc as [H1 H2]. split; [exists c; split; [apply Ka, H1|apply Kb, H2]|].
    intros z t Z1 Z2. rewrite <- (proj2 (Aa z Z1) t), <- (proj2 (Ab z Z2) t).
    apply join_agree; [exact Co|apply Ka, Z1|apply Kb, Z2].
  - unfold ks_union in E. apply bind_ok in E as (o & Eo & _).
    destruct (checked_mkUnion _ _ _ Ca Cb Eo) as [-> Co]. apply mkUnion_ok in Eo as (_ & S).
    assert (Cs : forall c, In c (kcols a) <-> In c (kcols b)).
    { intros c. rewrite <- Ka, <- Kb. apply S. }
    split; [exact Cs|]. intros z t Z1. pose proof (proj1 (Cs z) Z1) as Z2.
    rewrite <- (proj2 (Aa z Z1) t), <- (proj2 (Ab z Z2) t).
    destruct (mkUnion_types _ _ Co) as (sl & sr & El & Er & Ty).
    destruct (schema_spec _ Ca) as (sl' & El' & (_ & _ & Al)). destruct (schema_spec _ Cb) as (sr' & Er' & (_ & _ & Ar)).
    assert (sl' = sl) as -> by congruence. assert (sr' = sr) as -> by congruence.
    destruct (Ty z) as (p & q & Ep & Eq & Tpq); [apply Ka, Z1|].
    rewrite <- (proj1 (Al z p Ep) t), <- (proj1 (Ar z q Eq) t), Tpq. tauto.
  - unfold ks_sub in E. apply bind_ok in E as (o & Eo & _). apply mkSubtract_ok in Eo as (_ & _ & Hc).
    intros c H. apply Ka, Hc, Kb, H.
  - unfold ks_project in E. apply has_dup_ok in E as [ND E]. apply bind_ok in E as (o & Eo & _).
    apply mkProject_ok in Eo as (_ & NE & Inc). split; [exact ND|]. split; [exact NE|].
    intros c H. apply Ka, Inc, H.
  - unfold ks_filter in E. apply bind_ok in E as (o & Eo & _). unfold mkFilter in Eo. apply raise_ok in Eo as [Z _].
    intros ->. discriminate.
Qed.
