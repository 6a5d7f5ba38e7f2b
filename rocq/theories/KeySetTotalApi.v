(** Building KeySets through the public operations succeeds, under explicit conditions. *)
From Coq Require Import String Bool Arith ZArith Lia List Permutation.
From Verif Require Import Prelude Value KeySet KeySetSem KeySetRules KeySetApi KeySetMore KeySetTotal KeySetTotalRules.
Import ListNotations.

(** ** Specification *)

(** A list of values of one type, with at least one value that is not null. *)
Definition uniform (vs : list value) (t : ctype) : Prop :=
  (exists v, In v vs /\ value_type v = Some t)
  /\ forall v, In v vs -> v = VNull \/ value_type v = Some t.
Definition key_type (t : ctype) : Prop := t = INTEGER \/ t = DATE \/ t = VARCHAR.

(** Column [c] of the KeySet has type [t]. *)
Fixpoint ktyp (e : kexpr) (c : string) (t : ctype) : Prop :=
  match e with
  | ETuples ts cs => exists i, nth_error cs i = Some c /\ uniform (map (fun r => nth i r VNull) ts) t
  | EDict d => exists vs, In (c, vs) d /\ uniform vs t
  | EFrame _ d => exists cd, In (c, cd) d /\ cd_type cd = t
  | EDetect _ => False
  | EMul a b | EJoin a b => ktyp a c t \/ ktyp b c t
  | EUnion a _ | ESub a _ => ktyp a c t
  | EProj a cs => In c cs /\ ktyp a c t
  | EFilter a _ => ktyp a c t
  end.

(** Every KeySet that takes part in the joins of [e] has column [c].  (In general two
    joined KeySets need only share some column; see the counterexample in Props_KeySet.) *)
Fixpoint khub (e : kexpr) (c : string) : Prop :=
  match e with
  | ETuples _ cs => In c cs
  | EDict d => In c (map fst d)
  | EFrame _ d => In c (map fst d)
  | EDetect cs => In c cs
  | EMul a b => khub a c \/ khub b c
  | EJoin a b => khub a c /\ khub b c
  | EUnion a _ => In c (kcols a)
  | ESub a _ => khub a c
  | EProj a cs => khub a c /\ In c cs
  | EFilter a _ => In c (kcols a)
  end.

(** The documented requirements of each operation; filters are SQL strings, and the joined
    KeySets of a chain of joins have a column in common. *)
Fixpoint kvalid (W : world) (e : kexpr) : Prop :=
  match e with
  | ETuples ts cs =>
      NoDup cs /\ ~ In EmptyString cs /\ (forall r, In r ts -> length r = length cs)
      /\ (cs = [] -> ts = [])
      /\ forall i, (i < length cs)%nat -> exists t, key_type t /\ uniform (map (fun r => nth i r VNull) ts) t
  | EDict d =>
      NoDup (map fst d) /\ ~ In EmptyString (map fst d)
      /\ forall c vs, In (c, vs) d -> exists t, key_type t /\ uniform vs t
  | EFrame p d =>
      ~ In EmptyString (map fst d) /\ (d = [] -> content W p = [])
      /\ forall c cd, In (c, cd) d -> key_type (cd_type cd)
  | EDetect _ => True
  | EMul a b => kvalid W a /\ kvalid W b /\ forall c, In c (kcols a) -> In c (kcols b) -> False
  | EJoin a b => kvalid W a /\ kvalid W b /\ (forall c t t', ktyp a c t -> ktyp b c t' -> t = t')
      /\ exists c, khub a c /\ khub b c
  | EUnion a b => kvalid W a /\ kvalid W b /\ (forall c, In c (kcols a) <-> In c (kcols b))
      /\ forall c t, ktyp a c t <-> ktyp b c t
  | ESub a b => kvalid W a /\ kvalid W b /\ forall c, In c (kcols b) -> In c (kcols a)
  | EProj a cs => kvalid W a /\ NoDup cs /\ cs <> [] /\ forall c, In c cs -> In c (kcols a)
  | EFilter a k => kvalid W a /\ exists s, k = CondStr s /\ s <> EmptyString
  end.

(** ** Proofs *)
Section TotalApi.
Variable W : world.
Variable D : oracle.
Notation full := (full W D).

Definition built (k : keyset) (cs : list string) (Ty : string -> ctype -> Prop) (H : string -> Prop) : Prop :=
  ks_cols k = cs /\ full (ks_tree k) /\ (forall c, In c (columns (ks_tree k)) <-> In c cs)
  /\ (forall c t, T (ks_tree k) c t <-> Ty c t) /\ (forall c, H c -> hub c (ks_tree k)).

Lemma mkKeySet_total o cs : full o -> NoDup cs -> (forall c, In c (columns o) <-> In c cs) ->
  exists k, mkKeySet W o cs = Ok k /\ built k cs (T o) (fun c => hub c o).
Proof.
  intros F N C. destruct (rewrite_total W D o F) as (t & Et & Ft & S & T1 & T2).
  exists {| ks_tree := t; ks_cols := cs |}. split.
  - unfold mkKeySet. rewrite (proj1 (proj2 F)). cbn [raise_if bind].
    rewrite (proj2 (has_dup_NoDup cs) N). cbn [raise_if bind].
    rewrite (proj2 (set_eqb_In _ _) C). cbn [negb raise_if bind]. rewrite Et. reflexivity.
  - split; [reflexivity|]. split; [assumption|]. split; [|split].
    + intros c. cbn [ks_tree]. rewrite <- (proj1 S). apply C.
    + intros c t0. symmetry. apply T1.
    + apply T2.
Qed.
Lemma built_weaken k cs (Ty Ty' : string -> ctype -> Prop) (H H' : string -> Prop) : built k cs Ty H ->
  (forall c t, Ty c t <-> Ty' c t) -> (forall c, H' c -> H c) -> built k cs Ty' H'.
Proof.
  intros (A & B & C & E & F) H1 H2. split; [assumption|]. split; [assumption|]. split; [assumption|].
  split; [intros; rewrite E; apply H1|auto].
Qed.
Lemma built_plan k cs Ty H : built k cs Ty H -> ks_plan k = false.
Proof. intros (_ & (_ & P & _) & _). exact P. Qed.

Lemma mul_total a b ca cb Ta Tb Ha Hb : built a ca Ta Ha -> built b cb Tb Hb ->
  NoDup ca -> NoDup cb -> (forall c, In c ca -> In c cb -> False) ->
  exists k, ks_mul W a b = Ok k /\ built k (ca ++ cb) (fun c t => Ta c t \/ Tb c t) (fun c => Ha c \/ Hb c).
Proof.
  intros Ba Bb Na Nb Dd. unfold ks_mul. rewrite (built_plan _ _ _ _ Ba), (built_plan _ _ _ _ Bb).
  destruct Ba as (Ca & Fa & Sa & TTa & HHa), Bb as (Cb & Fb & Sb & TTb & HHb). rewrite Ca, Cb.
  destruct (mkCrossJoin_total W D false [ks_tree a; ks_tree b]) as [E F].
  - discriminate.
  - apply Dj_cons. split; [repeat constructor|]. intros g [<-|[]] c H1 H2. apply (Dd c); [apply Sa|apply Sb]; assumption.
  - intros f [<-|[<-|[]]]; assumption.
  - discriminate.
  - rewrite E. cbn [bind orb mkEither].
    destruct (mkKeySet_total _ (ca ++ cb) F) as (k & Ek & B).
    + apply NoDup_app_disjoint; assumption.
    + intros c. rewrite columns_cross, in_app_iff, <- Sa, <- Sb. split.
      * intros (f & [<-|[<-|[]]] & H); auto.
      * intros [H|H]; [exists (ks_tree a)|exists (ks_tree b)]; simpl; auto.
    + exists k. split; [exact Ek|]. eapply built_weaken; [exact B| |].
      * intros c t. rewrite T_cross, <- TTa, <- TTb. split.
        -- intros (f & [<-|[<-|[]]] & H); auto.
        -- intros [H|H]; [exists (ks_tree a)|exists (ks_tree b)]; simpl; auto.
      * intros c H. apply hub_cross. destruct H as [H|H]; [exists (ks_tree a)|exists (ks_tree b)]; simpl; auto.
Qed.

Lemma NoDup_app_l {A} (a b : list A) : NoDup (a ++ b) -> NoDup a.
Proof.
  induction a as [|x a IH]; simpl; intros H; constructor; inversion H; subst; auto.
  intros Hx. apply H2, in_or_app. auto.
Qed.

(** *** from_tuples *)
Lemma infer_total vs t : uniform vs t -> exists d, infer_column vs = Ok d /\ cd_type d = t.
Proof.
  intros [(v & Hv & Ev) U]. unfold infer_column.
  set (typed := flat_map (fun v => match value_type v with Some t => [t] | None => [] end) vs).
  assert (A : forall x, In x typed -> x = t).
  { intros x Hx. apply in_flat_map in Hx as (w & Hw & Hx). destruct (U w Hw) as [->|E].
    - destruct Hx.
    - rewrite E in Hx. destruct Hx as [<-|[]]. reflexivity. }
  assert (B : In t typed).
  { apply in_flat_map. exists v. split; [assumption|]. rewrite Ev. simpl; auto. }
  destruct typed as [|x ts]; [destruct B|].
  rewrite (proj2 (forallb_forall _ _)).
  - eexists. split; [reflexivity|]. simpl. apply A; simpl; auto.
  - intros y Hy. rewrite (A x), (A y); simpl; auto. apply ctype_eqb_eq. reflexivity.
Qed.
Lemma uniform_fun vs t t' : uniform vs t -> uniform vs t' -> t = t'.
Proof.
  intros [(v & Hv & Ev) _] [_ U]. destruct (U v Hv) as [->|E]; [discriminate|congruence].
Qed.
Lemma uniform_In vs vs' t : (forall v, In v vs <-> In v vs') -> uniform vs t -> uniform vs' t.
Proof.
  intros H [(v & Hv & Ev) U]. split; [exists v; split; [apply H|]; assumption|]. intros w Hw. apply U, H, Hw.
Qed.
Lemma keyset_type_key t : key_type t <-> keyset_type t = true.
Proof.
  unfold key_type. destruct t; simpl; split; auto; try discriminate; intros [H|[H|H]]; discriminate.
Qed.

Lemma infer_all ts (cs : list string) n : (forall i, (i < length cs)%nat -> exists t, key_type t /\ uniform (column_at (n + i) ts) t) ->
  exists ds, mapM (fun p => let* d := infer_column (column_at (fst p) ts) in Ok (snd p, d))
               (combine (seq n (length cs)) cs) = Ok ds
  /\ (forall c d, In (c, d) ds -> key_type (cd_type d))
  /\ (forall c t, (exists d, In (c, d) ds /\ cd_type d = t) <-> exists i, nth_error cs i = Some c /\ uniform (column_at (n + i) ts) t).
Proof.
  revert n. induction cs as [|x cs IH]; intros n H; cbn [length seq combine mapM].
  - exists []. split; [reflexivity|]. split; [intros ? ? []|]. intros c t. split; [intros (? & [] & _)|].
    intros ([|i] & Hi & _); discriminate.
  - destruct (H 0%nat) as (t0 & K0 & U0); [simpl; lia|]. rewrite Nat.add_0_r in U0.
    destruct (infer_total _ _ U0) as (d0 & E0 & T0).
    destruct (IH (S n)) as (ds & E & K & TT).
    { intros i Hi. destruct (H (S i)) as (t & Kt & Ut); [simpl; lia|]. exists t. split; [assumption|].
      replace (S n + i)%nat with (n + S i)%nat by lia. assumption. }
    cbn [fst snd] in *. rewrite E0. cbn [bind]. rewrite E. cbn [bind]. exists ((x, d0) :: ds).
    split; [reflexivity|]. split.
    + intros c d [Hd|Hd]; [|eauto]. inversion Hd; subst. assumption.
    + intros c t. split.
      * intros (d & [Hd|Hd] & Ht).
        -- inversion Hd; subst. exists 0%nat. split; [reflexivity|]. rewrite Nat.add_0_r. assumption.
        -- destruct (proj1 (TT c t)) as (i & Hi & Ui); [eauto|]. exists (S i). split; [assumption|].
           replace (n + S i)%nat with (S n + i)%nat by lia. assumption.
      * intros ([|i] & Hi & Ui).
        -- inversion Hi; subst. exists d0. split; [simpl; auto|]. rewrite Nat.add_0_r in Ui. eapply uniform_fun; eassumption.
        -- destruct (proj2 (TT c t)) as (d & Hd & Td).
           { exists i. split; [assumption|]. replace (S n + i)%nat with (n + S i)%nat by lia. assumption. }
           exists d. simpl; auto.
Qed.

Lemma validate_ok (d : dict coldesc) : ~ In EmptyString (dkeys d) -> (forall c cd, In (c, cd) d -> key_type (cd_type cd)) ->
  validate_schema d = Ok tt.
Proof.
  intros N K. unfold validate_schema, validate_column_names.
  rewrite (proj2 (smem_false _ _) N). cbn [raise_if bind].
  replace (existsb (fun p => negb (keyset_type (cd_type (snd p)))) d) with false; [reflexivity|]. symmetry.
  destruct (existsb (fun p => negb (keyset_type (cd_type (snd p)))) d) eqn:E; [|reflexivity].
  apply existsb_exists in E as ([c cd] & H & E). simpl in E. rewrite (proj1 (keyset_type_key _) (K _ _ H)) in E. discriminate.
Qed.

Lemma from_tuples_total ts cs : kvalid W (ETuples ts cs) ->
  exists k, from_tuples W ts cs = Ok k /\ built k cs (ktyp (ETuples ts cs)) (khub (ETuples ts cs)).
Proof.
  intros (ND & NE & L & Z & U). unfold from_tuples. set (ts' := nodup row_eq_dec ts).
  assert (IN : forall r, In r ts' <-> In r ts) by (intros r; apply nodup_In).
  assert (CI : forall i v, In v (map (fun r => nth i r VNull) ts) <-> In v (column_at i ts')).
  { intros i v. unfold column_at. rewrite !in_map_iff. split; intros (r & E & H); exists r; (split; [assumption|apply IN; assumption]). }
  rewrite (proj2 (forallb_forall _ _)); [|intros r Hr; apply Nat.eqb_eq, L, IN, Hr]. cbn [negb raise_if bind].
  destruct (infer_all ts' cs 0) as (ds & E & K & TT).
  { intros i Hi. destruct (U i Hi) as (t & Kt & Ut). exists t. split; [assumption|]. eapply uniform_In; [apply CI|exact Ut]. }
  rewrite E. cbn [bind]. assert (N := infer_names _ _ _ E).
  assert (DS : dict_of ds = ds) by (apply dict_of_NoDup; rewrite N; assumption). rewrite DS.
  unfold mkFromTuples. rewrite validate_ok; [|unfold dkeys; rewrite N; assumption|assumption]. cbn [bind].
  assert (ZZ : is_nil ds && negb (is_nil ts') = false).
  { destruct ds; [|reflexivity]. simpl in N. subst cs. unfold ts'. rewrite Z by reflexivity. reflexivity. }
  rewrite ZZ. cbn [raise_if bind].
  destruct (mkKeySet_total (FromTuples ts' ds) cs) as (k & Ek & B).
  - split; [|split; [reflexivity|exact I]]. split; simpl; [|exact I]. unfold dkeys. rewrite N. split; [assumption|].
    split; [apply NoDup_nodup|]. intros r Hr. rewrite (L r) by (apply IN, Hr). rewrite <- N, map_length. reflexivity.
  - assumption.
  - intros c. simpl. unfold dkeys. rewrite N. reflexivity.
  - exists k. split; [exact Ek|]. eapply built_weaken; [exact B| |].
    + intros c t. simpl. rewrite TT. simpl. split; intros (i & Hi & Ui); exists i; (split; [assumption|]);
        (eapply uniform_In; [|exact Ui]); intros v; [symmetry|]; apply CI.
    + intros c H. simpl in *. unfold dkeys. rewrite N. assumption.
Qed.

Lemma single_valid c vs t : c <> EmptyString -> key_type t -> uniform vs t -> kvalid W (ETuples (map (fun v => [v]) vs) [c]).
Proof.
  intros N K U. split; [repeat constructor; auto|]. split; [intros [H|[]]; auto|]. split.
  - intros r Hr. apply in_map_iff in Hr as (v & <- & _). reflexivity.
  - split; [discriminate|]. intros [|i] Hi; [|simpl in Hi; lia]. exists t. split; [assumption|].
    rewrite map_map. simpl. rewrite map_id. assumption.
Qed.
Lemma single_typ c vs x t : ktyp (ETuples (map (fun v => [v]) vs) [c]) x t <-> x = c /\ uniform vs t.
Proof.
  simpl. split.
  - intros ([|i] & Hi & U); [|destruct i; discriminate]. inversion Hi; subst.
    rewrite map_map in U. simpl in U. rewrite map_id in U. auto.
  - intros [-> U]. exists 0%nat. split; [reflexivity|]. rewrite map_map. simpl. rewrite map_id. assumption.
Qed.

Lemma mul_all_total l : forall acc ca Ta Ha, built acc ca Ta Ha -> NoDup (ca ++ map fst l) -> ~ In EmptyString (map fst l) ->
  (forall c vs, In (c, vs) l -> exists t, key_type t /\ uniform vs t) ->
  exists k, mul_all W acc (map (fun p => from_tuples W (map (fun v => [v]) (snd p)) [fst p]) l) = Ok k
  /\ built k (ca ++ map fst l) (fun c t => Ta c t \/ ktyp (EDict l) c t) (fun c => Ha c \/ In c (map fst l)).
Proof.
  induction l as [|[x vs] l IH]; intros acc ca Ta Ha B N NE U; cbn [map mul_all].
  - exists acc. split; [reflexivity|]. simpl. rewrite app_nil_r. eapply built_weaken; [exact B| |].
    + intros c t. split; [auto|]. intros [H|(? & [] & _)]; assumption.
    + intros c [H|[]]; assumption.
  - cbn [fst snd map] in *. destruct (U x vs) as (t & Kt & Ut); [simpl; auto|].
    destruct (from_tuples_total (map (fun v => [v]) vs) [x]) as (k1 & E1 & B1).
    { eapply single_valid; [|eassumption|eassumption]. intros ->; apply NE; simpl; auto. }
    rewrite E1. cbn [bind].
    destruct (mul_total acc k1 ca [x] _ _ _ _ B B1) as (k2 & E2 & B2).
    + apply NoDup_app_l in N. assumption.
    + repeat constructor; auto.
    + intros c Hc [<-|[]]. apply NoDup_remove_2 in N. apply N, in_or_app; auto.
    + rewrite E2. cbn [bind].
      destruct (IH k2 (ca ++ [x]) _ _ B2) as (k & Ek & B3).
      * rewrite <- app_assoc. exact N.
      * intros H; apply NE; simpl; auto.
      * intros c ws H; apply (U c ws); simpl; auto.
      * exists k. split; [exact Ek|]. rewrite <- app_assoc in B3. eapply built_weaken; [exact B3| |].
        -- intros c t0. cbv beta. rewrite single_typ. cbn [ktyp]. split.
           ++ intros [[H|[-> H]]|(ws & Hw & H)]; [auto|right; exists vs; simpl; auto|right; exists ws; simpl; auto].
           ++ intros [H|(ws & [Hw|Hw] & H)]; [auto| |right; eauto]. inversion Hw; subst. auto.
        -- intros c [H|[<-|H]]; simpl; auto.
Qed.

Lemma from_dict_total d : kvalid W (EDict d) ->
  exists k, from_dict W d = Ok k /\ built k (map fst d) (ktyp (EDict d)) (khub (EDict d)).
Proof.
  intros (ND & NE & U). unfold from_dict. destruct d as [|[x vs] d]; cbn [map].
  - destruct (from_tuples_total [] []) as (k & E & B).
    + split; [constructor|]. split; [intros []|]. split; [intros ? []|]. split; [reflexivity|]. intros i Hi; simpl in Hi; lia.
    + exists k. split; [assumption|]. eapply built_weaken; [exact B| |].
      * intros c t. simpl. split; [intros ([|i] & Hi & _); discriminate|intros (? & [] & _)].
      * intros c [].
  - cbn [fst snd map] in *. destruct (U x vs) as (t & Kt & Ut); [simpl; auto|].
    destruct (from_tuples_total (map (fun v => [v]) vs) [x]) as (k1 & E1 & B1).
    { eapply single_valid; [|eassumption|eassumption]. intros ->; apply NE; simpl; auto. }
    rewrite E1. cbn [bind].
    destruct (mul_all_total d k1 [x] _ _ B1) as (k & Ek & B).
    + exact ND.
    + intros H; apply NE; simpl; auto.
    + intros c ws H; apply (U c ws); simpl; auto.
    + exists k. split; [exact Ek|]. eapply built_weaken; [exact B| |].
      * intros c t0. cbv beta. rewrite single_typ. cbn [ktyp]. split.
        -- intros [[-> H]|(ws & Hw & H)]; [exists vs; simpl; auto|exists ws; simpl; auto].
        -- intros (ws & [Hw|Hw] & H); [|right; eauto]. inversion Hw; subst. auto.
      * intros c [<-|H]; simpl; auto.
Qed.

Lemma first_occ_In l c : In c (first_occurrences l) <-> In c l.
Proof. unfold first_occurrences. rewrite <- in_rev, nodup_In, <- in_rev. reflexivity. Qed.

Lemma kcols_nonempty_names e : kvalid W e -> concrete e = true -> ~ In EmptyString (kcols e).
Proof.
  induction e as [ts cs|d|p d|cs|a IHa b IHb|a IHa b IHb|a IHa b IHb|a IHa b IHb|a IHa cs|a IHa c];
    simpl; intros V C H; try (apply andb_true_iff in C as [Ca Cb]); try tauto; try discriminate.
  - apply in_app_iff in H. tauto.
  - apply in_app_iff in H as [H|H]; [tauto|]. apply filter_In in H. tauto.
  - destruct V as (Va & _ & _ & I). apply I in H. tauto.
Qed.

Theorem eval_total e : usable W D e -> kvalid W e -> concrete e = true ->
  exists k, eval W e = Ok k /\ built k (kcols e) (ktyp e) (khub e).
Proof.
  induction e as [ts cs|d|p d|cs|a IHa b IHb|a IHa b IHb|a IHa b IHb|a IHa b IHb|a IHa cs|a IHa c];
    intros U V C; cbn [eval].
  - apply from_tuples_total; assumption.
  - apply from_dict_total; assumption.
  - destruct U as [ND L], V as (NE & Z & K). unfold from_dataframe, mkFromDF.
    rewrite validate_ok by assumption. cbn [bind].
    assert (ZZ : is_nil d && negb (is_nil (content W p)) = false).
    { destruct d; [|reflexivity]. rewrite Z by reflexivity. reflexivity. }
    rewrite ZZ. cbn [raise_if bind].
    destruct (mkKeySet_total (FromDF p d) (dkeys d)) as (k & Ek & B).
    + split; [|split; [reflexivity|exact I]]. split; simpl; auto.
    + assumption.
    + reflexivity.
    + exists k. split; [exact Ek|exact B].
  - discriminate.
  - simpl in C. apply andb_true_iff in C as [Ca Cb]. destruct U as [Ua Ub], V as (Va & Vb & Dd).
    destruct (IHa Ua Va Ca) as (x & Ex & Bx), (IHb Ub Vb Cb) as (y & Ey & By).
    rewrite Ex. cbn [bind]. rewrite Ey. cbn [bind].
    destruct (eval_stands W D a Ua x Ex) as (_ & _ & Na), (eval_stands W D b Ub y Ey) as (_ & _ & Nb).
    apply mul_total; assumption.
  - simpl in C. apply andb_true_iff in C as [Ca Cb]. destruct U as [Ua Ub], V as (Va & Vb & Ty & c0 & H1 & H2).
    destruct (IHa Ua Va Ca) as (x & Ex & Bx), (IHb Ub Vb Cb) as (y & Ey & By).
    rewrite Ex. cbn [bind]. rewrite Ey. cbn [bind].
    destruct (eval_stands W D a Ua x Ex) as (_ & _ & Na), (eval_stands W D b Ub y Ey) as (_ & _ & Nb).
    unfold ks_join. rewrite (built_plan _ _ _ _ Bx), (built_plan _ _ _ _ By).
    destruct Bx as (Cx & Fx & Sx & Tx & Hx), By as (Cy & Fy & Sy & Tyy & Hy). rewrite Cx, Cy.
    destruct (mkJoin_total W D (ks_tree x) (ks_tree y) Fx Fy) as [E F].
    { intros c t t' A1 A2. apply Tx in A1. apply Tyy in A2. eauto. }
    { exists c0. auto. }
    rewrite E. cbn [bind orb mkEither].
    destruct (mkKeySet_total _ (first_occurrences (kcols a ++ kcols b)) F) as (k & Ek & B).
    { rewrite first_occurrences_app by assumption. apply kcols_nodup_aux; assumption. }
    { intros c. simpl. rewrite union_cols_In, first_occ_In, in_app_iff, Sx, Sy. reflexivity. }
    exists k. split; [exact Ek|]. rewrite first_occurrences_app in B by assumption.
    eapply built_weaken; [exact B| |].
    + intros c t. simpl. rewrite Tx, Tyy. reflexivity.
    + intros c [A1 A2]. simpl. auto.
  - simpl in C. apply andb_true_iff in C as [Ca Cb]. destruct U as (Ua & Ub & NE), V as (Va & Vb & Cc & Ty).
    destruct (IHa Ua Va Ca) as (x & Ex & Bx), (IHb Ub Vb Cb) as (y & Ey & By).
    rewrite Ex. cbn [bind]. rewrite Ey. cbn [bind].
    destruct (eval_stands W D a Ua x Ex) as (_ & _ & Na).
    unfold ks_union. rewrite (built_plan _ _ _ _ Bx), (built_plan _ _ _ _ By).
    destruct Bx as (Cx & Fx & Sx & Tx & Hx), By as (Cy & Fy & Sy & Tyy & Hy). rewrite Cx.
    destruct (mkUnion_total W D (ks_tree x) (ks_tree y) Fx Fy) as [E F].
    { intros c. rewrite Sx, Sy. apply Cc. }
    { eapply nonempty_same; [|exact NE]. intros c; symmetry; apply Sx. }
    { intros c t. rewrite Tx, Tyy. apply Ty. }
    rewrite E. cbn [bind orb mkEither].
    destruct (mkKeySet_total _ (kcols a) F Na Sx) as (k & Ek & B).
    exists k. split; [exact Ek|]. eapply built_weaken; [exact B| |].
    + intros c t. simpl. apply Tx.
    + intros c H. simpl in *. apply Sx, H.
  - simpl in C. apply andb_true_iff in C as [Ca Cb]. destruct U as (Ua & Ub & NE), V as (Va & Vb & Cc).
    destruct (IHa Ua Va Ca) as (x & Ex & Bx), (IHb Ub Vb Cb) as (y & Ey & By).
    rewrite Ex. cbn [bind]. rewrite Ey. cbn [bind].
    destruct (eval_stands W D a Ua x Ex) as (_ & _ & Na).
    unfold ks_sub. rewrite (built_plan _ _ _ _ Bx).
    destruct Bx as (Cx & Fx & Sx & Tx & Hx), By as (Cy & Fy & Sy & Tyy & Hy). rewrite Cx.
    destruct (mkSubtract_total W D (ks_tree x) (ks_tree y) Fx Fy) as [E F].
    { eapply nonempty_same; [|exact NE]. intros c; symmetry; apply Sy. }
    { intros c H. apply Sx, Cc, Sy, H. }
    rewrite E. cbn [bind mkEither].
    destruct (mkKeySet_total _ (kcols a) F Na Sx) as (k & Ek & B).
    exists k. split; [exact Ek|]. eapply built_weaken; [exact B| |].
    + intros c t. simpl. apply Tx.
    + intros c H. simpl in *. auto.
  - destruct U as (Ua & k0 & Hk0), V as (Va & ND & NE & I).
    destruct (IHa Ua Va C) as (x & Ex & Bx). rewrite Ex. cbn [bind].
    destruct (eval_stands W D a Ua x Ex) as ((_ & _ & _ & Dn & _) & _).
    unfold ks_project. rewrite (built_plan _ _ _ _ Bx). destruct Bx as (Cx & Fx & Sx & Tx & Hx).
    rewrite (proj2 (has_dup_NoDup cs) ND). cbn [raise_if bind].
    destruct (mkProject_total W D (ks_tree x) cs Fx) as [E F].
    { exists k0. apply Dn; assumption. } { assumption. } { assumption. } { intros c H. apply Sx, I, H. }
    { intros H. apply I in H. revert H. apply kcols_nonempty_names; assumption. }
    rewrite E. cbn [bind].
    destruct (mkKeySet_total _ cs F ND) as (k & Ek & B); [reflexivity|].
    exists k. split; [exact Ek|]. eapply built_weaken; [exact B| |].
    + intros c t. simpl. rewrite Tx. reflexivity.
    + intros c [H1 H2]. simpl. auto.
  - destruct U as (Ua & NE), V as (Va & s & -> & Ns).
    destruct (IHa Ua Va C) as (x & Ex & Bx). rewrite Ex. cbn [bind].
    destruct (eval_stands W D a Ua x Ex) as (_ & _ & Na).
    unfold ks_filter. rewrite (built_plan _ _ _ _ Bx). destruct Bx as (Cx & Fx & Sx & Tx & Hx). rewrite Cx.
    assert (E : mkFilter (ks_tree x) (CondStr s) = Ok (Filter (ks_tree x) (CondStr s))).
    { unfold mkFilter. destruct s; [congruence|reflexivity]. }
    rewrite E. cbn [bind mkEither].
    destruct (mkKeySet_total (Filter (ks_tree x) (CondStr s)) (kcols a)) as (k & Ek & B).
    + destruct Fx as ([W1 G1] & P1 & F1). split; [split; simpl; auto|].
      * split; [assumption|]. eapply nonempty_same; [|exact NE]. intros c; symmetry; apply Sx.
      * split; [assumption|]. simpl. split; [assumption|]. eauto.
    + assumption.
    + exact Sx.
    + exists k. split; [exact Ek|]. eapply built_weaken; [exact B| |].
      * intros c t. simpl. apply Tx.
      * intros c H. simpl in *. apply Sx, H.
Qed.

End TotalApi.
