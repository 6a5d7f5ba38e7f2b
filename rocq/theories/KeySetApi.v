(** KeySets as users build them: expressions, their documented meaning, and proof that
    evaluating an expression with the code of KeySet.v yields that meaning. *)
From Coq Require Import String Bool Arith ZArith Lia List.
From Verif Require Import Prelude Value KeySet KeySetSem KeySetRules.
Import ListNotations.

(** ** Specification *)

(** A program that builds a KeySet (or KeySetPlan). *)
Inductive kexpr : Type :=
| ETuples (tuples : list row) (cs : list string)   (* KeySet.from_tuples *)
| EDict (domains : dict (list value))              (* KeySet.from_dict *)
| EFrame (plan : nat) (d : dict coldesc)           (* KeySet.from_dataframe *)
| EDetect (cs : list string)                       (* KeySet._detect *)
| EMul (a b : kexpr)                               (* a * b *)
| EJoin (a b : kexpr)                              (* a.join(b) *)
| EUnion (a b : kexpr)                             (* a.union(b) *)
| ESub (a b : kexpr)                               (* a - b *)
| EProj (a : kexpr) (cs : list string)             (* a[cs] *)
| EFilter (a : kexpr) (c : cond).                  (* a.filter(c) *)

(** Documented columns, in order. *)
Fixpoint kcols (e : kexpr) : list string :=
  match e with
  | ETuples _ cs => cs
  | EDict d => map fst d
  | EFrame _ d => map fst d
  | EDetect cs => cs
  | EMul a b => kcols a ++ kcols b
  | EJoin a b => kcols a ++ filter (fun c => negb (smem c (kcols a))) (kcols b)
  | EUnion a _ => kcols a
  | ESub a _ => kcols a
  | EProj _ cs => cs
  | EFilter a _ => kcols a
  end.

(** Documented keys.  A key assigns a value to each column; only the values of the
    KeySet's own columns matter.  A KeySet with no columns has the one empty key. *)
Fixpoint kden (W : world) (D : oracle) (e : kexpr) (k : valuation) : Prop :=
  match e with
  | ETuples ts cs => cs = [] \/ In (map k cs) ts
  | EDict d => forall c vs, In (c, vs) d -> In (k c) vs
  | EFrame p d => d = [] \/ In (map k (map fst d)) (content W p)
  | EDetect cs => found D cs k
  | EMul a b => kden W D a k /\ kden W D b k
  | EJoin a b => kden W D a k /\ kden W D b k
  | EUnion a b => kden W D a k \/ kden W D b k
  | ESub a b => kden W D a k /\ ~ kden W D b k
  | EProj a cs => exists k', kden W D a k' /\ forall c, In c cs -> k c = k' c
  | EFilter a c => kden W D a k /\ holds W c (fun x => if smem x (kcols a) then k x else VNull) = true
  end.

(** No partition selection: the result is a KeySet, not a KeySetPlan. *)
Fixpoint concrete (e : kexpr) : bool :=
  match e with
  | ETuples _ _ | EDict _ | EFrame _ _ => true
  | EDetect _ => false
  | EMul a b | EJoin a b | EUnion a b | ESub a b => concrete a && concrete b
  | EProj a _ | EFilter a _ => concrete a
  end.

(** Side conditions under which the documented meaning holds:
    - projections are taken from KeySets that have a key;
    - the columnless KeySet is only multiplied;
    - dataframes have distinct column names and rows of the right width. *)
Fixpoint usable (W : world) (D : oracle) (e : kexpr) : Prop :=
  match e with
  | ETuples _ _ | EDict _ => True
  | EFrame p d => NoDup (map fst d) /\ forall r, In r (content W p) -> length r = length d
  | EDetect cs => NoDup cs
  | EMul a b | EJoin a b => usable W D a /\ usable W D b
  | EUnion a b => usable W D a /\ usable W D b /\ kcols a <> []
  | ESub a b => usable W D a /\ usable W D b /\ kcols b <> []
  | EProj a _ => usable W D a /\ exists k, kden W D a k
  | EFilter a _ => usable W D a /\ kcols a <> []
  end.

(** ** Running the expression *)
Fixpoint eval (W : world) (e : kexpr) : res keyset :=
  match e with
  | ETuples ts cs => from_tuples W ts cs
  | EDict d => from_dict W d
  | EFrame p d => from_dataframe W p d
  | EDetect cs => detect W cs
  | EMul a b => let* x := eval W a in let* y := eval W b in ks_mul W x y
  | EJoin a b => let* x := eval W a in let* y := eval W b in ks_join W x y
  | EUnion a b => let* x := eval W a in let* y := eval W b in ks_union W x y
  | ESub a b => let* x := eval W a in let* y := eval W b in ks_sub W x y
  | EProj a cs => let* x := eval W a in ks_project W x cs
  | EFilter a c => let* x := eval W a in ks_filter W x c
  end.

Section Api.
Variable W : world.
Variable D : oracle.
Notation den := (den W D).
Notation good := (good W D).

(** A KeySet object that stands for the columns [cs] and the keys [P]. *)
Definition stands (k : keyset) (cs : list string) (P : valuation -> Prop) : Prop :=
  good (ks_tree k) /\ ks_cols k = cs
  /\ (forall c, In c (columns (ks_tree k)) <-> In c cs)
  /\ (forall rho, den (ks_tree k) rho <-> P rho)
  /\ (is_plan (ks_tree k) = false -> NoDup cs).

Lemma has_dup_NoDup l : has_dup l = false <-> NoDup l.
Proof.
  induction l as [|x l IH]; simpl.
  - split; [constructor|reflexivity].
  - rewrite orb_false_iff, IH, smem_false. split.
    + intros [H1 H2]; constructor; assumption.
    + intros H; inversion H; auto.
Qed.

Lemma mkEither_stands plan o cs k P : good o ->
  (forall rho, den o rho <-> P rho) ->
  mkEither W plan o cs = Ok k ->
  stands k cs P /\ (plan = false -> is_plan (ks_tree k) = false)
  /\ (plan = true -> is_plan (ks_tree k) = true).
Proof.
  intros G Dn E. destruct plan; unfold mkEither in E.
  - unfold mkKeySetPlan in E. destruct (is_plan o) eqn:Po; [|discriminate]. cbn [negb raise_if bind] in E.
    destruct (set_eqb (columns o) cs) eqn:S; [|discriminate]. cbn [negb raise_if bind] in E.
    apply bind_ok in E as (t & Et & E). destruct (is_plan t) eqn:Pt; [|discriminate].
    cbn [negb raise_if bind] in E. inversion E; subst k. simpl.
    destruct (rewrite_sound W D _ _ G Et) as [G' (C & Dn' & _)]. rewrite set_eqb_In in S.
    split; [|split; congruence]. split; [assumption|]. split; [reflexivity|]. split; [|split].
    + intros c. rewrite <- C. apply S.
    + intros rho. rewrite <- Dn'. apply Dn.
    + simpl. congruence.
  - unfold mkKeySet in E. destruct (is_plan o) eqn:Po; [discriminate|]. cbn [negb raise_if bind] in E.
    destruct (has_dup cs) eqn:HD; [discriminate|]. cbn [negb raise_if bind] in E.
    destruct (set_eqb (columns o) cs) eqn:S; [|discriminate]. cbn [negb raise_if bind] in E.
    apply bind_ok in E as (t & Et & E). inversion E; subst k. simpl.
    destruct (rewrite_sound W D _ _ G Et) as [G' (C & Dn' & Pl & _)]. rewrite set_eqb_In in S.
    split; [|split; [auto|discriminate]]. split; [assumption|]. split; [reflexivity|]. split; [|split].
    + intros c. rewrite <- C. apply S.
    + intros rho. rewrite <- Dn'. apply Dn.
    + intros _. apply has_dup_NoDup; assumption.
Qed.

Lemma mkKeySet_stands o cs k P : good o -> (forall rho, den o rho <-> P rho) ->
  mkKeySet W o cs = Ok k -> stands k cs P /\ is_plan (ks_tree k) = false.
Proof.
  intros G Dn E. destruct (mkEither_stands false o cs k P G Dn E) as (S & P1 & _). auto.
Qed.

(** ** from_tuples *)
Lemma infer_names ts (cs : list string) ds :
  mapM (fun p => let* d := infer_column (column_at (fst p) ts) in Ok (snd p, d))
       (combine (seq 0 (length cs)) cs) = Ok ds -> map fst ds = cs.
Proof.
  generalize 0 as n. revert ds. induction cs as [|c cs IH]; intros ds n E; cbn [length seq combine mapM] in E.
  - inversion E; reflexivity.
  - apply bind_ok in E as (y & Ey & E). apply bind_ok in E as (ys & Eys & E). inversion E; subst.
    apply bind_ok in Ey as (d & _ & Ey). inversion Ey; subst. simpl. rewrite (IH _ _ Eys). reflexivity.
Qed.

Lemma dict_of_keys {V} (l : list (string * V)) c : In c (dkeys (dict_of l)) <-> In c (map fst l).
Proof.
  unfold dict_of.
  assert (G : forall d, In c (dkeys (fold_left (fun d p => dset (fst p) (snd p) d) l d)) <-> In c (dkeys d) \/ In c (map fst l)).
  { induction l as [|p l IH]; intros d; simpl; [tauto|]. rewrite IH, dkeys_dset.
    destruct (smem (fst p) (dkeys d)) eqn:M.
    - apply smem_In in M. split; [tauto|]. intros [H|[<-|H]]; auto.
    - rewrite in_app_iff. simpl. tauto. }
  rewrite G. simpl. tauto.
Qed.

Lemma forallb_lengths (ts : list row) n : forallb (fun t => length t =? n)%nat ts = true ->
  forall r, In r ts -> length r = n.
Proof. rewrite forallb_forall. intros H r Hr. apply Nat.eqb_eq, H, Hr. Qed.

Lemma from_tuples_stands ts cs k : from_tuples W ts cs = Ok k ->
  stands k cs (fun rho => cs = [] \/ In (map rho cs) ts) /\ is_plan (ks_tree k) = false.
Proof.
  unfold from_tuples. set (ts' := nodup row_eq_dec ts).
  intros E. apply bind_ok in E as ([] & E1 & E). apply raise_if_ok, negb_false_iff in E1.
  apply bind_ok in E as (ds & E2 & E). apply infer_names in E2.
  apply bind_ok in E as (o & E3 & E). unfold mkFromTuples in E3.
  apply bind_ok in E3 as (? & _ & E3). apply bind_ok in E3 as (? & E4 & E3). inversion E3; subst o. clear E3.
  (* the KeySet constructor has checked that the columns are distinct *)
  assert (ND : NoDup cs).
  { unfold mkKeySet in E. destruct (is_plan _); [discriminate|]. cbn [raise_if bind] in E.
    destruct (has_dup cs) eqn:HD; [discriminate|]. apply has_dup_NoDup; assumption. }
  assert (DS : dict_of ds = ds) by (apply dict_of_NoDup; rewrite E2; assumption).
  rewrite DS in E. apply mkKeySet_stands with (3 := E).
  - split; simpl; [|exact I]. unfold dkeys. rewrite E2. split; [assumption|].
    split; [apply NoDup_nodup|]. intros r Hr.
    rewrite (forallb_lengths _ _ E1 r Hr), <- E2, map_length. reflexivity.
  - intros rho. simpl. unfold dkeys. rewrite E2. unfold ts'. rewrite nodup_In.
    split; intros [H|H]; auto.
    + left. rewrite H in E2. simpl in E2. auto.
    + left. rewrite H in E2. destruct ds; [reflexivity|discriminate].
Qed.

(** ** from_dict *)
Lemma ks_mul_stands a b k ca cb Pa Pb : stands a ca Pa -> stands b cb Pb -> ks_mul W a b = Ok k ->
  stands k (ca ++ cb) (fun rho => Pa rho /\ Pb rho)
  /\ is_plan (ks_tree k) = is_plan (ks_tree a) || is_plan (ks_tree b).
Proof.
  intros (Ga & Ca & Sa & Da & Na) (Gb & Cb & Sb & Db & Nb) E. unfold ks_mul in E.
  apply bind_ok in E as (o & Eo & E). apply mkCrossJoin_ok in Eo as (-> & N & Dj & _).
  rewrite Ca, Cb in E.
  apply (mkEither_stands _ _ _ _ (fun rho => Pa rho /\ Pb rho)) in E as (S & P1 & P2);
    [split; [assumption|]; unfold ks_plan in *;
     destruct (is_plan (ks_tree a) || is_plan (ks_tree b)); auto| |].
  - apply good_cross. split; [assumption|]. split; [|split; [assumption|discriminate]].
    intros f [<-|[<-|[]]]; assumption.
  - intros rho. rewrite den_cross. rewrite <- Da, <- Db. split.
    + intros H; split; apply H; simpl; auto.
    + intros [H1 H2] f [<-|[<-|[]]]; assumption.
Qed.

Lemma mul_all_stands l : forall acc k ca Pa,
  stands acc ca Pa -> is_plan (ks_tree acc) = false ->
  mul_all W acc (map (fun p => from_tuples W (map (fun v => [v]) (snd p)) [fst p]) l) = Ok k ->
  stands k (ca ++ map fst l) (fun rho => Pa rho /\ forall c vs, In (c, vs) l -> In (rho c) vs)
  /\ is_plan (ks_tree k) = false.
Proof.
  induction l as [|[c vs] l IH]; intros acc k ca Pa S P E; cbn [map mul_all] in E.
  - inversion E; subst k. simpl. rewrite app_nil_r. split; [|assumption].
    destruct S as (G & C & Sc & Dn & N). split; [assumption|]. split; [assumption|].
    split; [assumption|]. split; [|assumption]. intros rho. rewrite Dn. split; [|tauto].
    intros H; split; [assumption|intros ? ? []].
  - apply bind_ok in E as (x & Ex & E). apply bind_ok in E as (a & Ea & E).
    cbn [fst snd] in Ex. apply from_tuples_stands in Ex as [Sx Px].
    destruct (ks_mul_stands _ _ _ _ _ _ _ S Sx Ea) as [Sa Pl].
    rewrite P, Px in Pl. destruct (IH _ _ _ _ Sa Pl E) as [Sk Pk]. split; [|assumption].
    rewrite <- app_assoc in Sk. simpl in Sk |- *.
    destruct Sk as (G & C & Sc & Dn & N). split; [assumption|]. split; [assumption|].
    split; [assumption|]. split; [|assumption]. intros rho. rewrite Dn. split.
    + intros [[H1 [H2|H2]] H3]; [discriminate|]. split; [assumption|]. intros c0 vs0 [H|H]; [|eauto].
      inversion H; subst. apply in_map_iff in H2 as (v & Hv & Hi). inversion Hv; subst. assumption.
    + intros [H1 H2]. split; [split; [assumption|]|].
      * right. apply in_map_iff. exists (rho c). split; [reflexivity|]. apply H2; auto.
      * intros c0 vs0 H; apply H2; auto.
Qed.

Lemma from_dict_stands d k : from_dict W d = Ok k ->
  stands k (map fst d) (fun rho => forall c vs, In (c, vs) d -> In (rho c) vs)
  /\ is_plan (ks_tree k) = false.
Proof.
  unfold from_dict. destruct d as [|[c vs] d]; cbn [map]; intros E.
  - apply from_tuples_stands in E as [S P]. split; [|assumption].
    destruct S as (G & C & Sc & Dn & N). split; [assumption|]. split; [assumption|].
    split; [assumption|]. split; [|assumption]. intros rho. rewrite Dn. simpl. tauto.
  - apply bind_ok in E as (x & Ex & E). cbn [fst snd] in Ex. apply from_tuples_stands in Ex as [Sx Px].
    destruct (mul_all_stands _ _ _ _ _ Sx Px E) as [S P]. split; [|assumption].
    simpl in *. destruct S as (G & C & Sc & Dn & N). split; [assumption|]. split; [assumption|].
    split; [assumption|]. split; [|assumption]. intros rho. rewrite Dn. split.
    + intros [[H1|H1] H2] c0 vs0 [H|H]; try discriminate; [|eauto]. inversion H; subst.
      apply in_map_iff in H1 as (v & Hv & Hi). inversion Hv; subst. assumption.
    + intros H. split; [|intros; apply H; auto]. right. apply in_map_iff. exists (rho c).
      split; [reflexivity|]. apply H; auto.
Qed.

Lemma nodup_rev_cons x l : nodup string_dec (rev l ++ [x]) = filter (fun c => negb (String.eqb c x)) (nodup string_dec (rev l)) ++ [x].
Proof.
  induction (rev l) as [|y r IH]; [reflexivity|]. simpl.
  destruct (in_dec string_dec y (r ++ [x])) as [H|H], (in_dec string_dec y r) as [H'|H'].
  - apply IH.
  - apply in_app_iff in H as [H|[->|[]]]; [tauto|]. simpl. rewrite String.eqb_refl. simpl. apply IH.
  - exfalso. apply H, in_or_app. auto.
  - simpl. destruct (String.eqb_spec y x) as [->|N].
    + exfalso. apply H, in_or_app; simpl; auto.
    + simpl. f_equal. apply IH.
Qed.

Lemma first_occurrences_cons x l :
  first_occurrences (x :: l) = x :: filter (fun c => negb (String.eqb c x)) (first_occurrences l).
Proof.
  unfold first_occurrences. simpl. rewrite nodup_rev_cons, rev_app_distr. simpl. f_equal.
  induction (nodup string_dec (rev l)) as [|y r IH]; [reflexivity|]. simpl.
  rewrite filter_app. simpl. destruct (negb (y =? x)%string); simpl; rewrite IH; [|rewrite app_nil_r]; reflexivity.
Qed.

Lemma first_occurrences_NoDup l : NoDup l -> first_occurrences l = l.
Proof.
  intros N. unfold first_occurrences. rewrite nodup_fixed_point by (apply NoDup_rev; assumption).
  apply rev_involutive.
Qed.

Lemma filter_true {A} (p : A -> bool) l : (forall x, In x l -> p x = true) -> filter p l = l.
Proof.
  induction l as [|x l IH]; simpl; intros H; [reflexivity|]. rewrite H by auto. f_equal. auto.
Qed.
Lemma filter_filter {A} (p q : A -> bool) l : filter p (filter q l) = filter (fun x => q x && p x) l.
Proof.
  induction l as [|x l IH]; simpl; [reflexivity|]. destruct (q x); simpl; rewrite IH; reflexivity.
Qed.

Lemma first_occurrences_app a b : NoDup a -> NoDup b ->
  first_occurrences (a ++ b) = a ++ filter (fun c => negb (smem c a)) b.
Proof.
  intros Na Nb. induction Na as [|x a N Na IH]; simpl.
  - rewrite first_occurrences_NoDup by assumption. symmetry. apply filter_true. reflexivity.
  - rewrite first_occurrences_cons, IH. f_equal. rewrite filter_app. f_equal.
    + apply filter_true. intros y Hy. apply negb_true_iff, String.eqb_neq. intros ->; auto.
    + rewrite filter_filter. apply filter_ext. intros y.
      change (smem y (x :: a)) with ((y =? x)%string || smem y a). rewrite negb_orb. apply andb_comm.
Qed.

Lemma restrict_ks k cs rho : (forall c, In c (columns (ks_tree k)) <-> In c cs) -> forall x,
  restrict (columns (ks_tree k)) rho x = (if smem x cs then rho x else VNull).
Proof. intros H x. apply (same_restrict _ _ rho H x). Qed.

Lemma kcols_nodup_aux a b : NoDup a -> NoDup b -> NoDup (a ++ filter (fun c => negb (smem c a)) b).
Proof. intros; apply union_cols_NoDup; assumption. Qed.

Lemma has_dup_ok {A} l (e : exn) (k : res A) r : (let* _ := raise_if (has_dup l) e in k) = Ok r -> NoDup l /\ k = Ok r.
Proof. destruct (has_dup l) eqn:H; [discriminate|]. simpl. apply has_dup_NoDup in H. auto. Qed.

(** ** The main theorem *)
Lemma eval_stands e : usable W D e -> forall k, eval W e = Ok k ->
  stands k (kcols e) (kden W D e) /\ (concrete e = true -> is_plan (ks_tree k) = false) /\ NoDup (kcols e).
Proof.
  induction e as [ts cs|d|p d|cs|a IHa b IHb|a IHa b IHb|a IHa b IHb|a IHa b IHb|a IHa cs|a IHa c];
    intros U k E; cbn [eval] in E.
  - apply from_tuples_stands in E as [S P]. split; [assumption|]. split; [auto|]. apply S, P.
  - apply from_dict_stands in E as [S P]. split; [assumption|]. split; [auto|]. apply S, P.
  - destruct U as [ND L]. unfold from_dataframe in E. apply bind_ok in E as (o & Eo & E).
    unfold mkFromDF in Eo. apply bind_ok in Eo as (? & _ & Eo). apply bind_ok in Eo as (? & _ & Eo).
    inversion Eo; subst o. apply mkKeySet_stands with (P := kden W D (EFrame p d)) in E as [S P].
    + split; [exact S|]. split; [auto|exact ND].
    + split; simpl; auto.
    + intros rho. simpl. reflexivity.
  - simpl in U. unfold detect in E. apply bind_ok in E as (o & Eo & E).
    unfold mkDetect in Eo. rewrite nodup_fixed_point in Eo by assumption.
    destruct (is_nil cs) eqn:N; [discriminate|]. cbn [raise_if bind] in Eo.
    apply bind_ok in Eo as (? & _ & Eo). inversion Eo; subst o.
    apply (mkEither_stands true _ _ _ (kden W D (EDetect cs))) in E as (S & _ & P).
    + split; [exact S|]. split; [discriminate|exact U].
    + split; simpl; auto. split; [assumption|apply is_nil_false; assumption].
    + intros rho. simpl. reflexivity.
  - destruct U as [Ua Ub]. apply bind_ok in E as (x & Ex & E). apply bind_ok in E as (y & Ey & E).
    destruct (IHa Ua _ Ex) as (Sa & Pa & Na). destruct (IHb Ub _ Ey) as (Sb & Pb & Nb).
    assert (E' := E). apply (ks_mul_stands _ _ _ _ _ _ _ Sa Sb) in E as [S P].
    split; [exact S|]. split.
    + simpl. rewrite andb_true_iff. intros [H1 H2]. rewrite P, Pa, Pb by assumption. reflexivity.
    + simpl. apply NoDup_app_disjoint; [assumption..|]. intros c H1 H2.
      unfold ks_mul in E'. apply bind_ok in E' as (o & Eo & _). apply mkCrossJoin_ok in Eo as (_ & _ & Dj & _).
      inversion Dj as [|? ? F _]; subst. inversion F as [|? ? F1 _]; subst. apply (F1 c).
      * apply Sa; assumption.
      * apply Sb; assumption.
  - destruct U as [Ua Ub]. apply bind_ok in E as (x & Ex & E). apply bind_ok in E as (y & Ey & E).
    destruct (IHa Ua _ Ex) as ((Ga & Ca & Sa & Da & _) & Pa & Na).
    destruct (IHb Ub _ Ey) as ((Gb & Cb & Sb & Db & _) & Pb & Nb).
    unfold ks_join in E. apply bind_ok in E as (o & Eo & E). apply mkJoin_ok in Eo as (-> & Hc).
    rewrite Ca, Cb, first_occurrences_app in E by assumption.
    apply (mkEither_stands _ _ _ _ (kden W D (EJoin a b))) in E as (S & P & _).
    + split; [exact S|]. split.
      * simpl. rewrite andb_true_iff. intros [H1 H2]. apply P. unfold ks_plan.
        rewrite Pa, Pb by assumption. reflexivity.
      * simpl. apply kcols_nodup_aux; assumption.
    + destruct Ga, Gb. split; simpl; auto.
    + intros rho. simpl. rewrite Da, Db. reflexivity.
  - destruct U as (Ua & Ub & NE). apply bind_ok in E as (x & Ex & E). apply bind_ok in E as (y & Ey & E).
    destruct (IHa Ua _ Ex) as ((Ga & Ca & Sa & Da & _) & Pa & Na).
    destruct (IHb Ub _ Ey) as ((Gb & Cb & Sb & Db & _) & Pb & Nb).
    unfold ks_union in E. apply bind_ok in E as (o & Eo & E). apply mkUnion_ok in Eo as (-> & Hc).
    rewrite Ca in E.
    apply (mkEither_stands _ _ _ _ (kden W D (EUnion a b))) in E as (S & P & _).
    + split; [exact S|]. split; [|assumption].
      simpl. rewrite andb_true_iff. intros [H1 H2]. apply P. unfold ks_plan.
      rewrite Pa, Pb by assumption. reflexivity.
    + destruct Ga, Gb. split; simpl; [|auto]. split; [assumption|]. split; [assumption|].
      split; [|assumption]. eapply nonempty_same; [|exact NE]. intros c; symmetry; apply Sa.
    + intros rho. simpl. rewrite Da, Db. reflexivity.
  - destruct U as (Ua & Ub & NE). apply bind_ok in E as (x & Ex & E). apply bind_ok in E as (y & Ey & E).
    destruct (IHa Ua _ Ex) as ((Ga & Ca & Sa & Da & _) & Pa & Na).
    destruct (IHb Ub _ Ey) as ((Gb & Cb & Sb & Db & _) & Pb & Nb).
    unfold ks_sub in E. apply bind_ok in E as (o & Eo & E). apply mkSubtract_ok in Eo as (-> & Pl & Hc).
    rewrite Ca in E.
    apply (mkEither_stands _ _ _ _ (kden W D (ESub a b))) in E as (S & P & _).
    + split; [exact S|]. split; [|assumption].
      simpl. rewrite andb_true_iff. intros [H1 H2]. apply P. apply Pa; assumption.
    + destruct Ga, Gb. split; simpl; [|auto]. split; [assumption|]. split; [assumption|].
      split; [assumption|]. split; [|assumption]. eapply nonempty_same; [|exact NE]. intros c; symmetry; apply Sb.
    + intros rho. simpl. rewrite Da, Db. reflexivity.
  - destruct U as (Ua & k0 & Hk0). apply bind_ok in E as (x & Ex & E).
    destruct (IHa Ua _ Ex) as ((Ga & Ca & Sa & Da & _) & Pa & Na).
    unfold ks_project in E. apply has_dup_ok in E as [ND E].
    apply bind_ok in E as (o & Eo & E). apply mkProject_ok in Eo as (-> & NE & Inc).
    assert (G : good (Project (ks_tree x) cs)).
    { destruct Ga. split; simpl; auto. split; [|assumption]. exists k0. apply Da; assumption. }
    assert (Dn : forall rho, den (Project (ks_tree x) cs) rho <-> kden W D (EProj a cs) rho).
    { intros rho. simpl. split; intros (s & H1 & H2); exists s; split; auto; apply Da; assumption. }
    destruct (ks_plan x) eqn:Px.
    + apply bind_ok in E as (t & Et & E). destruct (rewrite_sound W D _ _ G Et) as [Gt (Ct & Dt & Plt & _)].
      assert (DnT : forall rho, den t rho <-> kden W D (EProj a cs) rho).
      { intros rho. rewrite <- Dt. apply Dn. }
      apply (mkEither_stands _ _ _ _ _ Gt DnT) in E as (S & _ & _).
      split; [exact S|]. split; [|assumption]. simpl. intros H. unfold ks_plan in Px.
      rewrite Pa in Px by assumption. discriminate.
    + apply (mkKeySet_stands _ _ _ _ G Dn) in E as [S P]. split; [exact S|]. auto.
  - destruct U as (Ua & NE). apply bind_ok in E as (x & Ex & E).
    destruct (IHa Ua _ Ex) as ((Ga & Ca & Sa & Da & _) & Pa & Na).
    unfold ks_filter in E. apply bind_ok in E as (o & Eo & E). apply mkFilter_ok in Eo as ->.
    rewrite Ca in E.
    apply (mkEither_stands _ _ _ _ (kden W D (EFilter a c))) in E as (S & P & _).
    + split; [exact S|]. split; [|assumption]. simpl. intros H. apply P. apply Pa; assumption.
    + destruct Ga. split; simpl; [|auto]. split; [assumption|].
      eapply nonempty_same; [|exact NE]. intros x0; symmetry; apply Sa.
    + intros rho. simpl. rewrite Da. rewrite (holds_ext W c _ _ (restrict_ks x (kcols a) rho Sa)). reflexivity.
Qed.

(** What dataframe() shows. *)
Theorem eval_dataframe e k : usable W D e -> eval W e = Ok k -> concrete e = true -> kcols e <> [] ->
  exists f, ks_dataframe W k = Ok f /\ fcols f = kcols e
  /\ (forall r, In r (frows f) -> length r = length (kcols e)) /\ NoDup (frows f)
  /\ forall key, In (map key (kcols e)) (frows f) <-> kden W D e key.
Proof.
  intros U E C N. destruct (eval_stands e U k E) as ((G & Cs & Sc & Dn & _) & P & ND). specialize (P C).
  destruct (dataframe_correct W D (ks_tree k)) as (f & Ef & (Wf & Nr & Cf & Hf)); [apply G|assumption| |].
  { eapply nonempty_same; [|exact N]. intros c; symmetry; apply Sc. }
  unfold ks_dataframe. rewrite Ef. cbn [bind]. rewrite Cs.
  assert (S : forall c, In c (kcols e) <-> In c (fcols f)).
  { intros c. rewrite Cf. symmetry. apply Sc. }
  rewrite (proj2 (set_eqb_In (fcols f) (kcols e))) by (intros c; symmetry; apply S). simpl.
  eexists. split; [reflexivity|]. split; [reflexivity|]. split; [|split].
  - apply (wf_select (kcols e) f ND).
  - cbn [fselect frows]. apply NoDup_map_inj; [assumption|]. intros r s Hr Hs Heq.
    destruct Wf as [W1 W2].
    rewrite <- (map_rget (fcols f) r), <- (map_rget (fcols f) s); auto.
    apply map_ext_in. intros c Hc. apply S in Hc. revert c Hc.
    change (forall c, In c (kcols e) -> rget (fcols f) r c = rget (fcols f) s c).
    apply map_eq_ext. exact Heq.
  - intros key. rewrite <- Dn, <- Hf. symmetry. rewrite <- (has_reorder (kcols e) f key Wf S). reflexivity.
Qed.

End Api.
