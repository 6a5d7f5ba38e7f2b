(** Proofs about simplification and enforcement of constraints. *)
From Coq Require Import String Bool Arith ZArith Lia Permutation List.
From Verif Require Import Prelude Value Rows Constraints ConstraintsSpec.
Import ListNotations.
Local Open Scope nat_scope.

Lemma has_value_true c v r : has_value c v r = true <-> getv c r = v.
Proof. unfold has_value. apply value_eqb_eq. Qed.
Lemma has_value_false c v r : has_value c v r = false <-> getv c r <> v.
Proof. rewrite <- has_value_true. destruct (has_value c v r); split; congruence. Qed.
Lemma vmem_In v l : vmem v l = true <-> In v l.
Proof.
  unfold vmem. rewrite existsb_exists. split.
  - intros (y & Hy & E). apply value_eqb_eq in E; subst; assumption.
  - intros H; exists v; split; [assumption|apply value_eqb_refl].
Qed.

(** ** Monotonicity *)
Lemma sub_table_filter_mono p a b : sub_table a b -> sub_table (filter p a) (filter p b).
Proof. intros H r. rewrite !occurs_filter. destruct (p r); [apply H|lia]. Qed.

(** Dropping rows never invalidates a constraint. *)
Lemma satisfies_sub idc c a b : sub_table a b -> satisfies idc c b -> satisfies idc c a.
Proof.
  intros H. destruct c as [m|g m|g m]; simpl; intros S.
  - intros i. specialize (S i). unfold rows_of in *.
    pose proof (sub_table_length _ _ (sub_table_filter_mono (has_value idc i) _ _ H)). lia.
  - intros i vs ND E. apply (S i vs ND). intros v Hv. destruct (E v Hv) as (r & Hr & Er).
    exists r. split; [|assumption]. revert Hr. apply sub_table_In, sub_table_filter_mono, H.
  - intros i v. specialize (S i v). unfold rows_of in *.
    pose proof (sub_table_length _ _ (sub_table_filter_mono (has_value g v) _ _
      (sub_table_filter_mono (has_value idc i) _ _ H))). lia.
Qed.
Lemma satisfies_same idc c a b : same_table a b -> satisfies idc c a <-> satisfies idc c b.
Proof. intros H. split; apply satisfies_sub, same_sub; [symmetry|]; assumption. Qed.

Definition with_max (c : constraint) (m : nat) : constraint :=
  match c with
  | MaxRowsPerID _ => MaxRowsPerID m
  | MaxGroupsPerID g _ => MaxGroupsPerID g m
  | MaxRowsPerGroupPerID g _ => MaxRowsPerGroupPerID g m
  end.
Lemma satisfies_weaken idc c t m m' :
  m <= m' -> satisfies idc (with_max c m) t -> satisfies idc (with_max c m') t.
Proof.
  intros L. destruct c as [?|g ?|g ?]; simpl; intros S.
  - intros i. specialize (S i). lia.
  - intros i vs ND E. specialize (S i vs ND E). lia.
  - intros i v. specialize (S i v). lia.
Qed.

(** ** Simplification *)
Lemma lower_sem (P : string -> nat -> Prop) (M : forall g m m', m <= m' -> P g m -> P g m') g m d :
  (forall g' m', dget g' (lower g m d) = Some m' -> P g' m') <->
  (forall g' m', dget g' d = Some m' -> P g' m') /\ P g m.
Proof.
  unfold lower. split.
  - intros H. destruct (dget g d) as [old|] eqn:E.
    + destruct (Nat.ltb_spec m old) as [L|L].
      * assert (Pg : P g m) by (apply H; apply dget_dset_same).
        split; [|assumption]. intros g' m' E'. destruct (String.eqb_spec g g') as [->|N].
        -- rewrite E in E'. inversion E'; subst. apply (M g' m); [lia|assumption].
        -- apply H. rewrite dget_dset_other; assumption.
      * split; [assumption|]. apply (M g old); [assumption|]. apply H, E.
    + split; [|apply H, dget_dset_same]. intros g' m' E'. apply H.
      rewrite dget_dset_other; [assumption|]. intros ->. congruence.
  - intros [H Pg] g' m'. destruct (dget g d) as [old|] eqn:E.
    + destruct (m <? old); [|apply H]. rewrite dget_dset.
      destruct (String.eqb_spec g g') as [->|N]; [|apply H]. intros X; inversion X; subst; assumption.
    + rewrite dget_dset. destruct (String.eqb_spec g g') as [->|N]; [|apply H].
      intros X; inversion X; subst; assumption.
Qed.

Lemma lower_NoDup g m d : NoDup (dkeys d) -> NoDup (dkeys (lower g m d)).
Proof.
  intros H. unfold lower. destruct (dget g d); [destruct (m <? n)|]; auto using NoDup_dset.
Qed.

Definition acc_sat (idc : string) (s : simp) (t : table) : Prop :=
  (forall m, In m (s_rows s) -> satisfies idc (MaxRowsPerID m) t)
  /\ (forall g m, dget g (s_groups s) = Some m -> satisfies idc (MaxGroupsPerID g m) t)
  /\ (forall g m, dget g (s_rpg s) = Some m -> satisfies idc (MaxRowsPerGroupPerID g m) t).

Lemma simp_step_sat idc s c t : acc_sat idc (simp_step s c) t <-> acc_sat idc s t /\ satisfies idc c t.
Proof.
  destruct c as [m|g m|g m]; unfold acc_sat; cbn [simp_step s_rows s_groups s_rpg].
  - assert (X : (forall m0, In m0 (s_rows s ++ [m]) -> satisfies idc (MaxRowsPerID m0) t) <->
      (forall m0, In m0 (s_rows s) -> satisfies idc (MaxRowsPerID m0) t) /\ satisfies idc (MaxRowsPerID m) t).
    { split.
      - intros H. split; [intros m0 H0|]; apply H; rewrite in_app_iff; [auto|right; left; reflexivity].
      - intros [H1 H2] m0. rewrite in_app_iff. cbn [In]. intros [|[<-|[]]]; auto. }
    rewrite X. tauto.
  - rewrite (lower_sem (fun g m => satisfies idc (MaxGroupsPerID g m) t)); [tauto|].
    intros g0 a b L. apply (satisfies_weaken idc (MaxGroupsPerID g0 0) t a b L).
  - rewrite (lower_sem (fun g m => satisfies idc (MaxRowsPerGroupPerID g m) t)); [tauto|].
    intros g0 a b L. apply (satisfies_weaken idc (MaxRowsPerGroupPerID g0 0) t a b L).
Qed.

Lemma fold_simp_sat idc cs s t :
  acc_sat idc (fold_left simp_step cs s) t <-> acc_sat idc s t /\ satisfies_all idc cs t.
Proof.
  revert s; induction cs as [|c cs IH]; intros s; simpl.
  - unfold satisfies_all. simpl. tauto.
  - rewrite IH, simp_step_sat. unfold satisfies_all. simpl. split.
    + intros [[H1 H2] H3]. split; [assumption|]. intros c' [<-|H]; auto.
    + intros [H1 H2]. split; [split|]; auto.
Qed.

Definition acc_nodup (s : simp) : Prop := NoDup (dkeys (s_groups s)) /\ NoDup (dkeys (s_rpg s)).
Lemma fold_simp_nodup cs s : acc_nodup s -> acc_nodup (fold_left simp_step cs s).
Proof.
  revert s; induction cs as [|c cs IH]; intros s H; simpl; [assumption|].
  apply IH. destruct H as [H1 H2]. destruct c; split; simpl; auto using lower_NoDup.
Qed.

Lemma list_min_le m l : list_min m l <= m /\ forall x, In x l -> list_min m l <= x.
Proof.
  revert m; induction l as [|y l IH]; intros m; unfold list_min in *; simpl; [split; [lia|tauto]|].
  destruct (IH (Nat.min m y)) as [H1 H2]. split; [lia|]. intros x [->|Hx]; [lia|auto].
Qed.
Lemma list_min_In m l : In (list_min m l) (m :: l).
Proof.
  revert m; induction l as [|y l IH]; intros m; unfold list_min in *; simpl; [auto|].
  destruct (IH (Nat.min m y)) as [H|H]; [|auto]. rewrite <- H.
  destruct (Nat.min_spec m y) as [[_ ->]|[_ ->]]; auto.
Qed.

Definition acc0 : simp := {| s_rows := []; s_groups := []; s_rpg := [] |}.

Lemma simplify_sat idc cs t : satisfies_all idc (simplify cs) t <-> satisfies_all idc cs t.
Proof.
  unfold simplify. fold acc0.
  assert (ND : acc_nodup (fold_left simp_step cs acc0))
    by (apply fold_simp_nodup; split; constructor).
  transitivity (acc_sat idc (fold_left simp_step cs acc0) t).
  - set (s := fold_left simp_step cs acc0) in *. destruct ND as [N1 N2]. unfold satisfies_all, acc_sat.
    split.
    + intros H. split; [|split].
      * intros m Hm. destruct (s_rows s) as [|a l]; [contradiction|].
        assert (X : satisfies idc (MaxRowsPerID (list_min a l)) t)
          by (apply H; simpl; auto).
        destruct (list_min_le a l) as [L1 L2].
        apply (satisfies_weaken idc (MaxRowsPerID 0) t (list_min a l) m); [|exact X].
        destruct Hm as [<-|Hm]; auto.
      * intros g m E. apply H. rewrite !in_app_iff, in_map_iff. right. left.
        exists (g, m). split; [reflexivity|]. apply dget_In, E.
      * intros g m E. apply H. rewrite !in_app_iff, !in_map_iff. right. right.
        exists (g, m). split; [reflexivity|]. apply dget_In, E.
    + intros (H1 & H2 & H3) c. rewrite !in_app_iff, !in_map_iff. intros [H|[H|H]].
      * destruct (s_rows s) as [|a l]; [contradiction|]. destruct H as [<-|[]].
        apply H1, list_min_In.
      * destruct H as ([g m] & <- & H). apply H2, In_dget; assumption.
      * destruct H as ([g m] & <- & H). apply H3, In_dget; assumption.
  - rewrite fold_simp_sat. unfold acc_sat at 1. simpl. split; [tauto|]. intros H.
    repeat split; try (intros; discriminate); try tauto.
Qed.

Lemma simplify_unique cs : forall i j a b,
  nth_error (simplify cs) i = Some a -> nth_error (simplify cs) j = Some b ->
  same_subject a b = true -> i = j.
Proof.
  assert (U : forall l, ForallOrdPairs (fun a b => same_subject a b = false) l ->
    forall i j a b, nth_error l i = Some a -> nth_error l j = Some b -> same_subject a b = true -> i = j).
  { assert (SY : forall a b, same_subject a b = same_subject b a).
    { intros [?|g ?|g ?] [?|h ?|h ?]; simpl; try reflexivity; apply String.eqb_sym. }
    induction 1 as [|x l F _ IH]; intros i j a b Hi Hj E.
    - destruct i; discriminate.
    - rewrite Forall_forall in F.
      destruct i as [|i], j as [|j]; simpl in *; [reflexivity| | |].
      + inversion Hi; subst. apply nth_error_In in Hj. rewrite (F _ Hj) in E. discriminate.
      + inversion Hj; subst. apply nth_error_In in Hi. rewrite SY, (F _ Hi) in E. discriminate.
      + f_equal. eapply IH; eassumption. }
  apply U. unfold simplify. fold acc0.
  assert (ND : acc_nodup (fold_left simp_step cs acc0))
    by (apply fold_simp_nodup; split; constructor).
  set (s := fold_left simp_step cs acc0) in *. destruct ND as [N1 N2].
  assert (P : forall (mk : string -> nat -> constraint) (d : dict nat),
    (forall g m g' m', same_subject (mk g m) (mk g' m') = String.eqb g g') ->
    NoDup (dkeys d) -> ForallOrdPairs (fun a b => same_subject a b = false) (map (fun p => mk (fst p) (snd p)) d)).
  { intros mk d K. induction d as [|[g m] d IH]; intros N; simpl; constructor.
    - inversion N; subst. rewrite Forall_forall. intros c Hc. apply in_map_iff in Hc as ([g' m'] & <- & Hc).
      rewrite K. simpl. apply String.eqb_neq. intros ->. apply H1. change g' with (fst (g', m')).
      apply in_map, Hc.
    - apply IH. inversion N; assumption. }
  assert (A : forall l l' : list constraint, ForallOrdPairs (fun a b => same_subject a b = false) l ->
    ForallOrdPairs (fun a b => same_subject a b = false) l' ->
    (forall x y, In x l -> In y l' -> same_subject x y = false) ->
    ForallOrdPairs (fun a b => same_subject a b = false) (l ++ l')).
  { intros l l' H. induction H as [|x l F _ IH]; intros H' C; simpl; [assumption|].
    constructor.
    - apply Forall_app. split; [assumption|]. rewrite Forall_forall. intros y Hy. apply C; simpl; auto.
    - apply IH; [assumption|]. intros; apply C; simpl; auto. }
  apply A; [|apply A|].
  - destruct (s_rows s); repeat constructor.
  - apply (P MaxGroupsPerID); [reflexivity|assumption].
  - apply (P MaxRowsPerGroupPerID); [reflexivity|assumption].
  - intros x y Hx Hy. apply in_map_iff in Hx as (? & <- & _). apply in_map_iff in Hy as (? & <- & _). reflexivity.
  - intros x y Hx Hy. destruct (s_rows s); [contradiction|]. destruct Hx as [<-|[]].
    apply in_app_iff in Hy as [Hy|Hy]; apply in_map_iff in Hy as (? & <- & _); reflexivity.
Qed.

Lemma lower_append g m d : ~ In g (dkeys d) -> lower g m d = d ++ [(g, m)].
Proof.
  intros H. unfold lower. rewrite (proj2 (dget_None g d) H). apply dset_append, H.
Qed.

Lemma simplify_idem cs : simplify (simplify cs) = simplify cs.
Proof.
  assert (G : forall d s, NoDup (dkeys (s_groups s) ++ dkeys d) ->
    fold_left simp_step (map (fun p => MaxGroupsPerID (fst p) (snd p)) d) s =
    {| s_rows := s_rows s; s_groups := s_groups s ++ d; s_rpg := s_rpg s |}).
  { induction d as [|[g m] d IH]; intros s N; simpl.
    - rewrite app_nil_r. destruct s; reflexivity.
    - rewrite lower_append.
      + rewrite IH; simpl; [rewrite <- app_assoc; reflexivity|].
        unfold dkeys in *. rewrite map_app, <- app_assoc. exact N.
      + simpl in N. apply NoDup_remove_2 in N. rewrite in_app_iff in N. tauto. }
  assert (R : forall d s, NoDup (dkeys (s_rpg s) ++ dkeys d) ->
    fold_left simp_step (map (fun p => MaxRowsPerGroupPerID (fst p) (snd p)) d) s =
    {| s_rows := s_rows s; s_groups := s_groups s; s_rpg := s_rpg s ++ d |}).
  { induction d as [|[g m] d IH]; intros s N; simpl.
    - rewrite app_nil_r. destruct s; reflexivity.
    - rewrite lower_append.
      + rewrite IH; simpl; [rewrite <- app_assoc; reflexivity|].
        unfold dkeys in *. rewrite map_app, <- app_assoc. exact N.
      + simpl in N. apply NoDup_remove_2 in N. rewrite in_app_iff in N. tauto. }
  unfold simplify at 2 3. fold acc0.
  assert (ND : acc_nodup (fold_left simp_step cs acc0))
    by (apply fold_simp_nodup; split; constructor).
  set (s := fold_left simp_step cs acc0) in *. destruct ND as [N1 N2].
  unfold simplify. fold acc0. rewrite !fold_left_app.
  destruct (s_rows s) as [|a l].
  - change (fold_left simp_step [] acc0) with acc0. rewrite G by exact N1. rewrite R by exact N2.
    reflexivity.
  - set (s1 := fold_left simp_step [MaxRowsPerID (list_min a l)] acc0).
    rewrite G by exact N1. rewrite R by exact N2. reflexivity.
Qed.

(** Bounds stay positive. *)
Definition bound (c : constraint) : nat :=
  match c with MaxRowsPerID m | MaxGroupsPerID _ m | MaxRowsPerGroupPerID _ m => m end.

(** ** Enforcement *)
Section Enforce.
Variable row_order : order rec.
Variable key_order : value -> order value.

Section Keep.
Context {K : Type} (eqd : forall a b : K, {a = b} + {a <> b}) (key : rec -> K) (m : nat).
Definition keyb (k : K) (r : rec) : bool := if eqd (key r) k then true else false.

Lemma keep_first_bound k t seen :
  length (filter (keyb k) (keep_first eqd key m seen t)) <= m - count_occ eqd seen k.
Proof.
  revert seen; induction t as [|r t IH]; intros seen; simpl; [lia|].
  specialize (IH (key r :: seen)). simpl in IH.
  destruct (Nat.ltb_spec (count_occ eqd seen (key r)) m) as [L|L]; simpl.
  - unfold keyb at 1. destruct (eqd (key r) k) as [E|N]; simpl; [|assumption].
    subst k. lia.
  - destruct (eqd (key r) k); lia.
Qed.

Lemma keep_first_sub t seen : sub_table (keep_first eqd key m seen t) t.
Proof.
  revert seen; induction t as [|r t IH]; intros seen; simpl; [intros x; lia|].
  specialize (IH (key r :: seen)). intros x. specialize (IH x). unfold occurs in *.
  destruct (count_occ eqd seen (key r) <? m); simpl; destruct (rec_eq_dec r x); lia.
Qed.

Lemma keep_first_id t seen :
  (forall k, In k (map key t) -> count_occ eqd seen k + length (filter (keyb k) t) <= m) ->
  keep_first eqd key m seen t = t.
Proof.
  revert seen; induction t as [|r t IH]; intros seen H; simpl; [reflexivity|].
  assert (X : count_occ eqd seen (key r) <? m = true).
  { apply Nat.ltb_lt. specialize (H (key r) (or_introl eq_refl)). simpl in H.
    unfold keyb at 1 in H. destruct (eqd (key r) (key r)); [simpl in H; lia|congruence]. }
  rewrite X. f_equal. apply IH. intros k Hk. specialize (H k (or_intror Hk)). simpl in *.
  unfold keyb at 1 in H. destruct (eqd (key r) k); simpl in *; lia.
Qed.

Lemma count_occ_filter (q : K -> bool) l k : q k = true -> count_occ eqd (filter q l) k = count_occ eqd l k.
Proof.
  intros Q. induction l as [|x l IH]; simpl; [reflexivity|].
  destruct (q x) eqn:E; simpl; destruct (eqd x k); subst; congruence.
Qed.
Lemma keep_first_filter (q : K -> bool) t seen :
  filter (fun r => q (key r)) (keep_first eqd key m seen t) =
  keep_first eqd key m (filter q seen) (filter (fun r => q (key r)) t).
Proof.
  revert seen; induction t as [|r t IH]; intros seen; simpl; [reflexivity|].
  destruct (q (key r)) eqn:Q; simpl.
  - rewrite count_occ_filter by assumption.
    specialize (IH (key r :: seen)). simpl in IH. rewrite Q in IH.
    destruct (count_occ eqd seen (key r) <? m); simpl; rewrite ?Q, IH; reflexivity.
  - specialize (IH (key r :: seen)). simpl in IH. rewrite Q in IH.
    destruct (count_occ eqd seen (key r) <? m); simpl; rewrite ?Q; exact IH.
Qed.
End Keep.

Lemma keyb_value idc i r : keyb value_eq_dec (getv idc) i r = has_value idc i r.
Proof. unfold keyb, has_value, value_eqb. reflexivity. Qed.
Lemma keyb_pair idc g i v r :
  keyb pair_eq_dec (fun r => (getv idc r, getv g r)) (i, v) r = has_value idc i r && has_value g v r.
Proof.
  unfold keyb. destruct (pair_eq_dec (getv idc r, getv g r) (i, v)) as [E|N].
  - inversion E; subst. unfold has_value. rewrite !value_eqb_refl. reflexivity.
  - symmetry. apply andb_false_iff. rewrite !has_value_false.
    destruct (value_eq_dec (getv idc r) i); [right|left; assumption].
    intros E. apply N. congruence.
Qed.

Lemma sub_table_isort t : sub_table (isort (ole row_order) t) t.
Proof. apply same_sub, isort_perm. Qed.

Lemma keys_of_NoDup idc g t i : NoDup (keys_of idc g t i).
Proof. apply NoDup_nodup. Qed.
Lemma keys_of_In idc g t i v :
  In v (keys_of idc g t i) <-> exists r, In r (rows_of idc i t) /\ getv g r = v.
Proof.
  unfold keys_of, rows_of. rewrite nodup_In, in_map_iff. split; intros (r & H1 & H2); exists r; auto.
Qed.

Lemma kept_length idc g m t i : length (kept_keys key_order idc g m t i) <= m.
Proof. unfold kept_keys. rewrite firstn_length. lia. Qed.
Lemma kept_incl idc g m t i : incl (kept_keys key_order idc g m t i) (keys_of idc g t i).
Proof.
  intros v H. unfold kept_keys in H.
  apply (Permutation_in _ (isort_perm (ole (key_order i)) (keys_of idc g t i))).
  rewrite <- (firstn_skipn m). rewrite in_app_iff. auto.
Qed.

(** The result satisfies the constraint. *)
Lemma enforce_rows_sat idc c t : satisfies idc c (enforce_rows row_order key_order idc c t).
Proof.
  destruct c as [m|g m|g m]; simpl.
  - intros i. unfold rows_of, limit_rows.
    pose proof (keep_first_bound value_eq_dec (getv idc) m i (isort (ole row_order) t) []) as H.
    simpl in H. rewrite (filter_ext _ _ (keyb_value idc i)) in H. lia.
  - intros i vs ND H. rewrite <- (kept_length idc g m t i).
    apply NoDup_incl_length; [assumption|]. intros v Hv. destruct (H v Hv) as (r & Hr & E).
    unfold rows_of, limit_keys in Hr. apply filter_In in Hr as [Hr Hi]. apply filter_In in Hr as [Hr Hk].
    apply has_value_true in Hi. rewrite Hi, E in Hk. apply vmem_In, Hk.
  - intros i v. unfold rows_of, limit_rows_per_key.
    pose proof (keep_first_bound pair_eq_dec (fun r => (getv idc r, getv g r)) m (i, v) (isort (ole row_order) t) []) as H.
    simpl in H. rewrite (filter_ext _ _ (keyb_pair idc g i v)) in H. rewrite filter_filter. lia.
Qed.

(** Only rows are dropped. *)
Lemma enforce_rows_sub idc c t : sub_table (enforce_rows row_order key_order idc c t) t.
Proof.
  destruct c as [m|g m|g m]; simpl.
  - eapply sub_table_trans; [apply keep_first_sub|apply sub_table_isort].
  - apply sub_table_filter.
  - eapply sub_table_trans; [apply keep_first_sub|apply sub_table_isort].
Qed.

(** A table that satisfies the constraint is unchanged. *)
Lemma enforce_rows_id idc c t :
  satisfies idc c t -> same_table (enforce_rows row_order key_order idc c t) t.
Proof.
  destruct c as [m|g m|g m]; simpl; intros S.
  - unfold limit_rows. rewrite keep_first_id; [apply isort_perm|].
    intros k _. simpl. rewrite (filter_ext _ _ (keyb_value idc k)).
    rewrite (Permutation_length (Permutation_filter (has_value idc k) _ _ (isort_perm (ole row_order) t))).
    apply S.
  - unfold limit_keys. rewrite filter_true; [reflexivity|]. intros r Hr. apply vmem_In.
    unfold kept_keys. rewrite firstn_all2.
    + apply (Permutation_in _ (Permutation_sym (isort_perm _ _))). apply keys_of_In.
      exists r. split; [|reflexivity]. apply filter_In. split; [assumption|]. apply has_value_true. reflexivity.
    + rewrite (Permutation_length (isort_perm _ _)). apply (S (getv idc r)); [apply keys_of_NoDup|].
      intros v Hv. apply keys_of_In, Hv.
  - unfold limit_rows_per_key. rewrite keep_first_id; [apply isort_perm|].
    intros [i v] _. simpl. rewrite (filter_ext _ _ (keyb_pair idc g i v)).
    rewrite (Permutation_length (Permutation_filter _ _ _ (isort_perm (ole row_order) t))).
    rewrite <- filter_filter. apply S.
Qed.

(** The order in which the rows are stored does not matter. *)
Lemma keys_of_perm idc g t t' i : same_table t t' -> Permutation (keys_of idc g t i) (keys_of idc g t' i).
Proof.
  intros P. apply NoDup_Permutation; try apply keys_of_NoDup. intros v.
  rewrite !keys_of_In. unfold rows_of.
  split; intros (r & H & E); exists r; (split; [|assumption]); revert H; apply Permutation_in, Permutation_filter.
  - exact P.
  - symmetry. exact P.
Qed.
Lemma enforce_rows_same idc c t t' : same_table t t' ->
  same_table (enforce_rows row_order key_order idc c t) (enforce_rows row_order key_order idc c t').
Proof.
  intros P. destruct c as [m|g m|g m]; simpl.
  - unfold limit_rows. rewrite (isort_same row_order _ _ P). reflexivity.
  - unfold limit_keys.
    assert (E : forall r, vmem (getv g r) (kept_keys key_order idc g m t (getv idc r))
                        = vmem (getv g r) (kept_keys key_order idc g m t' (getv idc r))).
    { intros r. unfold kept_keys.
      rewrite (isort_same (key_order (getv idc r)) _ _ (keys_of_perm idc g _ _ _ P)). reflexivity. }
    rewrite (filter_ext _ _ E). apply Permutation_filter, P.
  - unfold limit_rows_per_key. rewrite (isort_same row_order _ _ P). reflexivity.
Qed.

(** Truncation looks at each ID separately: it commutes with selecting IDs. *)
Lemma enforce_rows_by_id idc c t (q : value -> bool) :
  filter (fun r => q (getv idc r)) (enforce_rows row_order key_order idc c t)
  = enforce_rows row_order key_order idc c (filter (fun r => q (getv idc r)) t).
Proof.
  destruct c as [m|g m|g m]; simpl.
  - unfold limit_rows. rewrite (keep_first_filter value_eq_dec (getv idc) m q). simpl.
    rewrite isort_filter. reflexivity.
  - unfold limit_keys. rewrite filter_filter.
    rewrite (filter_filter _ (fun r => q (getv idc r))). apply filter_ext. intros r.
    destruct (q (getv idc r)) eqn:Q; simpl; [|apply andb_false_r]. rewrite andb_true_r.
    f_equal. unfold kept_keys. do 2 f_equal. unfold keys_of. do 2 f_equal.
    rewrite filter_filter. apply filter_ext. intros r'.
    destruct (has_value idc (getv idc r) r') eqn:H.
    + apply has_value_true in H. rewrite H, Q. reflexivity.
    + apply eq_sym, andb_false_r.
  - unfold limit_rows_per_key.
    rewrite (keep_first_filter pair_eq_dec (fun r => (getv idc r, getv g r)) m (fun p => q (fst p))).
    simpl. rewrite (isort_filter row_order (fun r => q (getv idc r))). reflexivity.
Qed.

Lemma enforce_ok c u l2 x y : enforce row_order key_order c u l2 x = Ok y ->
  exists idc, t_rows y = enforce_rows row_order key_order idc c (t_rows x)
    /\ (t_place x = PKeys idc \/ exists g l, t_place x = PGroupedIds g l idc).
Proof.
  destruct x as [p t], c as [m|g m|g m]; simpl.
  - destruct p as [idc|?|g l idc|g l]; try discriminate. intros H. exists idc.
    destruct u; inversion H; simpl; auto.
  - destruct p as [idc|?|g' l idc|g' l]; try discriminate. intros H. exists idc.
    destruct u; inversion H; simpl; auto.
  - destruct u, p as [idc|?|g' l idc|g' l]; try discriminate; intros H.
    + destruct (String.eqb g g'); [|discriminate]. inversion H; simpl. exists idc. eauto.
    + inversion H; simpl. exists idc. auto.
Qed.
End Enforce.
