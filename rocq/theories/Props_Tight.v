(** Property C17, the other half: the stability the library computes from the constraints
    is not larger than needed.  Some pair of tables really is that far apart after the
    truncation, for every number of privacy IDs. *)
From Coq Require Import String Bool Arith ZArith Lia Permutation List.
From Verif Require Import Prelude Value Rows Constraints ConstraintsSpec ConstraintsProofs ConstraintsStab NeighboringDistance.
Import ListNotations.
Local Open Scope nat_scope.
Local Open Scope string_scope.

Definition num (i : nat) : value := VInt (Z.of_nat i).
Lemma num_inj i j : num i = num j -> i = j.
Proof. unfold num. intros H. injection H as H. lia. Qed.

(** [n] blocks of rows, one after the other. *)
Definition blocks (n : nat) (P : nat -> table) : table := flat_map P (seq 0 n).
Lemma blocks_S n P : blocks (S n) P = (blocks n P ++ P n)%list.
Proof. unfold blocks. rewrite seq_S, flat_map_app. cbn [flat_map Nat.add]. rewrite app_nil_r. reflexivity. Qed.

Lemma filter_all (p : rec -> bool) t : (forall r, In r t -> p r = true) -> filter p t = t.
Proof.
  induction t as [|r t IH]; intros H; [reflexivity|]. cbn [filter]. rewrite (H r) by (left; reflexivity).
  rewrite IH; [reflexivity|]. intros r' I. apply H. right. exact I.
Qed.
Lemma filter_none (p : rec -> bool) t : (forall r, In r t -> p r = false) -> filter p t = [].
Proof.
  induction t as [|r t IH]; intros H; [reflexivity|]. cbn [filter]. rewrite (H r) by (left; reflexivity).
  apply IH. intros r' I. apply H. right. exact I.
Qed.

Section Blocks.
Variables (c : string) (P : nat -> table).
Hypothesis tagged : forall i r, In r (P i) -> getv c r = num i.

Lemma blocks_below n r : In r (blocks n P) -> exists i, i < n /\ getv c r = num i.
Proof.
  unfold blocks. intros H. apply in_flat_map in H as (i & I & H). apply in_seq in I.
  exists i. split; [lia|]. apply tagged, H.
Qed.
Lemma blocks_rows n v : filter (has_value c v) (blocks n P) = [] \/ exists i, filter (has_value c v) (blocks n P) = P i.
Proof.
  induction n as [|n IH]; [left; reflexivity|]. rewrite blocks_S, filter_app.
  destruct (value_eqb (num n) v) eqn:E.
  - apply value_eqb_eq in E. right. exists n. rewrite filter_none, filter_all; [reflexivity| |].
    + intros r I. apply has_value_true. rewrite (tagged n r I). exact E.
    + intros r I. apply has_value_false. apply blocks_below in I as (i & L & ->). subst v.
      intros H. apply num_inj in H. lia.
  - rewrite (filter_none _ (P n)), app_nil_r; [exact IH|]. intros r I. unfold has_value.
    rewrite (tagged n r I). exact E.
Qed.
Lemma blocks_drop n : filter (fun r => negb (has_value c (num n) r)) (blocks (S n) P) = blocks n P.
Proof.
  rewrite blocks_S, filter_app, filter_all, filter_none, app_nil_r; [reflexivity| |].
  - intros r I. apply negb_false_iff, has_value_true, tagged, I.
  - intros r I. apply negb_true_iff, has_value_false. apply blocks_below in I as (i & L & ->).
    intros H. apply num_inj in H. lia.
Qed.
Lemma blocks_apart n : ids_apart c n (blocks n P) [].
Proof.
  assert (H : forall j, j <= n -> ids_apart c j (blocks n P) (blocks (n - j) P)).
  { induction j as [|j IH]; intros L.
    - rewrite Nat.sub_0_r. constructor. reflexivity.
    - apply (ids_step c j _ (blocks (n - j) P)); [apply IH; lia|]. exists (num (n - S j)). left.
      replace (n - j) with (S (n - S j)) by lia. rewrite blocks_drop. reflexivity. }
  specialize (H n (le_n n)). rewrite Nat.sub_diag in H. exact H.
Qed.
Lemma blocks_max_rows n m : (forall i, length (P i) <= m) -> forall v, length (filter (has_value c v) (blocks n P)) <= m.
Proof. intros L v. destruct (blocks_rows n v) as [->|(i & ->)]; [cbn [length]; lia|apply L]. Qed.
End Blocks.

Lemma blocks_length n P m : (forall i, length (P i) = m) -> length (blocks n P) = n * m.
Proof.
  intros L. induction n as [|n IH]; [reflexivity|]. rewrite blocks_S, app_length, IH, L. lia.
Qed.

(** The worst tables for a truncation: [k] privacy IDs, each with as many rows as allowed;
    when groups are bounded, every ID is in the same groups. *)
Definition one_group (idc g : string) (b i j : nat) : table := repeat [(idc, num i); (g, num j)] b.
Definition full_person (idc : string) (tr : trunc) (i : nat) : table :=
  match tr with
  | TRows m => repeat [(idc, num i)] m
  | TGroups g a b => blocks a (one_group idc g b i)
  end.
Definition full_table (idc : string) (tr : trunc) (k : nat) : table := blocks k (full_person idc tr).
Definition other_column (idc : string) (tr : trunc) : Prop :=
  match tr with TRows _ => True | TGroups g _ _ => g <> idc end.

Lemma full_person_id idc tr i r : In r (full_person idc tr i) -> getv idc r = num i.
Proof.
  destruct tr as [m|g a b]; cbn [full_person].
  - intros I. apply repeat_spec in I. subst r. unfold getv. cbn [dget]. rewrite String.eqb_refl. reflexivity.
  - unfold blocks. intros I. apply in_flat_map in I as (j & _ & I). apply repeat_spec in I. subst r.
    unfold getv. cbn [dget]. rewrite String.eqb_refl. reflexivity.
Qed.
Lemma one_group_tag idc g b i j r : g <> idc -> In r (one_group idc g b i j) -> getv g r = num j.
Proof.
  intros N I. apply repeat_spec in I. subst r. unfold getv. cbn [dget].
  destruct (String.eqb_spec g idc) as [E|_]; [contradiction|]. rewrite String.eqb_refl. reflexivity.
Qed.

Lemma full_satisfies idc tr k : other_column idc tr -> satisfies_all idc (trunc_constraints tr) (full_table idc tr k).
Proof.
  intros O c I. destruct tr as [m|g a b]; cbn [trunc_constraints In other_column] in *.
  - destruct I as [<-|[]]. cbn [satisfies]. unfold rows_of. apply blocks_max_rows.
    + apply full_person_id.
    + intros i. cbn [full_person]. rewrite repeat_length. lia.
  - destruct I as [<-|[<-|[]]]; cbn [satisfies].
    + intros v vs N W. rewrite <- (seq_length a 0), <- (map_length num (seq 0 a)).
      apply NoDup_incl_length; [exact N|]. intros w J. apply W in J as (r & R & <-).
      unfold rows_of in R. apply filter_In in R as [R _]. apply in_flat_map in R as (i & _ & R).
      cbn [full_person] in R. apply (blocks_below g) in R as (j & L & ->); [|intros j s; apply one_group_tag, O].
      apply in_map, in_seq. lia.
    + intros v w. unfold rows_of.
      destruct (blocks_rows idc _ (full_person_id idc (TGroups g a b)) k v) as [E|(i & E)]; unfold full_table; rewrite E;
        [cbn [filter length]; lia|].
      cbn [full_person]. apply blocks_max_rows; [intros j s; apply one_group_tag, O|].
      intros j. unfold one_group. rewrite repeat_length. lia.
Qed.

Lemma filter_blocks p n P : filter p (blocks n P) = blocks n (fun i => filter p (P i)).
Proof. induction n as [|n IH]; [reflexivity|]. rewrite !blocks_S, filter_app, IH. reflexivity. Qed.
Lemma full_group idc g a b k j : g <> idc -> j < a ->
  length (filter (has_value g (num j)) (full_table idc (TGroups g a b) k)) = k * b.
Proof.
  intros N L. unfold full_table. rewrite filter_blocks. apply blocks_length. intros i. cbn [full_person].
  revert L. induction a as [|a IH]; intros L; [lia|]. rewrite blocks_S, filter_app, app_length.
  destruct (Nat.eq_dec j a) as [->|D].
  - rewrite filter_none, filter_all.
    + unfold one_group. rewrite repeat_length. reflexivity.
    + intros r I. apply has_value_true. apply (one_group_tag idc g b i a r N I).
    + intros r I. apply has_value_false. apply (blocks_below g) in I as (j & J & ->); [|intros j s; apply one_group_tag, N].
      intros H. apply num_inj in H. lia.
  - rewrite IH by lia. rewrite filter_none; [cbn [length]; lia|].
    intros r I. apply has_value_false. rewrite (one_group_tag idc g b i a r N I). intros H. apply num_inj in H. lia.
Qed.

Lemma distance_none t : row_distance t [] = length t.
Proof. rewrite row_distance_sym. apply rows_added. reflexivity. Qed.

Lemma full_length idc tr k : length (full_table idc tr k) = k * rows_bound tr.
Proof.
  apply blocks_length. intros i. destruct tr as [m|g a b]; cbn [full_person rows_bound]; [apply repeat_length|].
  apply blocks_length. intros j. apply repeat_length.
Qed.

Lemma full_grouped idc g a b k : g <> idc ->
  grouped_distance_squared g (full_table idc (TGroups g a b) k) [] = k * k * (a * (b * b)).
Proof.
  intros N. rewrite (grouped_support g _ _ (map num (seq 0 a))).
  - match goal with |- list_sum (map ?f _) = _ => set (F := f) end.
    assert (E : forall j, j < a -> F (num j) = (k * b) * (k * b)).
    { intros j L. unfold F. cbv zeta. cbn [filter]. rewrite distance_none, full_group by assumption. reflexivity. }
    assert (H : forall l, incl l (seq 0 a) -> list_sum (map F (map num l)) = k * k * (length l * (b * b))).
    { clearbody F. induction l as [|j l IH]; intros I; [cbn [map length]; unfold list_sum; cbn [fold_right]; lia|].
      assert (J : In j (seq 0 a)) by (apply I; left; reflexivity). apply in_seq in J.
      specialize (IH (fun x X => I x (or_intror X))). cbn [map length]. unfold list_sum in *. cbn [fold_right].
      rewrite IH, E by lia. nia. }
    rewrite H by (intros x X; exact X). rewrite seq_length. reflexivity.
  - apply FinFun.Injective_map_NoDup; [intros x y; apply num_inj|apply seq_NoDup].
  - intros r I. rewrite app_nil_r in I. apply in_flat_map in I as (i & _ & I). cbn [full_person] in I.
    apply (blocks_below g) in I as (j & L & ->); [|intros j s; apply one_group_tag, N]. apply in_map, in_seq. lia.
Qed.

(** For every output measure, grouping and list of constraints from which a truncation can
    be chosen, and every number [k] of privacy IDs, there is a table with [k] privacy IDs
    whose distance from the empty one, after the truncation, is exactly [k] times the
    stability: no smaller number would be sound. *)
Theorem C17_stability_is_reached : forall ro ko so mu grouping cs idc tr k,
  choose_trunc so mu grouping cs = Some tr -> other_column idc tr ->
  exists a x y, ids_apart idc k a []
    /\ truncate_table ro ko so mu grouping cs {| t_place := PKeys idc; t_rows := a |} = Ok x
    /\ truncate_table ro ko so mu grouping cs {| t_place := PKeys idc; t_rows := [] |} = Ok y
    /\ t_place x = t_place y
    /\ distance_squared (t_place x) (t_rows x) (t_rows y) = k * k * stability_squared mu grouping tr.
Proof.
  intros ro ko so mu gr cs idc tr k C O.
  assert (T : forall t, exists x, truncate_table ro ko so mu gr cs {| t_place := PKeys idc; t_rows := t |} = Ok x).
  { intros t. unfold truncate_table. cbn [t_place]. rewrite C. destruct tr as [m|g a b]; cbn; [eauto|].
    rewrite (String.eqb_refl g). cbn [bind]. eauto. }
  destruct (T (full_table idc tr k)) as (x & X). destruct (T []) as (y & Y).
  exists (full_table idc tr k), x, y. split; [apply blocks_apart, full_person_id|]. split; [exact X|]. split; [exact Y|].
  apply truncate_ids in X as (tr' & C' & Rx & Px). rewrite C in C'. injection C' as <-.
  apply truncate_ids in Y as (tr' & C' & Ry & Py). rewrite C in C'. injection C' as <-.
  split; [congruence|].
  assert (Ex : Permutation (t_rows x) (full_table idc tr k)).
  { rewrite Rx. apply fold_enforce_id, full_satisfies, O. }
  assert (Ey : t_rows y = []).
  { rewrite Ry. apply Permutation_nil. symmetry. apply fold_enforce_id. intros c I.
    destruct c; cbn [satisfies rows_of filter length]; try (intros; lia).
    intros i vs N W. destruct vs as [|v vs]; [cbn [length]; lia|]. destruct (W v (or_introl eq_refl)) as (r & [] & _). }
  rewrite Px, Ey.
  assert (L : row_distance (t_rows x) [] = k * rows_bound tr).
  { rewrite distance_none, (Permutation_length Ex). apply full_length. }
  destruct tr as [m|g a b]; cbn [distance_squared stability_squared rows_bound] in *; [rewrite L; nia|].
  destruct mu; cbn [distance_squared]; try (rewrite L; nia).
  destruct (smem g gr); [|rewrite L; nia].
  rewrite <- (full_grouped idc g a b k O).
  rewrite (grouped_support g (t_rows x) [] (nodup value_eq_dec (map (getv g) (full_table idc (TGroups g a b) k ++ [])%list))).
  - unfold grouped_distance_squared. f_equal. apply map_ext. intros v. cbv zeta.
    rewrite (row_distance_same_l _ (filter (has_value g v) (full_table idc (TGroups g a b) k))); [reflexivity|].
    apply Permutation_filter, Ex.
  - apply NoDup_nodup.
  - intros r I. apply nodup_In, in_map. rewrite app_nil_r in *. apply (Permutation_in r Ex), I.
Qed.
Print Assumptions C17_stability_is_reached.

(** Three IDs, two groups of four rows each under zCDP: squared distance 9 * (2 * 16). *)
Example C17_stability_is_reached_case :
  let cs := [MaxGroupsPerID "grp" 2; MaxRowsPerGroupPerID "grp" 4] in
  choose_trunc (fun l => l) RhoZCDP ["grp"] cs = Some (TGroups "grp" 2 4)
  /\ other_column "id" (TGroups "grp" 2 4)
  /\ stability_squared RhoZCDP ["grp"] (TGroups "grp" 2 4) = 32
  /\ stability_squared PureDP ["grp"] (TGroups "grp" 2 4) = 64.
Proof. cbv zeta. repeat split. discriminate. Qed.
