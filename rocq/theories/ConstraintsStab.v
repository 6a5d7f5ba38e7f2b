(** Stability of the chosen truncation, minimality of the choice, and the count-distinct
    optimization. *)
From Coq Require Import String Bool Arith ZArith Lia Permutation List.
From Verif Require Import Prelude Value Rows Constraints ConstraintsSpec ConstraintsProofs.
Import ListNotations.
Local Open Scope nat_scope.

(** ** Splitting a table by the values of a column *)
Lemma length_by_column g l s : NoDup s -> (forall r, In r l -> In (getv g r) s) ->
  length l = list_sum (map (fun v => length (filter (has_value g v) l)) s).
Proof.
  intros N. induction l as [|r l IH]; intros H; simpl.
  - symmetry. apply list_sum_zero. reflexivity.
  - rewrite IH by (intros; apply H; simpl; auto).
    assert (Hx : In (getv g r) s) by (apply H; simpl; auto).
    apply in_split in Hx as (l1 & l2 & E). rewrite E in *.
    assert (Nx := NoDup_remove_2 _ _ _ N). rewrite in_app_iff in Nx.
    assert (X : forall s', ~ In (getv g r) s' ->
      map (fun v => length (if has_value g v r then r :: filter (has_value g v) l else filter (has_value g v) l)) s'
      = map (fun v => length (filter (has_value g v) l)) s').
    { intros s' Hs. apply map_ext_in. intros v Hv. destruct (has_value g v r) eqn:B; [|reflexivity].
      apply has_value_true in B. subst. contradiction. }
    rewrite !map_app, !list_sum_app. rewrite X by tauto. cbn [map list_sum fold_right].
    rewrite X by tauto. rewrite (proj2 (has_value_true g (getv g r) r) eq_refl). simpl. lia.
Qed.

Lemma list_sum_const_le {A} (f : A -> nat) l b : (forall x, In x l -> f x <= b) -> list_sum (map f l) <= length l * b.
Proof.
  induction l as [|x l IH]; simpl; intros H; [lia|].
  specialize (IH (fun y Hy => H y (or_intror Hy))). specialize (H x (or_introl eq_refl)). lia.
Qed.

(** Groups times rows per group bounds the rows. *)
Lemma groups_times_rows idc g a b t :
  satisfies idc (MaxGroupsPerID g a) t -> satisfies idc (MaxRowsPerGroupPerID g b) t ->
  forall i, length (rows_of idc i t) <= a * b.
Proof.
  simpl. intros SG SR i.
  set (s := nodup value_eq_dec (map (getv g) (rows_of idc i t))).
  rewrite (length_by_column g (rows_of idc i t) s).
  - etransitivity; [apply (list_sum_const_le _ _ b); intros v _; apply SR|].
    apply Nat.mul_le_mono_r. apply (SG i); [apply NoDup_nodup|].
    intros v Hv. apply nodup_In, in_map_iff in Hv as (r & E & Hr). eauto.
  - apply NoDup_nodup.
  - intros r Hr. apply nodup_In, in_map, Hr.
Qed.

Section Stab.
Variable row_order : order rec.
Variable key_order : value -> order value.

Definition trunc_rows (idc : string) (tr : trunc) (t : table) : table :=
  fold_left (fun t c => enforce_rows row_order key_order idc c t) (trunc_constraints tr) t.

Lemma fold_enforce_same idc cs t t' : same_table t t' ->
  same_table (fold_left (fun t c => enforce_rows row_order key_order idc c t) cs t)
             (fold_left (fun t c => enforce_rows row_order key_order idc c t) cs t').
Proof.
  revert t t'; induction cs as [|c cs IH]; simpl; intros t t' P; [assumption|].
  apply IH, enforce_rows_same, P.
Qed.
Lemma fold_enforce_by_id idc cs t (q : value -> bool) :
  filter (fun r => q (getv idc r)) (fold_left (fun t c => enforce_rows row_order key_order idc c t) cs t)
  = fold_left (fun t c => enforce_rows row_order key_order idc c t) cs (filter (fun r => q (getv idc r)) t).
Proof.
  revert t; induction cs as [|c cs IH]; simpl; intros t; [reflexivity|].
  rewrite IH, enforce_rows_by_id. reflexivity.
Qed.
Lemma fold_enforce_sub idc cs t :
  sub_table (fold_left (fun t c => enforce_rows row_order key_order idc c t) cs t) t.
Proof.
  revert t; induction cs as [|c cs IH]; simpl; intros t; [intros r; lia|].
  eapply sub_table_trans; [apply IH|apply enforce_rows_sub].
Qed.
Lemma fold_enforce_sat idc cs t :
  satisfies_all idc cs (fold_left (fun t c => enforce_rows row_order key_order idc c t) cs t).
Proof.
  revert t; induction cs as [|c cs IH]; simpl; intros t; [intros c []|].
  intros c' [<-|H]; [|apply IH, H].
  eapply satisfies_sub; [apply fold_enforce_sub|apply enforce_rows_sat].
Qed.
Lemma fold_enforce_id idc cs t : satisfies_all idc cs t ->
  same_table (fold_left (fun t c => enforce_rows row_order key_order idc c t) cs t) t.
Proof.
  revert t; induction cs as [|c cs IH]; simpl; intros t H; [reflexivity|].
  assert (P : same_table (enforce_rows row_order key_order idc c t) t)
    by (apply enforce_rows_id, H; simpl; auto).
  etransitivity; [|exact P]. apply IH. intros c' Hc'.
  apply (satisfies_same idc c' _ _ P). apply H. simpl; auto.
Qed.

(** Number of rows one ID can have after the truncation. *)
Definition rows_bound (tr : trunc) : nat :=
  match tr with TRows m => m | TGroups _ a b => a * b end.
Lemma trunc_rows_bound idc tr t i : length (rows_of idc i (trunc_rows idc tr t)) <= rows_bound tr.
Proof.
  pose proof (fold_enforce_sat idc (trunc_constraints tr) t) as H. fold (trunc_rows idc tr t) in H.
  destruct tr as [m|g a b]; simpl in *.
  - apply (H (MaxRowsPerID m)). simpl; auto.
  - apply (groups_times_rows idc g); apply H; simpl; auto.
Qed.

Lemma trunc_rows_remove idc tr a b i :
  same_table b (filter (fun r => negb (has_value idc i r)) a) ->
  same_table (trunc_rows idc tr b) (filter (fun r => negb (has_value idc i r)) (trunc_rows idc tr a)).
Proof.
  intros P. unfold trunc_rows.
  etransitivity; [apply fold_enforce_same, P|].
  rewrite <- (fold_enforce_by_id idc _ a (fun v => negb (value_eqb v i))). reflexivity.
Qed.

Lemma one_id_rows idc tr a b : one_id_apart idc a b ->
  row_distance (trunc_rows idc tr a) (trunc_rows idc tr b) <= rows_bound tr.
Proof.
  assert (K : forall a b i, same_table b (filter (fun r => negb (has_value idc i r)) a) ->
    row_distance (trunc_rows idc tr a) (trunc_rows idc tr b) <= rows_bound tr).
  { clear a b. intros a b i P. rewrite (row_distance_same_r _ _ _ (trunc_rows_remove idc tr a b i P)).
    rewrite row_distance_filter.
    rewrite (filter_ext _ (has_value idc i)) by (intros; apply negb_involutive).
    apply trunc_rows_bound. }
  intros (i & [P|P]); [apply (K a b i P)|]. rewrite row_distance_sym. apply (K b a i P).
Qed.

Lemma ids_apart_rows idc tr k a b : ids_apart idc k a b ->
  row_distance (trunc_rows idc tr a) (trunc_rows idc tr b) <= k * rows_bound tr.
Proof.
  induction 1 as [a b P|k a b c _ IH O].
  - rewrite row_distance_same; [lia|]. apply fold_enforce_same, P.
  - pose proof (row_distance_triangle (trunc_rows idc tr a) (trunc_rows idc tr b) (trunc_rows idc tr c)).
    pose proof (one_id_rows idc tr b c O). simpl. lia.
Qed.

(** *** Grouped L2 distance *)
Lemma grouped_support g a b s : NoDup s -> (forall r, In r (a ++ b) -> In (getv g r) s) ->
  grouped_distance_squared g a b =
  list_sum (map (fun v => let d := row_distance (filter (has_value g v) a) (filter (has_value g v) b) in d * d) s).
Proof.
  intros N I. unfold grouped_distance_squared. apply list_sum_support; [apply NoDup_nodup|assumption| |].
  - intros v Hv. apply nodup_In, in_map_iff in Hv as (r & <- & Hr). auto.
  - intros v _ Hv.
    assert (E : forall l, incl l (a ++ b) -> filter (has_value g v) l = []).
    { intros l Hl. apply filter_none. intros r Hr. apply has_value_false. intros E. apply Hv.
      apply nodup_In, in_map_iff. exists r. auto. }
    rewrite !E by (intros r Hr; apply in_app_iff; auto). reflexivity.
Qed.

Lemma minkowski {A} (x y z : A -> nat) l k M :
  (forall v, In v l -> z v <= x v + y v) ->
  list_sum (map (fun v => x v * x v) l) <= k * k * M ->
  list_sum (map (fun v => y v * y v) l) <= M ->
  list_sum (map (fun v => z v * z v) l) <= S k * S k * M.
Proof.
  intros Z X Y.
  assert (Z2 : list_sum (map (fun v => z v * z v) l) <=
    list_sum (map (fun v => x v * x v) l) + 2 * list_sum (map (fun v => x v * y v) l)
    + list_sum (map (fun v => y v * y v) l)).
  { clear X Y. induction l as [|v l IH]; simpl; [lia|].
    specialize (IH (fun w Hw => Z w (or_intror Hw))). specialize (Z v (or_introl eq_refl)). nia. }
  assert (C : 2 * k * list_sum (map (fun v => x v * y v) l) <=
    list_sum (map (fun v => x v * x v) l) + k * k * list_sum (map (fun v => y v * y v) l)).
  { clear. induction l as [|v l IH]; simpl; [lia|].
    assert (2 * k * (x v * y v) <= x v * x v + k * k * (y v * y v)); [|nia].
    destruct (Nat.le_ge_cases (x v) (k * y v)) as [H|H].
    - assert (exists d, k * y v = x v + d) as (d & E) by (exists (k * y v - x v); lia).
      assert (k * k * (y v * y v) = (k * y v) * (k * y v)) as -> by lia.
      assert (2 * k * (x v * y v) = 2 * x v * (k * y v)) as -> by lia.
      rewrite E. nia.
    - assert (exists d, x v = k * y v + d) as (d & E) by (exists (x v - k * y v); lia).
      assert (k * k * (y v * y v) = (k * y v) * (k * y v)) as -> by lia.
      assert (2 * k * (x v * y v) = 2 * x v * (k * y v)) as -> by lia.
      rewrite E. nia. }
  destruct k as [|k].
  - assert (X0 : forall v, In v l -> x v = 0).
    { clear -X. induction l as [|w l IH]; simpl in *; [tauto|]. intros v [<-|Hv]; [nia|]. apply IH; [nia|assumption]. }
    assert (list_sum (map (fun v => x v * y v) l) = 0)
      by (apply list_sum_zero; intros v Hv; rewrite (X0 v Hv); reflexivity).
    lia.
  - assert (list_sum (map (fun v => x v * y v) l) <= S k * M).
    { apply (Nat.mul_le_mono_pos_l _ _ (2 * S k)); [lia|]. nia. }
    nia.
Qed.

Lemma one_id_grouped idc g p q a b : one_id_apart idc a b ->
  grouped_distance_squared g (trunc_rows idc (TGroups g p q) a) (trunc_rows idc (TGroups g p q) b) <= p * (q * q).
Proof.
  set (T := trunc_rows idc (TGroups g p q)).
  assert (SY : forall u w, grouped_distance_squared g u w = grouped_distance_squared g w u).
  { intros u w. rewrite (grouped_support g w u (nodup value_eq_dec (map (getv g) (u ++ w)))).
    - apply list_sum_ext. intros v _. cbv zeta. rewrite row_distance_sym. reflexivity.
    - apply NoDup_nodup.
    - intros r Hr. apply nodup_In, in_map. apply in_app_iff. apply in_app_iff in Hr. tauto. }
  assert (K : forall a b i, same_table b (filter (fun r => negb (has_value idc i r)) a) ->
    grouped_distance_squared g (T a) (T b) <= p * (q * q)).
  { clear a b. intros a b i P. pose proof (trunc_rows_remove idc (TGroups g p q) a b i P) as R. fold T in R.
    pose proof (fold_enforce_sat idc (trunc_constraints (TGroups g p q)) a) as S.
    change (satisfies_all idc (trunc_constraints (TGroups g p q)) (T a)) in S.
    assert (SG : satisfies idc (MaxGroupsPerID g p) (T a)) by (apply S; simpl; auto).
    assert (SR : satisfies idc (MaxRowsPerGroupPerID g q) (T a)) by (apply S; simpl; auto).
    clear S. simpl in SG, SR.
    assert (D : forall v, row_distance (filter (has_value g v) (T a)) (filter (has_value g v) (T b))
      = length (filter (has_value g v) (rows_of idc i (T a)))).
    { intros v. rewrite (row_distance_same_r _ _ _ (Permutation_filter (has_value g v) _ _ R)).
      rewrite filter_filter.
      rewrite (filter_ext (fun x => negb (has_value idc i x) && has_value g v x)
        (fun x => has_value g v x && negb (has_value idc i x))) by (intros; apply andb_comm).
      rewrite <- (filter_filter (fun x => negb (has_value idc i x)) (has_value g v)).
      rewrite row_distance_filter. rewrite filter_filter. unfold rows_of. rewrite filter_filter.
      f_equal. apply filter_ext. intros r. rewrite negb_involutive. apply andb_comm. }
    unfold grouped_distance_squared.
    rewrite (list_sum_ext _ (fun v => length (filter (has_value g v) (rows_of idc i (T a)))
                                    * length (filter (has_value g v) (rows_of idc i (T a)))))
      by (intros v _; cbv zeta; rewrite D; reflexivity).
    set (s := nodup value_eq_dec (map (getv g) (rows_of idc i (T a)))).
    rewrite <- (list_sum_support _ s).
    - etransitivity; [apply (list_sum_const_le _ _ (q * q))|].
      + intros v _. apply Nat.mul_le_mono; apply SR.
      + apply Nat.mul_le_mono_r. apply (SG i); [apply NoDup_nodup|].
        intros v Hv. apply nodup_In, in_map_iff in Hv as (r & E & Hr). eauto.
    - apply NoDup_nodup.
    - apply NoDup_nodup.
    - intros v Hv. apply nodup_In, in_map_iff in Hv as (r & <- & Hr). apply nodup_In, in_map.
      apply in_app_iff. left. apply filter_In in Hr. tauto.
    - intros v _ Hv. rewrite filter_none; [reflexivity|]. intros r Hr. apply has_value_false.
      intros E. apply Hv. apply nodup_In, in_map_iff. eauto. }
  intros (i & [P|P]); [apply (K a b i P)|]. rewrite SY. apply (K b a i P).
Qed.

Lemma ids_apart_grouped idc g p q k a b : ids_apart idc k a b ->
  grouped_distance_squared g (trunc_rows idc (TGroups g p q) a) (trunc_rows idc (TGroups g p q) b)
  <= k * k * (p * (q * q)).
Proof.
  set (T := trunc_rows idc (TGroups g p q)).
  induction 1 as [a b P|k a b c _ IH O].
  - unfold grouped_distance_squared. rewrite list_sum_zero; [lia|]. intros v _. cbv zeta.
    rewrite row_distance_same; [reflexivity|]. apply Permutation_filter. apply fold_enforce_same, P.
  - pose proof (one_id_grouped idc g p q b c O) as H. fold T in H.
    set (s := nodup value_eq_dec (map (getv g) (T a ++ T b ++ T c))).
    assert (N : NoDup s) by apply NoDup_nodup.
    assert (Ia : forall r, In r (T a) -> In (getv g r) s)
      by (intros r Hr; apply nodup_In, in_map; rewrite !in_app_iff; auto).
    assert (Ib : forall r, In r (T b) -> In (getv g r) s)
      by (intros r Hr; apply nodup_In, in_map; rewrite !in_app_iff; auto).
    assert (Ic : forall r, In r (T c) -> In (getv g r) s)
      by (intros r Hr; apply nodup_In, in_map; rewrite !in_app_iff; auto).
    rewrite (grouped_support g (T a) (T b) s) in IH by (assumption || (intros r Hr; apply in_app_iff in Hr as [|]; auto)).
    rewrite (grouped_support g (T b) (T c) s) in H by (assumption || (intros r Hr; apply in_app_iff in Hr as [|]; auto)).
    rewrite (grouped_support g (T a) (T c) s) by (assumption || (intros r Hr; apply in_app_iff in Hr as [|]; auto)).
    refine (minkowski _ _ _ s k _ _ IH H). intros v _. apply row_distance_triangle.
Qed.

(** *** The function that truncates before an aggregation *)
Variable set_order : list string -> list string.

(** Distance between two tables in the metric the truncated table is measured in:
    number of rows (L1), or the L2 norm over groups; squared in both cases. *)
Definition distance_squared (p : place) (a b : table) : nat :=
  match p with
  | PGrouped g true | PGroupedIds g true _ => grouped_distance_squared g a b
  | _ => row_distance a b * row_distance a b
  end.

Lemma truncate_ids mu gr cs idc t y :
  truncate_table row_order key_order set_order mu gr cs {| t_place := PKeys idc; t_rows := t |} = Ok y ->
  exists tr, choose_trunc set_order mu gr cs = Some tr /\ t_rows y = trunc_rows idc tr t
    /\ t_place y = match tr with
                   | TRows _ => PSym
                   | TGroups g _ _ => PGrouped g (match mu with RhoZCDP => smem g gr | _ => false end)
                   end.
Proof.
  unfold truncate_table. cbn [t_place]. destruct (choose_trunc set_order mu gr cs) as [tr|]; [|discriminate].
  intros H. exists tr. split; [reflexivity|]. destruct tr as [m|g a b]; simpl in H.
  - inversion H; subst; simpl. split; reflexivity.
  - rewrite String.eqb_refl in H. inversion H; subst; simpl. split; reflexivity.
Qed.

Lemma truncate_stability mu gr cs idc k a b x y :
  ids_apart idc k a b ->
  truncate_table row_order key_order set_order mu gr cs {| t_place := PKeys idc; t_rows := a |} = Ok x ->
  truncate_table row_order key_order set_order mu gr cs {| t_place := PKeys idc; t_rows := b |} = Ok y ->
  exists tr, choose_trunc set_order mu gr cs = Some tr /\ t_place x = t_place y
    /\ distance_squared (t_place x) (t_rows x) (t_rows y) <= k * k * stability_squared mu gr tr.
Proof.
  intros I Hx Hy. apply truncate_ids in Hx as (tr & C & Rx & Px).
  apply truncate_ids in Hy as (tr' & C' & Ry & Py). rewrite C in C'. inversion C'; subst tr'.
  exists tr. split; [assumption|]. split; [congruence|].
  rewrite Px, Rx, Ry. pose proof (ids_apart_rows idc tr k a b I) as L1.
  destruct tr as [m|g p q]; simpl in *; [nia|].
  destruct mu; simpl; [nia|nia|]. destruct (smem g gr); [|nia].
  apply ids_apart_grouped, I.
Qed.

(** ** The cheapest truncation is chosen *)

(** A truncation justified by constraints in the list. *)
Definition usable (cs : list constraint) (tr : trunc) : Prop := incl (trunc_constraints tr) cs.

Lemma find_rows_spec cs :
  match find_rows cs with
  | Some m => In (MaxRowsPerID m) cs
  | None => forall m, ~ In (MaxRowsPerID m) cs
  end.
Proof.
  induction cs as [|c cs IH]; simpl; [tauto|].
  destruct c as [m|g m|g m]; [auto| |]; destruct (find_rows cs); auto;
    intros m' [E|H]; try discriminate; apply (IH m' H).
Qed.

Lemma dict_of_get {V} (l : list (string * V)) k v : dget k (dict_of l) = Some v -> In (k, v) l.
Proof.
  unfold dict_of. assert (G : forall d, dget k (fold_left (fun d p => dset (fst p) (snd p) d) l d) = Some v ->
    In (k, v) l \/ dget k d = Some v).
  { induction l as [|[k' v'] l IH]; simpl; intros d H; [auto|].
    destruct (IH _ H) as [I|E]; [auto|]. rewrite dget_dset in E.
    destruct (String.eqb_spec k' k) as [->|N]; [inversion E; auto|auto]. }
  intros H. destruct (G [] H) as [I|E]; [assumption|discriminate].
Qed.
Lemma dict_of_mem {V} (l : list (string * V)) k v : In (k, v) l -> exists v', dget k (dict_of l) = Some v'.
Proof.
  unfold dict_of. assert (G : forall d, (In (k, v) l \/ exists v', dget k d = Some v') ->
     exists v', dget k (fold_left (fun d p => dset (fst p) (snd p) d) l d) = Some v').
  { induction l as [|[k' v0] l IH]; simpl; intros d H; [destruct H as [[]|H]; exact H|].
    apply IH. destruct H as [[E|H]|(v' & H)]; [|auto|].
    - inversion E; subst. right. exists v. apply dget_dset_same.
    - right. rewrite dget_dset. destruct (String.eqb k' k); eauto. }
  intros H. apply G. auto.
Qed.

Lemma groups_dict_get cs g m : dget g (groups_dict cs) = Some m -> In (MaxGroupsPerID g m) cs.
Proof.
  intros H. apply dict_of_get in H. apply in_flat_map in H as (c & Hc & H).
  destruct c; simpl in H; try tauto. destruct H as [E|[]]. inversion E; subst; assumption.
Qed.
Lemma rpg_dict_get cs g m : dget g (rpg_dict cs) = Some m -> In (MaxRowsPerGroupPerID g m) cs.
Proof.
  intros H. apply dict_of_get in H. apply in_flat_map in H as (c & Hc & H).
  destruct c; simpl in H; try tauto. destruct H as [E|[]]. inversion E; subst; assumption.
Qed.
Lemma groups_dict_mem cs g m : In (MaxGroupsPerID g m) cs -> exists m', dget g (groups_dict cs) = Some m'.
Proof.
  intros H. apply (dict_of_mem _ g m). apply in_flat_map. exists (MaxGroupsPerID g m). simpl; auto.
Qed.
Lemma rpg_dict_mem cs g m : In (MaxRowsPerGroupPerID g m) cs -> exists m', dget g (rpg_dict cs) = Some m'.
Proof.
  intros H. apply (dict_of_mem _ g m). apply in_flat_map. exists (MaxRowsPerGroupPerID g m). simpl; auto.
Qed.

Lemma truncatable_usable (SO : forall l, Permutation (set_order l) l) cs tr :
  In tr (truncatable set_order cs) -> usable cs tr.
Proof.
  unfold truncatable. rewrite in_app_iff, in_flat_map. intros [(g & _ & H)|H].
  - destruct (dget g (groups_dict cs)) as [a|] eqn:E1; [|destruct H].
    destruct (dget g (rpg_dict cs)) as [b|] eqn:E2; [|destruct H]. destruct H as [<-|[]].
    intros c [<-|[<-|[]]]; [apply groups_dict_get, E1|apply rpg_dict_get, E2].
  - pose proof (find_rows_spec cs) as F. destruct (find_rows cs) as [m|]; [|destruct H].
    destruct H as [<-|[]]. intros c [<-|[]]. assumption.
Qed.

(** For simplified lists every usable truncation is a candidate. *)
Lemma usable_truncatable (SO : forall l, Permutation (set_order l) l) cs tr :
  (forall a b, In a cs -> In b cs -> same_subject a b = true -> a = b) ->
  usable cs tr -> In tr (truncatable set_order cs).
Proof.
  intros U H. unfold truncatable. rewrite in_app_iff, in_flat_map. destruct tr as [m|g a b].
  - right. pose proof (find_rows_spec cs) as F. assert (I : In (MaxRowsPerID m) cs) by (apply H; simpl; auto).
    destruct (find_rows cs) as [m'|]; [|destruct (F m I)].
    assert (E : MaxRowsPerID m' = MaxRowsPerID m) by (apply U; auto). inversion E. simpl; auto.
  - left. assert (I1 : In (MaxGroupsPerID g a) cs) by (apply H; simpl; auto).
    assert (I2 : In (MaxRowsPerGroupPerID g b) cs) by (apply H; simpl; auto).
    destruct (groups_dict_mem _ _ _ I1) as (a' & E1). destruct (rpg_dict_mem _ _ _ I2) as (b' & E2).
    assert (Ea : MaxGroupsPerID g a' = MaxGroupsPerID g a)
      by (apply U; [apply groups_dict_get, E1|assumption|apply String.eqb_refl]).
    assert (Eb : MaxRowsPerGroupPerID g b' = MaxRowsPerGroupPerID g b)
      by (apply U; [apply rpg_dict_get, E2|assumption|apply String.eqb_refl]).
    inversion Ea; inversion Eb; subst a' b'.
    exists g. split; [|rewrite E1, E2; simpl; auto].
    apply (Permutation_in _ (Permutation_sym (SO _))). apply filter_In. split.
    + apply dmem_In. unfold dmem. rewrite E1. reflexivity.
    + apply smem_In, dmem_In. unfold dmem. rewrite E2. reflexivity.
Qed.

Lemma simplify_unique_eq cs a b :
  In a (simplify cs) -> In b (simplify cs) -> same_subject a b = true -> a = b.
Proof.
  intros Ha Hb E. apply In_nth_error in Ha as (i & Hi). apply In_nth_error in Hb as (j & Hj).
  assert (i = j) by (eapply simplify_unique; eassumption). subst. congruence.
Qed.

(** Simplification only keeps constraints of the list. *)
Lemma lower_from g m d g' m' : dget g' (lower g m d) = Some m' -> (g' = g /\ m' = m) \/ dget g' d = Some m'.
Proof.
  unfold lower. destruct (dget g d) as [o|]; [destruct (m <? o)|]; auto;
    rewrite dget_dset; destruct (String.eqb_spec g g') as [->|N]; auto; intros H; inversion H; auto.
Qed.
Lemma simplify_incl cs : incl (simplify cs) cs.
Proof.
  assert (G : forall cs s,
    (forall m, In m (s_rows (fold_left simp_step cs s)) -> In (MaxRowsPerID m) cs \/ In m (s_rows s))
    /\ (forall g m, dget g (s_groups (fold_left simp_step cs s)) = Some m -> In (MaxGroupsPerID g m) cs \/ dget g (s_groups s) = Some m)
    /\ (forall g m, dget g (s_rpg (fold_left simp_step cs s)) = Some m -> In (MaxRowsPerGroupPerID g m) cs \/ dget g (s_rpg s) = Some m)).
  { clear cs. induction cs as [|c cs IH]; intros s; simpl; [auto|].
    destruct (IH (simp_step s c)) as (H1 & H2 & H3). split; [|split].
    - intros m Hm. destruct (H1 m Hm) as [H|H]; [auto|]. destruct c; simpl in H; auto.
      apply in_app_iff in H as [H|[->|[]]]; auto.
    - intros g m Hm. destruct (H2 g m Hm) as [H|H]; [auto|]. destruct c; simpl in H; auto.
      apply lower_from in H as [[-> ->]|H]; auto.
    - intros g m Hm. destruct (H3 g m Hm) as [H|H]; [auto|]. destruct c; simpl in H; auto.
      apply lower_from in H as [[-> ->]|H]; auto. }
  destruct (G cs acc0) as (H1 & H2 & H3).
  assert (ND : acc_nodup (fold_left simp_step cs acc0)) by (apply fold_simp_nodup; split; constructor).
  unfold simplify. fold acc0. set (s := fold_left simp_step cs acc0) in *. destruct ND as [N1 N2].
  intros c. rewrite !in_app_iff, !in_map_iff. intros [H|[H|H]].
  - destruct (s_rows s) as [|a l] eqn:E; [contradiction|]. destruct H as [<-|[]].
    destruct (H1 (list_min a l)) as [H|[]]; [|exact H]. apply list_min_In.
  - destruct H as ([g m] & <- & H). destruct (H2 g m) as [X|X]; [apply In_dget; assumption|exact X|discriminate].
  - destruct H as ([g m] & <- & H). destruct (H3 g m) as [X|X]; [apply In_dget; assumption|exact X|discriminate].
Qed.

(** Every constraint of the list has a simplified one that is at least as strong. *)
Lemma lower_some g m d : exists m', dget g (lower g m d) = Some m' /\ m' <= m.
Proof.
  unfold lower. destruct (dget g d) as [o|] eqn:E.
  - destruct (Nat.ltb_spec m o); [exists m; split; [apply dget_dset_same|lia]|exists o; auto].
  - exists m. split; [apply dget_dset_same|lia].
Qed.
Lemma lower_keep g m d g' m1 : dget g' d = Some m1 -> exists m', dget g' (lower g m d) = Some m' /\ m' <= m1.
Proof.
  intros H. unfold lower. destruct (dget g d) as [o|] eqn:E.
  - destruct (Nat.ltb_spec m o); [|eauto]. rewrite dget_dset. destruct (String.eqb_spec g g') as [->|N]; [|eauto].
    rewrite E in H. inversion H; subst. exists m. split; [reflexivity|lia].
  - rewrite dget_dset. destruct (String.eqb_spec g g') as [->|N]; [congruence|eauto].
Qed.
Lemma simplify_covers cs c : In c cs -> exists m, In (with_max c m) (simplify cs) /\ m <= bound c.
Proof.
  assert (K : forall cs s,
    (forall m, In m (s_rows s) -> In m (s_rows (fold_left simp_step cs s)))
    /\ (forall g m, dget g (s_groups s) = Some m -> exists m', dget g (s_groups (fold_left simp_step cs s)) = Some m' /\ m' <= m)
    /\ (forall g m, dget g (s_rpg s) = Some m -> exists m', dget g (s_rpg (fold_left simp_step cs s)) = Some m' /\ m' <= m)).
  { clear cs. induction cs as [|c' cs IH]; intros s; simpl; [repeat split; eauto|].
    destruct (IH (simp_step s c')) as (H1 & H2 & H3). split; [|split].
    - intros m Hm. apply H1. destruct c'; simpl; auto. apply in_app_iff; auto.
    - intros g m Hm. destruct c'; simpl in *; try (apply H2; assumption).
      destruct (lower_keep grouping_column max (s_groups s) g m Hm) as (m1 & E1 & L1).
      destruct (H2 _ _ E1) as (m2 & E2 & L2). exists m2. split; [assumption|lia].
    - intros g m Hm. destruct c'; simpl in *; try (apply H3; assumption).
      destruct (lower_keep grouping_column max (s_rpg s) g m Hm) as (m1 & E1 & L1).
      destruct (H3 _ _ E1) as (m2 & E2 & L2). exists m2. split; [assumption|lia]. }
  assert (G : forall cs s, In c cs ->
    let f := fold_left simp_step cs s in
    match c with
    | MaxRowsPerID m => In m (s_rows f)
    | MaxGroupsPerID g m => exists m', dget g (s_groups f) = Some m' /\ m' <= m
    | MaxRowsPerGroupPerID g m => exists m', dget g (s_rpg f) = Some m' /\ m' <= m
    end).
  { clear cs. induction cs as [|c' cs IH]; intros s; simpl; [tauto|]. intros [->|H]; [|apply IH, H].
    destruct (K cs (simp_step s c)) as (H1 & H2 & H3). destruct c as [m|g m|g m]; simpl in *.
    - apply H1. apply in_app_iff; simpl; auto.
    - destruct (lower_some g m (s_groups s)) as (m1 & E1 & L1). destruct (H2 _ _ E1) as (m2 & E2 & L2).
      exists m2. split; [assumption|lia].
    - destruct (lower_some g m (s_rpg s)) as (m1 & E1 & L1). destruct (H3 _ _ E1) as (m2 & E2 & L2).
      exists m2. split; [assumption|lia]. }
  intros H. specialize (G cs acc0 H). cbv zeta in G. unfold simplify. fold acc0.
  set (s := fold_left simp_step cs acc0) in *. destruct c as [m|g m|g m]; simpl.
  - destruct (s_rows s) as [|a l]; [contradiction|]. exists (list_min a l). split; [simpl; auto|].
    destruct (list_min_le a l) as [L1 L2]. destruct G as [->|G]; auto.
  - destruct G as (m' & E & L). exists m'. split; [|assumption]. rewrite !in_app_iff, in_map_iff.
    right; left. exists (g, m'). split; [reflexivity|apply dget_In, E].
  - destruct G as (m' & E & L). exists m'. split; [|assumption]. rewrite !in_app_iff, !in_map_iff.
    right; right. exists (g, m'). split; [reflexivity|apply dget_In, E].
Qed.

Lemma usable_simplify mu gr cs tr : usable cs tr ->
  exists tr', usable (simplify cs) tr' /\ stability_squared mu gr tr' <= stability_squared mu gr tr.
Proof.
  intros H. destruct tr as [m|g a b].
  - destruct (simplify_covers cs (MaxRowsPerID m)) as (m' & I & L); [apply H; simpl; auto|].
    exists (TRows m'). split; [|simpl in *; nia]. intros c [<-|[]]. exact I.
  - destruct (simplify_covers cs (MaxGroupsPerID g a)) as (a' & I & L); [apply H; simpl; auto|].
    destruct (simplify_covers cs (MaxRowsPerGroupPerID g b)) as (b' & I' & L'); [apply H; simpl; auto|].
    exists (TGroups g a' b'). split; [intros c [<-|[<-|[]]]; assumption|].
    simpl in *. assert (a' * b' <= a * b) by nia. destruct mu; simpl; try nia. destruct (smem g gr); nia.
Qed.

Lemma choose_spec mu gr cs (SO : forall l, Permutation (set_order l) l) :
  match choose_trunc set_order mu gr (simplify cs) with
  | Some tr => usable cs tr /\ forall tr', usable cs tr' -> stability_squared mu gr tr <= stability_squared mu gr tr'
  | None => forall tr, ~ usable cs tr
  end.
Proof.
  unfold choose_trunc.
  pose proof (isort_perm (trunc_le mu gr) (truncatable set_order (simplify cs))) as P.
  assert (S : sorted (trunc_le mu gr) (isort (trunc_le mu gr) (truncatable set_order (simplify cs)))).
  { apply isort_sorted_gen.
    - intros x y. unfold trunc_le. rewrite !Nat.leb_le. lia.
    - intros x y z. unfold trunc_le. rewrite !Nat.leb_le. lia. }
  assert (C : forall tr, usable cs tr -> exists tr', In tr' (isort (trunc_le mu gr) (truncatable set_order (simplify cs)))
     /\ stability_squared mu gr tr' <= stability_squared mu gr tr).
  { intros tr H. destruct (usable_simplify mu gr cs tr H) as (tr' & U & L). exists tr'. split; [|assumption].
    apply (Permutation_in _ (Permutation_sym P)), usable_truncatable; [assumption| |assumption].
    apply simplify_unique_eq. }
  destruct (isort (trunc_le mu gr) (truncatable set_order (simplify cs))) as [|tr l].
  - intros tr H. destruct (C tr H) as (? & [] & _).
  - split.
    + intros c Hc. apply simplify_incl. revert c Hc. apply truncatable_usable; [assumption|].
      apply (Permutation_in _ P). simpl; auto.
    + intros tr' H. destruct (C tr' H) as (t2 & I & L). inversion S as [|? ? M _]; subst.
      destruct I as [<-|I]; [assumption|]. specialize (M t2 I). unfold trunc_le in M.
      apply Nat.leb_le in M. lia.
Qed.

(** ** Counting distinct IDs by counting rows *)
Lemma keep_first_exact {K} (eqd : forall a b : K, {a = b} + {a <> b}) key m k t seen :
  length (filter (keyb eqd key k) (keep_first eqd key m seen t))
  = Nat.min (m - count_occ eqd seen k) (length (filter (keyb eqd key k) t)).
Proof.
  revert seen; induction t as [|r t IH]; intros seen; cbn [keep_first filter]; [simpl; lia|].
  specialize (IH (key r :: seen)). cbn [count_occ] in IH.
  assert (X : keyb eqd key k r = if eqd (key r) k then true else false) by reflexivity.
  destruct (Nat.ltb_spec (count_occ eqd seen (key r)) m) as [L|L]; cbn [filter]; rewrite ?X;
    destruct (eqd (key r) k) as [E|N]; cbn [length]; rewrite ?IH; try lia; subst k; lia.
Qed.

(** Distinct values of a column. *)
Definition distinct_values (c : string) (t : table) : list value := nodup value_eq_dec (map (getv c) t).

(** If each ID occurs at most once in [l] and the same IDs occur as in [t], the rows of
    [l] are as many as the distinct IDs of [t]. *)
Lemma count_once idc l t :
  (forall i, length (filter (has_value idc i) l) <= 1) ->
  (forall i, filter (has_value idc i) l = [] <-> filter (has_value idc i) t = []) ->
  length l = length (distinct_values idc t).
Proof.
  intros O C. rewrite <- (map_length (getv idc) l). apply Permutation_length.
  apply NoDup_Permutation.
  - clear C. induction l as [|r l IH]; simpl; constructor.
    + specialize (O (getv idc r)). simpl in O.
      rewrite (proj2 (has_value_true idc (getv idc r) r) eq_refl) in O. simpl in O.
      rewrite in_map_iff. intros (r' & E & Hr).
      assert (In r' (filter (has_value idc (getv idc r)) l)) by (apply filter_In; rewrite has_value_true; auto).
      destruct (filter (has_value idc (getv idc r)) l); [contradiction|simpl in O; lia].
    + apply IH. intros i. specialize (O i). simpl in O. destruct (has_value idc i r); simpl in O; lia.
  - apply NoDup_nodup.
  - assert (M : forall i u, In i (map (getv idc) u) <-> filter (has_value idc i) u <> []).
    { intros i u. rewrite in_map_iff. split.
      - intros (r & E & Hr) X. assert (Y : In r (filter (has_value idc i) u)) by (apply filter_In; rewrite has_value_true; auto).
        rewrite X in Y. destruct Y.
      - destruct (filter (has_value idc i) u) as [|r u'] eqn:E; [congruence|]. intros _. exists r.
        assert (Y : In r (filter (has_value idc i) u)) by (rewrite E; simpl; auto).
        apply filter_In in Y as [Y1 Y2]. apply has_value_true in Y2. auto. }
    intros i. unfold distinct_values. rewrite nodup_In, !M. rewrite C. tauto.
Qed.

Lemma length_zero_nil {A} (l : list A) : length l = 0 <-> l = [].
Proof. destruct l; simpl; split; congruence. Qed.

Lemma count_ids_by_rows idc t :
  length (enforce_rows row_order key_order idc (MaxRowsPerID 1) t) = length (distinct_values idc t).
Proof.
  assert (X : forall i, length (filter (has_value idc i) (enforce_rows row_order key_order idc (MaxRowsPerID 1) t))
     = Nat.min 1 (length (filter (has_value idc i) t))).
  { intros i. simpl. unfold limit_rows.
    pose proof (keep_first_exact value_eq_dec (getv idc) 1 i (isort (ole row_order) t) []) as H. simpl count_occ in H.
    rewrite (Permutation_length (Permutation_filter _ _ _ (isort_perm (ole row_order) t))) in H.
    exact H. }
  apply count_once.
  - intros i. rewrite X. lia.
  - intros i. rewrite <- !length_zero_nil, X. lia.
Qed.

Lemma count_ids_by_rows_grouped idc g v t :
  length (filter (has_value g v) (enforce_rows row_order key_order idc (MaxRowsPerGroupPerID g 1) t))
  = length (distinct_values idc (filter (has_value g v) t)).
Proof.
  assert (X : forall i, length (filter (has_value idc i) (filter (has_value g v) (enforce_rows row_order key_order idc (MaxRowsPerGroupPerID g 1) t)))
     = Nat.min 1 (length (filter (has_value idc i) (filter (has_value g v) t)))).
  { intros i. simpl. unfold limit_rows_per_key.
    pose proof (keep_first_exact pair_eq_dec (fun r => (getv idc r, getv g r)) 1 (i, v) (isort (ole row_order) t) []) as H.
    simpl count_occ in H.
    rewrite (Permutation_length (Permutation_filter _ _ _ (isort_perm (ole row_order) t))) in H.
    rewrite !(filter_ext _ _ (keyb_pair idc g i v)) in H.
    rewrite !filter_filter.
    rewrite !(filter_ext (fun x => has_value g v x && has_value idc i x) (fun x => has_value idc i x && has_value g v x))
      by (intros; apply andb_comm).
    exact H. }
  apply count_once.
  - intros i. rewrite X. lia.
  - intros i. rewrite <- !length_zero_nil, X. lia.
Qed.
End Stab.
