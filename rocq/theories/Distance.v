(** How far apart two tables can be after selecting, grouping and counting rows. *)
From Coq Require Import String Bool Arith ZArith QArith Qcanon Lia Permutation List.
From Verif Require Import Prelude Value Rows Constraints ConstraintsSpec ConstraintsProofs ConstraintsStab Transform Measure.
Import ListNotations.
Local Open Scope string_scope.
Local Open Scope nat_scope.

Lemma occurs_app a b r : occurs (a ++ b)%list r = occurs a r + occurs b r.
Proof. apply count_occ_app. Qed.
Lemma occurs_none a r : ~ In r a -> occurs a r = 0.
Proof. intros H. apply count_occ_not_In, H. Qed.

(** Two tables are a common part and what only one of them has. *)
Lemma common_part (a b : table) : exists c a1 b1 : table, Permutation a (c ++ a1)%list /\ Permutation b (c ++ b1)%list /\ (forall r, In r a1 -> ~ In r b1).
Proof.
  induction a as [|r a (c & a1 & b1 & P & Q & D)].
  - exists [], [], b. split; [constructor|]. split; [apply Permutation_refl|]. intros r [].
  - destruct (in_dec rec_eq_dec r b1) as [I|I].
    + apply in_split in I as (l1 & l2 & ->). exists (r :: c), a1, (l1 ++ l2)%list. split; [cbn; constructor; exact P|]. split.
      * rewrite Q. cbn. rewrite app_assoc. symmetry. rewrite app_assoc. apply Permutation_middle.
      * intros x X Y. apply (D x X). apply in_app_iff in Y. apply in_app_iff. cbn. tauto.
    + exists c, (r :: a1), b1. split; [rewrite P; apply Permutation_middle|]. split; [exact Q|]. intros x [<-|X]; [exact I|apply D, X].
Qed.
Lemma distance_common c a b : row_distance (c ++ a)%list (c ++ b)%list <= length a + length b.
Proof.
  set (s := nodup rec_eq_dec (c ++ a ++ b)%list). assert (N : NoDup s) by apply NoDup_nodup.
  rewrite (row_distance_support _ _ s N) by (intros x X; apply nodup_In; rewrite !in_app_iff in *; tauto).
  rewrite (length_occurs a s N), (length_occurs b s N) by (intros x X; apply nodup_In; rewrite !in_app_iff; tauto).
  rewrite <- list_sum_add. apply list_sum_le. intros r _. rewrite !occurs_app. unfold absdiff. lia.
Qed.
Lemma distance_parts a b : exists c a1 b1, Permutation a (c ++ a1)%list /\ Permutation b (c ++ b1)%list /\ row_distance a b = length a1 + length b1.
Proof.
  destruct (common_part a b) as (c & a1 & b1 & P & Q & D). exists c, a1, b1. split; [exact P|]. split; [exact Q|].
  rewrite (row_distance_same_l _ _ _ P), (row_distance_same_r _ _ _ Q).
  set (s := nodup rec_eq_dec (c ++ a1 ++ b1)%list). assert (N : NoDup s) by apply NoDup_nodup.
  rewrite (row_distance_support _ _ s N) by (intros x X; apply nodup_In; rewrite !in_app_iff in *; tauto).
  rewrite (length_occurs a1 s N), (length_occurs b1 s N) by (intros x X; apply nodup_In; rewrite !in_app_iff; tauto).
  rewrite <- list_sum_add. apply list_sum_ext. intros r _. rewrite !occurs_app. unfold absdiff.
  destruct (in_dec rec_eq_dec r a1) as [I|I]; [rewrite (occurs_none b1 r (D r I)); lia|rewrite (occurs_none a1 r I); lia].
Qed.

(** ** Changing and dropping rows *)
Lemma distance_map f a b : row_distance (map f a) (map f b) <= row_distance a b.
Proof.
  destruct (distance_parts a b) as (c & a1 & b1 & P & Q & ->).
  rewrite (row_distance_same_l _ _ _ (Permutation_map f P)), (row_distance_same_r _ _ _ (Permutation_map f Q)), !map_app.
  rewrite distance_common, !map_length. lia.
Qed.
Lemma filter_perm {A} (p : A -> bool) a b : Permutation a b -> Permutation (filter p a) (filter p b).
Proof. induction 1; cbn; repeat match goal with |- context [if p ?x then _ else _] => destruct (p x) end; try constructor; auto. econstructor; eassumption. Qed.
Lemma distance_length a b : absdiff (length a) (length b) <= row_distance a b.
Proof.
  destruct (distance_parts a b) as (c & a1 & b1 & P & Q & ->). rewrite (Permutation_length P), (Permutation_length Q), !app_length. unfold absdiff. lia.
Qed.
(** Distinct images. *)
Lemma nodup_more {A} (dec : forall x y : A, {x = y} + {x <> y}) c a : length (nodup dec c) <= length (nodup dec (c ++ a)%list) <= length (nodup dec c) + length a.
Proof.
  split.
  - apply NoDup_incl_length; [apply NoDup_nodup|]. intros x X. apply nodup_In in X. apply nodup_In, in_app_iff. auto.
  - rewrite <- app_length. apply NoDup_incl_length; [apply NoDup_nodup|]. intros x X. apply nodup_In in X. apply in_app_iff in X. apply in_app_iff. rewrite nodup_In. exact X.
Qed.
Lemma nodup_perm {A} (dec : forall x y : A, {x = y} + {x <> y}) a b : Permutation a b -> length (nodup dec a) = length (nodup dec b).
Proof.
  intros P. apply Nat.le_antisymm; (apply NoDup_incl_length; [apply NoDup_nodup|]); intros x X; apply nodup_In; apply nodup_In in X; eapply Permutation_in; try exact X; [exact P|symmetry; exact P].
Qed.
Lemma distance_distinct {A} (dec : forall x y : A, {x = y} + {x <> y}) (f : rec -> A) a b :
  absdiff (length (nodup dec (map f a))) (length (nodup dec (map f b))) <= row_distance a b.
Proof.
  destruct (distance_parts a b) as (c & a1 & b1 & P & Q & ->). rewrite (nodup_perm dec _ _ (Permutation_map f P)), (nodup_perm dec _ _ (Permutation_map f Q)), !map_app.
  pose proof (nodup_more dec (map f c) (map f a1)) as H1. pose proof (nodup_more dec (map f c) (map f b1)) as H2. rewrite !map_length in *. unfold absdiff. lia.
Qed.

(** ** Disjoint groups *)
Lemma disjoint_length {K} (p : K -> rec -> bool) keys : NoDup keys -> (forall k k' r, In k keys -> In k' keys -> p k r = true -> p k' r = true -> k = k') ->
  forall a, list_sum (map (fun k => length (filter (p k) a)) keys) <= length a.
Proof.
  intros N D a. induction a as [|r a IH]; [cbn; rewrite list_sum_zero; auto|]. cbn [length].
  assert (X : list_sum (map (fun k => length (filter (p k) (r :: a))) keys) <= list_sum (map (fun k => length (filter (p k) a)) keys) + list_sum (map (fun k => if p k r then 1 else 0) keys)).
  { rewrite <- list_sum_add. apply list_sum_le. intros k _. cbn. destruct (p k r); cbn; lia. }
  assert (Y : list_sum (map (fun k => if p k r then 1 else 0) keys) <= 1); [|lia].
  clear X IH. induction keys as [|k keys IH]; [cbn; lia|]. inversion N as [|? ? NI N1]; subst. cbn. fold (list_sum (map (fun k => if p k r then 1 else 0) keys)). destruct (p k r) eqn:PK.
  - rewrite list_sum_zero; [lia|]. intros x X. destruct (p x r) eqn:PX; [|reflexivity]. exfalso. apply NI. rewrite (D k x r); cbn; auto.
  - apply IH; [exact N1|]. intros x y z X Y. apply D; cbn; auto.
Qed.
Lemma disjoint_distance {K} (p : K -> rec -> bool) keys : NoDup keys -> (forall k k' r, In k keys -> In k' keys -> p k r = true -> p k' r = true -> k = k') ->
  forall a b, list_sum (map (fun k => row_distance (filter (p k) a) (filter (p k) b)) keys) <= row_distance a b.
Proof.
  intros N D a b. destruct (distance_parts a b) as (c & a1 & b1 & P & Q & ->).
  pose proof (disjoint_length p keys N D a1) as H1. pose proof (disjoint_length p keys N D b1) as H2.
  transitivity (list_sum (map (fun k => length (filter (p k) a1) + length (filter (p k) b1)) keys)); [|rewrite list_sum_add; lia].
  apply list_sum_le. intros k _. rewrite (row_distance_same_l _ _ _ (filter_perm (p k) _ _ P)), (row_distance_same_r _ _ _ (filter_perm (p k) _ _ Q)), !filter_app. apply distance_common.
Qed.
Lemma squares_of_sum {A} (f : A -> nat) l : list_sum (map (fun x => f x * f x) l) <= list_sum (map f l) * list_sum (map f l).
Proof. induction l as [|x l IH]; [reflexivity|]. cbn. fold (list_sum (map (fun x => f x * f x) l)). fold (list_sum (map f l)). nia. Qed.

(** ** Keys *)
(** Keys that differ in the grouping columns. *)
Definition distinct_keys (cols : list string) (keys : list rec) : Prop := NoDup (map (cells cols) keys).
Lemma matches_cells cols k r : matches cols k r = true <-> cells cols k = cells cols r.
Proof.
  unfold matches, cells. induction cols as [|c cols IH]; [cbn; tauto|]. cbn. rewrite andb_true_iff, value_eqb_eq, IH. split; [intros (-> & ->); reflexivity|intros H; injection H; auto].
Qed.
Lemma distinct_nodup cols keys : distinct_keys cols keys -> NoDup keys.
Proof. apply NoDup_map_inv. Qed.
Lemma distinct_disjoint cols keys : distinct_keys cols keys ->
  forall k k' r, In k keys -> In k' keys -> matches cols k r = true -> matches cols k' r = true -> k = k'.
Proof.
  intros N k k' r I I' M M'. apply matches_cells in M, M'. assert (E : cells cols k = cells cols k') by congruence. clear M M'.
  induction keys as [|x keys IH]; [destruct I|]. unfold distinct_keys in N. cbn in N. inversion N as [|? ? NI N1]; subst. destruct I as [->|I], I' as [->|I']; auto.
  - exfalso. apply NI. rewrite E. apply in_map, I'.
  - exfalso. apply NI. rewrite <- E. apply in_map, I.
Qed.
Lemma group_distances cols keys a b : distinct_keys cols keys ->
  list_sum (map (fun k => row_distance (group cols k a) (group cols k b)) keys) <= row_distance a b.
Proof. intros D. apply disjoint_distance; [eapply distinct_nodup, D|apply (distinct_disjoint cols), D]. Qed.

Lemma split_sum {A} (f : A -> nat) (h : A -> value) vs l : NoDup vs -> (forall x, In x l -> f x <> 0 -> In (h x) vs) ->
  list_sum (map f l) = list_sum (map (fun v => list_sum (map f (filter (fun x => value_eqb (h x) v) l))) vs).
Proof.
  intros N. induction l as [|x l IH]; intros I; [cbn; rewrite list_sum_zero; auto|].
  cbn [map]. change (list_sum (f x :: map f l)) with (f x + list_sum (map f l)). rewrite IH by (intros y Y; apply I; right; exact Y).
  transitivity (list_sum (map (fun v => if value_eqb (h x) v then f x else 0) vs) + list_sum (map (fun v => list_sum (map f (filter (fun x => value_eqb (h x) v) l))) vs)).
  - f_equal. destruct (Nat.eq_dec (f x) 0) as [Z|NZ]; [symmetry; rewrite Z; apply list_sum_zero; intros v _; destruct (value_eqb _ _); reflexivity|].
    specialize (I x (or_introl eq_refl) NZ). clear IH. induction vs as [|v vs IHv]; [destruct I|]. inversion N as [|? ? NI N1]; subst.
    cbn. fold (list_sum (map (fun v => if value_eqb (h x) v then f x else 0) vs)). destruct (value_eqb (h x) v) eqn:E.
    + apply value_eqb_eq in E. rewrite list_sum_zero; [lia|]. intros y Y. destruct (value_eqb (h x) y) eqn:E2; [|reflexivity]. apply value_eqb_eq in E2. exfalso. apply NI. congruence.
    + destruct I as [I|I]; [exfalso; subst; assert (X : value_eqb (h x) (h x) = true) by (apply value_eqb_eq; reflexivity); congruence|]. rewrite <- IHv; auto.
  - rewrite <- list_sum_add. apply list_sum_ext. intros v _. cbn. destruct (value_eqb (h x) v); reflexivity.
Qed.
(** Distances per key, squared and added, within distances per value of one key column. *)
Lemma group_squares g cols keys a b : distinct_keys cols keys -> In g cols ->
  list_sum (map (fun k => row_distance (group cols k a) (group cols k b) * row_distance (group cols k a) (group cols k b)) keys) <= grouped_distance_squared g a b.
Proof.
  intros D G. set (d := fun k => row_distance (group cols k a) (group cols k b)). change (list_sum (map (fun k => d k * d k) keys) <= grouped_distance_squared g a b).
  assert (GV : forall k r, matches cols k r = true -> getv g k = getv g r).
  { intros k r M. unfold matches in M. rewrite forallb_forall in M. apply value_eqb_eq. apply M, G. }
  set (vs := nodup value_eq_dec (map (getv g) (a ++ b))).
  rewrite (split_sum (fun k => d k * d k) (getv g) vs keys); [|apply NoDup_nodup|].
  - unfold grouped_distance_squared. fold vs. apply list_sum_le. intros v _.
    etransitivity; [apply squares_of_sum|]. cbn zeta.
    assert (X : list_sum (map d (filter (fun x => value_eqb (getv g x) v) keys)) <= row_distance (filter (has_value g v) a) (filter (has_value g v) b)); [|nia].
    transitivity (list_sum (map (fun k => row_distance (filter (matches cols k) (filter (has_value g v) a)) (filter (matches cols k) (filter (has_value g v) b))) (filter (fun x => value_eqb (getv g x) v) keys))).
    + apply list_sum_le. intros k I. apply filter_In in I as (_ & KV). apply value_eqb_eq in KV.
      assert (FF : forall t, filter (matches cols k) (filter (has_value g v) t) = group cols k t).
      { intros t. unfold group. induction t as [|r t IHt]; [reflexivity|]. cbn. destruct (has_value g v r) eqn:HV; cbn; rewrite IHt; [reflexivity|].
        destruct (matches cols k r) eqn:M; [|reflexivity]. apply GV in M. unfold has_value in HV. rewrite <- M, KV in HV. assert (X : value_eqb v v = true) by (apply value_eqb_eq; reflexivity). congruence. }
      rewrite !FF. unfold d. lia.
    + apply disjoint_distance; [apply List.NoDup_filter; eapply distinct_nodup, D|]. intros k k' r I I'. apply filter_In in I as (I & _), I' as (I' & _). apply (distinct_disjoint cols keys D); assumption.
  - intros k _ NZ. apply nodup_In. assert (X : exists r, In r (a ++ b)%list /\ matches cols k r = true).
    { destruct (group cols k (a ++ b)%list) as [|r l] eqn:GE.
      - exfalso. apply NZ. unfold d, group in *. rewrite filter_app in GE. apply app_eq_nil in GE as (-> & ->). reflexivity.
      - exists r. apply filter_In. unfold group in GE. rewrite GE. left. reflexivity. }
    destruct X as (r & I & M). rewrite (GV k r M). apply in_map, I.
Qed.
