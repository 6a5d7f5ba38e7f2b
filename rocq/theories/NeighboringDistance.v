(** Changes of tables and distances. *)
From Coq Require Import String Bool Arith ZArith Lia Permutation List.
From Verif Require Import Prelude Value Rows Constraints ConstraintsSpec Schema Query Transform Tables Neighboring NeighboringSpec.
Import ListNotations.
Local Open Scope string_scope.
Local Open Scope nat_scope.
Local Open Scope list_scope.

(** ** Rows *)

Lemma row_distance_common c x y : row_distance (c ++ x) (c ++ y) <= length (x ++ y).
Proof.
  set (s := nodup rec_eq_dec ((c ++ x) ++ (c ++ y))). assert (N : NoDup s) by apply NoDup_nodup.
  rewrite (row_distance_support _ _ s N) by (intros r J; apply nodup_In; exact J).
  rewrite (length_occurs (x ++ y) s N).
  - apply list_sum_le. intros r _. rewrite !occurs_app. unfold absdiff. lia.
  - intros r J. apply nodup_In. rewrite !in_app_iff in *. tauto.
Qed.
Lemma altered_distance a b x y : altered a b x y -> row_distance a b <= length (x ++ y).
Proof. intros (c & A & B). rewrite (row_distance_same_l _ _ _ A), (row_distance_same_r _ _ _ B). apply row_distance_common. Qed.
Lemma altered_filter p a b x y : altered a b x y -> altered (filter p a) (filter p b) (filter p x) (filter p y).
Proof. intros (c & A & B). exists (filter p c). split; rewrite <- filter_app; apply Permutation_filter; assumption. Qed.

(** Bags given by the number of occurrences. *)
Definition bag (f : rec -> nat) (s : list rec) : table := flat_map (fun r => repeat r (f r)) s.
Lemma occurs_repeat r x n : occurs (repeat x n) r = if rec_eq_dec x r then n else 0.
Proof.
  unfold occurs. induction n as [|n IH]; cbn; [destruct (rec_eq_dec x r); reflexivity|]. destruct (rec_eq_dec x r); rewrite IH; reflexivity.
Qed.
Lemma occurs_bag f s r : NoDup s -> occurs (bag f s) r = if in_dec rec_eq_dec r s then f r else 0.
Proof.
  induction s as [|x s IH]; intros N; [reflexivity|]. inversion N; subst. cbn [bag flat_map]. fold (bag f s). rewrite occurs_app, occurs_repeat, IH by assumption.
  destruct (in_dec rec_eq_dec r (x :: s)) as [[->|J]|J].
  - destruct (rec_eq_dec r r); [|congruence]. destruct (in_dec rec_eq_dec r s); [contradiction|lia].
  - destruct (rec_eq_dec x r) as [->|]; [contradiction|]. destruct (in_dec rec_eq_dec r s); [reflexivity|contradiction].
  - destruct (rec_eq_dec x r) as [->|]; [exfalso; apply J; left; reflexivity|]. destruct (in_dec rec_eq_dec r s); [exfalso; apply J; right; assumption|reflexivity].
Qed.
Lemma length_bag f s : length (bag f s) = list_sum (map f s).
Proof. induction s as [|x s IH]; [reflexivity|]. cbn [bag flat_map map]. fold (bag f s). rewrite app_length, repeat_length, IH. reflexivity. Qed.
Lemma distance_altered a b : exists x y, altered a b x y /\ length (x ++ y) = row_distance a b.
Proof.
  set (s := nodup rec_eq_dec (a ++ b)). assert (N : NoDup s) by apply NoDup_nodup.
  exists (bag (fun r => occurs a r - occurs b r) s), (bag (fun r => occurs b r - occurs a r) s). split.
  - exists (bag (fun r => Nat.min (occurs a r) (occurs b r)) s). split; apply same_table_occurs; intros r; rewrite occurs_app, !(occurs_bag _ _ _ N);
      destruct (in_dec rec_eq_dec r s) as [J|J]; try lia.
    all: assert (K : ~ In r (a ++ b)) by (intros K; apply J, nodup_In, K); rewrite in_app_iff in K; unfold occurs; apply count_occ_not_In; tauto.
  - rewrite app_length, !length_bag. unfold row_distance. fold s. rewrite <- list_sum_add. reflexivity.
Qed.
Lemma rows_changed_iff n a b : rows_changed n a b <-> row_distance a b <= n.
Proof.
  split.
  - intros (x & y & A & L). pose proof (altered_distance _ _ _ _ A). lia.
  - intros D. destruct (distance_altered a b) as (x & y & A & L). exists x, y. split; [exact A|lia].
Qed.
Lemma rows_added a b y : Permutation b (a ++ y) -> row_distance a b = length y.
Proof.
  intros P. rewrite (row_distance_same_r _ _ _ P). set (s := nodup rec_eq_dec (a ++ a ++ y)). assert (N : NoDup s) by apply NoDup_nodup.
  rewrite (row_distance_support _ _ s N) by (intros r J; apply nodup_In; exact J). rewrite (length_occurs y s N).
  - apply list_sum_ext. intros r _. rewrite occurs_app. unfold absdiff. lia.
  - intros r J. apply nodup_In. rewrite !in_app_iff. auto.
Qed.

(** ** Groups *)

Lemma sum_le_length (f : value -> nat) M t : (forall v, f v <= M) -> list_sum (map f t) <= length t * M.
Proof.
  intros B. induction t as [|v t IH]; [apply Nat.le_0_l|]. change (f v + list_sum (map f t) <= M + length t * M). apply Nat.add_le_mono; [apply B|exact IH].
Qed.
Lemma sum_bound (f : value -> nat) s vs M : NoDup s -> (forall v, f v <= M) -> (forall v, ~ In v vs -> f v = 0) ->
  list_sum (map f s) <= length vs * M.
Proof.
  intros N B Z. rewrite <- (list_sum_support f (filter (fun v => if in_dec value_eq_dec v vs then true else false) s) s).
  - assert (L : length (filter (fun v => if in_dec value_eq_dec v vs then true else false) s) <= length vs).
    { apply NoDup_incl_length; [apply List.NoDup_filter, N|]. intros v J. apply filter_In in J as (_ & J). destruct (in_dec value_eq_dec v vs); [assumption|discriminate]. }
    transitivity (length (filter (fun v => if in_dec value_eq_dec v vs then true else false) s) * M); [|apply Nat.mul_le_mono_r, L].
    apply sum_le_length, B.
  - apply List.NoDup_filter, N.
  - exact N.
  - intros v J. apply filter_In in J. tauto.
  - intros v J K. apply Z. intros I. apply K, filter_In. split; [exact J|]. destruct (in_dec value_eq_dec v vs); [reflexivity|contradiction].
Qed.
Lemma group_apart g k m a b : groups_changed g k m a b -> exists vs, length vs <= k
  /\ (forall v, row_distance (filter (has_value g v) a) (filter (has_value g v) b) <= m)
  /\ (forall v, ~ In v vs -> row_distance (filter (has_value g v) a) (filter (has_value g v) b) = 0).
Proof.
  intros (x & y & vs & A & L & I & M). exists vs. split; [exact L|].
  assert (D : forall v, row_distance (filter (has_value g v) a) (filter (has_value g v) b) <= length (filter (has_value g v) (x ++ y))).
  { intros v. rewrite filter_app. apply altered_distance, altered_filter, A. }
  split; [intros v; specialize (D v); specialize (M v); lia|]. intros v NI. specialize (D v).
  destruct (filter (has_value g v) (x ++ y)) as [|r l] eqn:F; [cbn in D; lia|]. exfalso. assert (J : In r (filter (has_value g v) (x ++ y))) by (rewrite F; left; reflexivity).
  apply filter_In in J as (J & V). apply value_eqb_eq in V. apply NI. rewrite <- V. apply I, J.
Qed.
Lemma groups_linear g k m a b : groups_changed g k m a b -> grouped_distance g a b <= k * m.
Proof.
  intros H. destruct (group_apart _ _ _ _ _ H) as (vs & L & B & Z). unfold grouped_distance.
  transitivity (length vs * m); [apply (sum_bound _ _ vs); [apply NoDup_nodup|exact B|exact Z]|apply Nat.mul_le_mono_r, L].
Qed.
Lemma groups_square g k m a b : groups_changed g k m a b -> grouped_distance_squared g a b <= k * (m * m).
Proof.
  intros H. destruct (group_apart _ _ _ _ _ H) as (vs & L & B & Z). unfold grouped_distance_squared. cbn zeta.
  transitivity (length vs * (m * m)); [apply (sum_bound _ _ vs)|apply Nat.mul_le_mono_r, L].
  - apply NoDup_nodup.
  - intros v. apply Nat.mul_le_mono; apply B.
  - intros v NI. rewrite (Z v NI). reflexivity.
Qed.
(** Exactly [m] rows are added in each of [k] groups. *)
Definition groups_added (g : string) (k m : nat) (a b : table) : Prop :=
  exists y vs, Permutation b (a ++ y) /\ NoDup vs /\ length vs = k /\ (forall r, In r y -> In (getv g r) vs)
    /\ (forall v, In v vs -> length (filter (has_value g v) y) = m).
Lemma added_group g k m a b : groups_added g k m a b -> exists vs, NoDup vs /\ length vs = k
  /\ (forall v, In v vs -> row_distance (filter (has_value g v) a) (filter (has_value g v) b) = m)
  /\ (forall v, ~ In v vs -> row_distance (filter (has_value g v) a) (filter (has_value g v) b) = 0)
  /\ (0 < m -> forall v, In v vs -> In v (map (getv g) (a ++ b))).
Proof.
  intros (y & vs & P & N & L & I & M). exists vs. split; [exact N|]. split; [exact L|].
  assert (D : forall v, row_distance (filter (has_value g v) a) (filter (has_value g v) b) = length (filter (has_value g v) y)).
  { intros v. apply rows_added. rewrite <- filter_app. apply Permutation_filter, P. }
  split; [intros v J; now rewrite D, M|]. split.
  - intros v NI. rewrite D. destruct (filter (has_value g v) y) as [|r l] eqn:F; [reflexivity|]. exfalso. assert (J : In r (filter (has_value g v) y)) by (rewrite F; left; reflexivity).
    apply filter_In in J as (J & V). apply value_eqb_eq in V. apply NI. rewrite <- V. apply I, J.
  - intros MP v J. specialize (M v J). destruct (filter (has_value g v) y) as [|r l] eqn:F; [cbn in M; lia|]. assert (K : In r (filter (has_value g v) y)) by (rewrite F; left; reflexivity).
    apply filter_In in K as (K & V). apply value_eqb_eq in V. rewrite <- V. apply in_map, in_app_iff. right. apply (Permutation_in r (Permutation_sym P)), in_app_iff. auto.
Qed.
Lemma sum_const (f : value -> nat) s vs M : NoDup s -> NoDup vs -> incl vs s -> (forall v, In v vs -> f v = M) -> (forall v, ~ In v vs -> f v = 0) ->
  list_sum (map f s) = length vs * M.
Proof.
  intros N NV I B Z. rewrite <- (list_sum_support f vs s NV N I) by (intros; apply Z; assumption). clear - B. induction vs as [|v vs IH]; [reflexivity|]. change (f v + list_sum (map f vs) = M + length vs * M). rewrite IH by (intros; apply B; right; assumption). rewrite (B v) by (left; reflexivity). reflexivity.
Qed.
Lemma added_linear g k m a b : 0 < m -> groups_added g k m a b -> grouped_distance g a b = k * m.
Proof.
  intros MP H. destruct (added_group _ _ _ _ _ H) as (vs & N & <- & B & Z & I). apply sum_const; [apply NoDup_nodup|exact N| |exact B|exact Z].
  intros v J. apply nodup_In, I; assumption.
Qed.
Lemma added_square g k m a b : 0 < m -> groups_added g k m a b -> grouped_distance_squared g a b = k * (m * m).
Proof.
  intros MP H. destruct (added_group _ _ _ _ _ H) as (vs & N & <- & B & Z & I). unfold grouped_distance_squared. cbn zeta. apply sum_const; [apply NoDup_nodup|exact N| | |].
  - intros v J. apply nodup_In, I; assumption.
  - intros v J. now rewrite (B v J).
  - intros v J. now rewrite (Z v J).
Qed.

(** ** IDs *)

Lemma rows_of_without c i j t : j <> i -> rows_of c j (without c i t) = rows_of c j t.
Proof.
  intros NE. unfold rows_of, without. induction t as [|r t IH]; [reflexivity|]. cbn. destruct (has_value c i r) eqn:H; cbn.
  - rewrite IH. destruct (has_value c j r) eqn:K; [|reflexivity]. apply value_eqb_eq in H. apply value_eqb_eq in K. congruence.
  - destruct (has_value c j r); now rewrite IH.
Qed.
Lemma rows_of_without_same c i t : rows_of c i (without c i t) = [].
Proof. unfold rows_of, without. induction t as [|r t IH]; [reflexivity|]. cbn. destruct (has_value c i r) eqn:H; cbn; [|rewrite H]; exact IH. Qed.
Lemma same_bag_iff a b : same_bag a b = true <-> Permutation a b.
Proof.
  unfold same_bag. rewrite Nat.eqb_eq. split; [|apply row_distance_same]. intros H. destruct (distance_altered a b) as (x & y & (c & A & B) & L). rewrite H in L.
  destruct x; [|discriminate]. destruct y; [|discriminate]. rewrite app_nil_r in A, B. now rewrite A, B.
Qed.
Lemma by_ids c a b : (forall j, Permutation (rows_of c j a) (rows_of c j b)) -> Permutation a b.
Proof.
  intros H. apply same_table_occurs. intros r. specialize (H (getv c r)). apply same_table_occurs with (r := r) in H. unfold rows_of in H.
  rewrite !occurs_filter in H. unfold has_value in H. rewrite value_eqb_refl in H. exact H.
Qed.
Lemma cost_zero l j : key_cost l j = 0 <-> forall c a b, In (c, (a, b)) l -> Permutation (rows_of c j a) (rows_of c j b).
Proof.
  unfold key_cost. destruct (forallb (fun p => same_bag _ _) l) eqn:F.
  - split; [|reflexivity]. intros _ c a b J. rewrite forallb_forall in F. apply same_bag_iff. exact (F _ J).
  - split; [destruct (_ || _); discriminate|]. intros H. exfalso. assert (X : forallb (fun p : string * (table * table) => same_bag (rows_of (fst p) j (fst (snd p))) (rows_of (fst p) j (snd (snd p)))) l = true).
    { apply forallb_forall. intros (c, (a, b)) J. cbn. apply same_bag_iff, H, J. } congruence.
Qed.
Lemma cost_one l j : key_cost l j <= 1 -> key_cost l j = 0
  \/ (forall c a b, In (c, (a, b)) l -> rows_of c j a = []) \/ (forall c a b, In (c, (a, b)) l -> rows_of c j b = []).
Proof.
  unfold key_cost. destruct (forallb (fun p => same_bag _ _) l); [auto|].
  destruct (forallb (fun p => length (rows_of (fst p) j (fst (snd p))) =? 0) l) eqn:FA.
  - intros _. right. left. intros c a b J. rewrite forallb_forall in FA. specialize (FA _ J). apply Nat.eqb_eq, length_zero_iff_nil in FA. exact FA.
  - destruct (forallb (fun p => length (rows_of (fst p) j (snd (snd p))) =? 0) l) eqn:FB; cbn; [|lia].
    intros _. right. right. intros c a b J. rewrite forallb_forall in FB. specialize (FB _ J). apply Nat.eqb_eq, length_zero_iff_nil in FB. exact FB.
Qed.
Lemma cost_gone l j : (forall c a b, In (c, (a, b)) l -> rows_of c j a = []) \/ (forall c a b, In (c, (a, b)) l -> rows_of c j b = []) -> key_cost l j <= 1.
Proof.
  intros H. unfold key_cost. destruct (forallb (fun p => same_bag _ _) l); [lia|].
  assert (X : forallb (fun p : string * (table * table) => length (rows_of (fst p) j (fst (snd p))) =? 0) l || forallb (fun p : string * (table * table) => length (rows_of (fst p) j (snd (snd p))) =? 0) l = true); [|rewrite X; lia].
  apply Bool.orb_true_iff. destruct H as [H|H]; [left|right]; apply forallb_forall; intros (c, (a, b)) J; cbn [fst snd]; now rewrite (H _ _ _ J).
Qed.
Lemma not_key l j : ~ In j (keys_of l) -> key_cost l j = 0.
Proof.
  intros N. apply cost_zero. intros c a b J. assert (Z : forall t, incl t (a ++ b) -> rows_of c j t = []).
  { intros t I. destruct (rows_of c j t) as [|r q] eqn:F; [reflexivity|]. exfalso. assert (K : In r (rows_of c j t)) by (rewrite F; left; reflexivity). apply filter_In in K as (K & V). apply value_eqb_eq in V.
    apply N. unfold keys_of. apply nodup_In, in_flat_map. exists (c, (a, b)). split; [exact J|]. cbn. rewrite <- V. apply in_map, I, K. }
  rewrite (Z a), (Z b); [constructor| |]; intros r K; apply in_app_iff; auto.
Qed.
Lemma sum_zero_in {A} (f : A -> nat) s : list_sum (map f s) = 0 -> forall x, In x s -> f x = 0.
Proof. induction s as [|y s IH]; intros H x J; [contradiction|]. change (f y + list_sum (map f s) = 0) in H. destruct J as [<-|J]; [lia|apply IH; [lia|exact J]]. Qed.
Lemma sum_one_in {A} (f : A -> nat) s : NoDup s -> list_sum (map f s) <= 1 -> (forall x, In x s -> f x = 0) \/ exists i, In i s /\ f i = 1 /\ forall x, In x s -> x <> i -> f x = 0.
Proof.
  induction s as [|y s IH]; intros N H; [left; intros x []|]. inversion N as [|? ? NI N']; subst. change (f y + list_sum (map f s) <= 1) in H. destruct (f y) as [|[|k]] eqn:F; [| |lia].
  - destruct IH as [Z|(i & I & O & Z)]; [exact N'|lia|left; intros x [<-|J]; auto|]. right. exists i. split; [right; exact I|]. split; [exact O|]. intros x [<-|J] NE; auto.
  - right. exists y. split; [left; reflexivity|]. split; [exact F|]. intros x [<-|J] NE; [congruence|]. apply (sum_zero_in f s); [lia|exact J].
Qed.
Lemma without_perm c i a b : (forall j, j <> i -> Permutation (rows_of c j a) (rows_of c j b)) -> rows_of c i b = [] -> Permutation b (without c i a).
Proof.
  intros H Z. apply (by_ids c). intros j. destruct (value_eq_dec j i) as [->|NE]; [rewrite Z, rows_of_without_same; constructor|]. rewrite rows_of_without by exact NE. apply Permutation_sym, H, NE.
Qed.
(** A value that does not occur. *)
Lemma fresh_value (l : list value) : exists v, ~ In v l.
Proof.
  assert (H : exists z, forall y, In (VInt y) l -> (y < z)%Z).
  { induction l as [|v l (z & IH)]; [exists 0%Z; intros y []|]. destruct v; try (exists z; intros y0 [J|J]; [discriminate|auto]; fail).
    match goal with |- context [VInt ?y :: _] => exists (Z.max z (y + 1)) end. intros y0 [J|J]; [injection J as ->; lia|]. specialize (IH y0 J). lia. }
  destruct H as (z & H). exists (VInt z). intros J. specialize (H z J). lia.
Qed.
Lemma id_changed_iff l : id_changed l <-> keys_distance l <= 1.
Proof.
  split.
  - intros (i & H). unfold keys_distance. change 1 with (length [i] * 1). apply sum_bound; [apply NoDup_nodup| |].
    + intros v. destruct (value_eq_dec v i) as [->|NE].
      * apply cost_gone. destruct H as [H|H]; [right|left]; intros c a b J.
        -- apply Permutation_nil. rewrite <- (rows_of_without_same c i a). apply Permutation_sym, Permutation_filter, (H _ _ _ J).
        -- apply Permutation_nil. rewrite <- (rows_of_without_same c i b). apply Permutation_sym, Permutation_filter, (H _ _ _ J).
      * replace (key_cost l v) with 0; [lia|]. symmetry. apply cost_zero. intros c a b J. destruct H as [H|H]; specialize (H _ _ _ J); apply (Permutation_filter (has_value c v)) in H.
        -- unfold rows_of at 2. rewrite H. fold (rows_of c v (without c i a)). rewrite rows_of_without by exact NE. reflexivity.
        -- unfold rows_of at 1. rewrite H. fold (rows_of c v (without c i b)). rewrite rows_of_without by exact NE. reflexivity.
    + intros v NI. apply cost_zero. intros c a b J. assert (NE : v <> i) by (intros ->; apply NI; left; reflexivity). destruct H as [H|H]; specialize (H _ _ _ J); apply (Permutation_filter (has_value c v)) in H.
      * unfold rows_of at 2. rewrite H. fold (rows_of c v (without c i a)). rewrite rows_of_without by exact NE. reflexivity.
      * unfold rows_of at 1. rewrite H. fold (rows_of c v (without c i b)). rewrite rows_of_without by exact NE. reflexivity.
  - intros D. unfold keys_distance in D. destruct (sum_one_in (key_cost l) (keys_of l) (NoDup_nodup _ _) D) as [Z|(i & I & O & Z)].
    + assert (ZZ : forall j, key_cost l j = 0) by (intros j; destruct (in_dec value_eq_dec j (keys_of l)); [apply Z; assumption|apply not_key; assumption]).
      destruct (fresh_value (keys_of l)) as (i & NI). exists i. left. intros c a b J. apply without_perm; [intros j _; exact (proj1 (cost_zero l j) (ZZ j) c a b J)|].
      destruct (rows_of c i b) as [|r q] eqn:F; [reflexivity|]. exfalso. assert (K : In r (rows_of c i b)) by (rewrite F; left; reflexivity). apply filter_In in K as (K & V). apply value_eqb_eq in V.
      apply NI. unfold keys_of. apply nodup_In, in_flat_map. exists (c, (a, b)). split; [exact J|]. cbn. rewrite <- V. apply in_map, in_app_iff. auto.
    + assert (ZZ : forall j, j <> i -> key_cost l j = 0) by (intros j NE; destruct (in_dec value_eq_dec j (keys_of l)); [apply Z; assumption|apply not_key; assumption]).
      exists i. destruct (cost_one l i) as [C|[C|C]]; [lia|lia|right|left]; intros c a b J; apply without_perm; try exact (C _ _ _ J); intros j NE; pose proof (proj1 (cost_zero l j) (ZZ j NE) c a b J) as P; [apply Permutation_sym, P|exact P].
Qed.
(** All rows of a new ID are added, at least one. *)
Definition id_added (l : list (string * (table * table))) : Prop :=
  exists i, (forall c a b, In (c, (a, b)) l -> Permutation a (without c i b))
         /\ exists c a b, In (c, (a, b)) l /\ rows_of c i b <> [].
Lemma id_added_one l : id_added l -> keys_distance l = 1.
Proof.
  intros (i & H & c & a & b & J & NE). assert (L : keys_distance l <= 1) by (apply id_changed_iff; exists i; right; exact H).
  destruct (keys_distance l) as [|[|k]] eqn:D; [|reflexivity|lia]. exfalso. apply NE.
  assert (Z : key_cost l i = 0). { destruct (in_dec value_eq_dec i (keys_of l)); [exact (sum_zero_in _ _ D i i0)|apply not_key; assumption]. }
  pose proof (proj1 (cost_zero l i) Z c a b J) as P. assert (A : rows_of c i a = []). { apply Permutation_nil. rewrite <- (rows_of_without_same c i b). apply Permutation_sym, Permutation_filter, (H _ _ _ J). }
  rewrite A in P. apply Permutation_nil. exact P.
Qed.
