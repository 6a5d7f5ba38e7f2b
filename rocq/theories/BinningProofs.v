(** Proofs about the binning model (Binning.v). *)
From Coq Require Import String Ascii Bool Arith ZArith Lia List.
From Verif Require Import Prelude Binning.
Import ListNotations.

(** ** Specification *)
Section Spec.
Variables E : Type.
Variable P : pyorder E.

(** "Bin number [i] contains the value [v]": the bin between edges [i] and [i+1] is
    closed on the side selected by [rgt], and also closed at the very first (last)
    edge when both endpoints are included. *)
Definition covers (edges : list E) (rgt both : bool) (i : nat) (v : E) : Prop :=
  exists a b, nth_error edges i = Some a /\ nth_error edges (S i) = Some b /\
    if rgt then
      (po_lt P a v = true \/ (both = true /\ i = 0 /\ po_eq P v a = true))
      /\ (po_lt P v b = true \/ po_eq P v b = true)
    else
      (po_lt P a v = true \/ po_eq P v a = true)
      /\ (po_lt P v b = true
          \/ (both = true /\ S (S i) = length edges /\ po_eq P v b = true)).

(** Strictly ascending. *)
Definition sorted_edges (edges : list E) : Prop :=
  forall i j a b, i < j -> nth_error edges i = Some a -> nth_error edges j = Some b ->
    po_lt P a b = true.

Lemma po_eq_lt_l a b c : po_eq P a b = true -> po_lt P a c = po_lt P b c.
Proof. intros H. apply (po_eq_lt E P a b c H). Qed.
Lemma po_eq_lt_r a b c : po_eq P a b = true -> po_lt P c a = po_lt P c b.
Proof. intros H. apply (po_eq_lt E P a b c H). Qed.
Lemma po_lt_asym a b : po_lt P a b = true -> po_lt P b a = false.
Proof.
  intros H. destruct (po_lt P b a) eqn:K; auto.
  pose proof (po_trans E P _ _ _ H K) as X. rewrite po_irrefl in X. discriminate.
Qed.
Lemma po_eq_not_lt a b : po_eq P a b = true -> po_lt P a b = false.
Proof. intros H. rewrite (po_eq_lt_l _ _ b H). apply po_irrefl. Qed.
Lemma po_eq_not_gt a b : po_eq P a b = true -> po_lt P b a = false.
Proof. intros H. rewrite (po_eq_lt_r _ _ b H). apply po_irrefl. Qed.
Lemma po_not_nan_lt a b : po_lt P a b = true -> po_nan P a = false /\ po_nan P b = false.
Proof.
  intros H. split.
  - destruct (po_nan P a) eqn:K; auto. apply (po_nan_l E P a b) in K as [K _]. congruence.
  - destruct (po_nan P b) eqn:K; auto. apply (po_nan_r E P a b) in K as [K _]. congruence.
Qed.
(** not (b < a), both numbers: a < b or a == b *)
Lemma po_not_lt a b : po_nan P a = false -> po_nan P b = false -> po_lt P b a = false ->
  po_lt P a b = true \/ po_eq P a b = true.
Proof. intros Na Nb H. destruct (po_tri E P a b Na Nb) as [K|[K|K]]; auto. congruence. Qed.

Lemma ascending_sorted edges : ascending E P edges = true -> sorted_edges edges.
Proof.
  induction edges as [|x [|y r] IH].
  - intros _ i j a b _ H. destruct i; discriminate.
  - intros _ i j a b L Hi Hj. destruct i, j; simpl in *; try lia; try discriminate.
    destruct j; discriminate. destruct j; discriminate.
  - simpl. rewrite andb_true_iff. intros [Hxy Hr]. specialize (IH Hr).
    intros i j a b L Hi Hj. destruct j as [|j]; [lia|]. destruct i as [|i].
    + simpl in Hi. inversion Hi; subst. destruct j as [|j].
      * simpl in Hj. inversion Hj; subst; assumption.
      * eapply po_trans; [exact Hxy|]. apply (IH 0 (S j) y b); [lia|reflexivity|exact Hj].
    + apply (IH i j a b); [lia|exact Hi|exact Hj].
Qed.

Lemma sorted_ascending edges : sorted_edges edges -> ascending E P edges = true.
Proof.
  induction edges as [|x [|y r] IH]; intros S; try reflexivity.
  simpl. rewrite andb_true_iff. split.
  - apply (S 0 1 x y); [lia|reflexivity|reflexivity].
  - apply IH. intros i j a b L Hi Hj. apply (S (Datatypes.S i) (Datatypes.S j) a b); [lia|exact Hi|exact Hj].
Qed.

(** *** bisect *)

Lemma bisect_correct (p : E -> bool) a k :
  (forall i x, i < k -> nth_error a i = Some x -> p x = true) ->
  (forall i x, k <= i -> nth_error a i = Some x -> p x = false) ->
  forall n lo hi, lo <= k -> k <= hi -> hi <= length a -> hi - lo < n ->
    bisect E p a n lo hi = k.
Proof.
  intros HT HF. induction n as [|n IH]; intros lo hi H1 H2 H3 H4; [lia|].
  cbn [bisect]. destruct (Nat.ltb_spec lo hi) as [L|L]; [|lia].
  set (mid := Nat.div2 (lo + hi)).
  assert (M : lo <= mid /\ mid < hi).
  { unfold mid. pose proof (Nat.div2_odd (lo + hi)) as D.
    destruct (Nat.odd (lo + hi)); simpl in D; lia. }
  destruct (nth_error a mid) as [y|] eqn:Ey.
  - destruct (p y) eqn:Py.
    + apply IH; try lia. destruct (le_lt_dec k mid) as [C|C]; [|lia].
      rewrite (HF mid y C Ey) in Py; discriminate.
    + apply IH; try lia. destruct (le_lt_dec k mid) as [C|C]; [lia|].
      rewrite (HT mid y C Ey) in Py; discriminate.
  - apply nth_error_None in Ey. lia.
Qed.

(** boundary of a downward closed predicate *)
Fixpoint prefix_len (p : E -> bool) (a : list E) : nat :=
  match a with
  | [] => 0
  | x :: r => if p x then S (prefix_len p r) else 0
  end.

Lemma prefix_len_le p a : prefix_len p a <= length a.
Proof. induction a as [|x r IH]; simpl; [lia|]. destruct (p x); lia. Qed.

Lemma prefix_len_true p a : forall i x, i < prefix_len p a -> nth_error a i = Some x -> p x = true.
Proof.
  induction a as [|y r IH]; simpl; intros i x H Hx; [lia|].
  destruct (p y) eqn:Py; [|lia]. destruct i as [|i]; simpl in Hx.
  - inversion Hx; subst; assumption.
  - apply (IH i x); [lia|assumption].
Qed.

Lemma prefix_len_stop p a : forall x, nth_error a (prefix_len p a) = Some x -> p x = false.
Proof.
  induction a as [|y r IH]; simpl; intros x Hx; [discriminate|].
  destruct (p y) eqn:Py; simpl in Hx; [auto|]. inversion Hx; subst; assumption.
Qed.

Lemma bisect_prefix p a :
  (forall i j x y, i < j -> nth_error a i = Some x -> nth_error a j = Some y -> p y = true -> p x = true) ->
  bisect E p a (S (length a)) 0 (length a) = prefix_len p a.
Proof.
  intros Mono. apply bisect_correct.
  - apply prefix_len_true.
  - intros i x L Hx.
    destruct (Nat.eq_dec i (prefix_len p a)) as [->|N].
    + eapply prefix_len_stop; eassumption.
    + destruct (p x) eqn:Px; auto.
      destruct (nth_error a (prefix_len p a)) as [y|] eqn:Ey.
      * rewrite <- (prefix_len_stop p a y Ey). symmetry.
        eapply (Mono (prefix_len p a) i); eauto. lia.
      * apply nth_error_None in Ey.
        assert (i < length a) by (apply nth_error_Some; congruence). lia.
  - lia.
  - apply prefix_len_le.
  - lia.
  - lia.
Qed.

Lemma bisect_left_spec a v : sorted_edges a ->
  bisect_left E P a v = prefix_len (fun y => po_lt P y v) a.
Proof.
  intros S. apply bisect_prefix. intros i j x y L Hx Hy H.
  eapply po_trans; [|exact H]. eapply S; eassumption.
Qed.

Lemma bisect_right_spec a v : sorted_edges a -> po_nan P v = false ->
  bisect_right E P a v = prefix_len (fun y => negb (po_lt P v y)) a.
Proof.
  intros S Nv. apply bisect_prefix. intros i j x y L Hx Hy H.
  apply negb_true_iff in H. apply negb_true_iff.
  pose proof (S i j x y L Hx Hy) as Hxy.
  destruct (po_lt P v x) eqn:K; auto.
  pose proof (po_trans E P _ _ _ K Hxy). congruence.
Qed.

(** Bins do not overlap. *)
Lemma covers_unique edges rgt both i j v : sorted_edges edges ->
  covers edges rgt both i v -> covers edges rgt both j v -> i = j.
Proof.
  intros S.
  assert (G : forall i j, i < j -> covers edges rgt both i v -> covers edges rgt both j v -> False).
  { clear i j. intros i j L (a & b & Ha & Hb & H) (a' & b' & Ha' & Hb' & H').
    assert (Hba : po_lt P b a' = true \/ b = a').
    { destruct (Nat.eq_dec (Datatypes.S i) j) as [Ej|Ej].
      - subst j. right. congruence.
      - left. apply (S (Datatypes.S i) j b a'); [lia|assumption|assumption]. }
    destruct rgt.
    - (* v <= b <= a' and a' < v *)
      destruct H as [_ H]. destruct H' as [H' _].
      destruct H' as [H'|(_ & -> & _)]; [|lia].
      destruct Hba as [Hba| ->].
      + pose proof (po_trans E P _ _ _ Hba H') as K.
        destruct H as [H|H].
        * rewrite (po_lt_asym _ _ H) in K; discriminate.
        * rewrite (po_eq_not_gt _ _ H) in K; discriminate.
      + destruct H as [H|H].
        * rewrite (po_lt_asym _ _ H) in H'; discriminate.
        * rewrite (po_eq_not_gt _ _ H) in H'; discriminate.
    - (* v < b <= a' <= v, or i is the last bin *)
      destruct H as [_ H]. destruct H' as [H' _].
      destruct H as [H|(_ & Hi & _)].
      + destruct H' as [H'|H'].
        * pose proof (po_trans E P _ _ _ H' H) as K. destruct Hba as [Hba| ->].
          -- rewrite (po_lt_asym _ _ Hba) in K; discriminate.
          -- rewrite po_irrefl in K; discriminate.
        * rewrite (po_eq_lt_l _ _ b H') in H. destruct Hba as [Hba| ->].
          -- rewrite (po_lt_asym _ _ Hba) in H; discriminate.
          -- rewrite po_irrefl in H; discriminate.
      + assert (Datatypes.S j < length edges) by (apply nth_error_Some; congruence). lia. }
  intros Hi Hj. destruct (lt_eq_lt_dec i j) as [[L|E0]|L]; auto; exfalso; eauto.
Qed.

End Spec.

Lemma py_nth_nat {A} (l : list A) i a : nth_error l i = Some a -> py_nth l (Z.of_nat i) = Ok a.
Proof.
  intros H. unfold py_nth.
  assert ((Z.of_nat i <? 0)%Z = false) as -> by (apply Z.ltb_ge; lia).
  assert ((Z.of_nat i <? 0)%Z = false) as -> by (apply Z.ltb_ge; lia).
  rewrite Nat2Z.id, H. reflexivity.
Qed.

Lemma py_nth_last {A} (l : list A) a : nth_error l (pred (length l)) = Some a -> py_nth l (-1) = Ok a.
Proof.
  intros H. unfold py_nth. assert (0 < length l).
  { destruct l; simpl in *; [discriminate|lia]. }
  assert ((-1 <? 0)%Z = true) as -> by reflexivity.
  assert ((-1 + Z.of_nat (length l) <? 0)%Z = false) as -> by (apply Z.ltb_ge; lia).
  replace (Z.to_nat (-1 + Z.of_nat (length l))) with (pred (length l)) by lia.
  rewrite H. reflexivity.
Qed.

Section Call.
Variables E N T : Type.
Variable P : pyorder E.
Notation spec := (spec E N T).

(** The invariant established by the constructor. *)
Definition wf_spec (s : spec) : Prop :=
  2 <= length (bin_edges s) /\ sorted_edges E P (bin_edges s)
  /\ length (names s) = pred (length (bin_edges s)).

Definition bin_of (s : spec) (i : nat) (v : E) : Prop :=
  covers E P (bin_edges s) (right s) (include_both s) i v.

Lemma sorted_not_nan edges : 2 <= length edges -> sorted_edges E P edges ->
  forall i a, nth_error edges i = Some a -> po_nan P a = false.
Proof.
  intros L S i a H.
  assert (Li : i < length edges) by (apply nth_error_Some; congruence).
  destruct i as [|i].
  - destruct (nth_error edges 1) as [b|] eqn:Eb.
    + apply (po_not_nan_lt E P a b). apply (S 0 1 a b); auto.
    + apply nth_error_None in Eb. lia.
  - destruct (nth_error edges i) as [b|] eqn:Eb.
    + apply (po_not_nan_lt E P b a). apply (S i (Datatypes.S i) b a); auto.
    + apply nth_error_None in Eb. lia.
Qed.

Lemma call_correct (s : spec) (v : E) : wf_spec s -> po_nan P v = false ->
  (exists i nm, bin_of s i v /\ nth_error (names s) i = Some nm /\ call E N T P s (Some v) = Ok nm)
  \/ ((forall i, ~ bin_of s i v) /\ call E N T P s (Some v) = Ok None).
Proof.
  intros (L & S & LN) Nv. unfold bin_of. unfold call. rewrite Nv.
  pose proof (sorted_not_nan (bin_edges s) L S) as NN.
  destruct (nth_error (bin_edges s) 0) as [e0|] eqn:E0; [|apply nth_error_None in E0; lia].
  destruct (nth_error (bin_edges s) (pred (length (bin_edges s)))) as [el|] eqn:El;
    [|apply nth_error_None in El; lia].
  pose proof (NN _ _ E0) as N0. pose proof (NN _ _ El) as Nl.
  assert (NAME : forall i, Datatypes.S i < length (bin_edges s) -> exists nm, nth_error (names s) i = Some nm).
  { intros i Hi. destruct (nth_error (names s) i) as [nm|] eqn:En; eauto.
    apply nth_error_None in En. lia. }
  pose proof (py_nth_nat _ 0 _ E0) as P0. simpl in P0.
  pose proof (py_nth_last _ _ El) as Pl.
  destruct (right s) eqn:ER.
  - rewrite P0. cbn [bind].
    destruct (include_both s && po_eq P v e0) eqn:B.
    + apply andb_true_iff in B as [B1 B2].
      destruct (NAME 0) as (nm & Hnm); [lia|].
      destruct (nth_error (bin_edges s) 1) as [e1|] eqn:E1; [|apply nth_error_None in E1; lia].
      left. exists 0, nm. split; [|split; [assumption|]].
      * exists e0, e1. split; [assumption|split; [assumption|]]. split.
        -- right; auto.
        -- left. rewrite (po_eq_lt_l E P _ _ e1 B2). apply (S 0 1); auto.
      * apply (py_nth_nat _ 0 _ Hnm).
    + rewrite Pl. cbn [bind]. rewrite po_le_def.
      destruct (po_lt P v e0 || po_eq P v e0) eqn:C1.
      * right. split; [|reflexivity]. intros i (a & b & Ha & Hb & H1 & H2).
        assert (Ka : po_lt P a e0 = false).
        { destruct i as [|i].
          - assert (a = e0) by congruence. subst. apply po_irrefl.
          - apply po_lt_asym. apply (S 0 (Datatypes.S i)); auto. lia. }
        apply orb_true_iff in C1 as [C1|C1].
        -- destruct H1 as [H1|(_ & -> & H1)].
           ++ pose proof (po_trans E P _ _ _ H1 C1). congruence.
           ++ assert (a = e0) by congruence. subst.
              rewrite (po_eq_not_lt E P _ _ H1) in C1. discriminate.
        -- destruct H1 as [H1|(Hb' & -> & H1)].
           ++ rewrite (po_eq_lt_r E P _ _ a C1) in H1. congruence.
           ++ rewrite Hb' in B. rewrite C1 in B. discriminate.
      * destruct (po_lt P el v) eqn:C2; cbn [orb].
        -- right. split; [|reflexivity]. intros i (a & b & Ha & Hb & H1 & H2).
           assert (Kb : po_lt P el b = false).
           { destruct (Nat.eq_dec (Datatypes.S i) (pred (length (bin_edges s)))) as [Q|Q].
             - rewrite Q in Hb. assert (b = el) by congruence. subst. apply po_irrefl.
             - apply po_lt_asym. apply (S (Datatypes.S i) (pred (length (bin_edges s)))); auto.
               assert (Datatypes.S i < length (bin_edges s)) by (apply nth_error_Some; congruence).
               lia. }
           destruct H2 as [H2|H2].
           ++ pose proof (po_trans E P _ _ _ C2 H2). congruence.
           ++ rewrite (po_eq_lt_r E P _ _ el H2) in C2. congruence.
        -- apply orb_false_iff in C1 as [C1 C1'].
           rewrite bisect_left_spec by assumption.
           set (k := prefix_len E (fun y => po_lt P y v) (bin_edges s)).
           assert (G0 : po_lt P e0 v = true).
           { destruct (po_tri E P e0 v N0 Nv) as [K|[K|K]]; auto.
             - apply po_eq_sym in K. congruence.
             - congruence. }
           assert (Kpos : 0 < k).
           { unfold k. destruct (bin_edges s) as [|x r]; simpl in *; [discriminate|].
             inversion E0; subst. rewrite G0. lia. }
           assert (Klt : k < length (bin_edges s)).
           { pose proof (prefix_len_le E (fun y => po_lt P y v) (bin_edges s)) as Kle. fold k in Kle.
             destruct (Nat.eq_dec k (length (bin_edges s))) as [Q|Q]; [|lia].
             exfalso. assert (X : po_lt P el v = true); [|congruence].
             apply (prefix_len_true E (fun y => po_lt P y v) (bin_edges s) (pred (length (bin_edges s)))); auto.
             fold k. lia. }
           destruct (nth_error (bin_edges s) k) as [b|] eqn:Eb; [|apply nth_error_None in Eb; lia].
           destruct (nth_error (bin_edges s) (pred k)) as [a|] eqn:Ea; [|apply nth_error_None in Ea; lia].
           destruct (NAME (pred k)) as (nm & Hnm); [lia|].
           left. exists (pred k), nm. split; [|split; [assumption|]].
           ++ exists a, b. split; [assumption|]. split.
              { replace (Datatypes.S (pred k)) with k by lia. assumption. }
              split.
              { left. apply (prefix_len_true E (fun y => po_lt P y v) (bin_edges s) (pred k)); auto.
                fold k. lia. }
              { pose proof (prefix_len_stop E _ _ _ Eb) as X. simpl in X.
                apply (po_not_lt E P v b); auto. apply (NN _ _ Eb). }
           ++ replace (Z.of_nat k - 1)%Z with (Z.of_nat (pred k)) by lia. apply py_nth_nat; assumption.
  - rewrite Pl. cbn [bind].
    destruct (include_both s && po_eq P v el) eqn:B.
    + apply andb_true_iff in B as [B1 B2].
      destruct (NAME (pred (pred (length (bin_edges s))))) as (nm & Hnm); [lia|].
      destruct (nth_error (bin_edges s) (pred (pred (length (bin_edges s))))) as [a|] eqn:Ea;
        [|apply nth_error_None in Ea; lia].
      left. exists (pred (pred (length (bin_edges s)))), nm. split; [|split; [assumption|]].
      * exists a, el. split; [assumption|]. split.
        { replace (Datatypes.S (pred (pred (length (bin_edges s))))) with (pred (length (bin_edges s))) by lia.
          assumption. }
        split.
        { left. rewrite (po_eq_lt_r E P _ _ a B2).
          apply (S (pred (pred (length (bin_edges s)))) (pred (length (bin_edges s)))); auto. lia. }
        { right. split; [assumption|split; [lia|assumption]]. }
      * apply py_nth_last. rewrite LN. assumption.
    + rewrite P0. cbn [bind]. rewrite po_le_def.
      destruct (po_lt P v e0) eqn:C1; cbn [orb].
      * right. split; [|reflexivity]. intros i (a & b & Ha & Hb & H1 & H2).
        assert (Ka : po_lt P a e0 = false).
        { destruct i as [|i].
          - assert (a = e0) by congruence. subst. apply po_irrefl.
          - apply po_lt_asym. apply (S 0 (Datatypes.S i)); auto. lia. }
        destruct H1 as [H1|H1].
        -- pose proof (po_trans E P _ _ _ H1 C1). congruence.
        -- rewrite (po_eq_lt_l E P _ _ e0 H1) in C1. congruence.
      * destruct (po_lt P el v || po_eq P el v) eqn:C2.
        -- right. split; [|reflexivity]. intros i (a & b & Ha & Hb & H1 & H2).
           assert (Li : Datatypes.S i < length (bin_edges s)) by (apply nth_error_Some; congruence).
           assert (Kb : po_lt P el b = false).
           { destruct (Nat.eq_dec (Datatypes.S i) (pred (length (bin_edges s)))) as [Q|Q].
             - rewrite Q in Hb. assert (b = el) by congruence. subst. apply po_irrefl.
             - apply po_lt_asym. apply (S (Datatypes.S i) (pred (length (bin_edges s)))); auto. lia. }
           apply orb_true_iff in C2 as [C2|C2].
           ++ destruct H2 as [H2|(Hb' & Hi & H2)].
              ** pose proof (po_trans E P _ _ _ C2 H2). congruence.
              ** assert (X : b = el).
                 { replace (pred (length (bin_edges s))) with (Datatypes.S i) in El by lia. congruence. }
                 subst. rewrite (po_eq_not_gt E P _ _ H2) in C2. discriminate.
           ++ destruct H2 as [H2|(Hb' & Hi & H2)].
              ** rewrite <- (po_eq_lt_l E P _ _ b C2) in H2. congruence.
              ** rewrite Hb' in B. rewrite (po_eq_sym E P _ _ C2) in B. discriminate.
        -- apply orb_false_iff in C2 as [C2 C2'].
           rewrite bisect_right_spec by assumption.
           set (k := prefix_len E (fun y => negb (po_lt P v y)) (bin_edges s)).
           assert (G0 : po_lt P v el = true).
           { destruct (po_tri E P v el Nv Nl) as [K|[K|K]]; auto.
             - apply po_eq_sym in K. congruence.
             - congruence. }
           assert (Kpos : 0 < k).
           { unfold k. destruct (bin_edges s) as [|x r]; simpl in *; [discriminate|].
             inversion E0; subst. rewrite C1. simpl. lia. }
           assert (Klt : k < length (bin_edges s)).
           { pose proof (prefix_len_le E (fun y => negb (po_lt P v y)) (bin_edges s)) as Kle. fold k in Kle.
             destruct (Nat.eq_dec k (length (bin_edges s))) as [Q|Q]; [|lia].
             exfalso. assert (X : negb (po_lt P v el) = true); [|rewrite G0 in X; discriminate].
             apply (prefix_len_true E (fun y => negb (po_lt P v y)) (bin_edges s) (pred (length (bin_edges s)))); auto.
             fold k. lia. }
           destruct (nth_error (bin_edges s) k) as [b|] eqn:Eb; [|apply nth_error_None in Eb; lia].
           destruct (nth_error (bin_edges s) (pred k)) as [a|] eqn:Ea; [|apply nth_error_None in Ea; lia].
           destruct (NAME (pred k)) as (nm & Hnm); [lia|].
           left. exists (pred k), nm. split; [|split; [assumption|]].
           ++ exists a, b. split; [assumption|]. split.
              { replace (Datatypes.S (pred k)) with k by lia. assumption. }
              split.
              { assert (X : negb (po_lt P v a) = true).
                { apply (prefix_len_true E (fun y => negb (po_lt P v y)) (bin_edges s) (pred k)); auto.
                  fold k. lia. }
                apply negb_true_iff in X.
                destruct (po_not_lt E P a v (NN _ _ Ea) Nv X) as [Y|Y]; auto.
                right. apply po_eq_sym; assumption. }
              { left. pose proof (prefix_len_stop E _ _ _ Eb) as X. simpl in X.
                apply negb_false_iff in X. assumption. }
           ++ replace (Z.of_nat k - 1)%Z with (Z.of_nat (pred k)) by lia. apply py_nth_nat; assumption.
Qed.

(** *** bins *)

Variable N_eqb : N -> N -> bool.
Hypothesis N_eqb_eq : forall a b, N_eqb a b = true <-> a = b.

Lemma dedup_aux_In {A} (eqb : A -> A -> bool) (H : forall a b, eqb a b = true <-> a = b) :
  forall l seen x, In x (dedup_aux eqb seen l) <-> In x l /\ ~ In x seen.
Proof.
  assert (EX : forall x s, existsb (eqb x) s = true <-> In x s).
  { intros x s. rewrite existsb_exists. split.
    - intros (y & Hy & Ey). apply H in Ey; subst; assumption.
    - intros K; exists x; split; [assumption|apply H; reflexivity]. }
  induction l as [|y r IH]; simpl; intros seen x; [tauto|].
  destruct (existsb (eqb y) seen) eqn:K.
  - apply EX in K. rewrite IH. split; [tauto|]. intros [[->|H1] H2]; tauto.
  - assert (NK : ~ In y seen) by (rewrite <- EX; congruence).
    simpl. rewrite IH. simpl. split.
    + intros [->|[H1 H2]]; tauto.
    + intros [[->|H1] H2]; [tauto|].
      destruct (eqb y x) eqn:Q.
      * apply H in Q. auto.
      * right. split; [assumption|]. intros [->|K']; [|tauto].
        assert (eqb x x = true) by (apply H; reflexivity). congruence.
Qed.

Lemma dedup_aux_NoDup {A} (eqb : A -> A -> bool) (H : forall a b, eqb a b = true <-> a = b) :
  forall l seen, NoDup (dedup_aux eqb seen l).
Proof.
  induction l as [|y r IH]; simpl; intros seen; [constructor|].
  destruct (existsb (eqb y) seen); [apply IH|]. constructor; [|apply IH].
  rewrite (dedup_aux_In eqb H). simpl. tauto.
Qed.

(** If distinct, nothing is dropped: the order is that of the edges. *)
Lemma dedup_aux_id {A} (eqb : A -> A -> bool) (H : forall a b, eqb a b = true <-> a = b) :
  forall l seen, NoDup l -> (forall x, In x l -> ~ In x seen) -> dedup_aux eqb seen l = l.
Proof.
  induction l as [|y r IH]; simpl; intros seen ND D; [reflexivity|].
  inversion ND; subst.
  destruct (existsb (eqb y) seen) eqn:K.
  - exfalso. apply existsb_exists in K as (z & Hz & Ez). apply H in Ez; subst.
    apply (D z); auto.
  - f_equal. apply IH; [assumption|]. intros x Hx [->|K']; [contradiction|].
    apply (D x); auto.
Qed.

Lemma bins_complete (s : spec) (v : option E) (nm : option N) :
  wf_spec s -> call E N T P s v = Ok nm -> In nm (bins E N T N_eqb s true).
Proof.
  intros W H. unfold bins, fromkeys. apply (dedup_aux_In _ (option_eqb_eq N_eqb N_eqb_eq)).
  split; [|simpl; tauto].
  destruct v as [v|].
  - destruct (po_nan P v) eqn:Nv.
    + unfold call in H. rewrite Nv in H. inversion H; subst.
      destruct (nan_bin s); rewrite !in_app_iff; simpl; tauto.
    + destruct (call_correct s v W Nv) as [(i & nm' & _ & Hn & Hc)|[_ Hc]]; rewrite Hc in H;
        inversion H; subst.
      * apply nth_error_In in Hn. destruct (nan_bin s); rewrite !in_app_iff; simpl; tauto.
      * destruct (nan_bin s); rewrite !in_app_iff; simpl; tauto.
  - simpl in H. inversion H; subst. destruct (nan_bin s); rewrite !in_app_iff; simpl; tauto.
Qed.

Lemma bins_complete_nonnull (s : spec) (v : option E) (nm : N) :
  wf_spec s -> call E N T P s v = Ok (Some nm) -> In (Some nm) (bins E N T N_eqb s false).
Proof.
  intros W H. unfold bins, fromkeys. apply (dedup_aux_In _ (option_eqb_eq N_eqb N_eqb_eq)).
  split; [|simpl; tauto].
  destruct v as [v|]; [|discriminate].
  destruct (po_nan P v) eqn:Nv.
  - unfold call in H. rewrite Nv in H. inversion H; subst. rewrite H1.
    rewrite in_app_iff; simpl; tauto.
  - destruct (call_correct s v W Nv) as [(i & nm' & _ & Hn & Hc)|[_ Hc]]; rewrite Hc in H;
      inversion H; subst.
    apply nth_error_In in Hn. destruct (nan_bin s); rewrite ?in_app_iff; simpl; tauto.
Qed.

(** nothing else is listed *)
Lemma bins_sound (s : spec) nl nm : In nm (bins E N T N_eqb s nl) ->
  In nm (names s) \/ (nan_bin s <> None /\ nm = nan_bin s) \/ (nl = true /\ nm = None).
Proof.
  unfold bins, fromkeys. rewrite (dedup_aux_In _ (option_eqb_eq N_eqb N_eqb_eq)).
  intros [H _]. destruct nl; destruct (nan_bin s) eqn:EN; rewrite ?in_app_iff in H; simpl in H;
    intuition (try congruence).
Qed.

Lemma bins_NoDup (s : spec) nl : NoDup (bins E N T N_eqb s nl).
Proof. apply dedup_aux_NoDup, option_eqb_eq, N_eqb_eq. Qed.

Lemma bins_ordered (s : spec) : NoDup (names s) ->
  exists tl, bins E N T N_eqb s false = names s ++ tl.
Proof.
  intros ND. unfold bins, fromkeys. destruct (nan_bin s) as [b|].
  - assert (G : forall l seen, NoDup l -> (forall x, In x l -> ~ In x seen) ->
       exists tl, dedup_aux (option_eqb N_eqb) seen (l ++ [Some b]) = l ++ tl).
    { pose proof (option_eqb_eq N_eqb N_eqb_eq) as OE.
      induction l as [|y r IH]; simpl; intros seen ND' D.
      - destruct (existsb _ seen); [exists []|exists [Some b]]; reflexivity.
      - inversion ND'; subst.
        destruct (existsb (option_eqb N_eqb y) seen) eqn:K.
        + exfalso. apply existsb_exists in K as (z & Hz & Ez). apply OE in Ez; subst.
          apply (D z); auto.
        + destruct (IH (y :: seen)) as (tl & Ht); [assumption| |].
          * intros x Hx [->|K']; [contradiction|]. apply (D x); auto.
          * exists tl. rewrite Ht. reflexivity. }
    apply G; [assumption|simpl; tauto].
  - exists []. rewrite app_nil_r. apply dedup_aux_id; [apply option_eqb_eq, N_eqb_eq|assumption|simpl; tauto].
Qed.

(** *** constructor *)
Variable T_eqb : T -> T -> bool.
Hypothesis T_eqb_eq : forall a b, T_eqb a b = true <-> a = b.
Variable edge_type : list E -> res T.
Variable names_type : list (option N) -> res T.
Variable type_of : N -> T.
Variable default_names : list E -> bool -> bool -> res (list (option N)).

Notation mk := (mk_spec E N T P T_eqb edge_type names_type type_of default_names).

(** the names the spec ends up with *)
Definition chosen_names edges nms rgt both : res (list (option N)) :=
  match nms with None => default_names edges rgt both | Some l => Ok l end.

Lemma mk_spec_ok edges nms rgt both nb s :
  mk edges nms rgt both nb = Ok s <->
  2 <= length edges /\ sorted_edges E P edges
  /\ edge_type edges = Ok (input_type s)
  /\ chosen_names edges nms rgt both = Ok (names s)
  /\ (forall l, nms = Some l -> length l = pred (length edges))
  /\ names_type (names s) = Ok (name_type s)
  /\ (forall b, nb = Some b -> type_of b = name_type s)
  /\ bin_edges s = edges /\ right s = rgt /\ include_both s = both /\ nan_bin s = nb.
Proof.
  unfold mk_spec. split.
  - intros H. apply bind_ok in H as ([] & H1 & H). apply raise_if_ok in H1.
    apply bind_ok in H as (it & Hit & H). apply bind_ok in H as ([] & H2 & H).
    apply raise_if_ok in H2. apply bind_ok in H as (nm & Hnm & H).
    apply bind_ok in H as (nt & Hnt & H). apply bind_ok in H as ([] & H3 & H).
    apply raise_if_ok in H3. inversion H; subst; simpl.
    apply Nat.ltb_ge in H1. apply negb_false_iff in H2.
    split; [lia|]. split; [apply ascending_sorted; assumption|].
    split; [destruct (edge_type edges); inversion Hit; reflexivity|].
    split.
    { destruct nms as [l|]; simpl; [|assumption].
      destruct (length l =? _); inversion Hnm; reflexivity. }
    split.
    { intros l ->. destruct (Nat.eqb_spec (length l) (pred (length edges))) as [Q|Q];
        [assumption|]. destruct (length l =? pred (length edges)) eqn:Z; [|discriminate].
      apply Nat.eqb_eq in Z. assumption. }
    split; [destruct (names_type nm); inversion Hnt; reflexivity|].
    split.
    { intros b ->. apply negb_false_iff in H3. apply T_eqb_eq. assumption. }
    auto.
  - intros (L & S & ET & CN & LN & NT & TB & BE & BR & BB & BN). subst.
    assert ((pred (length (bin_edges s)) <? 1) = false) as -> by (apply Nat.ltb_ge; lia).
    cbn [bind raise_if]. rewrite ET. cbn [bind].
    rewrite (sorted_ascending E P _ S). cbn [bind raise_if negb].
    assert ((match nms with
             | None => default_names (bin_edges s) (right s) (include_both s)
             | Some nm => if length nm =? pred (length (bin_edges s)) then Ok nm else Err ValueError
             end) = Ok (names s)) as ->.
    { destruct nms as [l|]; simpl in CN; [|assumption].
      rewrite (LN l eq_refl), Nat.eqb_refl. assumption. }
    cbn [bind]. rewrite NT. cbn [bind].
    assert ((match nan_bin s with Some b => negb (T_eqb (type_of b) (name_type s)) | None => false end) = false) as ->.
    { destruct (nan_bin s) as [b|] eqn:EB; [|reflexivity].
      apply negb_false_iff, T_eqb_eq, TB. reflexivity. }
    cbn [bind raise_if]. destruct s; reflexivity.
Qed.

End Call.

(** *** default names *)
Local Open Scope string_scope.

Lemma pairs_named_length l r es : length (pairs_named l r es) = pred (length es).
Proof.
  induction es as [|a [|b t] IH]; try reflexivity.
  change (pairs_named l r (a :: b :: t)) with (interval l a b r :: pairs_named l r (b :: t)).
  simpl length in *. rewrite IH. reflexivity.
Qed.

Lemma pairs_named_nth l r : forall es i a b,
  nth_error es i = Some a -> nth_error es (S i) = Some b ->
  nth_error (pairs_named l r es) i = Some (interval l a b r).
Proof.
  induction es as [|x [|y t] IH]; intros i a b Ha Hb.
  - destruct i; discriminate.
  - destruct i as [|[|i]]; simpl in *; discriminate.
  - change (pairs_named l r (x :: y :: t)) with (interval l x y r :: pairs_named l r (y :: t)).
    destruct i as [|i].
    + simpl in Ha, Hb. inversion Ha; inversion Hb; subst. reflexivity.
    + simpl nth_error at 1. apply IH; assumption.
Qed.

Lemma removelast_length {A} (l : list A) : length (removelast l) = pred (length l).
Proof.
  induction l as [|a [|b t] IH]; try reflexivity.
  change (removelast (a :: b :: t)) with (a :: removelast (b :: t)). simpl length in *. lia.
Qed.

Lemma removelast_nth {A} (l : list A) i : i < pred (length l) ->
  nth_error (removelast l) i = nth_error l i.
Proof.
  revert i; induction l as [|a [|b t] IH]; intros i L; try (simpl in L; lia).
  change (removelast (a :: b :: t)) with (a :: removelast (b :: t)).
  destruct i as [|i]; [reflexivity|]. simpl nth_error at 1. rewrite IH; [reflexivity|].
  simpl in *. lia.
Qed.

(** The default name of bin [i] shows its two edges, with the bracket shape telling
    which ends belong to the bin. *)
Lemma default_bin_names_nth es rgt both i a b :
  nth_error es i = Some a -> nth_error es (S i) = Some b ->
  nth_error (default_bin_names es rgt both) i =
  Some (if rgt then (if both && (i =? 0)%nat then interval "[" a b "]" else interval "(" a b "]")
        else (if both && (S (S i) =? length es)%nat then interval "[" a b "]" else interval "[" a b ")")).
Proof.
  intros Ha Hb. unfold default_bin_names. destruct rgt, both; cbn [andb].
  - destruct es as [|x [|y t]]; try (destruct i as [|[|i]]; discriminate).
    destruct i as [|i].
    + simpl in Ha, Hb. inversion Ha; inversion Hb; subst. reflexivity.
    + simpl Nat.eqb. simpl nth_error at 1. simpl in Ha, Hb.
      apply (pairs_named_nth "(" "]" (y :: t)); assumption.
  - apply pairs_named_nth; assumption.
  - assert (L : S i < length es) by (apply nth_error_Some; congruence).
    destruct (Nat.eqb_spec (S (S i)) (length es)) as [Q|Q].
    + assert (LL : length (pairs_named "[" ")" (removelast es)) = i).
      { rewrite pairs_named_length, removelast_length. lia. }
      rewrite nth_error_app2 by lia. rewrite LL, Nat.sub_diag.
      assert (R : exists t, rev es = b :: a :: t).
      { destruct (nth_error_split es i Ha) as (l1 & l2 & -> & L1).
        rewrite nth_error_app2 in Hb by lia. replace (S i - length l1)%nat with 1%nat in Hb by lia.
        destruct l2 as [|b' l2]; simpl in Hb; [discriminate|]. inversion Hb; subst.
        rewrite app_length in Q. simpl in Q. destruct l2; simpl in Q; [|lia].
        exists (rev l1). rewrite rev_app_distr. reflexivity. }
      destruct R as (t & ->). reflexivity.
    + rewrite nth_error_app1.
      * apply pairs_named_nth; rewrite removelast_nth; auto; lia.
      * rewrite pairs_named_length, removelast_length. lia.
  - apply pairs_named_nth; assumption.
Qed.

Lemma default_bin_names_length es rgt both : 2 <= length es ->
  length (default_bin_names es rgt both) = pred (length es).
Proof.
  intros L. unfold default_bin_names. destruct rgt, both.
  - destruct es as [|x [|y t]]; simpl in L; try lia.
    cbn [List.tl]. change (S (length (pairs_named "(" "]" (y :: t))) = S (length t)).
    rewrite pairs_named_length. reflexivity.
  - apply pairs_named_length.
  - rewrite app_length, pairs_named_length, removelast_length.
    destruct (rev es) as [|b [|a t]] eqn:R; apply (f_equal (@length string)) in R;
      rewrite rev_length in R; simpl in R; try lia. simpl. lia.
  - apply pairs_named_length.
Qed.

(** *** Default names are pairwise distinct *)

(** no comma occurs in the string *)
Fixpoint no_comma (s : string) : Prop :=
  match s with
  | EmptyString => True
  | String c r => c <> ","%char /\ no_comma r
  end.

Lemma split_at_comma a b x y : no_comma a -> no_comma b ->
  a ++ String "," x = b ++ String "," y -> a = b.
Proof.
  revert b; induction a as [|c a IH]; intros [|d b] Ha Hb H; simpl in *; try reflexivity.
  - inversion H; subst. exfalso; apply (proj1 Hb); reflexivity.
  - inversion H; subst. exfalso; apply (proj1 Ha); reflexivity.
  - inversion H; subst. f_equal. apply IH; tauto.
Qed.

Lemma interval_left_gen (ok : string -> Prop) l l' a b a' b' r r' :
  (forall a b x y, ok a -> ok b -> a ++ String "," x = b ++ String "," y -> a = b) ->
  ok a -> ok a' ->
  interval (String l EmptyString) a b r = interval (String l' EmptyString) a' b' r' -> a = a'.
Proof.
  intros G Ha Ha' H. unfold interval in H. simpl in H. inversion H.
  eapply G; eauto.
Qed.

(** [ok] strings can be read off in front of a comma. *)
Lemma default_bin_names_NoDup_gen (ok : string -> Prop) es rgt both :
  (forall a b x y, ok a -> ok b -> a ++ String "," x = b ++ String "," y -> a = b) ->
  2 <= length es ->
  (forall a, In a es -> ok a) -> NoDup es -> NoDup (default_bin_names es rgt both).
Proof.
  intros OK.
  intros L NC ND. apply NoDup_nth_error. intros i j Hi Hij.
  rewrite default_bin_names_length in Hi by assumption.
  assert (G : forall k, k < pred (length es) -> exists a b l r,
     nth_error es k = Some a /\ nth_error es (S k) = Some b /\
     nth_error (default_bin_names es rgt both) k = Some (interval (String l EmptyString) a b r)).
  { intros k Hk.
    destruct (nth_error es k) as [a|] eqn:Ea; [|apply nth_error_None in Ea; lia].
    destruct (nth_error es (S k)) as [b|] eqn:Eb; [|apply nth_error_None in Eb; lia].
    exists a, b. rewrite (default_bin_names_nth es rgt both k a b Ea Eb).
    destruct rgt; destruct (both && _)%bool; do 2 eexists; repeat split; reflexivity. }
  destruct (G i Hi) as (a & b & l & r & Ha & Hb & Hn).
  assert (Hj : j < pred (length es)).
  { rewrite <- (default_bin_names_length es rgt both) by assumption.
    apply nth_error_Some. rewrite <- Hij, Hn. discriminate. }
  destruct (G j Hj) as (a' & b' & l' & r' & Ha' & Hb' & Hn').
  rewrite Hn, Hn' in Hij.
  assert (K : interval (String l EmptyString) a b r = interval (String l' EmptyString) a' b' r') by congruence.
  apply (interval_left_gen ok) in K; [|exact OK|apply NC; eapply nth_error_In; eauto..]. subst.
  apply (proj1 (NoDup_nth_error es) ND); [lia|congruence].
Qed.

Lemma default_bin_names_NoDup es rgt both : 2 <= length es ->
  (forall a, In a es -> no_comma a) -> NoDup es -> NoDup (default_bin_names es rgt both).
Proof. apply default_bin_names_NoDup_gen. intros. eapply split_at_comma; eauto. Qed.

(** *** Distinctness of float edge strings *)
Lemma fromkeys_length_NoDup (l : list string) :
  length (fromkeys String.eqb l) = length l -> NoDup l.
Proof.
  unfold fromkeys.
  assert (G : forall l seen, length (dedup_aux String.eqb seen l) <= length l /\
    (length (dedup_aux String.eqb seen l) = length l -> NoDup l /\ forall x, In x l -> ~ In x seen)).
  { clear l. induction l as [|x r IH]; simpl; intros seen.
    - split; [lia|]. intros _. split; [constructor|tauto].
    - destruct (existsb (String.eqb x) seen) eqn:K.
      + destruct (IH seen) as [H1 _]. split; [lia|]. intros; lia.
      + destruct (IH (x :: seen)) as [H1 H2]. simpl. split; [lia|].
        intros H. injection H as H. destruct (H2 H) as [ND D].
        split.
        * constructor; [|assumption]. intros Hx. apply (D x Hx). simpl; auto.
        * intros y [->|Hy] Hs.
          -- assert (existsb (String.eqb y) seen = true); [|congruence].
             apply existsb_exists. exists y. split; [assumption|apply String.eqb_refl].
          -- apply (D y Hy). simpl; auto. }
  intros H. apply (G l []) in H. tauto.
Qed.

Lemma edges_as_str_float_spec {E} (fmt : nat -> E -> string) edges l :
  edges_as_str_float fmt edges = Ok l ->
  NoDup l /\ exists p, 2 <= p <= 16 /\ l = map (fmt p) edges.
Proof.
  unfold edges_as_str_float.
  set (f := fun acc p => match acc with Some _ => acc | None => _ end).
  assert (G : forall ps acc l, fold_left f ps acc = Some l ->
     acc = Some l \/ exists p, In p ps /\ NoDup l /\ l = map (fmt p) edges).
  { induction ps as [|p ps IH]; simpl; intros acc l' H; [auto|].
    apply IH in H as [H|(p' & Hp & H)].
    - unfold f in H. destruct acc as [a|]; [left; assumption|].
      destruct (Nat.eqb_spec (length (fromkeys String.eqb (map (fmt p) edges))) (length (map (fmt p) edges)))
        as [Q|Q]; [|discriminate].
      inversion H; subst. right. exists p. split; [auto|]. split; [|reflexivity].
      apply fromkeys_length_NoDup; assumption.
    - right. exists p'. tauto. }
  destruct (fold_left f (seq 2 15) None) as [l'|] eqn:K; intros H; inversion H; subst.
  apply G in K as [K|(p & Hp & ND & ->)]; [discriminate|].
  split; [assumption|]. exists p. apply in_seq in Hp. split; [lia|reflexivity].
Qed.

(** *** The descriptor of the binned column *)
Lemma column_descriptor_sound E N T P (s : spec E N T) (n_nan n_inf : N -> bool) v nm :
  wf_spec E N T P s -> call E N T P s v = Ok nm ->
  let '(allow_null, allow_nan, allow_inf) := column_descriptor N n_nan n_inf (names s) (nan_bin s) in
  (nm = None -> allow_null = true)
  /\ (forall n, nm = Some n -> n_nan n = true -> allow_nan = true)
  /\ (forall n, nm = Some n -> n_inf n = true -> allow_inf = true).
Proof.
  intros W H. unfold column_descriptor.
  assert (G : nm = None \/ In nm (match nan_bin s with Some _ => names s ++ [nan_bin s] | None => names s end)).
  { destruct v as [v|]; [|simpl in H; inversion H; auto].
    destruct (po_nan P v) eqn:Nv.
    - unfold call in H. rewrite Nv in H. inversion H; subst.
      destruct (nan_bin s); [right; rewrite in_app_iff; simpl; auto|auto].
    - destruct (call_correct E N T P s v W Nv) as [(i & nm' & _ & Hn & Hc)|[_ Hc]]; rewrite Hc in H;
        inversion H; subst; [|auto].
      apply nth_error_In in Hn. right. destruct (nan_bin s); rewrite ?in_app_iff; auto. }
  split; [reflexivity|]. split; intros n -> Hn; (destruct G as [G|G]; [discriminate|]);
    apply existsb_exists; exists (Some n); split; auto.
Qed.

Lemma default_names_of_length {E N} (embed : string -> N) (eas : list E -> res (list string)) edges rgt both l :
  (forall es, eas edges = Ok es -> length es = length edges) -> 2 <= length edges ->
  default_names_of embed eas edges rgt both = Ok l -> length l = pred (length edges).
Proof.
  intros HL L H. unfold default_names_of in H. apply bind_ok in H as (es & He & H).
  inversion H; subst. rewrite map_length, default_bin_names_length; rewrite (HL es He); auto.
Qed.

Lemma mk_spec_wf E N T P T_eqb (T_eqb_eq : forall a b : T, T_eqb a b = true <-> a = b)
    edge_type names_type type_of embed eas edges nms rgt both nb (s : spec E N T) :
  (forall es, eas edges = Ok es -> length es = length edges) ->
  mk_spec E N T P T_eqb edge_type names_type type_of (default_names_of embed eas) edges nms rgt both nb = Ok s ->
  wf_spec E N T P s.
Proof.
  intros HL H. apply mk_spec_ok in H; [|assumption].
  destruct H as (L & S & _ & CN & LN & _ & _ & BE & _). unfold wf_spec. rewrite BE.
  split; [assumption|]. split; [assumption|].
  destruct nms as [l|]; simpl in CN.
  - inversion CN; subst. auto.
  - apply (default_names_of_length embed eas edges rgt both); assumption.
Qed.

(** *** Two concrete orders: Python ints, and floats (with NaN) over integers. *)
Definition Z_pyorder : pyorder Z.
Proof.
  refine {| po_lt := Z.ltb; po_le := Z.leb; po_eq := Z.eqb; po_nan := fun _ => false |};
    try (intros; discriminate).
  - intros; apply Z.ltb_irrefl.
  - intros a b c; rewrite !Z.ltb_lt; lia.
  - intros a b _ _; rewrite !Z.ltb_lt, Z.eqb_eq; lia.
  - intros a b c H; apply Z.eqb_eq in H; subst; auto.
  - intros a b H; apply Z.eqb_eq in H; subst; apply Z.eqb_refl.
  - intros a b. apply eq_true_iff_eq. rewrite orb_true_iff, Z.leb_le, Z.ltb_lt, Z.eqb_eq. lia.
Defined.

(** [None] is NaN. *)
Definition nanZ_pyorder : pyorder (option Z).
Proof.
  refine {| po_lt := fun a b => match a, b with Some x, Some y => Z.ltb x y | _, _ => false end;
            po_le := fun a b => match a, b with Some x, Some y => Z.leb x y | _, _ => false end;
            po_eq := fun a b => match a, b with Some x, Some y => Z.eqb x y | _, _ => false end;
            po_nan := fun a => match a with None => true | Some _ => false end |}.
  - intros [a|]; [apply Z.ltb_irrefl|reflexivity].
  - intros [a|] [b|] [c|]; try discriminate. rewrite !Z.ltb_lt; lia.
  - intros [a|] [b|]; try discriminate. intros _ _; rewrite !Z.ltb_lt, Z.eqb_eq; lia.
  - intros [a|] [b|] c H; try discriminate. apply Z.eqb_eq in H; subst; auto.
  - intros [a|] [b|] H; try discriminate. apply Z.eqb_eq in H; subst; apply Z.eqb_refl.
  - intros [a|] [b|]; try reflexivity. apply eq_true_iff_eq.
    rewrite orb_true_iff, Z.leb_le, Z.ltb_lt, Z.eqb_eq. lia.
  - intros [a|] [b|]; try discriminate; auto.
  - intros [a|] [b|]; try discriminate; auto.
Defined.
