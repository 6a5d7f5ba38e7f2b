(** Totals of bounded numbers over the rows of a group: clamped sums and ranks, and how far
    they can change with the rows. *)
From Coq Require Import String Bool Arith ZArith QArith Qcanon Qabs Qminmax Lia Lqa Permutation List.
From Verif Require Import Prelude Budget Value Rows Constraints ConstraintsSpec ConstraintsProofs ConstraintsStab Query Transform Measure Distance SensitivitySpec SensitivityCounts.
Import ListNotations.
Local Open Scope string_scope.
Local Open Scope nat_scope.

(** ** Clamping bounds *)

(** ExactNumber.from_float(value, round_up) of tmlt.core for finite values, rounding up and
    rounding down. *)
Record conversion : Type := { cv_up : Qc -> Q; cv_down : Qc -> Q }.
(** Rounding goes in the direction asked for. *)
Definition directed (F : conversion) : Prop := forall q : Qc, (q <= cv_up F q)%Q /\ (cv_down F q <= q)%Q.
(** The same on all floats: infinities stay, NaN is refused (tmlt.core). *)
Definition from_float (F : conversion) (round_up : bool) (x : fnum) : res xq :=
  match x with
  | FFin q => Ok (XFin (if round_up then cv_up F q else cv_down F q))
  | FPInf => Ok XPInf
  | FNInf => Ok XNInf
  | FNan => Err ValueError
  end.
(** _get_query_bounds, _base_measurement_visitor.py 138-153: the bounds that the sums, averages,
    variances and standard deviations of tmlt.core clamp to (1187, 1282, 1377, 1472).  Bounds
    that are integers are converted like the floats of the same value. *)
Definition query_bounds (F : conversion) (low high : Query.pynum) : res (xq * xq) :=
  if fnum_ge (to_float high) (to_float low) && fnum_ge (to_float low) (to_float high) then
    let* bound := from_float F true (to_float high) in Ok (bound, bound)
  else
    let* lower_ceiling := from_float F true (to_float low) in
    let* upper_floor := from_float F false (to_float high) in
    Ok (lower_ceiling, upper_floor).

(** ** Specification vocabulary *)

(** The sum of a number per row. *)
Definition total (w : rec -> Q) (t : table) : Q := fold_right (fun r x => (w r + x)%Q) 0%Q t.
(** A value of a row, clamped; 0 for what is not a number. *)
Definition clamped (lo hi : Q) (column : string) (r : rec) : Q :=
  match getv column r with
  | VInt z => Qmin hi (Qmax lo (inject_Z z))
  | VFloat (FFin q) => Qmin hi (Qmax lo q)
  | VFloat FPInf => hi
  | VFloat FNInf => lo
  | _ => 0%Q
  end.
Definition larger_bound (lo hi : Q) : Q := Qmax (Qabs lo) (Qabs hi).
(** 1 for the rows whose value is at most [x]. *)
Definition at_most (x : Q) (column : string) (r : rec) : Q :=
  match getv column r with
  | VInt z => if Qle_bool (inject_Z z) x then 1%Q else 0%Q
  | VFloat (FFin q) => if Qle_bool q x then 1%Q else 0%Q
  | VFloat FNInf => 1%Q
  | _ => 0%Q
  end.
(** The total over the group of [key] in what a measurement reads, and its change. *)
Definition group_total (w : rec -> Q) (g : plan) (key : rec) : Q := total w (group (keys_columns (g_keys g)) key (v_rows (g_table g))).
Definition total_change (w : rec -> Q) (g g' : plan) (key : rec) : Q := Qabs (group_total w g key - group_total w g' key)%Q.
Definition sum_over {A} (f : A -> Q) (l : list A) : Q := fold_right (fun x y => (f x + y)%Q) 0%Q l.
Definition nq (n : nat) : Q := inject_Z (Z.of_nat n).

(** ** Proofs *)

Lemma total_cons w r a : total w (r :: a) = (w r + total w a)%Q.
Proof. reflexivity. Qed.
Lemma total_app w a b : (total w (a ++ b)%list == total w a + total w b)%Q.
Proof. induction a as [|r a IH]; cbn [app]; [change (total w []) with 0%Q; lra|]. rewrite !total_cons. lra. Qed.
Lemma total_perm w a b : Permutation a b -> (total w a == total w b)%Q.
Proof. induction 1; rewrite ?total_cons; lra. Qed.
Lemma nq_plus a b : (nq (a + b) == nq a + nq b)%Q.
Proof. unfold nq. rewrite Nat2Z.inj_add, inject_Z_plus. reflexivity. Qed.
Lemma nq_mult a b : (nq (a * b) == nq a * nq b)%Q.
Proof. unfold nq. rewrite Nat2Z.inj_mul, inject_Z_mult. reflexivity. Qed.
Lemma nq_le a b : a <= b -> (nq a <= nq b)%Q.
Proof. intros H. unfold nq. rewrite <- Zle_Qle. lia. Qed.
Lemma nq_nonneg a : (0 <= nq a)%Q.
Proof. apply (nq_le 0 a). lia. Qed.
Lemma abs_le x B : (Qabs x <= B)%Q <-> (- B <= x /\ x <= B)%Q.
Proof. apply Qabs_Qle_condition. Qed.
Lemma total_small w B a : (forall r, Qabs (w r) <= B)%Q -> (Qabs (total w a) <= B * nq (length a))%Q.
Proof.
  intros H. apply abs_le. induction a as [|r a IH]; cbn [length]; [change (total w []) with 0%Q; change (nq 0) with 0%Q; lra|]. rewrite total_cons.
  pose proof (proj1 (abs_le _ _) (H r)). pose proof (nq_plus 1 (length a)) as E. change (nq 1) with 1%Q in E. cbn [Nat.add] in E. nra.
Qed.
Lemma total_distance w B a b : (forall r, Qabs (w r) <= B)%Q -> (Qabs (total w a - total w b) <= B * nq (row_distance a b))%Q.
Proof.
  intros H. destruct (distance_parts a b) as (c & a1 & b1 & PA & PB & ->). rewrite (total_perm w _ _ PA), (total_perm w _ _ PB), !total_app, nq_plus.
  pose proof (proj1 (abs_le _ _) (total_small w B a1 H)). pose proof (proj1 (abs_le _ _) (total_small w B b1 H)). apply abs_le. lra.
Qed.
Lemma sum_over_le {A} (f : A -> Q) (d : A -> nat) B l : (forall x, f x <= B * nq (d x))%Q -> (sum_over f l <= B * nq (list_sum (map d l)))%Q.
Proof.
  intros H. induction l as [|x l IH]; [change (sum_over f []) with 0%Q; change (nq (list_sum (map d []))) with 0%Q; lra|].
  change (sum_over f (x :: l)) with (f x + sum_over f l)%Q. change (list_sum (map d (x :: l))) with (d x + list_sum (map d l)). rewrite nq_plus. specialize (H x). lra.
Qed.
Lemma sum_over_nonneg {A} (f : A -> Q) l : (forall x, 0 <= f x)%Q -> (0 <= sum_over f l)%Q.
Proof. intros H. induction l as [|x l IH]; [change (sum_over f []) with 0%Q; lra|]. change (sum_over f (x :: l)) with (f x + sum_over f l)%Q. specialize (H x). lra. Qed.

Lemma clamped_small lo hi c r : (Qabs (clamped lo hi c r) <= larger_bound lo hi)%Q.
Proof.
  assert (L : (Qabs lo <= larger_bound lo hi)%Q) by apply Q.le_max_l. assert (R : (Qabs hi <= larger_bound lo hi)%Q) by apply Q.le_max_r.
  assert (P : (0 <= larger_bound lo hi)%Q) by (eapply Qle_trans; [apply Qabs_nonneg|exact L]).
  assert (C : forall x, (Qabs (Qmin hi (Qmax lo x)) <= larger_bound lo hi)%Q).
  { intros x. apply abs_le in L. apply abs_le in R. apply abs_le. split.
    - apply Q.min_glb; [lra|]. apply Qle_trans with lo; [lra|apply Q.le_max_l].
    - apply Qle_trans with hi; [apply Q.le_min_l|lra]. }
  unfold clamped. destruct (getv c r) as [| |[]| | |]; auto.
Qed.
Lemma at_most_small x c r : (Qabs (at_most x c r) <= 1)%Q.
Proof. unfold at_most. destruct (getv c r) as [|z|[q| | |]| | |]; try (destruct (Qle_bool _ _)); apply abs_le; lra. Qed.

(** ** Groups *)
Lemma apart_rows so mu n gr cs t t' keys : apart_at_most so mu n gr cs t t' -> distinct_keys gr keys ->
  let d key := row_distance (group gr key (v_rows t)) (group gr key (v_rows t')) in
  exists tr, choose_trunc so mu gr cs = Some tr
    /\ list_sum (map (fun key => d key * d key) keys) <= n * n * stability_squared mu gr tr
    /\ (mu <> RhoZCDP -> list_sum (map d keys) * list_sum (map d keys) <= n * n * stability_squared mu gr tr).
Proof.
  intros (tr & place & a & a' & f & CT & D & PL & A & A' & F) DK d. exists tr. split; [exact CT|].
  assert (CH : forall key, d key <= row_distance (group gr key a) (group gr key a')).
  { intros key. unfold d. rewrite A, A', !group_map by exact F. apply distance_map. }
  assert (S1 : list_sum (map d keys) <= row_distance a a').
  { etransitivity; [|apply (group_distances gr keys a a' DK)]. apply list_sum_le. intros key _. apply CH. }
  assert (S2 : forall c, In c gr -> list_sum (map (fun key => d key * d key) keys) <= grouped_distance_squared c a a').
  { intros c I. etransitivity; [|apply (group_squares c gr keys a a' DK I)]. apply list_sum_le. intros key _. specialize (CH key). nia. }
  pose proof (squares_of_sum d keys) as SQ. split.
  - subst place. destruct tr as [m|c m1 m2]; cbn [distance_squared] in D; [nia|]. destruct mu; cbn [distance_squared] in D; try nia.
    destruct (smem c gr) eqn:SM; cbn [distance_squared] in D; [|nia]. etransitivity; [apply (S2 c); apply smem_In, SM|exact D].
  - intros NZ. subst place. destruct tr as [m|c m1 m2]; cbn [distance_squared] in D; [nia|]. destruct mu; cbn [distance_squared] in D; try nia. contradiction.
Qed.
Section Totals.
Variables g g' : plan.
Hypothesis KEYS : g_keys g' = g_keys g.
Notation gr := (keys_columns (g_keys g)).
Notation d key := (row_distance (group gr key (v_rows (g_table g))) (group gr key (v_rows (g_table g')))).
Variables (w : rec -> Q) (B : Q).
Hypothesis SMALL : forall r, (Qabs (w r) <= B)%Q.

Lemma bound_nonneg : (0 <= B)%Q.
Proof. eapply Qle_trans; [apply (Qabs_nonneg (w []))|apply SMALL]. Qed.
Lemma total_change_rows key : (total_change w g g' key <= B * nq (d key))%Q.
Proof. unfold total_change, group_total. rewrite KEYS. apply total_distance, SMALL. Qed.
Lemma total_change_nonneg key : (0 <= total_change w g g' key)%Q.
Proof. apply Qabs_nonneg. Qed.
Lemma total_change_none key : v_rows (g_table g) = v_rows (g_table g') -> (total_change w g g' key == 0)%Q.
Proof. intros E. unfold total_change, group_total. rewrite KEYS, E. apply (Qeq_trans _ (Qabs 0)); [apply Qabs_wd; lra|reflexivity]. Qed.
Lemma totals_squares keys s : list_sum (map (fun key => d key * d key) keys) <= s ->
  (sum_over (fun key => total_change w g g' key * total_change w g g' key) keys <= B * B * nq s)%Q.
Proof.
  intros H. eapply Qle_trans; [apply (sum_over_le _ (fun key => d key * d key) (B * B)%Q)|].
  - intros key. rewrite nq_mult. pose proof (total_change_rows key). pose proof (total_change_nonneg key). pose proof bound_nonneg. pose proof (nq_nonneg (d key)).
    assert (0 <= B * nq (d key))%Q by nra. nra.
  - apply nq_le in H. pose proof bound_nonneg. nra.
Qed.
Lemma totals_sum keys : (sum_over (total_change w g g') keys <= B * nq (list_sum (map (fun key => d key) keys)))%Q.
Proof. apply (sum_over_le _ (fun key => d key)). exact total_change_rows. Qed.
Lemma totals_sum_squared keys s : list_sum (map (fun key => d key) keys) * list_sum (map (fun key => d key) keys) <= s ->
  (sum_over (total_change w g g') keys * sum_over (total_change w g g') keys <= B * B * nq s)%Q.
Proof.
  intros H. pose proof (totals_sum keys) as S1. pose proof (sum_over_nonneg (total_change w g g') keys total_change_nonneg) as S0. apply nq_le in H. rewrite nq_mult in H.
  pose proof bound_nonneg. pose proof (nq_nonneg (list_sum (map (fun key => d key) keys))). set (D := nq (list_sum (map (fun key => d key) keys))) in *. set (T := sum_over (total_change w g g') keys) in *.
  assert (0 <= B * D)%Q by nra. apply Qle_trans with ((B * D) * (B * D))%Q; [nra|]. assert (B * B * (D * D) <= B * B * nq s)%Q by nra. lra.
Qed.
End Totals.
