(** Properties C01-C04: privacy budgets.  Statements use the specification
    vocabulary of BudgetProofs.v ([valid], [ble], [infinite], [within_tolerance],
    [adjusted_componentwise], [takeable]) and of BudgetScale.v ([sum_spec], ...). *)
From Coq Require Import String Bool ZArith QArith Qabs Lqa Lia List.
From Verif Require Import Prelude Budget BudgetProofs BudgetScale.
Import ListNotations.
Local Open Scope Q_scope.

(** ** C01 *)

(** Whatever arithmetic a user does, a returned budget is one the constructor accepts. *)
Theorem C01_budget_arithmetic_valid :
  forall (R : rounding) (a b c : budget) (o : pynum),
    valid a -> valid b ->
    badd R a b = Ok c \/ bsub R a b = Ok c \/ bmul R a o = Ok c \/ bdiv R a o = Ok c ->
    valid c.
Proof.
  intros R a b c o Va Vb [H|[H|[H|H]]].
  - exact (badd_valid R a b c Va Vb H).
  - exact (bsub_valid R a b c Va H).
  - exact (bmul_valid R a o c H).
  - exact (bdiv_valid R a o c H).
Qed.
Print Assumptions C01_budget_arithmetic_valid.

(** Constructors never produce an invalid budget either. *)
Theorem C01_constructors_valid :
  forall (R : rounding) (e d : barg) (b : budget),
    mk_pure R e = Ok b \/ mk_approx R e d = Ok b \/ mk_zcdp R e = Ok b -> valid b.
Proof.
  intros R e d b [H|[H|H]].
  - exact (mk_pure_valid R e b H).
  - exact (mk_approx_valid R e d b H).
  - exact (mk_zcdp_valid R e b H).
Qed.
Print Assumptions C01_constructors_valid.

(** Adding budgets of compatible privacy definitions can fail only by float overflow. *)
Theorem C01_addition_total :
  forall (R : rounding) (a b : budget), valid a -> valid b -> compatible a b ->
    (exists c, badd R a b = Ok c) \/ badd R a b = Err OverflowError.
Proof. exact badd_total. Qed.
Print Assumptions C01_addition_total.

(** zCDP budgets do not mix with the others. *)
Theorem C01_addition_incompatible :
  forall (R : rounding) (a b : budget), ~ compatible a b -> badd R a b = Err TypeError.
Proof. exact badd_incompatible. Qed.
Print Assumptions C01_addition_incompatible.

(** Scaling by a positive finite number can fail only by float overflow;
    the same holds for division, for approximate DP if the divisor is at least 1. *)
Theorem C01_scaling_total :
  forall (R : rounding) (b : budget) (o : pynum) (q : Q),
    valid b -> pynum_x o = Some (XFin q) -> 0 < q ->
    ((exists c, bmul R b o = Ok c) \/ bmul R b o = Err OverflowError)
    /\ ((match b with Approx _ _ => 1 <= q | _ => True end) ->
        (exists c, bdiv R b o = Ok c) \/ bdiv R b o = Err OverflowError).
Proof.
  intros R b o q V E Hq. split.
  - exact (bmul_total R b o q V E Hq).
  - exact (bdiv_total R b o q V E Hq).
Qed.
Print Assumptions C01_scaling_total.

(** When no rounding happens, the operations are the mathematical ones, with delta
    capped at one by + and by *. *)
Theorem C01_addition_value :
  forall a b, valid a -> valid b -> fin_budget a -> fin_budget b -> compatible a b ->
    exists c, badd exact_rounding a b = Ok c /\ budget_val c (sum_spec a b).
Proof. exact badd_exact. Qed.
Print Assumptions C01_addition_value.

Theorem C01_multiplication_value :
  forall b o q, valid b -> fin_vals b -> pynum_x o = Some (XFin q) -> 0 <= q ->
    exists c, bmul exact_rounding b o = Ok c /\ budget_val c (scale_spec b q).
Proof. exact bmul_exact. Qed.
Print Assumptions C01_multiplication_value.

Theorem C01_division_value :
  forall b o q, valid b -> fin_vals b -> pynum_x o = Some (XFin q) -> 0 < q ->
    (match comps b with [_; d] => d <= q | _ => True end) ->
    exists c, bdiv exact_rounding b o = Ok c /\ budget_val c (div_spec b q).
Proof. exact bdiv_exact. Qed.
Print Assumptions C01_division_value.

(** Not everything users may expect holds: 0 is an allowed factor, but an infinite
    budget cannot be multiplied by it (infinity times zero is NaN). *)
Theorem C01_zero_times_infinite_refuted :
  exists b o, valid b /\ pynum_x o = Some (XFin 0) /\
    check_factor exact_rounding o = Ok tt /\ bmul exact_rounding b o = Err ValueError.
Proof. exists (Pure XPInf), (PInt 0). vm_compute. repeat split; intros; discriminate. Qed.
Print Assumptions C01_zero_times_infinite_refuted.

(** ... and unlike *, / does not cap delta: multiplying by 10 works, dividing by 1/10 raises. *)
Theorem C01_division_caps_delta_refuted :
  exists b o o' c, valid b /\ pynum_x o = Some (XFin 10) /\ pynum_x o' = Some (XFin (1 # 10)) /\
    bmul exact_rounding b o = Ok c /\ bdiv exact_rounding b o' = Err ValueError.
Proof.
  exists (Approx (XFin 1) (XFin (1 # 2))), (PInt 10), (PFlt (FX (XFin (1 # 10)))),
         (Approx (XFin 10) (XFin 1)).
  vm_compute. repeat split; intros; discriminate.
Qed.
Print Assumptions C01_division_caps_delta_refuted.

Example C01_example :
  let a := Approx (XFin (1 # 2)) (XFin (3 # 4)) in
  let b := Pure (XFin 2) in
  valid a /\ valid b /\ compatible a b /\ fin_budget a /\ fin_budget b /\
  badd exact_rounding a b = Ok (Approx (XFin (5 # 2)) (XFin (3 # 4))) /\
  badd exact_rounding a a = Ok (Approx (XFin (4 # 4)) (XFin 1)) /\
  bmul exact_rounding a (PInt 3) = Ok (Approx (XFin (3 # 2)) (XFin 1)) /\
  bdiv exact_rounding a (PInt 3) = Ok (Approx (XFin (1 # 6)) (XFin (3 # 12))).
Proof. vm_compute. repeat split; intros; discriminate. Qed.

(** ** C02 *)

(** Every component of the charge is the request, or what remains if (and only if) the
    request exceeds what remains by at most one part in 10^9. *)
Theorem C02_adjustment_spec :
  forall (R : rounding) (requested remaining : budget),
    valid requested -> valid remaining -> same_kind requested remaining ->
    exists charged, adjusted_budget R requested remaining = Ok charged /\
      adjusted_componentwise requested remaining charged /\ ble charged requested.
Proof.
  intros R a b Va Vb K. destruct (adjusted_budget_total R a b Va Vb K) as (c & E).
  exists c. pose proof (adjusted_budget_ok R a b c E) as A.
  split; [exact E|split; [exact A|]]. exact (adjusted_componentwise_le a b c A).
Qed.
Print Assumptions C02_adjustment_spec.

Theorem C02_adjustment_refuses_other_definitions :
  forall (R : rounding) (requested remaining : budget),
    ~ same_kind requested remaining -> adjusted_budget R requested remaining = Err ValueError.
Proof. intros R a b. destruct a, b; simpl; tauto. Qed.
Print Assumptions C02_adjustment_refuses_other_definitions.

Example C02_example :
  let rem := Approx (XFin 1) (XFin (1 # 1000)) in
  adjusted_budget exact_rounding (Approx (XFin (1000000001 # 1000000000)) (XFin (1 # 1000))) rem
    = Ok rem /\
  adjusted_budget exact_rounding (Approx (XFin (1000000002 # 1000000000)) (XFin (1 # 1000))) rem
    = Ok (Approx (XFin (1000000002 # 1000000000)) (XFin (1 # 1000))) /\
  slightly_over (XFin (1000000001 # 1000000000)) (XFin 1).
Proof.
  split; [vm_compute; reflexivity|split; [vm_compute; reflexivity|]].
  exists 1, (1000000001 # 1000000000). repeat split; vm_compute; intros; discriminate.
Qed.

(** ** C03 *)

Theorem C03_infinite_absorbs_addition :
  forall (R : rounding) (a b c : budget),
    badd R a b = Ok c -> infinite a \/ infinite b -> infinite c.
Proof. exact badd_inf. Qed.
Print Assumptions C03_infinite_absorbs_addition.

Theorem C03_infinite_absorbs_subtraction :
  forall (R : rounding) (a b : budget),
    infinite a -> same_kind a b -> bsub R a b = Ok a.
Proof. exact bsub_inf. Qed.
Print Assumptions C03_infinite_absorbs_subtraction.

Theorem C03_equality_is_equivalence :
  (forall a, budget_eqb a a = true) /\
  (forall a b, budget_eqb a b = true -> budget_eqb b a = true) /\
  (forall a b c, budget_eqb a b = true -> budget_eqb b c = true -> budget_eqb a c = true).
Proof.
  split; [|split].
  - intros a. apply budget_eqb_iff, budget_eq_refl.
  - intros a b H. apply budget_eqb_iff, budget_eq_sym, budget_eqb_iff, H.
  - intros a b c H K. apply budget_eqb_iff. apply budget_eqb_iff in H, K.
    exact (budget_eq_trans a b c H K).
Qed.
Print Assumptions C03_equality_is_equivalence.

Theorem C03_all_infinite_approx_equal :
  forall e d e' d', infinite (Approx e d) -> infinite (Approx e' d') ->
    budget_eqb (Approx e d) (Approx e' d') = true.
Proof. intros. apply budget_eqb_iff. simpl. tauto. Qed.
Print Assumptions C03_all_infinite_approx_equal.

(** Finite budgets are equal exactly when their numbers are. *)
Theorem C03_equality_meaning :
  forall a b, budget_eqb a b = true <->
    match a, b with
    | Pure x, Pure y | Zcdp x, Zcdp y => xeq x y
    | Approx e d, Approx e' d' => (infinite a /\ infinite b) \/ (xeq e e' /\ xeq d d')
    | _, _ => False
    end.
Proof. exact budget_eqb_iff. Qed.
Print Assumptions C03_equality_meaning.

Theorem C03_equal_budgets_hash_equal :
  forall (R : rounding) (a b : budget),
    budget_eqb a b = true -> hkey_same (hash_key R a) (hash_key R b).
Proof. intros R a b H. apply hash_consistent, budget_eqb_iff, H. Qed.
Print Assumptions C03_equal_budgets_hash_equal.

(** Equality is not a congruence: two equal (infinite) budgets can have unequal halves,
    because halving (1, delta = 1) gives a finite budget. *)
Theorem C03_equal_budgets_stay_equal_refuted :
  exists a b o a' b', valid a /\ valid b /\ budget_eqb a b = true /\
    bdiv exact_rounding a o = Ok a' /\ bdiv exact_rounding b o = Ok b' /\
    budget_eqb a' b' = false /\ infinite a /\ ~ infinite a'.
Proof.
  exists (Approx (XFin 1) (XFin 1)), (Approx XPInf (XFin 0)), (PInt 2),
    (Approx (XFin (1 # 2)) (XFin (1 # 2))), (Approx XPInf (XFin (0 # 2))).
  vm_compute. repeat split; try (intros; discriminate); auto.
  intros H; destruct H; discriminate.
Qed.
Print Assumptions C03_equal_budgets_stay_equal_refuted.

Example C03_example :
  infinite (Approx (XFin 3) (XFin (2 # 2))) /\
  badd exact_rounding (Approx (XFin 3) (XFin (2 # 2))) (Pure (XFin 7)) = Ok (Approx (XFin 3) (XFin (2 # 2))) /\
  budget_eqb (Approx (XFin 3) (XFin (2 # 2))) (Approx XPInf (XFin (1 # 5))) = true.
Proof. vm_compute. auto. Qed.

(** ** C04 *)

(** a - b succeeds exactly when b fits into a up to the tolerance, and then 0 <= a - b <= a. *)
Theorem C04_subtraction_spec :
  forall (R : rounding) (a b : budget),
    valid a -> valid b -> same_kind a b -> ~ infinite a ->
    plain_budget R a -> plain_budget R b ->
    ((exists c, bsub R a b = Ok c) <-> takeable b a)
    /\ (forall c, bsub R a b = Ok c -> valid c /\ ble c a).
Proof. exact bsub_spec. Qed.
Print Assumptions C04_subtraction_spec.

Example C04_example :
  let a := Approx (XFin 2) (XFin (1 # 2)) in
  let b := Approx (XFin 1) (XFin (1 # 4)) in
  valid a /\ valid b /\ ~ infinite a /\ plain_budget exact_rounding a /\ plain_budget exact_rounding b
  /\ takeable b a /\ bsub exact_rounding a b = Ok (Approx (XFin 1) (XFin (2 # 8)))
  /\ bsub exact_rounding b a = Err ValueError.
Proof.
  repeat split; try (vm_compute; intros; discriminate); try (vm_compute; reflexivity).
  - intros [H|H]; vm_compute in H; discriminate.
  - right. eexists; split; [reflexivity|]. reflexivity.
  - right. eexists; split; [reflexivity|]. reflexivity.
  - right. eexists; split; [reflexivity|]. reflexivity.
  - right. eexists; split; [reflexivity|]. reflexivity.
  - left. vm_compute. discriminate.
  - left. vm_compute. discriminate.
Qed.
