(** More on C01, C03 and C04: which numbers a budget cannot be scaled by, what [inf()]
    returns, and what is left after a subtraction. *)
From Coq Require Import String Bool ZArith QArith Qabs Lqa Lia List.
From Verif Require Import Prelude Budget BudgetProofs BudgetScale.
Import ListNotations.
Local Open Scope Q_scope.

(** ** C01 *)

(** "[o] is negative, infinite or not a number". *)
Definition no_factor (o : pynum) : Prop :=
  match pynum_x o with
  | Some (XFin q) => q < 0
  | _ => True
  end.

Lemma xltb_fin x y : xltb (XFin x) (XFin y) = true <-> x < y.
Proof.
  unfold xltb. cbn [xleb]. rewrite negb_true_iff. split; intros H.
  - apply Qnot_le_lt. intros L. apply Qle_bool_iff in L. congruence.
  - destruct (Qle_bool y x) eqn:E; [|reflexivity]. apply Qle_bool_iff in E. lra.
Qed.

(** Scaling a budget by such a number raises ValueError, whatever the budget. *)
Theorem C01_refused_factors :
  forall (R : rounding) (b : budget) (o : pynum),
    no_factor o -> bmul R b o = Err ValueError /\ bdiv R b o = Err ValueError.
Proof.
  intros R b o H.
  assert (A : check_factor R o = Err ValueError /\ check_divisor R o = Err ValueError).
  { unfold no_factor in H. unfold check_factor, check_divisor, plt, ple.
    change (pynum_x (PInt 0)) with (Some (XFin 0)).
    destruct o as [z|[[q| |]|]]; cbn [pynum_x] in *.
    - rewrite (proj2 (xltb_fin _ _)) by exact H. split; [reflexivity|].
      cbn [xleb]. assert (Qle_bool (z2q z) 0 = true) as -> by (apply Qle_bool_iff; lra).
      reflexivity.
    - rewrite (proj2 (xltb_fin _ _)) by exact H. split; [reflexivity|].
      cbn [xleb]. assert (Qle_bool q 0 = true) as -> by (apply Qle_bool_iff; lra).
      reflexivity.
    - split; reflexivity.
    - split; reflexivity.
    - split; reflexivity. }
  unfold bmul, bdiv. destruct A as [-> ->]. split; reflexivity.
Qed.
Print Assumptions C01_refused_factors.

(** So does dividing by zero. *)
Theorem C01_refused_divisor :
  forall (R : rounding) (b : budget) (o : pynum) (q : Q),
    pynum_x o = Some (XFin q) -> q == 0 -> bdiv R b o = Err ValueError.
Proof.
  intros R b o q E Z. unfold bdiv, check_divisor, ple. rewrite E.
  change (pynum_x (PInt 0)) with (Some (XFin 0)). cbn [xleb].
  assert (Qle_bool q 0 = true) as -> by (apply Qle_bool_iff; lra).
  reflexivity.
Qed.
Print Assumptions C01_refused_divisor.

Example C01_refused_case :
  no_factor (PFlt (FX XPInf)) /\ no_factor (PFlt FNaN) /\ no_factor (PInt (-1))
  /\ bmul exact_rounding (Pure (XFin 1)) (PFlt (FX XPInf)) = Err ValueError.
Proof. repeat split; reflexivity. Qed.

(** ** C03 *)

(** [inf()] of each class is an infinite budget of that class; delta is zero. *)
Theorem C03_inf_is_infinite :
  forall (R : rounding),
    pure_inf R = Ok (Pure XPInf)
    /\ (exists d, approx_inf R = Ok (Approx XPInf (XFin d)) /\ d == 0)
    /\ zcdp_inf R = Ok (Zcdp XPInf)
    /\ (forall b, pure_inf R = Ok b \/ approx_inf R = Ok b \/ zcdp_inf R = Ok b ->
          infinite b /\ valid b).
Proof.
  intros R.
  assert (D : approx_inf R = Ok (Approx XPInf (XFin 0))).
  { unfold approx_inf, mk_approx. cbn [arg_isnan bind raise_if arg_lt_int].
    unfold isnan. cbn [to_float]. unfold int_to_float.
    pose proof (rnd_zero R) as Z. unfold z2q. change (inject_Z 0) with (0 : Q).
    destruct (rnd R 0) as [z| |]; cbn [xeq] in Z; try contradiction. reflexivity. }
  split; [reflexivity|]. split; [exists 0; split; [exact D|reflexivity]|].
  split; [reflexivity|]. rewrite D.
  intros b [H|[H|H]]; injection H as <-; cbn; repeat split; auto; lra.
Qed.
Print Assumptions C03_inf_is_infinite.

(** ** C04 *)

(** What is left of [x] when [y] is taken from it: nothing if [y] is as large as [x]
    (or larger, within the tolerance). *)
Definition left_of (x y : Q) : Q := if Qlt_le_dec y x then x - y else 0.

(** The remaining parameters.  A PureDPBudget taken from an ApproxDPBudget takes no delta. *)
Definition left_spec (a b : budget) : list Q :=
  match comps a, comps b with
  | [x], [y] => [left_of x y]
  | [x; d], [y; d'] => [left_of x y; left_of d d']
  | [x; d], [y] => [left_of x y; d]
  | _, _ => []
  end.

(** Which pairs of classes can be subtracted. *)
Definition subtractable (a b : budget) : Prop :=
  match a, b with
  | Pure _, Pure _ | Zcdp _, Zcdp _ | Approx _ _, Approx _ _ | Approx _ _, Pure _ => True
  | _, _ => False
  end.
(** "[a] covers [b]", in every parameter, within the tolerance. *)
Definition covers (a b : budget) : Prop :=
  match a, b with
  | Approx x _, Pure y => within_tolerance y x
  | _, _ => takeable b a
  end.

Lemma left_of_proper x y y' : y == y' -> left_of x y == left_of x y'.
Proof. intros E. unfold left_of. destruct (Qlt_le_dec y x), (Qlt_le_dec y' x); lra. Qed.

Lemma left_of_nonneg x y : 0 <= left_of x y.
Proof. unfold left_of. destruct (Qlt_le_dec y x); lra. Qed.

Lemma sub_component_exact x y : within_tolerance (XFin y) (XFin x) ->
  exists n v, sub_component exact_rounding (XFin x) (XFin y) = Ok n
    /\ pynum_x n = Some (XFin v) /\ v == left_of x y.
Proof.
  intros W. unfold sub_component.
  destruct (tiof_exact x) as (vx & Ex & Vx).
  assert (exists z, adjusted_number (XFin y) (XFin x) = XFin z /\ x - z == left_of x y) as (z & -> & Hz).
  { destruct (adjusted_number_to (XFin y) (XFin x)) as [[S ->]|[N ->]].
    - exists x. split; [reflexivity|]. destruct S as (r & q & E1 & E2 & L & _).
      injection E1 as <-. injection E2 as <-. unfold left_of. destruct (Qlt_le_dec y x); lra.
    - exists y. split; [reflexivity|]. unfold left_of. destruct (Qlt_le_dec y x); [lra|].
      destruct W as [W|W]; [lra|].
      destruct (Qlt_le_dec x y) as [L|L]; [|lra].
      exfalso. apply N. exists x, y. auto. }
  destruct (tiof_exact z) as (vz & Ez & Vz).
  destruct (psub_exact _ _ _ _ Ex Ez) as (c & v & E & Ev & Hv).
  exists c, v. split; [exact E|]. split; [exact Ev|]. lra.
Qed.

Lemma left_of_le x y : 0 <= x -> 0 <= y -> left_of x y <= x.
Proof. intros A B. unfold left_of. destruct (Qlt_le_dec y x); lra. Qed.

(** With exact arithmetic, a finite budget that covers another one keeps exactly the rest. *)
Theorem C04_subtraction_value :
  forall (a b : budget),
    valid a -> valid b -> fin_budget a -> fin_vals b -> subtractable a b -> covers a b ->
    exists c, bsub exact_rounding a b = Ok c /\ budget_val c (left_spec a b).
Proof.
  intros a b Va Vb Fa Fb K C.
  destruct a as [x|e d|x]; destruct b as [y|e' d'|y]; cbn [subtractable] in K; try contradiction;
    cbn [fin_budget fin_vals] in *.
  - destruct x as [x| |], y as [y| |]; try contradiction.
    rewrite bsub_pure_unfold by assumption. cbn [covers takeable] in C.
    destruct (sub_component_exact x y C) as (n & v & -> & Ev & Hv). cbn [bind].
    destruct (mk_pure_exact n v Ev) as (w & -> & Hw). { pose proof (left_of_nonneg x y). lra. }
    exists (Pure (XFin w)). split; [reflexivity|]. cbn [budget_val left_spec comps]. lra.
  - (* Approx - Pure *)
    destruct e as [e| |], d as [d| |], y as [y| |]; try contradiction.
    cbn [valid] in Va, Vb. cbn [covers] in C.
    destruct (tiof_exact y) as (vy & Ey & Vy).
    cbn [bsub].
    destruct (mk_approx_exact (to_int_or_float exact_rounding (XFin y)) vy (PInt 0) 0 Ey)
      as (w & z & Ew & Hw & Hz).
    { cbn in Vb. lra. } { reflexivity. } { lra. } { lra. }
    rewrite Ew. cbn [bind].
    assert (Vb' : valid (Approx (XFin w) (XFin z))). { cbn in *. repeat split; lra. }
    assert (NI : ~ infinite (Approx (XFin e) (XFin d))). { cbn. intros [H|H]; [discriminate|tauto]. }
    pose proof (bsub_approx_unfold exact_rounding (XFin e) (XFin d) (XFin w) (XFin z) Va Vb' NI) as U.
    cbn [bsub] in U. rewrite U.
    destruct (sub_component_exact e w) as (n & v & -> & Ev & Hv).
    { cbn in C |- *. destruct C; [left|right]; lra. }
    destruct (sub_component_exact d z) as (m & u & -> & Eu & Hu).
    { cbn in Va |- *. left. destruct Va as (_ & Va & _). lra. }
    cbn [bind].
    assert (U1 : u == d).
    { rewrite Hu. unfold left_of. cbn in Va. destruct Va as (_ & Va & _). destruct (Qlt_le_dec z d); lra. }
    cbn in Va. destruct Va as (Va1 & Va2 & Va3).
    destruct (mk_approx_exact n v m u Ev) as (a1 & a2 & -> & H1 & H2); try exact Eu; try lra.
    { pose proof (left_of_nonneg e w). lra. }
    exists (Approx (XFin a1) (XFin a2)). split; [reflexivity|].
    cbn [budget_val left_spec comps]. split; [|lra].
    rewrite H1, Hv. apply left_of_proper. lra.
  - destruct e as [e| |], d as [d| |], e' as [e'| |], d' as [d'| |]; try contradiction.
    assert (NI : ~ infinite (Approx (XFin e) (XFin d))). { cbn. intros [H|H]; [discriminate|tauto]. }
    rewrite bsub_approx_unfold by assumption. cbn [covers takeable] in C. destruct C as [C1 C2].
    destruct (sub_component_exact e e' C1) as (n & v & -> & Ev & Hv).
    destruct (sub_component_exact d d' C2) as (m & u & -> & Eu & Hu). cbn [bind].
    cbn in Va, Vb. destruct Va as (Va1 & Va2 & Va3), Vb as (Vb1 & Vb2 & Vb3).
    destruct (mk_approx_exact n v m u Ev) as (a1 & a2 & -> & H1 & H2); try exact Eu.
    { pose proof (left_of_nonneg e e'). lra. } { pose proof (left_of_nonneg d d'). lra. }
    { pose proof (left_of_le d d' Va2 Vb2). lra. }
    exists (Approx (XFin a1) (XFin a2)). split; [reflexivity|].
    cbn [budget_val left_spec comps]. split; lra.
  - destruct x as [x| |], y as [y| |]; try contradiction.
    rewrite bsub_zcdp_unfold by assumption. cbn [covers takeable] in C.
    destruct (sub_component_exact x y C) as (n & v & -> & Ev & Hv). cbn [bind].
    destruct (mk_zcdp_exact n v Ev) as (w & -> & Hw). { pose proof (left_of_nonneg x y). lra. }
    exists (Zcdp (XFin w)). split; [reflexivity|]. cbn [budget_val left_spec comps]. lra.
Qed.
Print Assumptions C04_subtraction_value.

(** Budgets of other pairs of classes cannot be subtracted. *)
Theorem C04_subtraction_incompatible :
  forall (R : rounding) (a b : budget), ~ subtractable a b -> bsub R a b = Err TypeError.
Proof. intros R a b H. destruct a, b; cbn in *; tauto. Qed.
Print Assumptions C04_subtraction_incompatible.

Example C04_value_case :
  let a := Approx (XFin 3) (XFin (1 # 2)) in let b := Pure (XFin 1) in
  valid a /\ valid b /\ fin_budget a /\ fin_vals b /\ subtractable a b /\ covers a b
  /\ (exists c, bsub exact_rounding a b = Ok c /\ budget_val c [2; 1 # 2]).
Proof.
  cbn zeta. repeat split; cbn; try lra; try (intros H; lra); auto.
  eexists. split; [vm_compute; reflexivity|]. cbn. split; lra.
Qed.
